(** Property theorems C06-C12: base16 / base32 / base32hex / base64 / base64url
    (base-encoding-internal.c, base16.c, base32.c, base64.c). *)
From Coq Require Import String.
From Verif Require Import Base MBase SRfc4648 PUtils PBase.

(** The five encode/decode pairs of the public API (the two base64 encoders share one decoder). *)
Inductive api := B16 | B32 | B32hex | B64 | B64url.
Definition coding (a : api) : rfc_coding :=
  match a with B16 => Base16 | B32 => Base32 | B32hex => Base32hex | B64 => Base64 | B64url => Base64url end.
Definition encode (a : api) : stack -> list N -> list N -> outcome (nat * list N) :=
  match a with B16 => encode_base16 | B32 => encode_base32 | B32hex => encode_base32hex
             | B64 => encode_base64 | B64url => encode_base64_url end.
Definition decode (a : api) : list N -> list N -> outcome (nat * list N) :=
  match a with B16 => decode_base16 | B32 => decode_base32 | B32hex => decode_base32hex
             | B64 | B64url => decode_base64 end.

(** The stack memory around the regrouping step has at least one readable byte after each
    input unit and two writable bytes after each scratch array; contents arbitrary. *)
Definition slack (a : api) (st : stack) : Prop :=
  forall n, 1 <= length (after_unit st n) /\ quantum (coding a) + 2 <= length (scratch st n).

(** Characters a decoder accepts. *)
Definition accepted (a : api) : list N :=
  match a with
  | B16 => chars "0123456789ABCDEFabcdef"
  | B32 => chars "ABCDEFGHIJKLMNOPQRSTUVWXYZabcdefghijklmnopqrstuvwxyz234567="
  | B32hex => chars "0123456789ABCDEFGHIJKLMNOPQRSTUVabcdefghijklmnopqrstuv="
  | _ => chars "ABCDEFGHIJKLMNOPQRSTUVWXYZabcdefghijklmnopqrstuvwxyz0123456789+/-_="
  end.

(** number of bytes that the whole units decoded from a text of [n] characters can take *)
Definition unit_space (a : api) (n : nat) : nat :=
  octets (coding a) * ((n + quantum (coding a) - 1) / quantum (coding a)).

(** [x] with everything from the first zero byte of its final (possibly partial) unit on removed *)
Definition without_tail (a : api) (x : list N) : list N :=
  firstn (before_last (coding a) x) x ++ upto_nul (skipn (before_last (coding a) x) x).

Definition params (a : api) : base_params :=
  match a with B16 => base16_params | B32 | B32hex => base32_params | _ => base64_params end.
Definition alph (a : api) : list N :=
  match a with B16 => BASE16_ALPHABET | B32 => BASE32_ALPHABET | B32hex => BASE32_ALPHABET_EXTHEX
             | B64 => BASE64_ALPHABET | B64url => BASE64_ALPHABET_FS end.
Definition dfun (a : api) : N -> N :=
  match a with B16 => decode_base16_char | B32 => decode_base32_char | B32hex => decode_base32hex_char
             | _ => decode_base64_char end.
Lemma api_codec a : codec (params a) (alph a) (coding a) (dfun a).
Proof. destruct a; [exact codec16|exact codec32|exact codec32hex|exact codec64|exact codec64url]. Qed.
Lemma api_compat a : compat (params a) (alph a) (coding a).
Proof. exact (cd_compat _ _ _ _ (api_codec a)). Qed.
Lemma encode_eq a : encode a = encode_base_generic (params a) (alph a).
Proof. destruct a; reflexivity. Qed.
Lemma decode_eq a : decode a = decode_base_generic (params a) (dfun a).
Proof. destruct a; reflexivity. Qed.
Lemma octets_eq a : octets (coding a) = unit_size (params a).
Proof. destruct a; reflexivity. Qed.
Lemma quantum_eq a : quantum (coding a) = chunk_count (params a).
Proof. destruct a; reflexivity. Qed.
Lemma params_cases a : params a = base16_params \/ params a = base32_params \/ params a = base64_params.
Proof. destruct a; auto. Qed.
Lemma slack_ok a st : slack a st -> stack_ok (params a) st.
Proof. intros H n. specialize (H n). rewrite quantum_eq in H. exact H. Qed.

Ltac params_facts a :=
  assert (0 < chunk_count (params a)) by (destruct a; cbn; lia);
  assert (8 * unit_size (params a) <= 64) by (destruct a; cbn; lia);
  assert (chunk_count (params a) * bit_size (params a) = 8 * unit_size (params a)) by (destruct a; cbn; lia);
  assert (0 < bit_size (params a) <= 8) by (destruct a; cbn; lia);
  assert (0 < unit_size (params a)) by (destruct a; cbn; lia).

(** C06 (exact output): the encoder writes [lib_text], i.e. the RFC 4648 text in which, if the
    final unit is partial, trailing zero symbols of that unit are overwritten by '='. *)
Theorem C06_encode_text : forall a st x out,
  slack a st -> bytes_ok x -> length (lib_text (coding a) x) < length out ->
  encode a st x out = Ret (length (lib_text (coding a) x),
    lib_text (coding a) x ++ 0%N :: skipn (length (lib_text (coding a) x) + 1) out).
Proof.
  intros a st x out Hs Hb Hl. rewrite encode_eq. apply encode_spec; auto using slack_ok, api_compat.
Qed.
Print Assumptions C06_encode_text.

(** C06 (conformance): the text written is the RFC 4648 encoding exactly when the length is a
    multiple of the unit or the last data symbol of the RFC text is not the zero symbol. *)
Theorem C06_rfc4648_iff : forall a st x out n out',
  slack a st -> bytes_ok x -> length (rfc_encode (coding a) x) < length out ->
  encode a st x out = Ret (n, out') ->
  (firstn n out' = rfc_encode (coding a) x <->
   length x mod octets (coding a) = 0 \/ last (rfc_data (coding a) x) 0%N <> zero_symbol (coding a)).
Proof.
  intros a st x out n out' Hs Hb Hl He.
  assert (HL : length (rfc_encode (coding a) x) = length (lib_text (coding a) x)) by
    (symmetry; eapply text_length_eq; apply api_compat).
  rewrite HL in Hl. rewrite C06_encode_text in He by assumption. injection He as <- <-.
  rewrite firstn_app, firstn_all, Nat.sub_diag, app_nil_r, octets_eq.
  apply conform_iff with (A := alph a). apply api_compat.
Qed.
Print Assumptions C06_rfc4648_iff.

(** C06, violation: base64 of one zero byte is "====", not "AA==". *)
Theorem C06_zero_byte_refuted : forall st out, slack B64 st -> 5 <= length out ->
  (exists out', encode_base64 st [0%N] out = Ret (4, chars "====" ++ 0%N :: out')) /\
  rfc_encode Base64 [0%N] = chars "AA==".
Proof.
  intros st out Hs Ho. split; [|reflexivity]. exists (skipn 5 out).
  apply (C06_encode_text B64 st [0%N] out Hs); [repeat constructor|exact Ho].
Qed.
Print Assumptions C06_zero_byte_refuted.

Definition wide : stack := mkStack (fun _ => [171%N]) (fun _ => repeat 205%N 10).
Example C06_nonvacuous :
  slack B64 wide /\ slack B32 wide /\ slack B16 wide /\
  encode_base64 wide (chars "foob") (repeat 7%N 10) = Ret (8, chars "Zm9vYg==" ++ [0; 7]%N) /\
  encode_base32 wide (chars "fo") (repeat 7%N 10) = Ret (8, chars "MZXQ====" ++ [0; 7]%N) /\
  encode_base64 wide [1; 0]%N (repeat 7%N 5) = Ret (4, chars "AQ==" ++ [0]%N) /\
  rfc_encode Base64 [1; 0]%N = chars "AQA=".
Proof. repeat split; cbn; lia. Qed.

(** C07: return value, characters, terminator, and nothing else in the caller's buffer. *)
Theorem C07_encode_shape : forall a st x out,
  let k := quantum (coding a) * ((length x + octets (coding a) - 1) / octets (coding a)) in
  slack a st -> bytes_ok x -> k < length out ->
  exists t, encode a st x out = Ret (k, t ++ 0%N :: skipn (k + 1) out) /\ length t = k /\
    Forall (fun ch => In ch (symbols (coding a)) \/ ch = pad_symbol) t.
Proof.
  intros a st x out k Hs Hb Hl.
  assert (HL : length (lib_text (coding a) x) = k).
  { unfold k. rewrite octets_eq, quantum_eq. eapply lib_text_length. apply api_compat. }
  exists (lib_text (coding a) x). rewrite C06_encode_text by (auto; lia). rewrite HL.
  repeat split. eapply lib_text_alphabet. apply api_compat.
Qed.
Print Assumptions C07_encode_shape.

Example C07_nonvacuous :
  encode_base32hex wide (chars "foob!!") (repeat 7%N 20) = Ret (16, chars "CPNMUOH144======" ++ [0; 7; 7; 7]%N).
Proof. vm_compute. reflexivity. Qed.

(** C08: decoding the encoder's own text, or the RFC 4648 text, of x. *)
Theorem C08_decode_encode : forall a x t out,
  t = lib_text (coding a) x \/ t = rfc_encode (coding a) x ->
  x <> [] -> bytes_ok x ->
  octets (coding a) * ((length x + octets (coding a) - 1) / octets (coding a)) + 1 <= length out ->
  exists tl, decode a t out = Ret (length (without_tail a x), without_tail a x ++ 0%N :: tl).
Proof.
  intros a x t out Ht Hx Hb Ho. rewrite decode_eq.
  assert (E : without_tail a x = cut_last (unit_size (params a)) x).
  { unfold without_tail, cut_last, before_last. rewrite octets_eq. reflexivity. }
  rewrite E, octets_eq in *. eapply decode_text; eauto using api_codec.
  destruct Ht as [-> | ->]; [eapply dig_lib_text|eapply dig_rfc_text]; apply api_codec.
Qed.
Print Assumptions C08_decode_encode.

(** C08: encode followed by decode, through memory: the decoder is given the C string the
    encoder left in its output buffer. *)
Theorem C08_round_trip : forall a st x out n out' dst,
  slack a st -> x <> [] -> bytes_ok x -> encode a st x out = Ret (n, out') ->
  length (lib_text (coding a) x) < length out ->
  octets (coding a) * ((length x + octets (coding a) - 1) / octets (coding a)) + 1 <= length dst ->
  exists m dst', decode a (upto_nul out') dst = Ret (m, dst') /\
    (firstn m dst' = x <-> ~ In 0%N (skipn (before_last (coding a) x) x)).
Proof.
  intros a st x out n out' dst Hs Hx Hb He Hl Hd.
  rewrite C06_encode_text in He by assumption. injection He as <- <-.
  assert (NZ : ~ In 0%N (lib_text (coding a) x)).
  { pose proof (lib_text_alphabet _ _ _ (api_compat a) x) as F. rewrite Forall_forall in F.
    intros Hin. destruct (F _ Hin) as [H|H]; [|discriminate]. revert H. destruct a; vm_compute; intuition discriminate. }
  assert (EU : upto_nul (lib_text (coding a) x ++ 0%N :: skipn (length (lib_text (coding a) x) + 1) out) = lib_text (coding a) x).
  { apply upto_nul_cut. exact NZ. }
  rewrite EU. destruct (C08_decode_encode a x _ dst (or_introl eq_refl) Hx Hb Hd) as (tl & ->).
  do 2 eexists. split; [reflexivity|]. rewrite firstn_app, firstn_all, Nat.sub_diag, app_nil_r.
  unfold without_tail. set (k := before_last (coding a) x).
  transitivity (firstn k x ++ upto_nul (skipn k x) = firstn k x ++ skipn k x); [rewrite (firstn_skipn k x); reflexivity|].
  split.
  - intros E. apply app_inv_head in E. rewrite <- E. apply upto_nul_nozero.
  - intros H. rewrite upto_nul_id by assumption. reflexivity.
Qed.
Print Assumptions C08_round_trip.

(** C08, violation: 01 00 02 does not survive. *)
Theorem C08_zero_refuted : forall st out dst, slack B64 st -> 5 <= length out -> 4 <= length dst ->
  exists out' dst', encode_base64 st [1; 0; 2]%N out = Ret (4, chars "AQAC" ++ 0%N :: out') /\
    decode_base64 (chars "AQAC") dst = Ret (1, 1%N :: dst').
Proof.
  intros st out dst Hs Ho Hd. exists (skipn 5 out).
  destruct (C08_decode_encode B64 [1;0;2]%N (chars "AQAC") dst (or_introl eq_refl) ltac:(discriminate) ltac:(repeat constructor) Hd) as (tl & E).
  exists (0%N :: tl). split; [|exact E]. apply (C06_encode_text B64 st [1;0;2]%N out Hs); [repeat constructor|exact Ho].
Qed.
Print Assumptions C08_zero_refuted.

Example C08_nonvacuous :
  decode_base64 (chars "Zm9vYg==") (repeat 7%N 8) = Ret (4, chars "foob" ++ [0; 0; 7; 7]%N) /\
  decode_base32 (chars "MZXW6YTBOI======") (repeat 7%N 11) = Ret (6, chars "foobar" ++ [0; 0; 0; 0; 7]%N) /\
  without_tail B64 [1; 0; 2; 3; 0]%N = [1; 0; 2; 3]%N.
Proof. repeat split. Qed.

(** C09: a character outside the accepted set, inserted anywhere but at the very end of the
    text, changes nothing. *)
Lemma not_accepted_unknown a j : ~ In j (accepted a) -> dig (params a) (dfun a) j = None.
Proof.
  intros H. destruct (N.lt_ge_cases j 128) as [L|G].
  - assert (K : forallb (fun j => existsb (N.eqb j) (accepted a) || match dig (params a) (dfun a) j with None => true | _ => false end)
                 (map N.of_nat (seq 0 128)) = true) by (destruct a; vm_compute; reflexivity).
    pose proof (forallb_below _ 128 j K L) as P. cbn beta in P. apply orb_true_iff in P. destruct P as [P|P].
    + apply existsb_exists in P. destruct P as (y & Hy & E). apply N.eqb_eq in E. subst y. contradiction.
    + destruct (dig _ _ j); [discriminate|reflexivity].
  - unfold dig. assert (E : dfun a j = UNKNOWN_CODE).
    { destruct a; cbn [dfun]; unfold decode_base16_char, decode_base32_char, decode_base32hex_char, decode_base64_char, between;
      repeat match goal with
      | |- context[(?x <=? ?y)%N] => destruct (N.leb_spec x y); try lia
      | |- context[(?x =? ?y)%N] => destruct (N.eqb_spec x y); try lia
      end; reflexivity. }
    rewrite E. reflexivity.
Qed.

Theorem C09_junk_ignored : forall a pre j post out,
  ~ In j (accepted a) -> post <> [] ->
  unit_space a (length (pre ++ j :: post)) + 1 <= length out ->
  decode a (pre ++ j :: post) out = decode a (pre ++ post) out.
Proof.
  intros a pre j post out Hj Hp Ho. rewrite decode_eq. params_facts a.
  apply decode_junk; auto using not_accepted_unknown.
  unfold unit_space in Ho. rewrite octets_eq, quantum_eq in Ho. exact Ho.
Qed.
Print Assumptions C09_junk_ignored.

(** C09, any number of junk characters: the text with all of them removed decodes the same, if
    the text ends in an accepted character. *)
Theorem C09_all_junk_ignored : forall a pre last_ch out,
  In last_ch (accepted a) -> unit_space a (length pre + 1) + 1 <= length out ->
  decode a (pre ++ [last_ch]) out =
  decode a (filter (fun c => existsb (N.eqb c) (accepted a)) pre ++ [last_ch]) out.
Proof.
  intros a pre lc out Hl Ho.
  assert (G : forall pre done, unit_space a (length (done ++ pre) + 1) + 1 <= length out ->
    decode a (done ++ pre ++ [lc]) out = decode a (done ++ filter (fun c => existsb (N.eqb c) (accepted a)) pre ++ [lc]) out).
  { clear pre Ho. induction pre as [|c pre IH]; intros done Ho; [reflexivity|]. cbn [filter].
    destruct (existsb (N.eqb c) (accepted a)) eqn:E.
    - change (decode a (done ++ (c :: pre) ++ [lc]) out = decode a (done ++ (c :: filter (fun c => existsb (N.eqb c) (accepted a)) pre) ++ [lc]) out).
      cbn [app]. specialize (IH (done ++ [c])). rewrite <- !app_assoc in IH. apply IH. exact Ho.
    - cbn [app]. rewrite C09_junk_ignored.
      + apply IH. revert Ho. rewrite !app_length. cbn [length]. intros Ho.
        assert (unit_space a (length done + length pre + 1) <= unit_space a (length done + S (length pre) + 1)).
        { unfold unit_space. apply Nat.mul_le_mono_l. apply Nat.div_le_mono; [destruct a; discriminate|lia]. }
        lia.
      + intros Hin. assert (existsb (N.eqb c) (accepted a) = true); [|congruence].
        apply existsb_exists. exists c. split; [assumption|apply N.eqb_refl].
      + destruct pre; discriminate.
      + revert Ho. rewrite !app_length. cbn [length]. rewrite ?app_length. cbn [length]. replace (length done + S (length pre + 1)) with (length done + S (length pre) + 1) by lia. auto. }
  apply (G pre []). rewrite app_nil_l. exact Ho.
Qed.
Print Assumptions C09_all_junk_ignored.

(** C09, violation: one newline after the last alphabet character changes the result
    ("AQAC" decodes to one byte, the same text plus a newline to three). *)
Theorem C09_trailing_junk_refuted : forall dst, 7 <= length dst ->
  exists r1 r2, decode_base64 (chars "AQAC") dst = Ret (1, 1%N :: r1) /\
    decode_base64 (chars "AQAC" ++ [10%N]) dst = Ret (3, [1; 0; 2]%N ++ r2).
Proof.
  intros dst Hd. do 7 (destruct dst as [|? dst]; [cbn [length] in Hd; lia|]).
  do 2 eexists. split; reflexivity.
Qed.
Print Assumptions C09_trailing_junk_refuted.

Example C09_nonvacuous :
  ~ In 10%N (accepted B64) /\ ~ In 58%N (accepted B16) /\
  decode_base16 (chars "de:AD") (repeat 7%N 6) = decode_base16 (chars "deAD") (repeat 7%N 6) /\
  decode_base16 (chars "deAD") (repeat 7%N 6) = Ret (2, [0xde; 0xad; 0; 7; 7; 7]%N).
Proof. repeat split; vm_compute; intuition discriminate. Qed.

(** C10: letter case and URL-safe symbols. Two characters are the same symbol for [a]: equal,
    or the two cases of one letter (base16/32/32hex), or '+'/'-' and '/'/'_' (base64). *)
Definition upcase (c : N) : N := if ((97 <=? c) && (c <=? 122))%N then (c - 32)%N else c.
Definition url_to_std (c : N) : N := if (c =? 45)%N then 43%N else if (c =? 95)%N then 47%N else c.
Definition canon (a : api) (c : N) : N :=
  match a with B64 | B64url => url_to_std c | _ => upcase c end.

Lemma dig_canon a c : dig (params a) (dfun a) c = dig (params a) (dfun a) (canon a c).
Proof.
  destruct (N.lt_ge_cases c 128) as [L|G].
  - set (eqo := fun x y : option N => match x, y with Some m, Some n => (m =? n)%N | None, None => true | _, _ => false end).
    assert (K : forallb (fun c => eqo (dig (params a) (dfun a) c) (dig (params a) (dfun a) (canon a c)))
                 (map N.of_nat (seq 0 128)) = true) by (destruct a; vm_compute; reflexivity).
    pose proof (forallb_below _ 128 c K L) as P. cbn beta in P. unfold eqo in P.
    destruct (dig _ _ c), (dig _ _ (canon a c)); try discriminate; [apply N.eqb_eq in P; subst|]; reflexivity.
  - assert (canon a c = c) as ->; [|reflexivity].
    destruct a; cbn [canon]; unfold upcase, url_to_std;
      repeat match goal with
      | |- context[(?x <=? ?y)%N] => destruct (N.leb_spec x y); try lia
      | |- context[(?x =? ?y)%N] => destruct (N.eqb_spec x y); try lia
      end; reflexivity.
Qed.

Theorem C10_case_and_url : forall a t t' out,
  map (canon a) t = map (canon a) t' -> decode a t out = decode a t' out.
Proof.
  intros a t t' out H. rewrite decode_eq. params_facts a.
  assert (D : forall t, map (dig (params a) (dfun a)) t = map (dig (params a) (dfun a)) (map (canon a) t)).
  { intros s. rewrite map_map. apply map_ext. intros c. apply dig_canon. }
  apply decode_ext; [assumption|]. rewrite (D t), (D t'), H. reflexivity.
Qed.
Print Assumptions C10_case_and_url.

Example C10_nonvacuous :
  map (canon B16) (chars "dEAd") = map (canon B16) (chars "DeaD") /\
  map (canon B64) (chars "a-_b") = map (canon B64url) (chars "a+/b") /\
  decode_base64 (chars "a-_b") (repeat 7%N 4) = decode_base64 (chars "a+/b") (repeat 7%N 4).
Proof. repeat split. Qed.

(** C11, violation: with an exactly chunk_count-byte scratch array (or one byte of slack), or
    nothing readable after the unit, every encode of a non-empty input is out of bounds. *)
Theorem C11_encode_overflow_refuted : forall a st x out,
  x <> [] ->
  (quantum (coding a) <= length (scratch st 0) < quantum (coding a) + 2 \/
   (after_unit st 0 = [] /\ quantum (coding a) <= length (scratch st 0))) ->
  encode a st x out = UB OutOfBounds.
Proof.
  intros a st x out Hx H. rewrite quantum_eq in H. rewrite encode_eq. apply encode_ub; auto using params_cases.
Qed.
Print Assumptions C11_encode_overflow_refuted.

(** C11: exactly two bytes past the scratch array are overwritten, the rest of memory is not. *)
Theorem C11_exactly_two_bytes : forall a unit after scr,
  length unit = octets (coding a) -> 1 <= length after -> quantum (coding a) + 2 <= length scr ->
  exists v j1 j2, length v = quantum (coding a) /\
    transform (unit ++ after) (octets (coding a)) (width (coding a)) scr =
      Ret (quantum (coding a) + 2, v ++ [j1; j2] ++ skipn (quantum (coding a) + 2) scr).
Proof.
  intros a unit after scr. rewrite octets_eq, quantum_eq.
  replace (width (coding a)) with (bit_size (params a)) by (destruct a; reflexivity).
  apply transform_two. apply params_cases.
Qed.
Print Assumptions C11_exactly_two_bytes.

(** C11: given the slack, the result does not depend on any of the stack contents. *)
Theorem C11_stack_independent : forall a st st' x out,
  slack a st -> slack a st' -> bytes_ok x -> length (lib_text (coding a) x) < length out ->
  encode a st x out = encode a st' x out.
Proof. intros. rewrite !C06_encode_text by assumption. reflexivity. Qed.
Print Assumptions C11_stack_independent.

Definition tight (a : api) : stack := mkStack (fun _ => [171%N]) (fun _ => repeat 205%N (quantum (coding a))).
Example C11_nonvacuous :
  encode_base64 (tight B64) (chars "foo") (repeat 7%N 10) = UB OutOfBounds /\
  slack B64 wide /\ encode_base64 wide (chars "foo") (repeat 7%N 6) = Ret (4, chars "Zm9v" ++ [0; 7]%N).
Proof. repeat split; cbn; lia. Qed.

(** C12: footprint of decoding on non-empty texts. *)
Theorem C12_decode_footprint : forall a t out,
  t <> [] -> unit_space a (length t) + 1 <= length out ->
  exists n out', decode a t out = Ret (n, out') /\ n <= unit_space a (length t) /\
    length out' = length out /\ nth_error out' n = Some 0%N /\
    skipn (unit_space a (length t) + 1) out' = skipn (unit_space a (length t) + 1) out.
Proof.
  intros a t out Ht Ho. rewrite decode_eq. params_facts a. unfold unit_space in *. rewrite octets_eq, quantum_eq in *.
  apply decode_footprint; assumption.
Qed.
Print Assumptions C12_decode_footprint.

(** C12, violation: decoding the empty text touches memory before the output buffer. *)
Theorem C12_decode_empty_refuted : forall a out, decode a [] out = UB OutOfBounds.
Proof. intros a out. rewrite decode_eq. reflexivity. Qed.
Print Assumptions C12_decode_empty_refuted.

(** C12: the extra byte is needed: a full final unit without zero byte is followed by the
    terminator, so a buffer of exactly the decoded size overflows ("Zm9v" into 3 bytes). *)
Theorem C12_exact_buffer_refuted : forall out, length out = 3 ->
  decode_base64 (chars "Zm9v") out = UB OutOfBounds.
Proof.
  intros out H. do 3 (destruct out as [|? out]; [discriminate|]). destruct out; [|discriminate]. reflexivity.
Qed.
Print Assumptions C12_exact_buffer_refuted.

Example C12_nonvacuous :
  decode_base64 (chars "Zm9v") (repeat 7%N 6) = Ret (3, chars "foo" ++ [0; 7; 7]%N) /\ unit_space B64 4 = 3.
Proof. split; reflexivity. Qed.
