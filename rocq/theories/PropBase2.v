(** Property theorems C61-C63: what the base encodings identify, unpadded texts, and the meaning of every text
    (base-encoding-internal.c, base16.c, base32.c, base64.c). *)
From Coq Require Import String.
From Verif Require Import Base MBase SRfc4648 SHex SBaseText PUtils PBase PBase2 PropBase.

(** The second spelling of the symbols: lower case for base16/32/32hex, the other alphabet for base64. *)
Definition second_spelling (a : api) : list N :=
  match a with
  | B16 => chars "0123456789abcdef"
  | B32 => chars "abcdefghijklmnopqrstuvwxyz234567"
  | B32hex => chars "0123456789abcdefghijklmnopqrstuv"
  | B64 => symbols Base64url
  | B64url => symbols Base64
  end.
Definition has_padding (a : api) : bool := match a with B16 => false | _ => true end.
(** the value of a character for [a] *)
Definition value_of (a : api) : N -> option N := char_value (coding a) (second_spelling a) (has_padding a).

Lemma dig_value a ch : dig (params a) (dfun a) ch = value_of a ch.
Proof.
  destruct (N.lt_ge_cases ch 128) as [L|G].
  - set (eqo := fun x y : option N => match x, y with Some m, Some n => (m =? n)%N | None, None => true | _, _ => false end).
    assert (K : forallb (fun c => eqo (dig (params a) (dfun a) c) (value_of a c)) (map N.of_nat (seq 0 128)) = true) by (destruct a; vm_compute; reflexivity).
    pose proof (forallb_below _ 128 ch K L) as P. cbn beta in P. unfold eqo in P.
    destruct (dig _ _ ch), (value_of a ch); try discriminate; [apply N.eqb_eq in P; subst|]; reflexivity.
  - assert (E1 : ~ In ch (accepted a)).
    { intros Hin. assert (K : forallb (fun c => (c <? 128)%N) (accepted a) = true) by (destruct a; vm_compute; reflexivity).
      rewrite forallb_forall in K. specialize (K _ Hin). apply N.ltb_lt in K. lia. }
    rewrite (not_accepted_unknown a ch E1).
    assert (IX : forall l, forallb (fun c => (c <? 128)%N) l = true -> index_of ch l = None).
    { induction l as [|h l IH]; [reflexivity|]. cbn [forallb index_of]. intros K. apply andb_true_iff in K. destruct K as [K1 K2]. apply N.ltb_lt in K1.
      destruct (N.eqb_spec ch h); [lia|]. rewrite (IH K2). reflexivity. }
    unfold value_of, char_value. rewrite !IX by (destruct a; vm_compute; reflexivity). cbn [first_of].
    destruct (N.eqb_spec ch pad_symbol) as [->|]; [exfalso; revert G; vm_compute; congruence|]. rewrite Bool.andb_false_r. reflexivity.
Qed.

(** C61: two inputs give the same text exactly when they are equal, or both end in a partial unit and become equal
    when that unit is filled up with zero bytes. *)
Theorem C61_text_determines_data : forall a st st' x y out out2 n o n2 o2,
  slack a st -> slack a st' -> bytes_ok x -> bytes_ok y ->
  length (rfc_encode (coding a) x) < length out -> length (rfc_encode (coding a) y) < length out2 ->
  encode a st x out = Ret (n, o) -> encode a st' y out2 = Ret (n2, o2) ->
  (firstn n o = firstn n2 o2 <->
   x = y \/ (length x mod octets (coding a) <> 0 /\ length y mod octets (coding a) <> 0 /\ filled (coding a) x = filled (coding a) y)).
Proof.
  intros a st st' x y out out2 n o n2 o2 Hs Hs' Hx Hy Lx Ly E1 E2.
  rewrite <- (text_length_eq _ _ _ x (api_compat a)) in Lx. rewrite <- (text_length_eq _ _ _ y (api_compat a)) in Ly.
  rewrite C06_encode_text in E1, E2 by assumption. injection E1 as <- <-. injection E2 as <- <-.
  rewrite !firstn_app, !firstn_all, !Nat.sub_diag, !app_nil_r.
  pose proof (same_text _ _ _ _ (api_codec a) x y Hx Hy) as ST. unfold filled. rewrite octets_eq. exact ST.
Qed.
Print Assumptions C61_text_determines_data.
(** C61: so on inputs of whole units (and among inputs of one length) the encoders are injective. *)
Theorem C61_injective : forall a st st' x y out out2 n o n2 o2,
  slack a st -> slack a st' -> bytes_ok x -> bytes_ok y ->
  length (rfc_encode (coding a) x) < length out -> length (rfc_encode (coding a) y) < length out2 ->
  encode a st x out = Ret (n, o) -> encode a st' y out2 = Ret (n2, o2) ->
  length x = length y \/ length x mod octets (coding a) = 0 -> firstn n o = firstn n2 o2 -> x = y.
Proof.
  intros a st st' x y out out2 n o n2 o2 Hs Hs' Hx Hy Lx Ly E1 E2 HL E.
  apply (C61_text_determines_data a st st' x y out out2 n o n2 o2) in E; try assumption.
  destruct E as [E|(M1 & M2 & E)]; [exact E|]. destruct HL as [HL|HL]; [|contradiction].
  unfold filled in E. rewrite HL in E. apply app_inv_tail in E. exact E.
Qed.
Print Assumptions C61_injective.
(** C61, violation: two different inputs with the same text, in every encoding but base16. *)
Theorem C61_collision_refuted : forall a st out, a <> B16 -> slack a st -> quantum (coding a) < length out ->
  exists r, encode a st [1%N] out = r /\ encode a st [1; 0]%N out = r /\ rfc_encode (coding a) [1%N] <> rfc_encode (coding a) [1; 0]%N.
Proof.
  intros a st out Ha Hs Hl. eexists. split; [reflexivity|].
  destruct a; [congruence| | | |];
  (rewrite !C06_encode_text by (try assumption; repeat constructor; exact Hl); split; [reflexivity|vm_compute; discriminate]).
Qed.
Print Assumptions C61_collision_refuted.
Example C61_nonvacuous :
  (exists o, encode_base64 wide (chars "foob") (repeat 7%N 10) = Ret (8, o)) /\
  filled Base64 [1%N] = filled Base64 [1; 0]%N /\ filled Base32 [5; 6; 0; 0]%N = filled Base32 [5; 6]%N /\
  filled Base64 [1; 0; 0]%N = filled Base64 [1]%N /\
  encode_base64 wide [1; 0; 0]%N (repeat 7%N 5) = Ret (4, chars "AQAA" ++ [0%N]) /\ encode_base64 wide [1]%N (repeat 7%N 5) = Ret (4, chars "AQ==" ++ [0%N]).
Proof. repeat split; try (eexists; vm_compute; reflexivity); vm_compute; reflexivity. Qed.

(** C62: the text without its padding, or with only part of it, decodes to the same bytes. *)
Theorem C62_padding_optional : forall a x j out,
  x <> [] -> bytes_ok x -> j <= length (rfc_padding (coding a) x) ->
  octets (coding a) * ((length x + octets (coding a) - 1) / octets (coding a)) + 1 <= length out ->
  exists tl, decode a (rfc_data (coding a) x ++ repeat pad_symbol j) out = Ret (length (without_tail a x), without_tail a x ++ 0%N :: tl).
Proof.
  intros a x j out Hx Hb Hj Ho.
  assert (ET : without_tail a x = cut_last (unit_size (params a)) x).
  { unfold without_tail, cut_last, before_last. rewrite octets_eq. reflexivity. }
  pose proof (api_codec a) as HD. pose proof (api_compat a) as HC. params_facts a.
  rewrite decode_eq. rewrite ET, octets_eq in *.
  assert (LP : length (vals (bit_size (params a)) x) + length (rfc_padding (coding a) x) = length (vals (bit_size (params a)) (zext (params a) x))).
  { pose proof (dig_rfc_text _ _ _ _ HD x) as D. apply (f_equal (@length _)) in D. rewrite !map_length in D. rewrite <- D. unfold rfc_encode.
    rewrite app_length, rfc_data_vals, map_length, (cw _ _ _ HC). reflexivity. }
  assert (MD : map (dig (params a) (dfun a)) (rfc_data (coding a) x ++ repeat pad_symbol j) = map Some (vals (bit_size (params a)) x ++ repeat 0%N j)).
  { rewrite !map_app, (dig_data _ _ _ _ HD), !map_repeat. f_equal. destruct j as [|j]; [reflexivity|].
    assert (unit_size (params a) <> 1).
    { intros E1. assert (P0 : rfc_padding (coding a) x = []); [|rewrite P0 in Hj; cbn in Hj; lia].
      unfold rfc_padding. rewrite (rfc_data_length _ _ _ HC), (cq _ _ _ HC). clear - E1. destruct a; try discriminate E1. cbn [params base16_params bit_size chunk_count].
      replace (8 * length x + 4 - 1) with (3 + 2 * length x * 4) by lia. rewrite Nat.div_add by lia. cbn [plus Nat.div]. rewrite (Nat.div_small 3 4) by lia. rewrite Nat.add_0_l, Nat.mul_comm, Nat.mod_mul, Nat.sub_0_r, Nat.mod_same by lia. reflexivity. }
    rewrite (cd_pad _ _ _ _ HD) by assumption. reflexivity. }
  assert (LT : length (rfc_data (coding a) x ++ repeat pad_symbol j) <> 0).
  { intros E. apply (f_equal (@length _)) in MD. rewrite !map_length, E, app_length, vals_length in MD by lia.
    assert (1 <= (8 * length x + bit_size (params a) - 1) / bit_size (params a)); [|lia].
    apply Nat.div_le_lower_bound; [lia|]. destruct x; [congruence|]. cbn [length]. lia. }
  pose proof (units_short _ _ _ _ HD _ x j Hx MD ltac:(lia)) as US.
  assert (LX : length x <= unit_size (params a) * ((length x + unit_size (params a) - 1) / unit_size (params a))).
  { pose proof (Nat.div_mod_eq (length x + unit_size (params a) - 1) (unit_size (params a))) as DM.
    pose proof (Nat.mod_upper_bound (length x + unit_size (params a) - 1) (unit_size (params a)) ltac:(lia)) as MB. lia. }
  assert (LE : length (rfc_encode (coding a) x) = length (vals (bit_size (params a)) (zext (params a) x))).
  { pose proof (dig_rfc_text _ _ _ _ HD x) as D. apply (f_equal (@length _)) in D. rewrite !map_length in D. exact D. }
  destruct (trimmed_cut _ _ _ _ HD (length x) x (length (rfc_encode (coding a) x)) eq_refl Hx Hb) as [T1 T2].
  { rewrite LE, vals_length by lia. destruct (zext_whole _ _ _ _ HD x) as (k & K). rewrite K.
    assert (length x <= k * unit_size (params a)) by (rewrite <- K; unfold zext; rewrite app_length; lia).
    assert ((length x + unit_size (params a) - 1) / unit_size (params a) <= k).
    { apply Nat.lt_succ_r. apply Nat.div_lt_upper_bound; [lia|]. nia. }
    etransitivity; [eassumption|]. apply Nat.div_le_lower_bound; [lia|]. nia. }
  assert (EU : units_of (params a) (dfun a) (rfc_encode (coding a) x) =
    dec_units (params a) (length (rfc_encode (coding a) x)) (map Some (vals (bit_size (params a)) (zext (params a) x)))).
  { unfold units_of. rewrite (dig_rfc_text _ _ _ _ HD). reflexivity. }
  assert (TN : rfc_data (coding a) x ++ repeat pad_symbol j <> []) by (intros E; rewrite E in LT; apply LT; reflexivity).
  assert (W0 : 0 < bit_size (params a)) by lia.
  rewrite (decode_spec (params a) (dfun a)); try exact (cd_64 _ _ _ _ HD); try exact (cd_w8 _ _ _ _ HD); auto.
  - rewrite US, EU, T1. eexists. reflexivity.
  - rewrite US, EU, T2. lia.
  - rewrite US, EU, T1. assert (length (cut_last (unit_size (params a)) x) <= length x); [|lia].
    unfold cut_last. rewrite app_length. pose proof (upto_nul_le (skipn (unit_size (params a) * ((length x - 1) / unit_size (params a))) x)) as Q.
    rewrite skipn_length in Q. rewrite firstn_length. lia.
Qed.
Print Assumptions C62_padding_optional.
Example C62_nonvacuous :
  rfc_data Base64 (chars "foob") = chars "Zm9vYg" /\ rfc_padding Base64 (chars "foob") = chars "==" /\
  decode_base64 (chars "Zm9vYg") (repeat 7%N 8) = Ret (4, chars "foob" ++ [0; 0; 7; 7]%N) /\
  decode_base64 (chars "Zm9vYg=") (repeat 7%N 8) = Ret (4, chars "foob" ++ [0; 0; 7; 7]%N) /\
  decode_base32 (chars "MZXQ") (repeat 7%N 6) = Ret (2, chars "fo" ++ [0; 0; 0; 7]%N).
Proof. repeat split; vm_compute; reflexivity. Qed.

(** C63: what the decoders make of any non-empty text. *)
Theorem C63_any_text : forall a t out, t <> [] -> unit_space a (length t) + 1 <= length out ->
  exists tl, decode a t out =
    Ret (length (text_bytes (coding a) (value_of a) t), text_bytes (coding a) (value_of a) t ++ 0%N :: tl).
Proof.
  intros a t out Ht Ho. pose proof (api_codec a) as HD. pose proof (api_compat a) as HC. params_facts a.
  unfold unit_space in Ho. rewrite octets_eq, quantum_eq in Ho. rewrite decode_eq.
  assert (TU : units_of (params a) (dfun a) t = text_units (coding a) (value_of a) t).
  { rewrite (units_of_text _ (coding a)); auto using (cw _ _ _ HC), (cq _ _ _ HC), (co _ _ _ HC).
    - apply text_units_ext. intros ch. apply dig_value. }
  assert (UL : length (units_of (params a) (dfun a) t) <= (length t + chunk_count (params a) - 1) / chunk_count (params a)).
  { unfold units_of. rewrite <- (map_length (dig (params a) (dfun a)) t) at 2. apply dec_units_length; auto; rewrite ?map_length; auto; lia. }
  assert (TB : trimmed (units_of (params a) (dfun a) t) = text_bytes (coding a) (value_of a) t) by (rewrite TU; reflexivity).
  assert (TL : length (trimmed (units_of (params a) (dfun a) t)) <= length (units_of (params a) (dfun a) t) * unit_size (params a)).
  { unfold units_of. rewrite <- concat_length_units. set (us := dec_units _ _ _). clearbody us. unfold trimmed.
    destruct us as [|u us _] using rev_ind; [reflexivity|]. rewrite removelast_last, last_last, concat_app, !app_length. cbn [concat]. rewrite app_nil_r. pose proof (upto_nul_le u). lia. }
  assert (W0 : 0 < bit_size (params a)) by lia. assert (W8 : bit_size (params a) <= 8) by lia.
  assert (B : length (units_of (params a) (dfun a) t) * unit_size (params a) < length out) by nia.
  rewrite (decode_spec (params a) (dfun a)); auto; try lia. rewrite TB. eexists. reflexivity.
Qed.
Print Assumptions C63_any_text.
Example C63_nonvacuous :
  text_bytes Base64 (value_of B64) (chars "Zm9v" ++ [10%N] ++ chars "Y*g") = chars "foob" /\
  text_bytes Base64 (value_of B64) (chars "=") = [] /\
  text_bytes Base64 (value_of B64) (chars "A=Q=") = [] /\
  text_bytes Base64 (value_of B64) (chars "Z") = [100%N] /\
  text_bytes Base16 (value_of B16) (chars "fF0") = [255%N] /\
  text_bytes Base32hex (value_of B32hex) (chars "cpnMuoG=") = chars "foob" /\
  text_bytes Base64 (value_of B64) (chars "AQAC" ++ [10%N]) = [1; 0; 2]%N /\
  text_bytes Base64 (value_of B64) (chars "AQAC") = [1]%N.
Proof. repeat split; vm_compute; reflexivity. Qed.
