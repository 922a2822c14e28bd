(** Property theorems C01-C05: hexadecimal utilities (utils.c, utils.cpp). *)
From Coq Require Import String.
From Verif Require Import Base MUtils SHex PUtils.
Local Open Scope N_scope.

(** C01: printing gives exactly the lower-case hex text plus NUL, the count is 2|x|. *)
Theorem C01_hex_print : forall x out,
  bytes_ok x -> (2 * length x + 1 <= length out)%nat ->
  to_hex x out = Ret ((2 * length x)%nat, hex_text x ++ 0 :: skipn (2 * length x + 1) out).
Proof. exact to_hex_spec. Qed.
Print Assumptions C01_hex_print.

(** C01: parsing any re-cased, optionally 0x-prefixed and/or h-suffixed variant of that text gives x back. *)
Theorem C01_hex_round_trip : forall x t pre suf p xc hc tail out,
  bytes_ok x -> x <> [] -> same_upto_case (hex_text x) t ->
  In xc (chars "xX") -> In hc (chars "hH") ->
  (length x <= length out)%nat ->
  from_hex (affixed pre suf p xc hc t) tail out = Ret (length x, x ++ skipn (length x) out).
Proof.
  intros x t pre suf p xc hc tail out Hb Hx Hc Hxc Hhc Hl. apply round_trip; auto.
  - destruct Hxc as [<-|[<-|[]]]; reflexivity.
  - destruct Hhc as [<-|[<-|[]]]; reflexivity.
Qed.
Print Assumptions C01_hex_round_trip.

Example C01_nonvacuous :
  same_upto_case (hex_text [0xde; 0x0a]) (chars "De0A") /\
  to_hex [0xde; 0x0a] (repeat 7 6) = Ret (4%nat, chars "de0a" ++ [0; 7]) /\
  from_hex (chars "0xDe0Ah") [] (repeat 7 3) = Ret (2%nat, [0xde; 0x0a; 7]).
Proof.
  split; [|split; vm_compute; reflexivity].
  change (hex_text [0xde; 0x0a]) with (chars "de0a").
  repeat (constructor; [(left; reflexivity) || (right; reflexivity)|]). constructor.
Qed.

(** C02: a digit string is parsed to the big-endian bytes of its value, padded on the left
    to ceil(len/2) bytes. *)
Theorem C02_hex_value : forall s tail out,
  s <> [] -> forallb is_hex_digit s = true -> ((length s + 1) / 2 <= length out)%nat ->
  exists bs, length bs = ((length s + 1) / 2)%nat /\ bytes_ok bs /\ be_value bs = text_value s /\
    from_hex s tail out = Ret (length bs, bs ++ skipn (length bs) out).
Proof.
  intros s tail out Hs Hh Hl. exists (parsed s).
  assert (E : parsed s = emit (Nat.odd (length s)) 0 (nibbles s)).
  { pose proof (parsed_affixed false false 48 120 104 s Hh eq_refl eq_refl) as P.
    unfold affixed in P. cbn [app] in P. rewrite app_nil_r in P. apply P. auto. }
  assert (L : length (parsed s) = ((length s + 1) / 2)%nat).
  { pose proof (parsed_affixed_length false false 48 120 104 s Hh eq_refl eq_refl) as P.
    unfold affixed in P. cbn [app] in P. rewrite app_nil_r in P. exact P. }
  repeat split.
  - exact L.
  - apply parsed_bytes.
  - rewrite E. apply emit_text. exact Hh.
  - rewrite from_hex_spec by exact Hs.
    destruct (Nat.leb_spec (length (parsed s)) (length out)); [reflexivity|lia].
Qed.
Print Assumptions C02_hex_value.

(** C02: whatever the string, at most ceil(strlen/2) bytes are written, all inside the buffer. *)
Theorem C02_hex_bound : forall s tail out,
  s <> [] -> ((length s + 1) / 2 <= length out)%nat ->
  exists bs, (length bs <= (length s + 1) / 2)%nat /\ bytes_ok bs /\
    from_hex s tail out = Ret (length bs, bs ++ skipn (length bs) out).
Proof.
  intros s tail out Hs Hl. exists (parsed s). pose proof (parsed_bound s).
  repeat split; auto using parsed_bytes.
  rewrite from_hex_spec by exact Hs. destruct (Nat.leb_spec (length (parsed s)) (length out)); [reflexivity|lia].
Qed.
Print Assumptions C02_hex_bound.

(** C02: from_hex_string stays inside its local array of ceil(strlen/2)+1 bytes and returns
    exactly the bytes the parser produced. *)
Theorem C02_from_hex_string : forall s tail garbage,
  s <> [] -> length garbage = ((length s + 1) / 2 + 1)%nat ->
  exists bs rest, from_hex_string s tail garbage = Ret bs /\ from_hex s tail garbage = Ret (length bs, bs ++ rest).
Proof.
  intros s tail g Hs Hg. destruct (C02_hex_bound s tail g Hs ltac:(lia)) as (bs & Hl & _ & E).
  exists bs, (skipn (length bs) g). split; [|exact E]. unfold from_hex_string. rewrite E. cbn [bind].
  destruct (skipn (length bs) g) as [|y q] eqn:K.
  { apply (f_equal (@length N)) in K. rewrite skipn_length in K. cbn in K. lia. }
  rewrite wr_app by reflexivity. cbn [bind]. f_equal.
  rewrite firstn_app, firstn_all, Nat.sub_diag. apply app_nil_r.
Qed.
Print Assumptions C02_from_hex_string.

Example C02_nonvacuous :
  from_hex (chars "abc") [] (repeat 7 2) = Ret (2%nat, [0x0a; 0xbc]) /\
  text_value (chars "abc") = 0xabc /\
  from_hex_string (chars "de:ad") [] (repeat 7 4) = Ret [0x0d; 0xea].
Proof. repeat split. Qed.

(** C03: cleaning. *)
Theorem C03_clean : forall s out,
  (length (cleaned s) < length out)%nat ->
  clean s out = Ret (length (cleaned s), cleaned s ++ 0 :: skipn (length (cleaned s) + 1) out).
Proof. exact clean_spec. Qed.
Print Assumptions C03_clean.

(** C03: in place: same text and count, nothing after the original NUL touched. *)
Theorem C03_clean_in_place : forall s t,
  Forall (fun c => c <> 0) s ->
  exists buf, clean_in_place (s ++ 0 :: t) = Ret (length (cleaned s), buf) /\
    length buf = length (s ++ 0 :: t) /\
    firstn (length (cleaned s) + 1) buf = cleaned s ++ [0] /\
    skipn (length s) buf = 0 :: t.
Proof. exact clean_in_place_spec. Qed.
Print Assumptions C03_clean_in_place.

(** C03: cleaning a cleaned string changes nothing. *)
Theorem C03_clean_idempotent : forall s out out2,
  (length s < length out)%nat -> (length s < length out2)%nat ->
  exists n r r2, clean s out = Ret (n, cleaned s ++ 0 :: r) /\ clean (cleaned s) out2 = Ret (n, cleaned s ++ 0 :: r2).
Proof.
  intros s out out2 H H2. pose proof (cleaned_le s). exists (length (cleaned s)).
  rewrite clean_spec by lia. rewrite (clean_spec (cleaned s)) by (rewrite cleaned_idem; lia).
  rewrite cleaned_idem. do 2 eexists. split; reflexivity.
Qed.
Print Assumptions C03_clean_idempotent.

Example C03_nonvacuous :
  clean (chars "0xDE:AD g1") (repeat 7 12) = Ret (5%nat, chars "DEAD1" ++ 0 :: repeat 7 6) /\
  clean_in_place (chars "0xDE:AD g1" ++ [0; 9]) = Ret (5%nat, chars "DEAD1" ++ 0 :: chars "D g1" ++ [0; 9]).
Proof. split; vm_compute; reflexivity. Qed.

(** C04: on digit strings with optional affixes pgfe_hash_length is the parser's byte count. *)
Theorem C04_hash_length : forall s pre suf p xc hc tail out garbage,
  forallb is_hex_digit s = true -> In xc (chars "xX") -> In hc (chars "hH") ->
  let t := affixed pre suf p xc hc s in
  t <> [] -> length garbage = (length t + 1)%nat -> ((length t + 1) / 2 <= length out)%nat ->
  exists n o, hash_length t garbage = Ret n /\ from_hex t tail out = Ret (n, o).
Proof.
  intros s pre suf p xc hc tail out g Hs Hxc Hhc t Ht Hg Ho.
  assert (X : is_x xc = true) by (destruct Hxc as [<-|[<-|[]]]; reflexivity).
  assert (H : is_h hc = true) by (destruct Hhc as [<-|[<-|[]]]; reflexivity).
  rewrite hash_length_spec, from_hex_spec by assumption.
  pose proof (parsed_bound t).
  destruct (Nat.leb_spec (length (parsed t)) (length out)); [|lia].
  unfold t. rewrite cleaned_affixed, parsed_affixed_length by assumption.
  do 2 eexists. split; reflexivity.
Qed.
Print Assumptions C04_hash_length.

(** C04, violation: with separators the two disagree: "aa:b" has hash length 2 but the
    parser writes one byte (the last digit is dropped). *)
Theorem C04_hash_length_separators_refuted :
  exists s, cstr s /\ forall garbage out, length garbage = (length s + 1)%nat ->
    ((length s + 1) / 2 <= length out)%nat ->
    exists n m o, hash_length s garbage = Ret n /\ from_hex s [] out = Ret (m, o) /\ n <> m.
Proof.
  exists (chars "aa:b"). split; [unfold cstr; vm_compute; repeat constructor|].
  intros g out Hg Ho. rewrite hash_length_spec by assumption. rewrite from_hex_spec by discriminate.
  change (length (parsed (chars "aa:b"))) with 1%nat.
  change ((length (cleaned (chars "aa:b")) + 1) / 2)%nat with 2%nat.
  change ((length (chars "aa:b") + 1) / 2)%nat with 2%nat in Ho.
  destruct (Nat.leb_spec 1 (length out)); [|lia].
  do 3 eexists. repeat split; discriminate.
Qed.
Print Assumptions C04_hash_length_separators_refuted.

Example C04_nonvacuous :
  hash_length (chars "0xabcH") (repeat 7 7) = Ret 2%nat /\
  from_hex (chars "0xabcH") [] (repeat 7 3) = Ret (2%nat, [0x0a; 0xbc; 7]) /\
  affixed true true 48 120 72 (chars "abc") = chars "0xabcH".
Proof. repeat split. Qed.

(** C05: on every non-empty string the parser reads only inside the strlen+1 byte array
    (no UB with nothing after the NUL), so bytes after the NUL cannot matter. *)
Theorem C05_hex_reads_inside : forall s tail out,
  s <> [] -> ((length s + 1) / 2 <= length out)%nat ->
  (exists r, from_hex s [] out = Ret r) /\ from_hex s tail out = from_hex s [] out.
Proof.
  intros s tail out Hs Ho. split.
  - destruct (C02_hex_bound s [] out Hs Ho) as (bs & _ & _ & E). eauto.
  - rewrite !from_hex_spec by assumption. reflexivity.
Qed.
Print Assumptions C05_hex_reads_inside.

(** C05, violation: the empty string is out of bounds, whatever follows its NUL. *)
Theorem C05_hex_empty_refuted : forall tail out, from_hex [] tail out = UB OutOfBounds.
Proof. intros [|t tail] out; reflexivity. Qed.
Print Assumptions C05_hex_empty_refuted.

(** C05, violation at the C++ level. *)
Theorem C05_from_hex_string_empty_refuted : forall tail garbage,
  from_hex_string [] tail garbage = UB OutOfBounds.
Proof. intros [|t tail] garbage; reflexivity. Qed.
Print Assumptions C05_from_hex_string_empty_refuted.

Example C05_nonvacuous : from_hex (chars "a") [] [7] = Ret (1%nat, [10]).
Proof. reflexivity. Qed.
