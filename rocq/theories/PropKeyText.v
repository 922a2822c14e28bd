(** C95: HMAC keys kept as text. Everything here is about the modelled calls of MBase.v, MUtils.v and MHmac.v used one after the other. *)
From Coq Require Import String.
From Verif Require SFips202 SMd5.
From Verif Require Import Base MBase SRfc4648 PBase PropBase MUtils SHex PUtils PropHex PropPipeline.
From Verif Require Import SFips180 SShaLib MSha MFront MMd5 MKeccak SHash SKeccakFns SHashFns PTyped MHmac SHmac SHmac2 PHmac PropHmac PropHmac2.
From Verif Require Import SOtp PropSecretText.
Local Open Scope N_scope.

(** what is left of the key is the same HMAC key exactly if no zero byte of the final unit is followed by a non-zero one *)
Lemma tail_same_key a B x : (length x <= B)%nat -> (same_key B (without_tail a x) x <-> zeros_at_end (skipn (before_last (coding a) x) x)).
Proof.
  intros L. unfold without_tail. set (b := before_last (coding a) x). set (s := skipn b x). pose proof (upto_nul_length s) as U.
  pose proof (firstn_skipn b x) as FS. fold s in FS. set (p := firstn b x) in *. clearbody p s. rewrite <- FS in L |- *. rewrite app_length in L. split.
  - intros S. exists (length s - length (upto_nul s))%nat. apply nth_ext with (d := 0) (d' := 0).
    + rewrite app_length, repeat_length. lia.
    + intros i Hi. specialize (S (length p + i)%nat ltac:(lia)). rewrite !app_nth2 in S by lia. replace (length p + i - length p)%nat with i in S by lia. rewrite <- S.
      destruct (Nat.lt_ge_cases i (length (upto_nul s))).
      * rewrite app_nth1 by lia. reflexivity.
      * rewrite app_nth2, nth_repeat, nth_overflow by lia. reflexivity.
  - intros (j & E). rewrite E at 2. rewrite app_assoc. apply C65_trailing_zeros.
Qed.
(** the same tags from two keys: from the one-shot function, and from an HMACEncoder object in every session *)
Definition same_tags (garbage : option N) (h : alg_choice) (k k' : list N) : Prop :=
  (forall g l data out, pgfe_hmac garbage h g l k data out = pgfe_hmac garbage h g l k' data out) /\
  (forall r cs, encoder_session (sp_case garbage h) h r k cs = encoder_session (sp_case garbage h) h r k' cs).

(** C95: a non-empty key is written as text in one of the five encodings (the RFC's text or the library's), the text is decoded into a big enough buffer, and the bytes the
    decoder counts are used as HMAC key. For a key of at most a block they are the same HMAC key exactly if no zero byte of the final unit is followed by a non-zero one, and then all tags are the same. *)
Theorem C95_base_text : forall garbage h P M H B D, choice_lib h P M H B D ->
  forall a k t dst, k <> [] -> bytes_ok k -> (length k <= B)%nat -> t = lib_text (coding a) k \/ t = rfc_encode (coding a) k ->
  (octets (coding a) * ((length k + octets (coding a) - 1) / octets (coding a)) + 1 <= length dst)%nat ->
  exists n back, decode a t dst = Ret (n, back) /\ (n <= length k)%nat /\
    (same_key B (firstn n back) k <-> zeros_at_end (skipn (before_last (coding a) k) k)) /\
    (zeros_at_end (skipn (before_last (coding a) k) k) -> same_tags garbage h (firstn n back) k).
Proof.
  intros garbage h P M H B D K a k t dst Hk Hb L Ht Ld. destruct (C08_decode_encode a k t dst Ht Hk Hb Ld) as (tl & E). do 2 eexists. split; [exact E|].
  rewrite firstn_app, firstn_all, Nat.sub_diag, app_nil_r. split; [|split].
  - unfold without_tail. pose proof (upto_nul_length (skipn (before_last (coding a) k) k)) as U. rewrite skipn_length in U. rewrite app_length, firstn_length. lia.
  - apply tail_same_key, L.
  - intros Z. apply (tail_same_key a B k L) in Z. exact (C65_same_tag garbage h P M H B D K _ _ Z).
Qed.
Print Assumptions C95_base_text.
(** C95: Base16 always keeps the key *)
Theorem C95_base16 : forall garbage h P M H B D, choice_lib h P M H B D ->
  forall k t dst, k <> [] -> bytes_ok k -> (length k <= B)%nat -> t = lib_text Base16 k \/ t = rfc_encode Base16 k -> (length k + 1 <= length dst)%nat ->
  exists n back, decode B16 t dst = Ret (n, back) /\ same_tags garbage h (firstn n back) k.
Proof.
  intros garbage h P M H B D K k t dst Hk Hb L Ht Ld. destruct (C95_base_text garbage h P M H B D K B16 k t dst Hk Hb L Ht) as (n & back & E & _ & _ & T).
  - change (octets (coding B16)) with 1%nat. rewrite Nat.div_1_r. lia.
  - exists n, back. split; [exact E|]. apply T. apply C92_base16_condition, Hk.
Qed.
Print Assumptions C95_base16.
(** C95: hexadecimal text, in any letter case, with or without 0x and h, always keeps the key *)
Theorem C95_hex_text : forall garbage h k t pre suf p xc hc tail out, bytes_ok k -> k <> [] -> same_upto_case (hex_text k) t -> In xc (chars "xX") -> In hc (chars "hH") ->
  (length k <= length out)%nat ->
  exists n back, from_hex (affixed pre suf p xc hc t) tail out = Ret (n, back) /\ same_tags garbage h (firstn n back) k.
Proof.
  intros garbage h k t pre suf p xc hc tail out Hb Hk Ht Hx Hh Lo. do 2 eexists. split; [apply (C01_hex_round_trip k); assumption|].
  rewrite firstn_app, firstn_all, Nat.sub_diag, app_nil_r. split; reflexivity.
Qed.
Print Assumptions C95_hex_text.

(** C95, violation: keys that differ only behind a zero byte of the final unit are read back as one key, though they are different HMAC keys *)
Theorem C95_merged_refuted : forall a n p y z t u dst, length p = (octets (coding a) * n)%nat -> (length y < octets (coding a))%nat -> length y = length z -> y <> z ->
  bytes_ok p -> bytes_ok y -> bytes_ok z -> t = lib_text (coding a) (p ++ 0%N :: y) \/ t = rfc_encode (coding a) (p ++ 0%N :: y) -> u = lib_text (coding a) (p ++ 0%N :: z) \/ u = rfc_encode (coding a) (p ++ 0%N :: z) ->
  (octets (coding a) * S n + 1 <= length dst)%nat ->
  (exists m back m' back', decode a t dst = Ret (m, back) /\ decode a u dst = Ret (m', back') /\ firstn m back = p /\ firstn m' back' = p) /\
  forall B, (length p + 1 + length y <= B)%nat -> ~ same_key B (p ++ 0%N :: y) (p ++ 0%N :: z).
Proof.
  intros a n p y z t u dst Lp Ly E Hyz Bp By Bz Ht Hu Ld. assert (O : (1 <= octets (coding a))%nat) by (destruct a; cbn; lia).
  assert (D : forall s, (length s < octets (coding a))%nat -> ((length (p ++ 0%N :: s) - 1) / octets (coding a) = n)%nat).
  { intros s Ls. rewrite app_length. cbn [length]. symmetry. apply Nat.div_unique with (r := length s); lia. }
  assert (W : forall s, (length s < octets (coding a))%nat -> without_tail a (p ++ 0%N :: s) = p).
  { intros s Ls. unfold without_tail, before_last. rewrite (D s Ls), <- Lp, firstn_app, firstn_all, Nat.sub_diag, skipn_app, skipn_all, Nat.sub_diag. cbn [firstn skipn app upto_nul]. rewrite !app_nil_r. reflexivity. }
  assert (R : forall s t, (length s < octets (coding a))%nat -> bytes_ok s -> t = lib_text (coding a) (p ++ 0%N :: s) \/ t = rfc_encode (coding a) (p ++ 0%N :: s) ->
    exists m back, decode a t dst = Ret (m, back) /\ firstn m back = p).
  { intros s t0 Ls Bs H0. assert (Dl : (octets (coding a) * ((length (p ++ 0%N :: s) + octets (coding a) - 1) / octets (coding a)) + 1 <= length dst)%nat).
    { replace (length (p ++ 0%N :: s) + octets (coding a) - 1)%nat with (length s + S n * octets (coding a))%nat by (rewrite app_length; cbn [length]; lia).
      rewrite Nat.div_add, (Nat.div_small (length s)) by lia. exact Ld. }
    destruct (C08_decode_encode a (p ++ 0%N :: s) t0 dst H0) as (tl & E0); [destruct p; discriminate| |exact Dl|].
    - apply Forall_app. split; [exact Bp|constructor; [unfold is_byte; lia|exact Bs]].
    - do 2 eexists. split; [exact E0|]. rewrite firstn_app, firstn_all, Nat.sub_diag, app_nil_r. apply W, Ls. }
  split.
  - destruct (R y t Ly By Ht) as (m & back & E1 & E2). destruct (R z u ltac:(lia) Bz Hu) as (m' & back' & E3 & E4). exists m, back, m', back'. auto.
  - intros B LB S. apply Hyz. apply nth_ext with (d := 0) (d' := 0); [exact E|]. intros i Hi. specialize (S (length p + 1 + i)%nat ltac:(lia)).
    rewrite !app_nth2 in S by lia. replace (length p + 1 + i - length p)%nat with (Datatypes.S i) in S by lia. exact S.
Qed.
Print Assumptions C95_merged_refuted.

(** C95, violation, in tags: an ordinary 20-byte key whose last bytes are "67", a zero byte, "89" is read back from its Base32 text as a 17-byte key, and the HMAC-SHA-1
    of eight zero bytes comes out wrong. *)
Lemma unlucky_tags : HMAC SHA1 64 (chars "12345678901234567") (counter_bytes 0) <> HMAC SHA1 64 unlucky (counter_bytes 0).
Proof.
  intros E. apply unlucky_values. unfold HOTP. rewrite E. reflexivity.
Qed.
Theorem C95_wrong_tag_refuted : forall garbage t dst, t = lib_text Base32 unlucky \/ t = rfc_encode Base32 unlucky -> (21 <= length dst)%nat ->
  exists n back I, decode B32 t dst = Ret (n, back) /\ sp_case garbage A_SHA1 = Some I /\
    forall c l out, hmac_typed c -> locals_ok l -> (20 <= length out)%nat ->
    exists tag, hmac_run I c (firstn n back) [counter_bytes 0] l out = Ret (tag ++ skipn 20 out) /\ tag <> HMAC SHA1 64 unlucky (counter_bytes 0).
Proof.
  intros garbage t dst Ht Ld. assert (Hb : bytes_ok unlucky) by (unfold unlucky; cbn; repeat constructor).
  destruct (C08_decode_encode B32 unlucky t dst Ht) as (tl & E); [discriminate|exact Hb|exact Ld|].
  destruct (C34_hmac_rfc2104 garbage A_SHA1 _ _ _ _ _ cs_sha1) as (I & EI & R). rewrite unlucky_left in E.
  eexists. eexists. exists I. split; [exact E|]. split; [exact EI|].
  intros c l out Hc Hl Ho. rewrite firstn_app, firstn_all, Nat.sub_diag, app_nil_r.
  assert (B1 : bytes_ok (chars "12345678901234567")) by (cbn; repeat constructor).
  assert (B2 : (length (chars "12345678901234567") <= 64)%nat) by (cbn; lia).
  assert (B3 : Forall int_piece [counter_bytes 0]).
  { constructor; [|constructor]. split; [cbn; repeat constructor|vm_compute; reflexivity]. }
  assert (B4 : with_block 64 64 (concat [counter_bytes 0]) /\ leaves_room 64 8 (concat [counter_bytes 0])).
  { split; [vm_compute; reflexivity|apply Nat.ltb_lt; vm_compute; reflexivity]. }
  specialize (R c (chars "12345678901234567") [counter_bytes 0] l out Hc B1 B2 B3 B4 Hl Ho).
  eexists. split; [exact R|]. cbn [concat]. rewrite app_nil_r. exact unlucky_tags.
Qed.
Print Assumptions C95_wrong_tag_refuted.

(** ** concrete cases *)
(** the keys "key", 0, 1 and "key", 0, 2 as Base32 text; a key that survives *)
Example C95_case : rfc_encode Base32 (chars "key" ++ 0%N :: [1]) = chars "NNSXSAAB" /\ rfc_encode Base32 (chars "key" ++ 0%N :: [2]) = chars "NNSXSAAC" /\
  omap (fun '(n, d) => firstn n d) (decode B32 (chars "NNSXSAAB") (repeat 7 9)) = Ret (chars "key") /\ omap (fun '(n, d) => firstn n d) (decode B32 (chars "NNSXSAAC") (repeat 7 9)) = Ret (chars "key") /\
  zeros_at_end (skipn (before_last Base32 (chars "key" ++ [0; 0])) (chars "key" ++ [0; 0])) /\ choice_lib A_SHA1 int_piece (with_block 64 64) lib_SHA1 64 20.
Proof. split; [vm_compute; reflexivity|]. split; [vm_compute; reflexivity|]. split; [vm_compute; reflexivity|]. split; [vm_compute; reflexivity|]. split; [exists 2%nat; vm_compute; reflexivity|]. constructor. Qed.
