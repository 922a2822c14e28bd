(** Property theorems C84, continued: what SHA-3, SHAKE and RawSHAKE compute on a big-endian machine. [sha3_impl_on] and [xof_impl_on] are
    in MEndian.v; [sha3_swapped], [shake_swapped] and [rawshake_swapped] in SEndian.v; [streams] in SHash.v. *)
From Coq Require Import String.
From Verif Require Import Base SHex MSha MFront SHash SFips202 MKeccak MOtp MEndian SEndian PWords PSha PKeccak PSponge PSponge2 PEndian PSpongeOn PSponge2On.
Local Open Scope N_scope.

Lemma kfed_set_out_on ord lanes O P L m c o : kfed_on ord lanes O P L m c ->
  kfed_on ord lanes o P L m (mkK (kst c) (queue c) (rate c) (inq c) o (nr c) (squeezing c) (squeezable c) (ap c) (aplen c) (apadded c)).
Proof. intros (bs & r & q & A & B & C & D & E & ->). exists bs, r, q. repeat (split; [assumption|]). reflexivity. Qed.
Lemma updates_k_on ord init dig rb n c ps : updates (mkImpl kctx kshape init (keccak_update_on ord) dig rb n) c ps = kupdates_on ord c ps.
Proof.
  revert c. induction ps as [|p ps IH]; intros c; [reflexivity|]. cbn [updates kupdates_on iupdate].
  destruct (keccak_update_on ord c p); cbn [bind]; [apply IH|reflexivity|reflexivity].
Qed.

(** one digest function: lanes, suffix, and the number of bytes *)
Lemma streams_on ord lanes O P L dig rb n H : (1 <= lanes <= 24)%nat -> (P = 2 /\ L = 2) \/ (P = 15 /\ L = 4) \/ (P = 3 /\ L = 2) ->
  (forall m c out, kfed_on ord lanes O P L m c -> bytes_ok m -> (n <= length out)%nat ->
     exists c' o, dig c out = Ret (c', sbytes_on ord lanes (final_on ord lanes P L m) 0 n ++ skipn n out) /\ sq_on ord lanes o P L (final_on ord lanes P L m) n c') ->
  (forall m, bytes_ok m -> H m = sbytes_on ord lanes (final_on ord lanes P L m) 0 n) ->
  streams (mkImpl kctx kshape (keccak_init (N.of_nat (1600 - 64 * lanes)) O P L) (keccak_update_on ord) dig rb n) keccak_piece (fun _ => True) H.
Proof.
  intros Hl HPL HF HH g ps out Hg HP _ Ho. cbn [idsz iinit idigest typed] in *.
  destruct (updates_kfed_on ord lanes Hl P L HPL O ps [] (keccak_init (N.of_nat (1600 - 64 * lanes)) O P L g)) as (c & E & Hf); auto.
  { apply fed_init_on; auto. }
  pose proof (pieces_concat_bytes ps HP) as B. cbn [app] in Hf. destruct (HF (concat ps) c out Hf B Ho) as (c' & o & Ed & Sq).
  exists c, c'. rewrite updates_k_on, HH by exact B. split; [exact E|]. split; [exact Ed|]. split.
  - apply (sq_shape_on ord lanes P L o _ _ _ (final_ok_on ord lanes Hl P L HPL _ B) Sq).
  - apply sbytes_len_on.
Qed.
Lemma sha3_on ord lanes n cap out H : (1 <= lanes <= 24)%nat -> cap = N.of_nat (1600 - 64 * lanes) -> out = 8 * N.of_nat n -> out < 2 ^ 32 ->
  (forall m, bytes_ok m -> H m = sbytes_on ord lanes (final_on ord lanes 2 2 m) 0 n) -> streams (sha3_impl_on ord cap out) keccak_piece (fun _ => True) H.
Proof.
  intros Hl -> -> Hb HH. assert (HPL : ((2 = 2 /\ 2 = 2) \/ (2 = 15 /\ 2 = 4) \/ (2 = 3 /\ 2 = 2)) ) by (left; split; reflexivity).
  unfold sha3_impl_on. replace (N.to_nat (8 * N.of_nat n / 8)) with n by lia. apply streams_on; auto.
  intros m c o Hf Hm Ho. destruct (first_squeeze_on ord lanes Hl 2 2 HPL m c o n Hf Hm Ho Hb) as (c' & E & S). eauto.
Qed.
Lemma xof_on ord lanes n cap P L H : (1 <= lanes <= 24)%nat -> cap = N.of_nat (1600 - 64 * lanes) -> 8 * N.of_nat n < 2 ^ 32 ->
  (P = 2 /\ L = 2) \/ (P = 15 /\ L = 4) \/ (P = 3 /\ L = 2) ->
  (forall m, bytes_ok m -> H m = sbytes_on ord lanes (final_on ord lanes P L m) 0 n) ->
  streams (xof_impl_on ord cap P L (8 * N.of_nat n)) keccak_piece (fun _ => True) H.
Proof.
  intros Hl -> Hb HPL HH. unfold xof_impl_on. replace (N.to_nat (8 * N.of_nat n / 8)) with n by lia. apply streams_on; auto.
  intros m c o Hf Hm Ho. unfold shake_digest_on. replace (u32 (8 * N.of_nat n)) with (8 * N.of_nat n) by (unfold u32; rewrite N.mod_small; auto).
  destruct (first_squeeze_on ord lanes Hl P L HPL m _ o n (kfed_set_out_on _ _ _ _ _ _ _ (8 * N.of_nat n) Hf) Hm Ho Hb) as (c' & E & S). eauto.
Qed.
Lemma swapped_spec lanes r n sfx P L m : (1 <= lanes <= 24)%nat -> (P = 2 /\ L = 2) \/ (P = 15 /\ L = 4) \/ (P = 3 /\ L = 2) -> r = (64 * lanes)%nat ->
  sfx = suffix P L -> bytes_ok m ->
  bytes_of_bits (sponge_swapped r (bits_of_bytes m ++ sfx) (8 * n)) = sbytes_on BigEndian lanes (final_on BigEndian lanes P L m) 0 n.
Proof. intros Hl HPL -> -> Hm. apply sponge_bytes_be; auto. Qed.

(** For every message and every way of splitting it, and every output length of the extendable-output functions. *)
Theorem C84_sha3_big_endian :
  streams (sha3_impl_on BigEndian 448 224) keccak_piece (fun _ => True) (sha3_swapped 448 224) /\
  streams (sha3_impl_on BigEndian 512 256) keccak_piece (fun _ => True) (sha3_swapped 512 256) /\
  streams (sha3_impl_on BigEndian 768 384) keccak_piece (fun _ => True) (sha3_swapped 768 384) /\
  streams (sha3_impl_on BigEndian 1024 512) keccak_piece (fun _ => True) (sha3_swapped 1024 512).
Proof.
  split; [|split; [|split]].
  - apply (sha3_on BigEndian 18 28); try lia. intros m Hm. apply (swapped_spec 18 _ 28); auto; lia.
  - apply (sha3_on BigEndian 17 32); try lia. intros m Hm. apply (swapped_spec 17 _ 32); auto; lia.
  - apply (sha3_on BigEndian 13 48); try lia. intros m Hm. apply (swapped_spec 13 _ 48); auto; lia.
  - apply (sha3_on BigEndian 9 64); try lia. intros m Hm. apply (swapped_spec 9 _ 64); auto; lia.
Qed.
Theorem C84_xof_big_endian : forall n, 8 * N.of_nat n < 2 ^ 32 ->
  streams (xof_impl_on BigEndian 256 15 4 (8 * N.of_nat n)) keccak_piece (fun _ => True) (shake_swapped 256 (8 * n)) /\
  streams (xof_impl_on BigEndian 512 15 4 (8 * N.of_nat n)) keccak_piece (fun _ => True) (shake_swapped 512 (8 * n)) /\
  streams (xof_impl_on BigEndian 256 3 2 (8 * N.of_nat n)) keccak_piece (fun _ => True) (rawshake_swapped 256 (8 * n)) /\
  streams (xof_impl_on BigEndian 512 3 2 (8 * N.of_nat n)) keccak_piece (fun _ => True) (rawshake_swapped 512 (8 * n)).
Proof.
  intros n Hn. split; [|split; [|split]].
  - apply (xof_on BigEndian 21 n); auto; try lia. intros m Hm. apply swapped_spec; auto; lia.
  - apply (xof_on BigEndian 17 n); auto; try lia. intros m Hm. apply swapped_spec; auto; lia.
  - apply (xof_on BigEndian 21 n); auto; try lia. intros m Hm. apply swapped_spec; auto; lia.
  - apply (xof_on BigEndian 17 n); auto; try lia. intros m Hm. apply swapped_spec; auto; lia.
Qed.

(** ** concrete cases *)
(** two pieces, a context, and a request for 3 bytes *)
Example C84_sha3_hyps : typed (sha3_impl_on BigEndian 512 256) (mkK (repeat 5 25) (repeat 7 192) 0 0 0 0 false 0 0 0 false) /\ Forall keccak_piece [chars "ab"; chars "c"] /\ 8 * N.of_nat 3 < 2 ^ 32.
Proof.
  split; [split; reflexivity|]. split; [|reflexivity].
  apply Forall_forall. intros p [<-|[<-|[]]]; (split; [|discriminate]); repeat (constructor; [reflexivity|]); constructor.
Qed.

Print Assumptions C84_sha3_big_endian.
Print Assumptions C84_xof_big_endian.
