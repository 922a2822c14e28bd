(** A uniform view of the eight functions, used by the theorems. *)
From Verif Require Import Base MSha MFront MKeccak SFips202 SHash SKeccakFns PWords PSha PKeccak PSponge PSponge2.
Local Open Scope N_scope.

Definition set_out (c : kctx) (o : N) : kctx :=
  mkK (kst c) (queue c) (rate c) (inq c) o (nr c) (squeezing c) (squeezable c) (ap c) (aplen c) (apadded c).
Lemma kfed_set_out lanes O P L m c o : kfed lanes O P L m c -> kfed lanes o P L m (set_out c o).
Proof. intros (bs & r & q & A & B & C & D & E & ->). exists bs, r, q. repeat (split; [assumption|]). reflexivity. Qed.
Lemma sq_set_out lanes O P L st p c o : sq lanes O P L st p c -> sq lanes o P L st p (set_out c o).
Proof. intros (k & q & v & A & B & C & ->). exists k, q, v. repeat (split; [assumption|]). reflexivity. Qed.

Record kview (I : hash_impl) (rb : nat) (H : list N -> list N) := {
  v_lanes : nat; v_n : nat; v_O : N; v_P : N; v_L : N;
  v_dig : kctx -> list N -> outcome (kctx * list N);
  v_I : I = mkImpl kctx kshape (keccak_init (N.of_nat (1600 - 64 * v_lanes)) v_O v_P v_L) keccak_update v_dig rb v_n;
  v_rb : rb = (8 * v_lanes)%nat;
  v_lanes_ok : (1 <= v_lanes <= 24)%nat;
  v_PL : (v_P = 2 /\ v_L = 2) \/ (v_P = 15 /\ v_L = 4) \/ (v_P = 3 /\ v_L = 2);
  v_H : forall m, bytes_ok m -> H m = sbytes v_lanes (final v_lanes v_P v_L m) 0 v_n;
  v_first : forall m c out, kfed v_lanes v_O v_P v_L m c -> bytes_ok m -> (v_n <= length out)%nat ->
    exists c' o, v_dig c out = Ret (c', sbytes v_lanes (final v_lanes v_P v_L m) 0 v_n ++ skipn v_n out) /\
      sq v_lanes o v_P v_L (final v_lanes v_P v_L m) v_n c';
  v_next : forall st c out p o, sq v_lanes o v_P v_L st p c -> (exists m, bytes_ok m /\ o = 8 * N.of_nat v_n /\ st = final v_lanes v_P v_L m) ->
    (v_n <= length out)%nat ->
    exists c' o', v_dig c out = Ret (c', sbytes v_lanes st p v_n ++ skipn v_n out) /\ sq v_lanes o' v_P v_L st (p + v_n) c' }.

Lemma sha3_view lanes n cap out H : (1 <= lanes <= 24)%nat -> cap = N.of_nat (1600 - 64 * lanes) -> out = 8 * N.of_nat n -> out < 2 ^ 32 ->
  (forall m, bytes_ok m -> H m = sbytes lanes (final lanes 2 2 m) 0 n) -> exists v : kview (sha3_impl cap out) (8 * lanes) H, True.
Proof.
  intros Hl -> -> Hb HH. assert (HPL : ((2 = 2 /\ 2 = 2) \/ (2 = 15 /\ 2 = 4) \/ (2 = 3 /\ 2 = 2)) ) by (left; split; reflexivity).
  unshelve eexists; [|exact Logic.I].
  refine (Build_kview _ _ _ lanes n (8 * N.of_nat n) 2 2 keccak_squeeze _ eq_refl Hl HPL HH _ _).
  - unfold sha3_impl. f_equal; lia.
  - intros m c out Hf Hm Ho. destruct (first_squeeze lanes Hl 2 2 HPL m c out n Hf Hm Ho Hb) as (c' & E & S). eauto.
  - intros st c out p o Hs (m & Hm & Eo & ->) Ho. rewrite Eo in Hs.
    destruct (next_squeeze lanes Hl 2 2 HPL _ c out p n Hs) as (c' & E & S); auto. { apply final_ok; auto. } eauto.
Qed.
Lemma xof_first lanes n P L m c out O : (1 <= lanes <= 24)%nat -> (P = 2 /\ L = 2) \/ (P = 15 /\ L = 4) \/ (P = 3 /\ L = 2) ->
  8 * N.of_nat n < 2 ^ 32 -> kfed lanes O P L m c -> bytes_ok m -> (n <= length out)%nat ->
  exists c', shake_digest (8 * N.of_nat n) c out = Ret (c', sbytes lanes (final lanes P L m) 0 n ++ skipn n out) /\
    sq lanes (8 * N.of_nat n) P L (final lanes P L m) n c'.
Proof.
  intros Hl HPL Hb Hf Hm Ho. unfold shake_digest. replace (u32 (8 * N.of_nat n)) with (8 * N.of_nat n) by (unfold u32; rewrite N.mod_small; auto).
  apply first_squeeze; auto. apply (kfed_set_out _ _ _ _ _ _ _ Hf).
Qed.
Lemma xof_next lanes n P L m c out p O : (1 <= lanes <= 24)%nat -> (P = 2 /\ L = 2) \/ (P = 15 /\ L = 4) \/ (P = 3 /\ L = 2) ->
  8 * N.of_nat n < 2 ^ 32 -> sq lanes O P L (final lanes P L m) p c -> bytes_ok m -> (n <= length out)%nat ->
  exists c', shake_digest (8 * N.of_nat n) c out = Ret (c', sbytes lanes (final lanes P L m) p n ++ skipn n out) /\
    sq lanes (8 * N.of_nat n) P L (final lanes P L m) (p + n) c'.
Proof.
  intros Hl HPL Hb Hf Hm Ho. unfold shake_digest. replace (u32 (8 * N.of_nat n)) with (8 * N.of_nat n) by (unfold u32; rewrite N.mod_small; auto).
  apply next_squeeze; auto; [apply (sq_set_out _ _ _ _ _ _ _ _ Hf)|apply final_ok; auto].
Qed.
Lemma xof_view lanes n cap P L H : (1 <= lanes <= 24)%nat -> cap = N.of_nat (1600 - 64 * lanes) -> 8 * N.of_nat n < 2 ^ 32 ->
  (P = 2 /\ L = 2) \/ (P = 15 /\ L = 4) \/ (P = 3 /\ L = 2) ->
  (forall m, bytes_ok m -> H m = sbytes lanes (final lanes P L m) 0 n) -> exists v : kview (xof_impl cap P L (8 * N.of_nat n)) (8 * lanes) H, True.
Proof.
  intros Hl -> Hb HPL HH. unshelve eexists; [|exact Logic.I].
  refine (Build_kview _ _ _ lanes n 0 P L (shake_digest (8 * N.of_nat n)) _ eq_refl Hl HPL HH _ _).
  - unfold xof_impl. f_equal; lia.
  - intros m c out Hf Hm Ho. destruct (xof_first lanes n P L m c out 0) as (c' & E & S); auto. eauto.
  - intros st c out p o Hs (m & Hm & _ & ->) Ho. destruct (xof_next lanes n P L m c out p o) as (c' & E & S); auto. eauto.
Qed.

Lemma sha3_spec cap d lanes n m : (1 <= lanes <= 24)%nat -> cap = (1600 - 64 * lanes)%nat -> d = (8 * n)%nat -> bytes_ok m ->
  sha3 cap d m = sbytes lanes (final lanes 2 2 m) 0 n.
Proof.
  intros Hl -> -> Hm. unfold sha3, KECCAK. replace (1600 - (1600 - 64 * lanes))%nat with (64 * lanes)%nat by lia.
  rewrite <- sponge_bytes by auto. reflexivity.
Qed.
Lemma shake_spec cap d lanes n m : (1 <= lanes <= 24)%nat -> cap = (1600 - 64 * lanes)%nat -> d = (8 * n)%nat -> bytes_ok m ->
  bytes_of_bits (KECCAK cap (bits_of_bytes m ++ [true; true; true; true]) d) = sbytes lanes (final lanes 15 4 m) 0 n.
Proof.
  intros Hl -> -> Hm. unfold KECCAK. replace (1600 - (1600 - 64 * lanes))%nat with (64 * lanes)%nat by lia.
  rewrite <- sponge_bytes by auto. reflexivity.
Qed.
Lemma rawshake_spec cap d lanes n m : (1 <= lanes <= 24)%nat -> cap = (1600 - 64 * lanes)%nat -> d = (8 * n)%nat -> bytes_ok m ->
  bytes_of_bits (KECCAK cap (bits_of_bytes m ++ [true; true]) d) = sbytes lanes (final lanes 3 2 m) 0 n.
Proof.
  intros Hl -> -> Hm. unfold KECCAK. replace (1600 - (1600 - 64 * lanes))%nat with (64 * lanes)%nat by lia.
  rewrite <- sponge_bytes by auto. reflexivity.
Qed.

Lemma keccak_view I rb H : keccak_fn I rb H -> exists v : kview I rb H, True.
Proof.
  intros K. destruct K.
  - apply (sha3_view 18 28); try lia. intros m Hm. apply sha3_spec; auto; lia.
  - apply (sha3_view 17 32); try lia. intros m Hm. apply sha3_spec; auto; lia.
  - apply (sha3_view 13 48); try lia. intros m Hm. apply sha3_spec; auto; lia.
  - apply (sha3_view 9 64); try lia. intros m Hm. apply sha3_spec; auto; lia.
  - apply (xof_view 21 n); auto; try lia. intros m Hm. apply shake_spec; auto; lia.
  - apply (xof_view 17 n); auto; try lia. intros m Hm. apply shake_spec; auto; lia.
  - apply (xof_view 21 n); auto; try lia. intros m Hm. apply rawshake_spec; auto; lia.
  - apply (xof_view 17 n); auto; try lia. intros m Hm. apply rawshake_spec; auto; lia.
Qed.

Lemma updates_k init dig rb n c ps : updates (mkImpl kctx kshape init keccak_update dig rb n) c ps = kupdates c ps.
Proof.
  revert c. induction ps as [|p ps IH]; intros c; [reflexivity|]. cbn [updates kupdates iupdate].
  destruct (keccak_update c p); cbn [bind]; [apply IH|reflexivity|reflexivity].
Qed.
