(** Facts for C32: bounds for pi by exact integer arithmetic, from pi/4 = 2 atan(1/3) + atan(1/7) (standard library, Machin.v). *)
From Coq Require Import Bool Reals Lra Lia ZArith Ratan Machin.
Local Open Scope R_scope.

(** ** The terms of the series of atan(1/q), times K, rounded down; [series K q n]: floor(K / q^(2n+1)), sum of the terms 0..n *)
Fixpoint series (K q : Z) (n : nat) : Z * Z :=
  match n with
  | O => (K / q, K / q)%Z
  | S m => let '(p, s) := series K q m in let p := (p / (q * q))%Z in (p, if Nat.even n then s + p / Z.of_nat (2 * n + 1) else s - p / Z.of_nat (2 * n + 1))%Z
  end.
Lemma series_fst K q n : (0 < q)%Z -> fst (series K q n) = (K / q ^ (2 * Z.of_nat n + 1))%Z.
Proof.
  intros Q. induction n as [|n IH]; [cbn [series fst]; change (2 * Z.of_nat 0 + 1)%Z with 1%Z; rewrite Z.pow_1_r; reflexivity|]. cbn [series]. destruct (series K q n) as [p s]. cbn [fst] in *. subst p.
  rewrite Z.div_div by (try (apply Z.pow_pos_nonneg; lia); nia). f_equal. rewrite <- Z.pow_2_r, <- Z.pow_add_r by lia. f_equal. lia.
Qed.
Lemma floor_bounds a b : (0 < b)%Z -> IZR (a / b) <= IZR a / IZR b < IZR (a / b) + 1.
Proof.
  intros B. pose proof (Z.div_mod a b ltac:(lia)) as D. pose proof (Z.mod_pos_bound a b B) as M. pose proof (IZR_lt _ _ B) as B'.
  assert (E : IZR a = IZR b * IZR (a / b) + IZR (a mod b)) by (rewrite <- mult_IZR, <- plus_IZR; f_equal; exact D).
  destruct M as [M1 M2]. apply IZR_le in M1. apply IZR_lt in M2. rewrite E.
  split; [apply (Rmult_le_reg_r (IZR b)); [lra|]; unfold Rdiv; rewrite Rmult_assoc, Rinv_l by lra; lra|].
  apply (Rmult_lt_reg_r (IZR b)); [lra|]. unfold Rdiv. rewrite Rmult_assoc, Rinv_l by lra. lra.
Qed.
Lemma seq_term K q n : (0 < q)%Z -> IZR K * Ratan_seq (/ IZR q) n = IZR K / IZR (q ^ (2 * Z.of_nat n + 1) * Z.of_nat (2 * n + 1)).
Proof.
  intros Q. pose proof (IZR_lt _ _ Q) as Q'. unfold Ratan_seq. rewrite mult_IZR, <- (INR_IZR_INZ (2 * n + 1)).
  replace (q ^ (2 * Z.of_nat n + 1))%Z with (q ^ Z.of_nat (2 * n + 1))%Z by (f_equal; lia).
  rewrite <- pow_IZR. assert (P : INR (2 * n + 1) <> 0) by (apply not_0_INR; lia). assert (W : IZR q ^ (2 * n + 1) <> 0) by (apply pow_nonzero; lra).
  rewrite pow_inv. field. split; assumption.
Qed.
Lemma series_close K q n : (0 < q)%Z -> Rabs (IZR K * sum_f_R0 (tg_alt (Ratan_seq (/ IZR q))) n - IZR (snd (series K q n))) <= INR (S n).
Proof.
  intros Q. induction n as [|n IH].
  - cbn [sum_f_R0 series snd]. unfold tg_alt. cbn [pow]. rewrite Rmult_1_l, seq_term by exact Q.
    pose proof (floor_bounds K q Q) as F. replace (q ^ (2 * Z.of_nat 0 + 1) * Z.of_nat (2 * 0 + 1))%Z with q by (change (2 * Z.of_nat 0 + 1)%Z with 1%Z; rewrite Z.pow_1_r; change (Z.of_nat (2 * 0 + 1)) with 1%Z; ring).
    change (INR 1) with 1. apply Rabs_le. lra.
  - cbn [sum_f_R0 series]. pose proof (series_fst K q n Q) as P. destruct (series K q n) as [p s]. cbn [fst snd] in *. subst p.
    set (T := IZR K * Ratan_seq (/ IZR q) (S n)). set (t := (K / q ^ (2 * Z.of_nat n + 1) / (q * q) / Z.of_nat (2 * S n + 1))%Z).
    assert (B : IZR t <= T < IZR t + 1).
    { unfold T, t. rewrite seq_term by exact Q. assert (0 < q ^ (2 * Z.of_nat n + 1))%Z by (apply Z.pow_pos_nonneg; lia).
      rewrite !Z.div_div, Z.mul_assoc by nia. replace (q ^ (2 * Z.of_nat (S n) + 1))%Z with (q ^ (2 * Z.of_nat n + 1) * (q * q))%Z
        by (rewrite <- Z.pow_2_r, <- Z.pow_add_r by lia; f_equal; lia). apply floor_bounds. nia. }
    rewrite Rmult_plus_distr_l, (S_INR (S n)). unfold tg_alt at 2.
    replace (IZR K * ((-1) ^ S n * Ratan_seq (/ IZR q) (S n))) with ((-1) ^ S n * T) by (unfold T; ring).
    assert (P : (-1) ^ S n = if Nat.even (S n) then 1 else -1).
    { destruct (Nat.even (S n)) eqn:E; [apply Nat.even_spec in E as [m E]; rewrite E; apply pow_1_even|].
      rewrite <- Nat.negb_odd in E. apply negb_false_iff, Nat.odd_spec in E as [m E]. rewrite E. replace (2 * m + 1)%nat with (S (2 * m)) by lia. apply pow_1_odd. }
    rewrite P. apply Rabs_le. unfold Rabs in IH. destruct (Rcase_abs _) in IH; destruct (Nat.even (S n)); rewrite ?plus_IZR, ?minus_IZR; lra.
Qed.

(** ** pi *)
Lemma PI_sum n : sum_f_R0 (tg_alt PI_2_3_7_tg) n = 2 * sum_f_R0 (tg_alt (Ratan_seq (/ 3))) n + sum_f_R0 (tg_alt (Ratan_seq (/ 7))) n.
Proof. induction n as [|n IH]; cbn [sum_f_R0]; [|rewrite IH]; unfold tg_alt, PI_2_3_7_tg; ring. Qed.
Definition pi_part (K : Z) (n : nat) : Z := (2 * snd (series K 3 n) + snd (series K 7 n))%Z.
Lemma pi_part_close K n : Rabs (IZR K * sum_f_R0 (tg_alt PI_2_3_7_tg) n - IZR (pi_part K n)) <= 3 * INR (S n).
Proof.
  pose proof (series_close K 3 n ltac:(lia)) as A. pose proof (series_close K 7 n ltac:(lia)) as B. rewrite PI_sum. unfold pi_part. rewrite plus_IZR, mult_IZR.
  apply Rabs_le. unfold Rabs in A, B. destruct (Rcase_abs _) in A; destruct (Rcase_abs _) in B; lra.
Qed.
(** with [G] more binary digits than wanted *)
Lemma pi_floor (W G : Z) (N : nat) (k : Z) : (0 <= W)%Z -> (0 <= G)%Z ->
  (k * 2 ^ G + 12 * Z.of_nat (2 * N + 2) <= 4 * pi_part (2 ^ (W + G)) (S (2 * N)))%Z ->
  (4 * pi_part (2 ^ (W + G)) (2 * N) + 12 * Z.of_nat (2 * N + 1) < (k + 1) * 2 ^ G)%Z ->
  IZR k <= IZR (2 ^ W) * PI < IZR k + 1.
Proof.
  intros HW HG L U. pose proof (PI_2_3_7_ineq N) as [A B].
  pose proof (pi_part_close (2 ^ (W + G)) (S (2 * N))) as CA. pose proof (pi_part_close (2 ^ (W + G)) (2 * N)) as CB.
  set (K := (2 ^ (W + G))%Z) in *. assert (KE : IZR K = IZR (2 ^ W) * IZR (2 ^ G)) by (unfold K; rewrite Z.pow_add_r by lia; apply mult_IZR).
  assert (G0 : 0 < IZR (2 ^ G)) by (apply IZR_lt, Z.pow_pos_nonneg; lia). assert (W0 : 0 < IZR (2 ^ W)) by (apply IZR_lt, Z.pow_pos_nonneg; lia).
  assert (K0 : 0 < IZR K) by (rewrite KE; apply Rmult_lt_0_compat; assumption).
  apply IZR_le in L. apply IZR_lt in U. rewrite !plus_IZR, !mult_IZR, <- ?INR_IZR_INZ in L, U. rewrite ?plus_IZR in U.
  replace (2 * N + 2)%nat with (S (S (2 * N))) in L by lia. replace (2 * N + 1)%nat with (S (2 * N)) in U by lia.
  apply (Rmult_le_compat_l (IZR K)) in A; [|lra]. apply (Rmult_le_compat_l (IZR K)) in B; [|lra].
  assert (PE : IZR K * (PI / 4) * 4 = IZR (2 ^ W) * PI * IZR (2 ^ G)) by (rewrite KE; field).
  set (X := IZR K * (PI / 4)) in *. set (Y := IZR (2 ^ W) * PI) in *.
  unfold Rabs in CA, CB. split.
  - apply (Rmult_le_reg_r (IZR (2 ^ G))); [exact G0|]. rewrite <- PE. destruct (Rcase_abs _) in CA; lra.
  - apply (Rmult_lt_reg_r (IZR (2 ^ G))); [exact G0|]. rewrite <- PE. destruct (Rcase_abs _) in CB; lra.
Qed.
(** a wider floor gives a narrower one *)
Lemma floor_shift (W D k : Z) x : (0 <= W)%Z -> (0 <= D)%Z -> IZR k <= IZR (2 ^ (W + D)) * x < IZR k + 1 ->
  IZR (k / 2 ^ D) <= IZR (2 ^ W) * x < IZR (k / 2 ^ D) + 1.
Proof.
  intros HW HD [L U]. rewrite Z.pow_add_r, mult_IZR in L, U by lia. assert (D0 : (0 < 2 ^ D)%Z) by (apply Z.pow_pos_nonneg; lia).
  pose proof (Z.div_mod k (2 ^ D) ltac:(lia)) as E. pose proof (Z.mod_pos_bound k (2 ^ D) D0) as M.
  assert (A : (k / 2 ^ D * 2 ^ D <= k)%Z) by nia. assert (B : (k + 1 <= (k / 2 ^ D + 1) * 2 ^ D)%Z) by nia.
  apply IZR_le in A, B. apply IZR_lt in D0. rewrite mult_IZR in A. rewrite mult_IZR, !plus_IZR in B.
  split; [apply (Rmult_le_reg_r (IZR (2 ^ D))) | apply (Rmult_lt_reg_r (IZR (2 ^ D)))]; try exact D0; lra.
Qed.
