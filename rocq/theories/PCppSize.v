(** Bounds on the cache sizes: the floating-point results are within 0.1% of the exact products. *)
From Coq Require Import List ZArith NArith Reals Psatz.
From Flocq Require Import Core Relative IEEE754.BinarySingleNaN.
From Verif Require Import MCppSize.
Local Open Scope R_scope.

Definition rnd (x : R) : R := round radix2 (SpecFloat.fexp 53 1024) (round_mode mode_NE) x.
Definition near (e x y : R) : Prop := x * (1 - e) <= y <= x * (1 + e).
Definition eps : R := / 1000000.

Lemma rnd_near x : x = 0 \/ / 1000 <= x -> near eps x (rnd x).
Proof.
  intros [->|H]. { unfold near, rnd. rewrite round_0 by apply valid_rnd_round_mode. lra. }
  unfold near, rnd. change (round_mode mode_NE) with ZnearestE. change (SpecFloat.fexp 53 1024) with (FLT_exp (-1074) 53).
  pose proof (relative_error_N_FLT radix2 (-1074) 53 eq_refl (fun z => negb (Z.even z)) x) as E.
  assert (P : bpow radix2 (-1074 + 53 - 1) <= Rabs x).
  { rewrite Rabs_pos_eq by lra. apply Rle_trans with (2 := H). apply Rle_trans with (bpow radix2 (-10)); [apply bpow_le; lia|]. cbn. lra. }
  specialize (E P). rewrite (Rabs_pos_eq x) in E by lra.
  assert (B : / 2 * bpow radix2 (- (53) + 1) <= eps).
  { apply Rle_trans with (/ 2 * bpow radix2 (-20)); [apply Rmult_le_compat_l; [lra|apply bpow_le; lia]|]. cbn. unfold eps. lra. }
  assert (E' : Rabs (round radix2 (FLT_exp (-1074) 53) ZnearestE x - x) <= eps * x).
  { eapply Rle_trans; [exact E|]. apply Rmult_le_compat_r; [lra|exact B]. }
  apply Rabs_le_inv in E'. lra.
Qed.
Lemma below_max x : 0 <= x <= 1000 * bpow radix2 100 -> near eps x (rnd x) -> Rlt_bool (Rabs (rnd x)) (bpow radix2 1024) = true.
Proof.
  intros H [N1 N2]. unfold eps in *. apply Rlt_bool_true. rewrite Rabs_pos_eq by nra.
  apply Rle_lt_trans with (2000 * bpow radix2 100); [nra|].
  apply Rle_lt_trans with (bpow radix2 11 * bpow radix2 100). { apply Rmult_le_compat_r; [apply bpow_ge_0|]. cbn. lra. }
  rewrite <- bpow_plus. apply bpow_lt. lia.
Qed.

(** a finite non-negative double, zero or not too small *)
Definition sane (b : R) (x : binary64) : Prop := is_finite x = true /\ (B2R x = 0 \/ / 10 <= B2R x) /\ B2R x <= b.
Lemma mul_near x y b c : sane b x -> sane c y -> / 10 <= B2R y -> 0 <= b -> 0 <= c -> b * c <= 1000 * bpow radix2 100 ->
  is_finite (dmul x y) = true /\ near eps (B2R x * B2R y) (B2R (dmul x y)).
Proof.
  intros (Fx & Zx & Bx) (Fy & Zy & By) Ly Hb Hc Hbc.
  assert (P : B2R x * B2R y = 0 \/ / 1000 <= B2R x * B2R y). { destruct Zx as [->|Zx]; [left; ring|right; nra]. }
  assert (Q : 0 <= B2R x * B2R y <= 1000 * bpow radix2 100). { split; [nra|]. apply Rle_trans with (b * c); [|exact Hbc]. apply Rmult_le_compat; try lra. }
  pose proof (rnd_near _ P) as N. pose proof (below_max _ Q N) as M.
  unfold dmul. pose proof (Bmult_correct 53 1024 b64_gt b64_lt mode_NE x y) as C. unfold rnd in M, N. rewrite M in C.
  destruct C as (E & F & _). rewrite E, F, Fx, Fy. split; [reflexivity|exact N].
Qed.
Lemma of_int_near z : (0 <= z < 2 ^ 64)%Z -> is_finite (of_int z) = true /\ near eps (IZR z) (B2R (of_int z)).
Proof.
  intros Hz. assert (P : IZR z = 0 \/ / 1000 <= IZR z). { destruct (Z.eq_dec z 0) as [->|]; [left; reflexivity|right]. apply Rle_trans with 1; [lra|]. apply IZR_le. lia. }
  assert (Q : 0 <= IZR z <= 1000 * bpow radix2 100).
  { split; [apply IZR_le; lia|]. apply Rle_trans with (IZR (2 ^ 100)); [apply IZR_le; lia|]. change (2 ^ 100)%Z with (radix2 ^ 100)%Z. rewrite (IZR_Zpower radix2 100) by lia. pose proof (bpow_ge_0 radix2 100). lra. }
  pose proof (rnd_near _ P) as N. pose proof (below_max _ Q N) as M.
  pose proof (binary_normalize_correct 53 1024 b64_gt b64_lt mode_NE z 0 false) as C.
  assert (F : F2R (Float radix2 z 0) = IZR z). { unfold F2R. cbn. ring. }
  rewrite F in C. cbv zeta in C. unfold rnd in M, N. rewrite M in C. destruct C as (E & Fi & _). unfold of_int. rewrite E, Fi. split; [reflexivity|exact N].
Qed.

Lemma ceil_size_correct x : is_finite x = true -> ceil_size x = Some (Zceil (B2R x)).
Proof.
  destruct x as [s|s| |s m e H]; try discriminate; intros _; cbn [ceil_size B2R].
  - rewrite Zceil_IZR. reflexivity.
  - f_equal. unfold F2R. cbn [Fnum Fexp]. destruct (Z.leb_spec 0 e) as [L|L].
    + rewrite <- (IZR_Zpower radix2 e L). rewrite <- mult_IZR, Zceil_IZR. reflexivity.
    + unfold Zceil. f_equal. rewrite <- Zfloor_div by (apply Z.pow_nonzero; lia). f_equal.
      rewrite opp_IZR. change (2 ^ (- e))%Z with (radix2 ^ (- e))%Z. rewrite (IZR_Zpower radix2 (- e)) by lia. rewrite bpow_opp. unfold Rdiv. rewrite Rinv_inv. ring.
Qed.

(** the three ratios and their inverses, and the literal 1.2 *)
Lemma div_consts : forall a b, In (a, b) ((12, 10) :: (8, 4) :: (8, 5) :: (8, 6) :: (4, 8) :: (5, 8) :: (6, 8) :: nil)%Z ->
  is_finite (ddiv (of_int a) (of_int b)) = true /\ near (3 * eps) (IZR a / IZR b) (B2R (ddiv (of_int a) (of_int b))).
Proof.
  intros a b H.
  assert (R : (4 <= a <= 12 /\ 4 <= b <= 10)%Z) by (cbn [In] in H; repeat (destruct H as [H|H]; [injection H as <- <-; lia|]); destruct H).
  assert (Ra : 4 <= IZR a <= 12) by (split; apply IZR_le; lia). assert (Rb : 4 <= IZR b <= 10) by (split; apply IZR_le; lia). clear H.
  destruct (of_int_near a) as (Fa & Na1 & Na2); [lia|]. destruct (of_int_near b) as (Fb & Nb1 & Nb2); [lia|].
  assert (Ea : B2R (of_int a) = IZR a). { pose proof (binary_normalize_correct 53 1024 b64_gt b64_lt mode_NE a 0 false) as C. assert (F : F2R (Float radix2 a 0) = IZR a) by (unfold F2R; cbn; ring).
    rewrite F in C. cbv zeta in C. rewrite round_generic in C; [|apply valid_rnd_round_mode|].
    - rewrite Rlt_bool_true in C; [apply C|]. rewrite Rabs_pos_eq by lra. apply Rle_lt_trans with (bpow radix2 4); [cbn; lra|]. apply bpow_lt. lia.
    - rewrite <- F. change (SpecFloat.fexp 53 1024) with (FLT_exp (-1074) 53). apply generic_format_FLT. exists (Float radix2 a 0); [reflexivity|cbn; lia|cbn; lia]. }
  assert (Eb : B2R (of_int b) = IZR b). { pose proof (binary_normalize_correct 53 1024 b64_gt b64_lt mode_NE b 0 false) as C. assert (F : F2R (Float radix2 b 0) = IZR b) by (unfold F2R; cbn; ring).
    rewrite F in C. cbv zeta in C. rewrite round_generic in C; [|apply valid_rnd_round_mode|].
    - rewrite Rlt_bool_true in C; [apply C|]. rewrite Rabs_pos_eq by lra. apply Rle_lt_trans with (bpow radix2 4); [cbn; lra|]. apply bpow_lt. lia.
    - rewrite <- F. change (SpecFloat.fexp 53 1024) with (FLT_exp (-1074) 53). apply generic_format_FLT. exists (Float radix2 b 0); [reflexivity|cbn; lia|cbn; lia]. }
  assert (Q : / 4 <= IZR a / IZR b <= 4).
  { assert (/ 10 <= / IZR b <= / 4) by (split; apply Rinv_le; lra). unfold Rdiv. split; nra. }
  assert (N : near eps (IZR a / IZR b) (rnd (IZR a / IZR b))) by (apply rnd_near; right; lra).
  assert (M : Rlt_bool (Rabs (rnd (IZR a / IZR b))) (bpow radix2 1024) = true).
  { apply below_max; [|exact N]. split; [lra|]. apply Rle_trans with (1000 * 1); [lra|]. apply Rmult_le_compat_l; [lra|]. change 1 with (bpow radix2 0). apply bpow_le. lia. }
  pose proof (Bdiv_correct 53 1024 b64_gt b64_lt mode_NE (of_int a) (of_int b)) as C. rewrite Ea, Eb in C. unfold rnd in M, N. rewrite M in C.
  destruct C as (E & F & _); [lra|]. unfold ddiv. rewrite E, F. split; [exact Fa|]. unfold near, eps in *. nra.
Qed.

Lemma space_bounds a b len : In (a, b) ((8, 4) :: (8, 5) :: (8, 6) :: (4, 8) :: (5, 8) :: (6, 8) :: nil)%Z -> (0 <= len < 2 ^ 62)%Z ->
  exists sz, ceil_size (dmul (dmul (of_int len) (ddiv (of_int a) (of_int b))) SPACE_MULTIPLE) = Some sz /\
    (len * a * 12 * 999 <= sz * b * 10 * 1000)%Z /\ ((sz - 1) * b * 10 * 1000 <= len * a * 12 * 1001)%Z.
Proof.
  intros H Hl. destruct (div_consts a b) as (F1 & N1 & N2); [right; exact H|]. destruct (div_consts 12 10) as (F2 & M1 & M2); [left; reflexivity|].
  assert (R : (4 <= a <= 12 /\ 4 <= b <= 10)%Z) by (cbn [In] in H; repeat (destruct H as [H|H]; [injection H as <- <-; lia|]); destruct H).
  assert (Ra : 4 <= IZR a <= 12) by (split; apply IZR_le; lia). assert (Rb : 4 <= IZR b <= 10) by (split; apply IZR_le; lia). clear H.
  assert (Q : / 4 <= IZR a / IZR b <= 4).
  { assert (/ 10 <= / IZR b <= / 4) by (split; apply Rinv_le; lra). unfold Rdiv. split; nra. }
  destruct (of_int_near len) as (F0 & L1 & L2); [lia|]. fold SPACE_MULTIPLE in F2, M1, M2.
  assert (Hl0 : 0 <= IZR len) by (apply IZR_le; lia).
  assert (Hl1 : IZR len <= bpow radix2 62) by (rewrite <- (IZR_Zpower radix2 62) by lia; apply IZR_le; cbn; lia).
  set (x0 := B2R (of_int len)) in *. set (q := IZR a / IZR b) in *. set (r := B2R (ddiv (of_int a) (of_int b))) in *. set (m := B2R SPACE_MULTIPLE) in *.
  replace (12 / 10) with 1.2 in * by lra. unfold eps in *. pose proof (bpow_gt_0 radix2 62) as P62.
  assert (Z0 : IZR len = 0 \/ 1 <= IZR len). { destruct (Z.eq_dec len 0) as [->|]; [left; reflexivity|right; apply IZR_le; lia]. }
  assert (B100 : bpow radix2 62 <= bpow radix2 100) by (apply bpow_le; lia).
  assert (S0 : sane (2 * bpow radix2 62) (of_int len)). { split; [exact F0|]. fold x0. split; [|nra]. destruct Z0 as [E|E]; [left; rewrite E in *; lra|right; nra]. }
  assert (S1 : sane 5 (ddiv (of_int a) (of_int b))). { split; [exact F1|]. fold r. split; [right; nra|nra]. }
  destruct (mul_near _ _ _ _ S0 S1) as (F3 & K1 & K2); [fold r; nra|lra|lra|lra|]. fold x0 r in K1, K2.
  set (x1 := B2R (dmul (of_int len) (ddiv (of_int a) (of_int b)))) in *. unfold eps in *.
  assert (X1lo : IZR len * q * (1 - / 1000000) * (1 - 3 * / 1000000) * (1 - / 1000000) <= x1).
  { assert (IZR len * (1 - / 1000000) * (q * (1 - 3 * / 1000000)) <= x0 * r) by (apply Rmult_le_compat; nra). nra. }
  assert (X1hi : x1 <= IZR len * q * (1 + / 1000000) * (1 + 3 * / 1000000) * (1 + / 1000000)).
  { assert (x0 * r <= IZR len * (1 + / 1000000) * (q * (1 + 3 * / 1000000))) by (apply Rmult_le_compat; nra). nra. }
  assert (Hlq : 0 <= IZR len * q) by nra.
  assert (S2 : sane (10 * bpow radix2 62) (dmul (of_int len) (ddiv (of_int a) (of_int b)))).
  { split; [exact F3|]. fold x1. split; [|nra]. destruct Z0 as [E|E].
    - left. rewrite E in *. lra.
    - right. assert (/ 4 <= IZR len * q) by nra. nra. }
  assert (S3 : sane 5 SPACE_MULTIPLE). { split; [exact F2|]. fold m. split; [right; lra|lra]. }
  destruct (mul_near _ _ _ _ S2 S3) as (F4 & J1 & J2); [fold m; lra|lra|lra|lra|]. fold x1 m in J1, J2.
  set (x2 := B2R (dmul (dmul (of_int len) (ddiv (of_int a) (of_int b))) SPACE_MULTIPLE)) in *. unfold eps in *.
  assert (X1p : 0 <= x1) by (eapply Rle_trans; [|exact X1lo]; nra).
  exists (Zceil x2). split; [apply ceil_size_correct; exact F4|].
  assert (X2lo : IZR len * q * 1.2 * 0.999 <= x2).
  { assert (x1 * (1.2 * (1 - 3 * / 1000000)) <= x1 * m) by (apply Rmult_le_compat_l; lra). nra. }
  assert (X2hi : x2 <= IZR len * q * 1.2 * 1.001).
  { assert (x1 * m <= x1 * (1.2 * (1 + 3 * / 1000000))) by (apply Rmult_le_compat_l; lra). nra. }
  assert (Eq : q * IZR b = IZR a) by (unfold q; field; lra).
  pose proof (Zceil_ub x2) as U. assert (V : IZR (Zceil x2) - 1 <= x2). { pose proof (Zceil_lb x2) as W. lra. }
  split; apply le_IZR; rewrite !mult_IZR, ?minus_IZR.
  - apply Rle_trans with (x2 * IZR b * 10 * 1000); [|nra]. rewrite <- Eq. nra.
  - apply Rle_trans with (x2 * IZR b * 10 * 1000); [nra|]. rewrite <- Eq. nra.
Qed.
Lemma enc_space_bounds b len : In b (4 :: 5 :: 6 :: nil)%Z -> (0 <= len < 2 ^ 62)%Z ->
  exists sz, enc_space b len = Some sz /\ (len * 8 * 12 * 999 <= sz * b * 10 * 1000)%Z /\ ((sz - 1) * b * 10 * 1000 <= len * 8 * 12 * 1001)%Z.
Proof. intros H. apply space_bounds. cbn [In] in *. intuition (subst; auto). Qed.
Lemma dec_space_bounds b len : In b (4 :: 5 :: 6 :: nil)%Z -> (0 <= len < 2 ^ 62)%Z ->
  exists sz, dec_space b len = Some sz /\ (len * b * 12 * 999 <= sz * 8 * 10 * 1000)%Z /\ ((sz - 1) * 8 * 10 * 1000 <= len * b * 12 * 1001)%Z.
Proof. intros H. apply space_bounds. cbn [In] in *. intuition (subst; auto). Qed.
