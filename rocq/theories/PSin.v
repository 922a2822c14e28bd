(** Facts for C32: enclosures of sin n and cos n for natural n, by exact integer arithmetic. *)
From Coq Require Import Bool Reals Lra Lia ZArith.
Local Open Scope R_scope.

(** ** sin 1 and cos 1: partial sums of the series as fractions *)
(** numerators over (2n+1)! and (2n)! *)
Fixpoint snum (n : nat) : Z := match n with O => 1 | S k => snum k * (Z.of_nat (2 * n) * Z.of_nat (2 * n + 1)) + (if Nat.even n then 1 else -1) end%Z.
Fixpoint sden (n : nat) : Z := match n with O => 1 | S k => sden k * (Z.of_nat (2 * n) * Z.of_nat (2 * n + 1)) end%Z.
Fixpoint cnum (n : nat) : Z := match n with O => 1 | S k => cnum k * (Z.of_nat (2 * n - 1) * Z.of_nat (2 * n)) + (if Nat.even n then 1 else -1) end%Z.
Fixpoint cden (n : nat) : Z := match n with O => 1 | S k => cden k * (Z.of_nat (2 * n - 1) * Z.of_nat (2 * n)) end%Z.
Lemma pow_m1 n : (-1) ^ n = IZR (if Nat.even n then 1 else -1)%Z.
Proof.
  induction n as [|n IH]; [reflexivity|]. cbn [pow]. rewrite IH. rewrite Nat.even_succ, <- Nat.negb_even. destruct (Nat.even n); cbn [negb]; lra.
Qed.
Lemma sden_fact n : IZR (sden n) = INR (fact (2 * n + 1)).
Proof.
  induction n as [|n IH]; [reflexivity|]. cbn [sden]. rewrite !mult_IZR, IH.
  replace (2 * S n + 1)%nat with (S (S (2 * n + 1))) by lia. rewrite !fact_simpl, !mult_INR, <- !INR_IZR_INZ.
  replace (S (2 * n + 1)) with (2 * S n)%nat by lia. replace (S (2 * S n)) with (2 * S n + 1)%nat by lia. ring.
Qed.
Lemma cden_fact n : IZR (cden n) = INR (fact (2 * n)).
Proof.
  induction n as [|n IH]; [reflexivity|]. cbn [cden]. rewrite !mult_IZR, IH.
  replace (2 * S n)%nat with (S (S (2 * n))) by lia. rewrite !fact_simpl, !mult_INR, <- !INR_IZR_INZ.
  replace (S (S (2 * n)) - 1)%nat with (S (2 * n)) by lia. ring.
Qed.
Lemma sden_pos n : (0 < sden n)%Z. Proof. induction n as [|n IH]; cbn [sden]; [lia|]. apply Z.mul_pos_pos; [exact IH|lia]. Qed.
Lemma cden_pos n : (0 < cden n)%Z. Proof. induction n as [|n IH]; cbn [cden]; [lia|]. apply Z.mul_pos_pos; [exact IH|lia]. Qed.
Lemma sin_sum n : sin_approx 1 n = IZR (snum n) / IZR (sden n).
Proof.
  induction n as [|n IH]; [unfold sin_approx; cbn [sum_f_R0]; unfold sin_term; cbn [pow Nat.mul Nat.add fact snum sden]; change (INR 1) with 1; field|].
  unfold sin_approx in *. cbn [sum_f_R0]. rewrite IH. unfold sin_term. rewrite pow1, pow_m1, <- sden_fact.
  pose proof (sden_pos n) as P1. pose proof (sden_pos (S n)) as P2. apply IZR_lt in P1, P2. cbn [snum sden] in P2 |- *. rewrite plus_IZR, !mult_IZR in *.
  set (u := IZR (Z.of_nat (2 * S n)) * IZR (Z.of_nat (2 * S n + 1))) in *.
  assert (U : u <> 0) by (intros E; rewrite E in P2; lra). field. split; [exact U|lra].
Qed.
Lemma cos_sum n : cos_approx 1 n = IZR (cnum n) / IZR (cden n).
Proof.
  induction n as [|n IH]; [unfold cos_approx; cbn [sum_f_R0]; unfold cos_term; cbn [pow Nat.mul Nat.add fact cnum cden]; change (INR 1) with 1; field|].
  unfold cos_approx in *. cbn [sum_f_R0]. rewrite IH. unfold cos_term. rewrite pow1, pow_m1, <- cden_fact.
  pose proof (cden_pos n) as P1. pose proof (cden_pos (S n)) as P2. apply IZR_lt in P1, P2. cbn [cnum cden] in P2 |- *. rewrite plus_IZR, !mult_IZR in *.
  set (u := IZR (Z.of_nat (2 * S n - 1)) * IZR (Z.of_nat (2 * S n))) in *.
  assert (U : u <> 0) by (intros E; rewrite E in P2; lra). field. split; [exact U|lra].
Qed.

Lemma Rabs_le_inv' a b : Rabs a <= b -> - b <= a <= b.
Proof. intros H. unfold Rabs in H. destruct (Rcase_abs a); lra. Qed.

(** ** The scale *)
Definition K : Z := (2 ^ 160)%Z.
Lemma K_pos : 0 < IZR K. Proof. apply IZR_lt. reflexivity. Qed.
Definition s1 : Z := 1229811222063188079455875033478504257159032017171%Z.
Lemma s1_eq : s1 = (K * snum 21 / sden 21)%Z. Proof. vm_compute. reflexivity. Qed.
Definition c1 : Z := 789652704679948512850133577617776009509005113993%Z.
Lemma c1_eq : c1 = (K * cnum 21 / cden 21)%Z. Proof. vm_compute. reflexivity. Qed.
(** from two enclosing fractions to |K x - v| <= 2 *)
Lemma enclose x n1 d1 n2 d2 : (0 < d1)%Z -> (0 < d2)%Z -> IZR n1 / IZR d1 <= x <= IZR n2 / IZR d2 ->
  ((K * n2) * d1 <= (K * n1) * d2 + d1 * d2)%Z -> Rabs (IZR K * x - IZR (K * n1 / d1)) <= 2.
Proof.
  intros D1 D2 [L U] W. pose proof (Z.div_mod (K * n1) d1 ltac:(lia)) as DM. pose proof (Z.mod_pos_bound (K * n1) d1 D1) as MB.
  set (v := (K * n1 / d1)%Z) in *. set (r := ((K * n1) mod d1)%Z) in *.
  assert (R1 : 0 < IZR d1) by (apply IZR_lt; exact D1). assert (R2 : 0 < IZR d2) by (apply IZR_lt; exact D2). pose proof K_pos as KP.
  assert (E1 : IZR K * (IZR n1 / IZR d1) = IZR v + IZR r / IZR d1).
  { apply (f_equal IZR) in DM. rewrite plus_IZR, !mult_IZR in DM. unfold Rdiv. rewrite <- Rmult_assoc, DM. field. lra. }
  assert (B : 0 <= IZR r / IZR d1 <= 1).
  { destruct MB as [M1 M2]. apply IZR_le in M1. apply IZR_lt in M2. unfold Rdiv. split; [apply Rmult_le_pos; [exact M1|left; apply Rinv_0_lt_compat; exact R1]|].
    apply Rmult_le_reg_r with (IZR d1); [exact R1|]. rewrite Rmult_assoc, Rinv_l, Rmult_1_r by lra. lra. }
  assert (E2 : IZR K * (IZR n2 / IZR d2) <= IZR K * (IZR n1 / IZR d1) + 1).
  { apply IZR_le in W. rewrite plus_IZR, !mult_IZR in W. apply Rmult_le_reg_r with (IZR d1 * IZR d2); [apply Rmult_lt_0_compat; assumption|].
    replace (IZR K * (IZR n2 / IZR d2) * (IZR d1 * IZR d2)) with (IZR K * IZR n2 * IZR d1) by (field; lra).
    replace ((IZR K * (IZR n1 / IZR d1) + 1) * (IZR d1 * IZR d2)) with (IZR K * IZR n1 * IZR d2 + IZR d1 * IZR d2) by (field; lra). exact W. }
  assert (X1 : IZR K * (IZR n1 / IZR d1) <= IZR K * x) by (apply Rmult_le_compat_l; lra).
  assert (X2 : IZR K * x <= IZR K * (IZR n2 / IZR d2)) by (apply Rmult_le_compat_l; lra).
  apply Rabs_le. lra.
Qed.
Lemma PI_ge_1 : 1 <= PI. Proof. pose proof PI2_3_2. unfold PI2 in *. lra. Qed.
Lemma sin1 : Rabs (IZR K * sin 1 - IZR s1) <= 2.
Proof.
  rewrite s1_eq. apply (enclose (sin 1) (snum 21) (sden 21) (snum 22) (sden 22)).
  - apply sden_pos.
  - apply sden_pos.
  - pose proof (sin_bound 1 10 ltac:(lra) PI_ge_1) as B. rewrite !sin_sum in B. exact B.
  - vm_compute. discriminate.
Qed.
Lemma cos1 : Rabs (IZR K * cos 1 - IZR c1) <= 2.
Proof.
  rewrite c1_eq. apply (enclose (cos 1) (cnum 21) (cden 21) (cnum 22) (cden 22)).
  - apply cden_pos.
  - apply cden_pos.
  - assert (P : 1 <= PI / 2) by (pose proof PI2_3_2; unfold PI2 in *; lra). pose proof (cos_bound 1 10 ltac:(lra) P) as B. rewrite !cos_sum in B. exact B.
  - vm_compute. discriminate.
Qed.

(** ** angle addition *)
Lemma rounding a b : (0 < b)%Z -> Rabs (IZR a / IZR b - IZR (a / b)) <= 1.
Proof.
  intros B. pose proof (Z.div_mod a b ltac:(lia)) as DM. pose proof (Z.mod_pos_bound a b B) as [M1 M2]. apply (f_equal IZR) in DM. rewrite plus_IZR, mult_IZR in DM.
  apply IZR_le in M1. apply IZR_lt in M2. assert (R : 0 < IZR b) by (apply IZR_lt; exact B). rewrite DM. replace ((IZR b * IZR (a / b) + IZR (a mod b)) / IZR b - IZR (a / b)) with (IZR (a mod b) * / IZR b) by (field; lra).
  assert (0 < / IZR b) by (apply Rinv_0_lt_compat; exact R). apply Rabs_le. split.
  - assert (0 <= IZR (a mod b) * / IZR b) by (apply Rmult_le_pos; lra). lra.
  - apply Rmult_le_reg_r with (IZR b); [exact R|]. rewrite Rmult_assoc, Rinv_l, Rmult_1_r by lra. lra.
Qed.
(** a product of two scaled approximations *)
Lemma product x y u v e : Rabs x <= 1 -> Rabs y <= 1 -> 2 <= e -> 2 * e <= IZR K -> Rabs (IZR K * x - u) <= e -> Rabs (IZR K * y - v) <= 2 ->
  Rabs (IZR K * (x * y) - u * v / IZR K) <= e + 2 + 1.
Proof.
  intros X Y E EK U V. pose proof K_pos as KP.
  replace (IZR K * (x * y) - u * v / IZR K) with ((IZR K * x - u) * y + x * (IZR K * y - v) - (IZR K * x - u) * (IZR K * y - v) / IZR K) by (field; lra).
  eapply Rle_trans; [apply Rabs_triang|]. rewrite Rabs_Ropp. eapply Rle_trans; [apply Rplus_le_compat_r, Rabs_triang|].
  unfold Rdiv. rewrite !Rabs_mult. rewrite (Rabs_right (/ IZR K)) by (left; apply Rinv_0_lt_compat; exact KP).
  pose proof (Rabs_pos (IZR K * x - u)). pose proof (Rabs_pos (IZR K * y - v)). pose proof (Rabs_pos x). pose proof (Rabs_pos y).
  assert (A1 : Rabs (IZR K * x - u) * Rabs y <= e * 1) by (apply Rmult_le_compat; lra).
  assert (A2 : Rabs x * Rabs (IZR K * y - v) <= 1 * 2) by (apply Rmult_le_compat; lra).
  assert (A3 : Rabs (IZR K * x - u) * Rabs (IZR K * y - v) * / IZR K <= 1).
  { apply Rmult_le_reg_r with (IZR K); [exact KP|]. rewrite Rmult_assoc, Rinv_l, Rmult_1_r, Rmult_1_l by lra.
    apply Rle_trans with (e * 2); [apply Rmult_le_compat; lra|lra]. }
  lra.
Qed.
Lemma abs_sin x : Rabs (sin x) <= 1. Proof. apply Rabs_le. apply SIN_bound. Qed.
Lemma abs_cos x : Rabs (cos x) <= 1. Proof. apply Rabs_le. apply COS_bound. Qed.

(** s and c are K sin n and K cos n up to e *)
Definition near (n : nat) (s c e : Z) : Prop := Rabs (IZR K * sin (INR n) - IZR s) <= IZR e /\ Rabs (IZR K * cos (INR n) - IZR c) <= IZR e.
Lemma near_1 : near 1 s1 c1 7.
Proof. unfold near. change (INR 1) with 1. pose proof sin1. pose proof cos1. split; lra. Qed.
Lemma near_S n s c e : (7 <= e)%Z -> (2 * e <= K)%Z -> near n s c e -> near (S n) ((s * c1 + c * s1) / K) ((c * c1 - s * s1) / K) (3 * e).
Proof.
  intros G B [HS HC]. unfold near. rewrite S_INR, sin_plus, cos_plus.
  assert (E7 : 7 <= IZR e) by (apply IZR_le; exact G). assert (E : 2 <= IZR e) by lra. assert (EK : 2 * IZR e <= IZR K) by (rewrite <- mult_IZR; apply IZR_le; lia).
  rewrite mult_IZR.
  pose proof (product _ _ _ _ _ (abs_sin (INR n)) (abs_cos 1) E EK HS cos1) as P1. pose proof (product _ _ _ _ _ (abs_cos (INR n)) (abs_sin 1) E EK HC sin1) as P2.
  pose proof (product _ _ _ _ _ (abs_cos (INR n)) (abs_cos 1) E EK HC cos1) as P3. pose proof (product _ _ _ _ _ (abs_sin (INR n)) (abs_sin 1) E EK HS sin1) as P4.
  pose proof (rounding (s * c1 + c * s1) K eq_refl) as R1. pose proof (rounding (c * c1 - s * s1) K eq_refl) as R2. pose proof K_pos as KP.
  rewrite plus_IZR, !mult_IZR in R1. rewrite minus_IZR, !mult_IZR in R2. unfold Rdiv in *. rewrite Rmult_plus_distr_r in R1. rewrite Rmult_minus_distr_r in R2.
  apply Rabs_le_inv' in P1, P2, P3, P4, R1, R2.
  split; apply Rabs_le; lra.
Qed.

(** ** the integer part of 2^32 |sin n| *)
Definition sin_check (s e t : Z) : bool :=
  ((2 * e <=? K)%Z && (t * 2 ^ 128 + e <=? Z.abs s)%Z && (Z.abs s + e <? (t + 1) * 2 ^ 128)%Z)%bool.
Lemma sin_check_ok n s c e t : near n s c e -> sin_check s e t = true -> IZR t <= IZR (2 ^ 32) * Rabs (sin (INR n)) < IZR t + 1.
Proof.
  unfold sin_check. intros [S _] H. apply andb_prop in H. destruct H as [H H3]. apply andb_prop in H. destruct H as [H1 H2].
  apply Z.leb_le in H1, H2. apply Z.ltb_lt in H3.
  apply IZR_le in H2. apply IZR_lt in H3. rewrite plus_IZR, mult_IZR in H2. rewrite plus_IZR, mult_IZR, plus_IZR in H3. rewrite abs_IZR in H2, H3.
  assert (D : Rabs (IZR K * Rabs (sin (INR n)) - Rabs (IZR s)) <= IZR e).
  { replace (IZR K * Rabs (sin (INR n))) with (Rabs (IZR K * sin (INR n))) by (rewrite Rabs_mult, (Rabs_right (IZR K)); [reflexivity|left; apply K_pos]).
    eapply Rle_trans; [apply Rabs_triang_inv2|exact S]. }
  apply Rabs_le_inv' in D. assert (EK : IZR K = IZR (2 ^ 32) * IZR (2 ^ 128)) by (rewrite <- mult_IZR; reflexivity). rewrite EK in D.
  assert (P : 0 < IZR (2 ^ 128)) by (apply IZR_lt; reflexivity). set (q := IZR (2 ^ 128)) in *. clearbody q. set (y := IZR (2 ^ 32) * Rabs (sin (INR n))).
  replace (IZR (2 ^ 32) * q * Rabs (sin (INR n))) with (y * q) in D by (unfold y; ring). clearbody y.
  split; [apply Rmult_le_reg_r with q; [exact P|lra]|apply Rmult_lt_reg_r with q; [exact P|lra]].
Qed.
(** all entries of a table that starts with sin n *)
Fixpoint sines (s c e : Z) (ts : list Z) : bool :=
  match ts with
  | nil => true
  | cons t ts => (sin_check s e t && sines ((s * c1 + c * s1) / K) ((c * c1 - s * s1) / K) (3 * e) ts)%bool
  end.
Lemma sines_ok ts : forall n s c e i, (7 <= e)%Z -> near n s c e -> sines s c e ts = true -> (i < length ts)%nat ->
  IZR (List.nth i ts 0%Z) <= IZR (2 ^ 32) * Rabs (sin (INR (n + i))) < IZR (List.nth i ts 0%Z) + 1.
Proof.
  induction ts as [|t ts IH]; intros n s c e i G N H L; [cbn [length] in L; lia|]. cbn [sines] in H. apply andb_prop in H. destruct H as [H1 H2].
  destruct i as [|i]; cbn [List.nth].
  - rewrite Nat.add_0_r. exact (sin_check_ok _ _ _ _ _ N H1).
  - rewrite <- Nat.add_succ_comm. apply (IH (S n) _ _ _ i) with (3 := H2); [lia| |cbn [length] in L; lia].
    apply near_S; [exact G| |exact N]. unfold sin_check in H1. apply andb_prop in H1. destruct H1 as [H1 _]. apply andb_prop in H1. destruct H1 as [H1 _]. apply Z.leb_le. exact H1.
Qed.
