(** Facts about words, byte conversion, cutting and folding, shared by the hash proofs. *)
From Verif Require Import Base SHex SFips180.
Local Open Scope N_scope.

Lemma fold_ext_inv {S T} (I : S -> Prop) (f g : S -> T -> S) l : forall s,
  (forall s t, In t l -> I s -> f s t = g s t /\ I (g s t)) -> I s ->
  fold_left f l s = fold_left g l s /\ I (fold_left g l s).
Proof.
  induction l as [|t l IH]; intros s H Hs; [split; [reflexivity|exact Hs]|]. cbn.
  destruct (H s t (or_introl eq_refl) Hs) as [-> Hg]. apply IH; [|exact Hg].
  intros s' t' Hin. apply H. right. exact Hin.
Qed.

Lemma fold_ext {S T} (f g : S -> T -> S) l s :
  (forall s t, In t l -> f s t = g s t) -> fold_left f l s = fold_left g l s.
Proof.
  intros H. apply (fold_ext_inv (fun _ => True)); auto.
Qed.

(** ** bits *)
Lemma ones_eq w : N.ones w = 2 ^ w - 1.
Proof. rewrite N.ones_equiv. lia. Qed.

Lemma testbit_high a n w : a < 2 ^ w -> w <= n -> N.testbit a n = false.
Proof.
  intros Ha Hn. destruct (N.eq_dec a 0) as [->|Hz]; [apply N.bits_0|].
  apply N.bits_above_log2. eapply N.lt_le_trans; [|exact Hn]. apply N.log2_lt_pow2; lia.
Qed.

Lemma lor_add x y n : y < 2 ^ n -> N.lor (x * 2 ^ n) y = x * 2 ^ n + y.
Proof.
  intros H. rewrite <- N.shiftl_mul_pow2.
  assert (E : N.land (N.shiftl x n) y = 0).
  { apply N.bits_inj. intros i. rewrite N.land_spec, N.bits_0.
    destruct (N.lt_ge_cases i n) as [L|G].
    - rewrite N.shiftl_spec_low by exact L. reflexivity.
    - rewrite (testbit_high y i n) by assumption. apply andb_false_r. }
  rewrite N.add_nocarry_lxor by exact E. rewrite N.lxor_lor by exact E. reflexivity.
Qed.

Lemma mod_pow_lt x w : x mod 2 ^ w < 2 ^ w.
Proof. apply N.mod_lt, N.pow_nonzero. lia. Qed.
Lemma addw_lt w x y : addw w x y < 2 ^ w.
Proof. apply mod_pow_lt. Qed.

Lemma sumw_mod w l : sumw w l = fold_left N.add l 0 mod 2 ^ w.
Proof.
  unfold sumw. assert (G : forall l a, fold_left (addw w) l (a mod 2 ^ w) = fold_left N.add l a mod 2 ^ w).
  { clear l. induction l as [|x l IH]; intros a; [reflexivity|]. cbn. rewrite <- IH. f_equal. unfold addw.
    rewrite N.add_mod_idemp_l by (apply N.pow_nonzero; lia). reflexivity. }
  rewrite <- G. reflexivity.
Qed.

(** ** cutting *)
Section Cut.
Context {A : Type} (k : nat) (Hk : (0 < k)%nat).

Lemma cut_fuel : forall n m (l : list A), (length l <= n)%nat -> (length l <= m)%nat -> cut n k l = cut m k l.
Proof.
  induction n as [|n IH]; intros m l Hn Hm.
  - destruct l; [|cbn in Hn; lia]. destruct m; reflexivity.
  - destruct m as [|m]; [destruct l; [reflexivity|cbn in Hm; lia]|].
    destruct l as [|x l]; [reflexivity|].
    change (cut (S n) k (x :: l)) with (firstn k (x :: l) :: cut n k (skipn k (x :: l))).
    change (cut (S m) k (x :: l)) with (firstn k (x :: l) :: cut m k (skipn k (x :: l))).
    f_equal. apply IH; rewrite skipn_length; cbn [length] in *; lia.
Qed.

Lemma pieces_nil : pieces k (@nil A) = [].
Proof. reflexivity. Qed.

Lemma pieces_cons (u r : list A) : length u = k -> pieces k (u ++ r) = u :: pieces k r.
Proof.
  intros Hu. unfold pieces. destruct u as [|x u]; [cbn in Hu; lia|].
  set (U := x :: u) in *. rewrite app_length.
  replace (length U + length r)%nat with (S (length u + length r)) by reflexivity.
  assert (E : cut (S (length u + length r)) k (U ++ r) =
    firstn k (U ++ r) :: cut (length u + length r) k (skipn k (U ++ r))) by reflexivity.
  rewrite E. rewrite <- Hu at 1 3. rewrite firstn_app, firstn_all, Nat.sub_diag, firstn_O, app_nil_r.
  rewrite skipn_app, skipn_all, Nat.sub_diag, skipn_O. cbn [app]. f_equal. apply cut_fuel; lia.
Qed.

Lemma pieces_concat (bs : list (list A)) (r : list A) : Forall (fun b => length b = k) bs ->
  pieces k (concat bs ++ r) = bs ++ pieces k r.
Proof.
  induction 1 as [|b bs Hb _ IH]; [reflexivity|]. cbn [concat app]. rewrite <- app_assoc, pieces_cons, IH by assumption.
  reflexivity.
Qed.

(** every list is some whole pieces followed by a short rest *)
Lemma split_pieces (l : list A) : exists bs r, l = concat bs ++ r /\ Forall (fun b => length b = k) bs /\
  (length r < k)%nat /\ length bs = (length l / k)%nat.
Proof.
  remember (length l) as n eqn:Hn. revert l Hn. induction n as [n IH] using lt_wf_ind. intros l Hn.
  destruct (Nat.le_gt_cases k n) as [Hge|Hlt].
  - destruct (IH (n - k)%nat ltac:(lia) (skipn k l) ltac:(rewrite skipn_length; lia)) as (bs & r & E & F & R & L).
    exists (firstn k l :: bs), r. repeat split.
    + cbn [concat]. rewrite <- app_assoc, <- E, firstn_skipn. reflexivity.
    + constructor; [rewrite firstn_length; lia|exact F].
    + exact R.
    + cbn [length]. rewrite L. replace n with ((n - k) + 1 * k)%nat at 2 by lia. rewrite Nat.div_add by lia. lia.
  - exists [], l. repeat split; [constructor|lia|]. cbn. rewrite Nat.div_small by lia. reflexivity.
Qed.

Lemma concat_length_k (bs : list (list A)) : Forall (fun b => length b = k) bs -> length (concat bs) = (length bs * k)%nat.
Proof. induction 1 as [|b bs Hb _ IH]; [reflexivity|]. cbn [concat length]. rewrite app_length, IH, Hb. lia. Qed.

Lemma pieces_full (bs : list (list A)) : Forall (fun b => length b = k) bs -> pieces k (concat bs) = bs.
Proof. intros H. rewrite <- (app_nil_r (concat bs)). rewrite pieces_concat by assumption. apply app_nil_r. Qed.

Lemma pieces_mult (l : list A) n : length l = (n * k)%nat ->
  Forall (fun b => length b = k) (pieces k l) /\ concat (pieces k l) = l /\ length (pieces k l) = n.
Proof.
  intros H. destruct (split_pieces l) as (bs & r & E & F & R & L).
  rewrite H, Nat.div_mul in L by lia.
  assert (r = []) as ->.
  { assert (length l = length bs * k + length r)%nat by (rewrite E, app_length, concat_length_k by assumption; reflexivity).
    destruct r; [reflexivity|]. cbn [length] in *. nia. }
  rewrite app_nil_r in E. subst l. rewrite pieces_full by assumption. auto.
Qed.
End Cut.

Lemma last_part_concat {A} k (bs : list (list A)) (r : list A) : (0 < k)%nat -> Forall (fun b => length b = k) bs -> (length r < k)%nat ->
  skipn (k * (length (concat bs ++ r) / k)) (concat bs ++ r) = r /\ (length (concat bs ++ r) mod k = length r)%nat.
Proof.
  intros Hk F R. rewrite app_length, (concat_length_k k Hk bs F).
  replace (length bs * k + length r)%nat with (length r + length bs * k)%nat by lia.
  split.
  - rewrite Nat.div_add, Nat.div_small by lia.
    replace (k * (0 + length bs))%nat with (length (concat bs)) by (rewrite (concat_length_k k Hk bs F); lia).
    rewrite skipn_app, skipn_all, Nat.sub_diag. reflexivity.
  - rewrite Nat.mod_add, Nat.mod_small by lia. reflexivity.
Qed.

(** ** bytes of a word *)
Lemma be_bytes_length n v : length (be_bytes n v) = n.
Proof. unfold be_bytes. rewrite map_length, seq_length. reflexivity. Qed.
Lemma be_bytes_ok n v : bytes_ok (be_bytes n v).
Proof. unfold be_bytes. apply Forall_map, Forall_forall. intros i _. unfold is_byte. apply N.mod_lt. discriminate. Qed.
Lemma pow256 n : 256 ^ n = 2 ^ (8 * n).
Proof. change 256 with (2 ^ 8). rewrite <- N.pow_mul_r. reflexivity. Qed.

Lemma be_bytes_app n m hi lo : lo < 256 ^ N.of_nat m ->
  be_bytes (n + m) (hi * 256 ^ N.of_nat m + lo) = be_bytes n hi ++ be_bytes m lo.
Proof.
  intros Hlo. unfold be_bytes. rewrite seq_app, map_app. cbn [plus]. f_equal.
  - apply map_ext_in. intros i Hi. apply in_seq in Hi.
    replace (N.of_nat (n + m - 1 - i)) with (N.of_nat m + N.of_nat (n - 1 - i)) by lia.
    rewrite N.pow_add_r, <- N.div_div by (apply N.pow_nonzero; discriminate).
    rewrite N.div_add_l by (apply N.pow_nonzero; discriminate). rewrite (N.div_small lo) by exact Hlo.
    rewrite N.add_0_r. reflexivity.
  - replace (seq n m) with (map (fun i => i + n)%nat (seq 0 m)).
    2:{ clear. revert n. induction m as [|m IH]; intros n; [reflexivity|]. cbn. f_equal.
        rewrite <- seq_shift, map_map. rewrite <- (IH (S n)). apply map_ext. intros; lia. }
    rewrite map_map. apply map_ext_in. intros i Hi. apply in_seq in Hi.
    replace (n + m - 1 - (i + n))%nat with (m - 1 - i)%nat by lia.
    set (j := N.of_nat (m - 1 - i)).
    replace (256 ^ N.of_nat m) with (256 ^ (N.of_nat i) * 256 * 256 ^ j).
    2:{ replace (N.of_nat m) with (N.of_nat i + 1 + j) by (unfold j; lia). rewrite !N.pow_add_r. reflexivity. }
    rewrite N.mul_assoc, N.div_add_l by (apply N.pow_nonzero; discriminate).
    rewrite N.mul_assoc, N.add_comm, N.mod_add by discriminate. reflexivity.
Qed.

Lemma be_bytes_shift n v : be_bytes n v = map (fun i => u8 (N.shiftr v (8 * N.of_nat (n - 1 - i)))) (seq 0 n).
Proof.
  unfold be_bytes. apply map_ext. intros i. unfold u8. rewrite N.shiftr_div_pow2, pow256. reflexivity.
Qed.

(** ** loading words *)
Lemma be_value_4 a b c d : be_value [a; b; c; d] = a * 2 ^ 24 + b * 2 ^ 16 + c * 2 ^ 8 + d.
Proof. cbn [be_value fold_left]. lia. Qed.
Lemma be_value_bound l : bytes_ok l -> be_value l < 256 ^ N.of_nat (length l).
Proof.
  unfold be_value. assert (G : forall l a, bytes_ok l -> fold_left (fun a b => 256 * a + b) l a < (a + 1) * 256 ^ N.of_nat (length l)).
  { clear l. induction l as [|x l IH]; intros a H; [cbn; lia|]. inversion H as [|? ? Hx Hl]; subst. cbn [fold_left length].
    eapply N.lt_le_trans; [apply IH; exact Hl|]. rewrite Nat2N.inj_succ, N.pow_succ_r'. unfold is_byte in Hx. nia. }
  intros H. specialize (G l 0 H). lia.
Qed.
