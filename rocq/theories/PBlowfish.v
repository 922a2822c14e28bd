(** Blowfish: the model against SBlowfish. *)
From Verif Require Import Base MBlowfish.
From Verif Require SBlowfish PWords.
Local Open Scope N_scope.

(** the subkey arrays as one array; the shape of the C struct; all words 32 bits *)
Definition flat (c : bf_ctx) : list N := bP c ++ concat (bS c).
Definition shaped (c : bf_ctx) : Prop := length (bP c) = 18%nat /\ length (bS c) = 4%nat /\ Forall (fun r => length r = 256%nat) (bS c).
Definition words_ok (l : list N) : Prop := Forall (fun w => w < 2 ^ 32) l.

Lemma concat_nth (rows : list (list N)) : Forall (fun r => length r = 256%nat) rows -> forall i j, (i < length rows)%nat -> (j < 256)%nat ->
  nth j (nth i rows []) 0 = nth (256 * i + j) (concat rows) 0.
Proof.
  induction 1 as [|r rows Hr Hrows IH]; intros i j Hi Hj; [cbn in Hi; lia|].
  cbn [concat]. destruct i as [|i]; cbn [nth].
  - rewrite Nat.mul_0_r, app_nth1 by (cbn; lia). reflexivity.
  - rewrite app_nth2 by lia. cbn [length] in Hi. rewrite IH by lia. rewrite Hr. replace (256 * S i + j - 256)%nat with (256 * i + j)%nat by lia. reflexivity.
Qed.
Lemma shaped_concat_length c : shaped c -> length (concat (bS c)) = 1024%nat.
Proof.
  intros (_ & H4 & Hr). rewrite (PWords.concat_length_k 256) by (try lia; exact Hr). rewrite H4. reflexivity.
Qed.
Lemma flat_length c : shaped c -> length (flat c) = 1042%nat.
Proof. intros H. unfold flat. rewrite app_length, (shaped_concat_length c H). destruct H as (H & _). rewrite H. reflexivity. Qed.
Lemma rdS_flat c r x : shaped c -> (r < 4)%nat -> x < 256 -> rdS c r x = Ret (SBlowfish.sbox (flat c) r (N.to_nat x)).
Proof.
  intros (H18 & H4 & Hr) Hlt Hx. unfold rdS, SBlowfish.sbox, SBlowfish.word, flat.
  rewrite (rd_lt _ _ []) by lia. cbn [bind].
  assert (L : length (nth r (bS c) []) = 256%nat).
  { rewrite Forall_forall in Hr. apply Hr, nth_In. lia. }
  rewrite (rd_lt _ _ 0) by lia. f_equal.
  rewrite app_nth2 by lia. rewrite H18.
  replace (18 + 256 * r + N.to_nat x - 18)%nat with (256 * r + N.to_nat x)%nat by lia.
  apply concat_nth; [exact Hr|lia|lia].
Qed.
Lemma F_flat c x : shaped c -> F c x = Ret (SBlowfish.F (flat c) x).
Proof.
  intros H. unfold F, SBlowfish.F, SBlowfish.quarter, u32.
  assert (M : forall y, y mod 256 < 256) by (intros; apply N.mod_lt; lia).
  rewrite !(rdS_flat c) by (auto; lia). cbn [bind].
  change (256 ^ N.of_nat (3 - 0)) with (2 ^ 24). change (256 ^ N.of_nat (3 - 1)) with (2 ^ 16).
  change (256 ^ N.of_nat (3 - 2)) with (2 ^ 8). change (256 ^ N.of_nat (3 - 3)) with 1.
  rewrite N.div_1_r. reflexivity.
Qed.
Lemma round_flat c i dp : shaped c -> (i < 18)%nat -> bf_round c i dp = Ret (SBlowfish.round (flat c) dp (nth i (bP c) 0)).
Proof.
  intros H Hi. destruct dp as [l r]. unfold bf_round, SBlowfish.round. rewrite (rd_lt _ _ 0) by (destruct H; lia).
  cbn [bind fst snd]. rewrite (F_flat c _ H). cbn [bind]. rewrite N.lxor_comm. reflexivity.
Qed.
Lemma firstn_S_nth {A} (l : list A) k d : (k < length l)%nat -> firstn (S k) l = firstn k l ++ [nth k l d].
Proof.
  revert l. induction k as [|k IH]; intros [|x l] H; cbn in H; try lia; [reflexivity|].
  cbn [nth]. rewrite (firstn_cons (S k)), (IH l) by lia. reflexivity.
Qed.
Lemma skipn_nth_cons {A} (l : list A) i d : (i < length l)%nat -> skipn i l = nth i l d :: skipn (S i) l.
Proof.
  revert l. induction i as [|i IH]; intros [|x l] H; cbn in H; try lia; [reflexivity|].
  cbn [nth]. rewrite (skipn_cons (S i)), <- (IH l) by lia. reflexivity.
Qed.
Lemma enc_rounds_flat c k : shaped c -> forall i dp, (i + k <= 18)%nat ->
  enc_rounds c k i dp = Ret (fold_left (SBlowfish.round (flat c)) (firstn k (skipn i (bP c))) dp).
Proof.
  intros H. induction k as [|k IH]; intros i dp Hk; [reflexivity|].
  cbn [enc_rounds]. rewrite round_flat by (auto; lia). cbn [bind]. rewrite IH by lia.
  rewrite (skipn_nth_cons _ i 0) by (destruct H; lia). reflexivity.
Qed.
Lemma dec_rounds_flat c k : shaped c -> forall dp, (k <= 16)%nat ->
  dec_rounds c k dp = Ret (fold_left (SBlowfish.round (flat c)) (rev (firstn k (skipn 2 (bP c)))) dp).
Proof.
  intros H. induction k as [|k IH]; intros dp Hk; [reflexivity|].
  cbn [dec_rounds]. rewrite round_flat by (auto; lia). cbn [bind]. rewrite IH by lia.
  rewrite (firstn_S_nth _ k 0) by (rewrite skipn_length; destruct H; lia). rewrite rev_app_distr. cbn [rev app fold_left].
  do 3 f_equal. rewrite <- (firstn_skipn 2 (bP c)) at 1. rewrite app_nth2; rewrite firstn_length; destruct H as (-> & _); f_equal; cbn; lia.
Qed.
Lemma word_P c i : shaped c -> (i < 18)%nat -> rd (bP c) i = Ret (SBlowfish.word (flat c) i).
Proof.
  intros H Hi. rewrite (rd_lt _ _ 0) by (destruct H; lia). unfold SBlowfish.word, flat. rewrite app_nth1 by (destruct H; lia). reflexivity.
Qed.
Lemma encrypt_unit_flat c dp : shaped c -> encrypt_unit c dp = Ret (SBlowfish.encrypt (flat c) dp).
Proof.
  intros H. unfold encrypt_unit. rewrite enc_rounds_flat by (auto; lia). cbn [bind skipn].
  rewrite !word_P by (auto; lia). cbn [bind].
  unfold SBlowfish.encrypt, SBlowfish.crypt.
  replace (firstn 16 (flat c)) with (firstn 16 (bP c))
    by (unfold flat; rewrite firstn_app; destruct H as (-> & _); cbn [Nat.sub firstn]; rewrite app_nil_r; reflexivity).
  destruct (fold_left (SBlowfish.round (flat c)) _ dp) as [x y]. reflexivity.
Qed.
Lemma rev_firstn_skipn {A} (l : list A) : length l = 18%nat -> firstn 16 (rev l) = rev (firstn 16 (skipn 2 l)).
Proof.
  intros H. rewrite firstn_rev, H. change (18 - 16)%nat with 2%nat. rewrite (firstn_all2 (n := 16)) by (rewrite skipn_length; lia). reflexivity.
Qed.
Lemma flat_firstn c : shaped c -> firstn 18 (flat c) = bP c.
Proof. intros (H & _). unfold flat. rewrite firstn_app, H, Nat.sub_diag. rewrite firstn_O, app_nil_r. apply firstn_all2. lia. Qed.
Lemma decrypt_unit_flat c dp : shaped c -> decrypt_unit c dp = Ret (SBlowfish.decrypt (flat c) dp).
Proof.
  intros H. unfold decrypt_unit. rewrite dec_rounds_flat by (auto; lia). cbn [bind].
  rewrite !word_P by (auto; lia). cbn [bind].
  unfold SBlowfish.decrypt, SBlowfish.crypt.
  rewrite flat_firstn by exact H. rewrite rev_firstn_skipn by (apply H).
  destruct (fold_left (SBlowfish.round (flat c)) _ dp) as [x y]. reflexivity.
Qed.

(** ** decryption inverts encryption *)
Definition crypt18 (W K : list N) (b : N * N) : N * N := SBlowfish.crypt W (firstn 16 K) (nth 16 K 0) (nth 17 K 0) b.
Lemma round_back W b p q s : SBlowfish.round W (N.lxor (snd (SBlowfish.round W b p)) q, N.lxor (fst (SBlowfish.round W b p)) s) q =
  (N.lxor (snd b) s, N.lxor (fst b) p).
Proof.
  destruct b as [l r]. unfold SBlowfish.round. cbn [fst snd].
  rewrite N.lxor_assoc, N.lxor_nilpotent, N.lxor_0_r. f_equal.
  rewrite N.lxor_assoc, <- (N.lxor_assoc (SBlowfish.F W (N.lxor l p))), N.lxor_nilpotent, N.lxor_0_l. reflexivity.
Qed.
Lemma rounds_back W rest : forall k1 k2 b, let K := k1 :: k2 :: rest in let n := length rest in
  let st := fold_left (SBlowfish.round W) (firstn n K) b in
  fold_left (SBlowfish.round W) (rev rest) (N.lxor (snd st) (nth (S n) K 0), N.lxor (fst st) (nth n K 0)) =
  (N.lxor (snd b) k2, N.lxor (fst b) k1).
Proof.
  induction rest as [|k3 rest IH]; intros k1 k2 b K n st; [reflexivity|].
  specialize (IH k2 k3 (SBlowfish.round W b k1)). cbv zeta in IH.
  cbn [rev]. rewrite fold_left_app. subst K n st. cbn [length firstn fold_left nth] in *.
  rewrite IH. apply round_back.
Qed.
Lemma list18 (K : list N) : length K = 18%nat -> exists k1 k2 rest, K = k1 :: k2 :: rest /\ length rest = 16%nat.
Proof. destruct K as [|k1 [|k2 rest]]; cbn; intros H; try lia. exists k1, k2, rest. split; [reflexivity|lia]. Qed.
Lemma crypt18_back W K b : length K = 18%nat -> crypt18 W (rev K) (crypt18 W K b) = b.
Proof.
  intros HK. destruct (list18 K HK) as (k1 & k2 & rest & -> & Hr).
  pose proof (rounds_back W rest k1 k2 b) as E. cbv zeta in E. rewrite Hr in E.
  unfold crypt18, SBlowfish.crypt.
  destruct (fold_left (SBlowfish.round W) (firstn 16 (k1 :: k2 :: rest)) b) as [x y]. cbn [fst snd] in E.
  assert (R : rev (k1 :: k2 :: rest) = rev rest ++ [k2; k1]) by (cbn [rev]; rewrite <- app_assoc; reflexivity).
  rewrite R. rewrite firstn_app, rev_length, Hr, Nat.sub_diag, firstn_O, app_nil_r, (firstn_all2 (n := 16)) by (rewrite rev_length; lia).
  rewrite !app_nth2 by (rewrite rev_length; lia). rewrite rev_length, Hr. change (nth (16 - 16) [k2; k1] 0) with k2. change (nth (17 - 16) [k2; k1] 0) with k1.
  rewrite E. destruct b as [l r]. cbn [fst snd]. f_equal; rewrite N.lxor_assoc, N.lxor_nilpotent, N.lxor_0_r; reflexivity.
Qed.
Lemma nth_firstn18 (W : list N) i : (i < 18)%nat -> (18 <= length W)%nat -> nth i (firstn 18 W) 0 = nth i W 0.
Proof.
  intros Hi H. transitivity (nth i (firstn 18 W ++ skipn 18 W) 0); [|rewrite firstn_skipn; reflexivity].
  rewrite app_nth1 by (rewrite firstn_length; lia). reflexivity.
Qed.
Lemma encrypt18 W : (18 <= length W)%nat -> forall b, SBlowfish.encrypt W b = crypt18 W (firstn 18 W) b.
Proof.
  intros H b. unfold SBlowfish.encrypt, crypt18, SBlowfish.word. rewrite firstn_firstn. change (Nat.min 16 18) with 16%nat.
  rewrite !nth_firstn18 by lia. reflexivity.
Qed.
Lemma decrypt18 W : (18 <= length W)%nat -> forall b, SBlowfish.decrypt W b = crypt18 W (rev (firstn 18 W)) b.
Proof.
  intros H b. unfold SBlowfish.decrypt, crypt18, SBlowfish.word.
  assert (L : length (firstn 18 W) = 18%nat) by (rewrite firstn_length; lia).
  rewrite !rev_nth by lia. rewrite L. change (18 - 17)%nat with 1%nat. change (18 - 18)%nat with 0%nat.
  rewrite !nth_firstn18 by lia. reflexivity.
Qed.
Lemma decrypt_encrypt W b : (18 <= length W)%nat -> SBlowfish.decrypt W (SBlowfish.encrypt W b) = b.
Proof. intros H. rewrite encrypt18, decrypt18 by exact H. apply crypt18_back. rewrite firstn_length. lia. Qed.
Lemma encrypt_decrypt W b : (18 <= length W)%nat -> SBlowfish.encrypt W (SBlowfish.decrypt W b) = b.
Proof.
  intros H. rewrite encrypt18, decrypt18 by exact H. rewrite <- (rev_involutive (firstn 18 W)) at 1. apply crypt18_back.
  rewrite rev_length, firstn_length. lia.
Qed.
