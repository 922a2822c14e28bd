(** Blowfish: the key schedule. *)
From Verif Require Import Base MBlowfish PBlowfish.
From Verif Require SBlowfish PWords.
Local Open Scope N_scope.

Lemma tables_eq : P0 ++ concat S0 = SBlowfish.pi_words.
Proof. reflexivity. Qed.
Lemma S0_shape : length S0 = 4%nat /\ Forall (fun r => length r = 256%nat) S0.
Proof. split; [reflexivity|]. repeat constructor. Qed.
Lemma pi_words_ok : words_ok SBlowfish.pi_words.
Proof.
  assert (H : forallb (fun w => w <? 2 ^ 32) SBlowfish.pi_words = true) by reflexivity.
  unfold words_ok. rewrite Forall_forall. intros w Hw. rewrite forallb_forall in H. apply N.ltb_lt, H, Hw.
Qed.

Lemma shift_or d b : d < 2 ^ 24 -> b < 256 -> N.lor (u32 (N.shiftl d 8)) b = d * 256 + b.
Proof.
  intros Hd Hb. unfold u32. rewrite N.shiftl_mul_pow2. rewrite N.mod_small; [|change (2 ^ 32) with (2 ^ 24 * 2 ^ 8); apply N.mul_lt_mono_pos_r; [reflexivity|exact Hd]].
  apply (PWords.lor_add d b 8). exact Hb.
Qed.
Lemma mod_S_nat t n : (0 < n)%nat -> (S (t mod n) mod n = S t mod n)%nat.
Proof. intros H. rewrite <- (Nat.add_1_r (t mod n)), <- (Nat.add_1_r t). apply Nat.add_mod_idemp_l. lia. Qed.
Lemma key_step key t d k : key <> [] -> bytes_ok key -> (t < 1000)%nat -> d < 2 ^ 24 ->
  key_loop (S k) key (length key) (N.of_nat (t mod length key)%nat) d =
  key_loop k key (length key) (N.of_nat (S t mod length key)%nat) (d * 256 + SBlowfish.key_byte key t).
Proof.
  intros Hne Hb Ht Hd.
  assert (L : (0 < length key)%nat) by (destruct key; [congruence|cbn; lia]).
  pose proof (Nat.mod_upper_bound t (length key) ltac:(lia)) as B.
  pose proof (Nat.mod_le t (length key) ltac:(lia)) as B2.
  pose proof (mod_S_nat t (length key) L) as B3.
  cbn [key_loop]. rewrite Nat2N.id, (rd_lt _ _ 0) by exact B. cbn [bind].
  change (nth (t mod length key)%nat key 0) with (SBlowfish.key_byte key t).
  assert (K : SBlowfish.key_byte key t < 256).
  { unfold bytes_ok in Hb. rewrite Forall_forall in Hb. apply Hb. apply nth_In. exact B. }
  rewrite shift_or by assumption.
  destruct (N.of_nat (length key) =? 0) eqn:E; [apply N.eqb_eq in E; lia|].
  f_equal. rewrite <- B3. clear B3 K. generalize dependent (t mod length key)%nat. intros m Bm Bm2. unfold u16.
  rewrite (N.mod_small (N.of_nat m + 1)) by (change (2 ^ 16) with 65536; lia).
  replace (N.of_nat m + 1) with (N.of_nat (S m)) by lia.
  clear -L. apply N2Nat.inj. rewrite Nat2N.id, N2Nat.inj_mod, !Nat2N.id. reflexivity.
Qed.
Lemma key_byte_lt key t : key <> [] -> bytes_ok key -> SBlowfish.key_byte key t < 256.
Proof.
  intros Hne Hb. unfold bytes_ok in Hb. rewrite Forall_forall in Hb. apply Hb. apply nth_In. apply Nat.mod_upper_bound.
  destruct key; [congruence|discriminate].
Qed.
Lemma key_loop_word key i : key <> [] -> bytes_ok key -> (i < 18)%nat ->
  key_loop 4 key (length key) (N.of_nat ((4 * i) mod length key)%nat) 0 = Ret (N.of_nat ((4 * S i) mod length key)%nat, SBlowfish.key_word key i).
Proof.
  intros Hne Hb Hi.
  pose proof (key_byte_lt key (4 * i) Hne Hb). pose proof (key_byte_lt key (S (4 * i)) Hne Hb).
  pose proof (key_byte_lt key (S (S (4 * i))) Hne Hb). pose proof (key_byte_lt key (S (S (S (4 * i)))) Hne Hb).
  change (2 ^ 24) with 16777216 in *.
  rewrite key_step by (auto; lia || (change (2 ^ 24) with 16777216; lia)).
  rewrite key_step by (auto; lia || (change (2 ^ 24) with 16777216; lia)).
  rewrite key_step by (auto; lia || (change (2 ^ 24) with 16777216; lia)).
  rewrite key_step by (auto; lia || (change (2 ^ 24) with 16777216; lia)).
  cbn [key_loop]. f_equal. f_equal.
  - f_equal. f_equal. lia.
  - unfold SBlowfish.key_word. rewrite N.mul_0_l, N.add_0_l.
    replace (4 * i + 1)%nat with (S (4 * i)) by lia. replace (4 * i + 2)%nat with (S (S (4 * i))) by lia.
    replace (4 * i + 3)%nat with (S (S (S (4 * i)))) by lia. reflexivity.
Qed.
Lemma mix_loop_words key S_ : key <> [] -> bytes_ok key -> forall n i (pre post : list N),
  (i + n = 18)%nat -> length pre = i -> length post = n ->
  mix_loop n i key (length key) (N.of_nat ((4 * i) mod length key)%nat) (mkBf (pre ++ post) S_) =
  Ret (mkBf (pre ++ map (fun i => N.lxor (SBlowfish.word SBlowfish.pi_words i) (SBlowfish.key_word key i)) (seq i n)) S_).
Proof.
  intros Hne Hb. induction n as [|n IH]; intros i pre post Hin Hpre Hpost.
  - destruct post; [|discriminate]. reflexivity.
  - destruct post as [|x post]; [discriminate|]. cbn [mix_loop]. rewrite key_loop_word by (auto; lia). cbn [bind].
    rewrite (rd_lt _ _ 0) by (change (length P0) with 18%nat; lia). cbn [bind].
    unfold wrP. cbn [bP bS]. rewrite wr_app by (symmetry; exact Hpre). cbn [bind].
    replace (nth i P0 0) with (SBlowfish.word SBlowfish.pi_words i)
      by (unfold SBlowfish.word; rewrite <- tables_eq; apply app_nth1; change (length P0) with 18%nat; lia).
    set (v := N.lxor _ _).
    replace (pre ++ v :: post) with ((pre ++ [v]) ++ post) by (rewrite <- app_assoc; reflexivity).
    rewrite (IH (S i) (pre ++ [v]) post); [|lia|rewrite app_length; cbn; lia|cbn in Hpost; lia].
    cbn [seq map]. rewrite <- app_assoc. reflexivity.
Qed.

(** writing a pair of words *)
Lemma replace_app (p : list N) x y q k b : length p = (2 * k)%nat ->
  SBlowfish.replace (p ++ x :: y :: q) k b = p ++ fst b :: snd b :: q.
Proof.
  intros H. unfold SBlowfish.replace. rewrite firstn_app, H, Nat.sub_diag, firstn_O, app_nil_r, firstn_all2 by lia.
  rewrite skipn_app, H, skipn_all2 by lia. replace (2 * k + 2 - 2 * k)%nat with 2%nat by lia. reflexivity.
Qed.
Lemma split2 (l : list N) i : (i + 1 < length l)%nat -> exists p x y q, l = p ++ x :: y :: q /\ length p = i.
Proof.
  intros H. destruct (app_split_at l i ltac:(lia)) as (p & x & q & -> & E).
  rewrite app_length in H. cbn in H. destruct q as [|y q]; [cbn in H; lia|]. exists p, x, y, q. auto.
Qed.
Lemma wr2 (l : list N) i a b : (i + 1 < length l)%nat -> exists p x y q, l = p ++ x :: y :: q /\ length p = i /\
  wr l i a = Ret (p ++ a :: y :: q) /\ wr (p ++ a :: y :: q) (i + 1) b = Ret (p ++ a :: b :: q).
Proof.
  intros H. destruct (split2 l i H) as (p & x & y & q & -> & E). exists p, x, y, q. repeat split; auto.
  - apply wr_app. lia.
  - change (p ++ a :: y :: q) with (p ++ [a] ++ y :: q). rewrite app_assoc. rewrite wr_app by (rewrite app_length; cbn; lia).
    rewrite <- app_assoc. reflexivity.
Qed.
Lemma wrP_pair c k d : shaped c -> (k < 9)%nat -> exists c', shaped c' /\ flat c' = SBlowfish.replace (flat c) k d /\
  exists c1, wrP c (2 * k) (fst d) = Ret c1 /\ wrP c1 (2 * k + 1) (snd d) = Ret c'.
Proof.
  intros (H18 & HS) Hk. destruct (wr2 (bP c) (2 * k) (fst d) (snd d) ltac:(lia)) as (p & x & y & q & E & L & E1 & E2).
  exists (mkBf (p ++ fst d :: snd d :: q) (bS c)). split; [|split].
  - split; [cbn; rewrite E in H18; rewrite app_length in *; cbn in *; lia|exact HS].
  - unfold flat. cbn [bP bS]. rewrite E, <- !app_assoc. cbn [app]. rewrite replace_app by exact L. reflexivity.
  - unfold wrP. rewrite E1. cbn [bind]. eexists. split; [reflexivity|]. cbn [bP bS]. rewrite E2. reflexivity.
Qed.
Lemma wrS_pair c r j d : shaped c -> (r < 4)%nat -> (j < 128)%nat -> exists c', shaped c' /\
  flat c' = SBlowfish.replace (flat c) (9 + 128 * r + j) d /\
  exists c1, wrS c r (2 * j) (fst d) = Ret c1 /\ wrS c1 r (2 * j + 1) (snd d) = Ret c'.
Proof.
  intros (H18 & H4 & HS) Hr Hj.
  destruct (app_split_at (bS c) r ltac:(lia)) as (above & row & below & E & L).
  assert (HSr : Forall (fun r => length r = 256%nat) above /\ length row = 256%nat /\ Forall (fun r => length r = 256%nat) below).
  { rewrite E in HS. apply Forall_app in HS as [? HS]. inversion HS; subst. auto. }
  destruct HSr as (Ha & Hrow & Hb).
  destruct (wr2 row (2 * j) (fst d) (snd d) ltac:(lia)) as (p & x & y & q & Er & Lp & E1 & E2).
  exists (mkBf (bP c) (above ++ (p ++ fst d :: snd d :: q) :: below)). split; [|split].
  - split; [exact H18|]. split; [cbn; rewrite E in H4; rewrite app_length in *; cbn in *; lia|].
    cbn. apply Forall_app. split; [exact Ha|]. constructor; [|exact Hb]. rewrite Er in Hrow. rewrite app_length in *. cbn in *. lia.
  - unfold flat. cbn [bP bS]. rewrite E, Er, !concat_app. cbn [concat]. rewrite <- !app_assoc. cbn [app].
    rewrite !(app_assoc (bP c)), !(app_assoc _ p). rewrite replace_app; [reflexivity|].
    rewrite !app_length, (PWords.concat_length_k 256) by (try lia; exact Ha). rewrite H18, L, Lp. lia.
  - unfold wrS. rewrite E. rewrite rd_app_mid by (symmetry; exact L). cbn [bind]. rewrite E1. cbn [bind].
    rewrite wr_app by (symmetry; exact L). cbn [bind]. eexists. split; [reflexivity|]. cbn [bS bP].
    rewrite rd_app_mid by (symmetry; exact L). cbn [bind]. rewrite E2. cbn [bind]. rewrite wr_app by (symmetry; exact L). reflexivity.
Qed.

Lemma p_loop_expand n : forall k c d, shaped c -> (k + n <= 9)%nat -> exists c' d', p_loop n (2 * k) c d = Ret (c', d') /\ shaped c' /\
  forall m, SBlowfish.expand (n + m) k (flat c) d = SBlowfish.expand m (k + n) (flat c') d'.
Proof.
  induction n as [|n IH]; intros k c d H Hk.
  - exists c, d. split; [reflexivity|]. split; [exact H|]. intros m. rewrite Nat.add_0_r. reflexivity.
  - cbn [p_loop]. rewrite encrypt_unit_flat by exact H. cbn [bind].
    destruct (wrP_pair c k (SBlowfish.encrypt (flat c) d) H ltac:(lia)) as (c2 & H2 & F2 & c1 & E1 & E2).
    rewrite E1. cbn [bind]. rewrite E2. cbn [bind]. replace (2 * k + 2)%nat with (2 * S k)%nat by lia.
    destruct (IH (S k) c2 (SBlowfish.encrypt (flat c) d) H2 ltac:(lia)) as (c' & d' & E & H' & X).
    exists c', d'. split; [exact E|]. split; [exact H'|]. intros m. cbn [Nat.add SBlowfish.expand]. cbv zeta. rewrite <- F2, X. f_equal. lia.
Qed.
Lemma s_inner_expand r : (r < 4)%nat -> forall n j c d, shaped c -> (j + n <= 128)%nat -> exists c' d',
  s_inner n r (2 * j) c d = Ret (c', d') /\ shaped c' /\
  forall m, SBlowfish.expand (n + m) (9 + 128 * r + j) (flat c) d = SBlowfish.expand m (9 + 128 * r + j + n) (flat c') d'.
Proof.
  intros Hr. induction n as [|n IH]; intros j c d H Hj.
  - exists c, d. split; [reflexivity|]. split; [exact H|]. intros m. rewrite Nat.add_0_r. reflexivity.
  - cbn [s_inner]. rewrite encrypt_unit_flat by exact H. cbn [bind].
    destruct (wrS_pair c r j (SBlowfish.encrypt (flat c) d) H Hr ltac:(lia)) as (c2 & H2 & F2 & c1 & E1 & E2).
    rewrite E1. cbn [bind]. rewrite E2. cbn [bind]. replace (2 * j + 2)%nat with (2 * S j)%nat by lia.
    destruct (IH (S j) c2 (SBlowfish.encrypt (flat c) d) H2 ltac:(lia)) as (c' & d' & E & H' & X).
    exists c', d'. split; [exact E|]. split; [exact H'|]. intros m.
    replace (S n + m)%nat with (S (n + m)) by lia.
    change (SBlowfish.expand (S (n + m)) (9 + 128 * r + j) (flat c) d) with
      (SBlowfish.expand (n + m) (S (9 + 128 * r + j)) (SBlowfish.replace (flat c) (9 + 128 * r + j) (SBlowfish.encrypt (flat c) d)) (SBlowfish.encrypt (flat c) d)).
    rewrite <- F2. replace (S (9 + 128 * r + j)) with (9 + 128 * r + S j)%nat by lia. rewrite X. f_equal. lia.
Qed.
Lemma s_outer_expand n : forall r c d, shaped c -> (r + n <= 4)%nat -> exists c' d', s_outer n r c d = Ret (c', d') /\ shaped c' /\
  forall m, SBlowfish.expand (128 * n + m) (9 + 128 * r) (flat c) d = SBlowfish.expand m (9 + 128 * (r + n)) (flat c') d'.
Proof.
  induction n as [|n IH]; intros r c d H Hr.
  - exists c, d. split; [reflexivity|]. split; [exact H|]. intros m. rewrite Nat.add_0_r, Nat.mul_0_r. reflexivity.
  - cbn [s_outer]. destruct (s_inner_expand r ltac:(lia) 128 0 c d H ltac:(lia)) as (c1 & d1 & E1 & H1 & X1).
    change (2 * 0)%nat with 0%nat in E1. rewrite E1. cbn [bind].
    destruct (IH (S r) c1 d1 H1 ltac:(lia)) as (c' & d' & E & H' & X). exists c', d'. split; [exact E|]. split; [exact H'|]. intros m.
    replace (128 * S n + m)%nat with (128 + (128 * n + m))%nat by lia.
    replace (9 + 128 * r)%nat with (9 + 128 * r + 0)%nat at 1 by lia. rewrite X1.
    replace (9 + 128 * r + 0 + 128)%nat with (9 + 128 * S r)%nat by lia. rewrite X. f_equal. lia.
Qed.
Lemma firstn_nth_lt (l : list N) : forall n i, (i < n)%nat -> nth i (firstn n l) 0 = nth i l 0.
Proof. induction l as [|x l IH]; intros [|n] [|i] H; try lia; try reflexivity. cbn. apply IH. lia. Qed.
Lemma key_loop_mem mem len k : (0 < len <= length mem)%nat -> forall j d, j < N.of_nat len -> key_loop k mem len j d = key_loop k (firstn len mem) len j d.
Proof.
  intros H. induction k as [|k IH]; intros j d Hj; [reflexivity|]. cbn [key_loop].
  rewrite (rd_lt mem _ 0), (rd_lt (firstn len mem) _ 0) by (rewrite ?firstn_length; lia). rewrite firstn_nth_lt by lia. cbn [bind].
  destruct (N.of_nat len =? 0); [reflexivity|]. apply IH. apply N.mod_lt. lia.
Qed.
Lemma key_loop_j mem len k : (0 < len)%nat -> forall j d j' d', j < N.of_nat len -> key_loop k mem len j d = Ret (j', d') -> j' < N.of_nat len.
Proof.
  intros H. induction k as [|k IH]; intros j d j' d' Hj E; cbn [key_loop] in E; [inversion E; subst; exact Hj|].
  destruct (rd mem _) as [b| |]; try discriminate E. cbn [bind] in E. destruct (N.of_nat len =? 0); [discriminate E|].
  eapply IH; [|exact E]. apply N.mod_lt. lia.
Qed.
Lemma mix_loop_mem mem len n : (0 < len <= length mem)%nat -> forall i j c, j < N.of_nat len -> mix_loop n i mem len j c = mix_loop n i (firstn len mem) len j c.
Proof.
  intros H. induction n as [|n IH]; intros i j c Hj; [reflexivity|]. cbn [mix_loop].
  rewrite key_loop_mem by (auto; lia). destruct (key_loop 4 (firstn len mem) len j 0) as [[j' d']| |] eqn:E; try reflexivity. cbn [bind].
  apply key_loop_j in E; [|lia|exact Hj].
  destruct (rd P0 i) as [p| |]; try reflexivity. cbn [bind]. destruct (wrP c i _) as [c'| |]; try reflexivity. cbn [bind]. apply IH. exact E.
Qed.
Lemma init_mem c mem len : (0 < len <= length mem)%nat -> blowfish_init c mem len = blowfish_init c (firstn len mem) len.
Proof. intros H. unfold blowfish_init. rewrite mix_loop_mem by (auto; lia). reflexivity. Qed.
Lemma init_subkeys c key : length (bP c) = 18%nat -> key <> [] -> bytes_ok key ->
  exists c', blowfish_init c key (length key) = Ret c' /\ shaped c' /\ flat c' = SBlowfish.subkeys key.
Proof.
  intros Hc Hne Hb. unfold blowfish_init.
  assert (J : 0 = N.of_nat ((4 * 0) mod length key)%nat).
  { rewrite Nat.mul_0_r, Nat.mod_0_l; [reflexivity|destruct key; [congruence|discriminate]]. }
  cbv zeta. pose proof (mix_loop_words key S0 Hne Hb 18 0 [] (bP c) ltac:(lia) ltac:(reflexivity) Hc) as X0. rewrite <- J in X0.
  change ([] ++ bP c) with (bP c) in X0. rewrite X0. cbn [bind].
  change ([] ++ map (fun i => N.lxor (SBlowfish.word SBlowfish.pi_words i) (SBlowfish.key_word key i)) (seq 0 18))
    with (map (fun i => N.lxor (SBlowfish.word SBlowfish.pi_words i) (SBlowfish.key_word key i)) (seq 0 18)).
  set (M := map _ (seq 0 18)).
  assert (H0 : shaped (mkBf M S0)) by (split; [subst M; cbn [bP]; rewrite map_length, seq_length; reflexivity|exact S0_shape]).
  destruct (p_loop_expand 9 0 _ (0, 0) H0 ltac:(lia)) as (c1 & d1 & E1 & H1 & X1). change (2 * 0)%nat with 0%nat in E1.
  rewrite E1. cbn [bind].
  destruct (s_outer_expand 4 0 c1 d1 H1 ltac:(lia)) as (c2 & d2 & E2 & H2 & X2). rewrite E2. cbn [bind].
  exists c2. split; [reflexivity|]. split; [exact H2|].
  specialize (X2 0%nat). specialize (X1 (128 * 4 + 0)%nat).
  cbn [SBlowfish.expand] in X2. rewrite <- X2. change (9 + 128 * 0)%nat with (0 + 9)%nat. rewrite <- X1.
  unfold SBlowfish.subkeys, SBlowfish.mixed. reflexivity.
Qed.
