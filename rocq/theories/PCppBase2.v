(** Invariants of all threads together. *)
From Verif Require Import Base MBase SRfc4648 PropBase MCppSize PCppSize MCppBase SCppBase PCppBase.

Definition put {A} (l : list A) (i : nat) (x : A) : list A := firstn i l ++ x :: skipn (S i) l.
Lemma nth_put {A} (l : list A) i x j : i < length l -> nth_error (put l i x) j = if Nat.eqb j i then Some x else nth_error l j.
Proof.
  intros H. unfold put. destruct (Nat.eqb_spec j i) as [->|E].
  - rewrite nth_error_app2; rewrite firstn_length, Nat.min_l by lia; [|lia]. rewrite Nat.sub_diag. reflexivity.
  - destruct (Nat.lt_ge_cases j i) as [L|L].
    + rewrite nth_error_app1 by (rewrite firstn_length; lia). rewrite <- (firstn_skipn i l) at 2. rewrite nth_error_app1 by (rewrite firstn_length; lia). reflexivity.
    + rewrite nth_error_app2; rewrite firstn_length, Nat.min_l by lia; [|lia]. destruct (j - i) as [|k] eqn:K; [lia|]. cbn [nth_error].
      rewrite <- (firstn_skipn (S i) l) at 2. rewrite nth_error_app2; rewrite firstn_length, Nat.min_l by lia; [f_equal; lia|lia].
Qed.
Lemma put_length {A} (l : list A) i x : i < length l -> length (put l i x) = length l.
Proof. intros H. unfold put. rewrite app_length, firstn_length. cbn [length]. rewrite skipn_length. lia. Qed.

Definition excl (f : thread -> bool) (locked : bool) (ts : list thread) : Prop :=
  (forall i t, nth_error ts i = Some t -> f t = true -> locked = true) /\
  (forall i j t u, nth_error ts i = Some t -> nth_error ts j = Some u -> f t = true -> f u = true -> i = j).
(** without failed allocations a held mutex has a holder *)
Definition owned (f : thread -> bool) (locked : bool) (ts : list thread) : Prop :=
  locked = true -> exists i t, nth_error ts i = Some t /\ f t = true.

Lemma excl_put f m ts i t t' b a : nth_error ts i = Some t -> excl f b ts -> lock_move m (f t) (f t') b a -> excl f a (put ts i t').
Proof.
  intros Hi [X1 X2] Hm. assert (Li : i < length ts) by (apply nth_error_Some; congruence). split.
  - intros j u Hj Hu. rewrite nth_put in Hj by exact Li. destruct (Nat.eqb_spec j i) as [->|N].
    + injection Hj as <-. rewrite Hu in Hm. destruct (f t) eqn:Ft; cbn in Hm; [rewrite Hm; eapply X1; eauto|apply Hm].
    + pose proof (X1 j u Hj Hu) as Hb. destruct (f t) eqn:Ft.
      * exfalso. apply N. eapply X2; eauto.
      * destruct (f t') eqn:Ft'; cbn in Hm; [apply Hm|]. congruence.
  - intros j k u v Hj Hk Hu Hv. rewrite nth_put in Hj, Hk by exact Li. destruct (Nat.eqb_spec j i) as [->|Nj]; destruct (Nat.eqb_spec k i) as [->|Nk]; auto.
    + injection Hj as <-. destruct (f t) eqn:Ft; [eapply X2; eauto|]. rewrite Hu in Hm. cbn in Hm. pose proof (X1 k v Hk Hv). destruct Hm. congruence.
    + injection Hk as <-. destruct (f t) eqn:Ft; [eapply X2; eauto|]. rewrite Hv in Hm. cbn in Hm. pose proof (X1 j u Hj Hu). destruct Hm. congruence.
    + eapply X2; eauto.
Qed.
Lemma owned_put f ts i t t' b a : nth_error ts i = Some t -> excl f b ts -> owned f b ts -> lock_move true (f t) (f t') b a -> owned f a (put ts i t').
Proof.
  intros Hi [X1 X2] Ho Hm Ha. assert (Li : i < length ts) by (apply nth_error_Some; congruence).
  destruct (f t') eqn:Ft'; [exists i, t'; rewrite nth_put, Nat.eqb_refl by exact Li; auto|].
  destruct (f t) eqn:Ft; cbn in Hm; [destruct Hm as [Hm|[Hm _]]; congruence|]. rewrite Hm in Ha. destruct (Ho Ha) as (j & u & Hj & Hu). exists j, u.
  rewrite nth_put by exact Li. destruct (Nat.eqb_spec j i) as [->|]; [congruence|auto].
Qed.

Record ginv (c : base_class) (work : list (list call)) (s : state) : Prop := mkG {
  gi_bufs : bufs (fst s);
  gi_len : length (snd s) = length work;
  gi_thr : forall i t ks, nth_error (snd s) i = Some t -> nth_error work i = Some ks -> tinv c (fst s) ks t;
  gi_enc : excl enc_b (enc_locked (fst s)) (snd s);
  gi_dec : excl dec_b (dec_locked (fst s)) (snd s) }.

Lemma place_ok_frame c o o' p : (match job_at p with Some (JEnc _) => en_cache o' = en_cache o | Some (JDec _) => de_cache o' = de_cache o | None => True end) -> place_ok c o p -> place_ok c o' p.
Proof.
  destruct p as [|j sz|j sz|[d|x]|[d|x] n|[d|x] n|j s]; cbn [job_at place_ok holds]; intros H; auto; rewrite H; auto.
Qed.
Lemma tinv_frame c o o' ks t : (enc_b t = true -> en_cache o' = en_cache o) -> (dec_b t = true -> de_cache o' = de_cache o) -> tinv c o ks t -> tinv c o' ks t.
Proof.
  intros He Hd [Hp H]. split; [|exact H]. eapply place_ok_frame; [|exact Hp]. unfold enc_b, dec_b in *. destruct (job_at (at_ t)) as [[d|x]|]; auto.
Qed.

Definition calls_ok (work : list (list call)) : Prop := Forall (Forall call_ok) work.
Definition choice_ok (c : base_class) (ch : choice) : Prop := slack (api_of c) (stk ch).

(** one step *)
Lemma step_inv c work s ch : calls_ok work -> choice_ok c ch -> ginv c work s ->
  (step c s ch = Ret s) \/
  (exists t o' t', nth_error (snd s) (who ch) = Some t /\ step_thread c (mem_ok ch) (stk ch) (fst s) t = Next o' t' /\
    step c s ch = Ret (o', put (snd s) (who ch) t') /\
    lock_move (mem_ok ch) (enc_b t) (enc_b t') (enc_locked (fst s)) (enc_locked o') /\ lock_move (mem_ok ch) (dec_b t) (dec_b t') (dec_locked (fst s)) (dec_locked o') /\
    (mem_ok ch = true -> ~ In Threw (results t) -> ~ In Threw (results t')) /\
    ginv c work (o', put (snd s) (who ch) t')).
Proof.
  intros Hc Hch [GB GL GT GE GD]. destruct s as [o ts]. cbn [fst snd] in *. unfold step. destruct (nth_error ts (who ch)) as [t|] eqn:Ht; [|left; reflexivity].
  assert (Li : who ch < length ts) by (apply nth_error_Some; congruence).
  destruct (nth_error work (who ch)) as [ks|] eqn:Hw; [|apply nth_error_None in Hw; lia].
  assert (Hks : Forall call_ok ks). { unfold calls_ok in Hc. rewrite Forall_forall in Hc. apply Hc. eapply nth_error_In; eauto. }
  pose proof (step_thread_good c (mem_ok ch) (stk ch) ks o t Hks Hch GB (GT _ _ _ Ht Hw)) as S.
  destruct (step_thread c (mem_ok ch) (stk ch) o t) as [|o' t'|w] eqn:E; [left; reflexivity| |destruct S].
  destruct S as (B' & T' & Fe & Fd & Le & Ld & Th). right. exists t, o', t'. repeat (split; [solve [auto]|]).
  split; cbn [fst snd].
  - exact B'.
  - rewrite put_length by exact Li. exact GL.
  - intros j u ks' Hj Hk. rewrite nth_put in Hj by exact Li. destruct (Nat.eqb_spec j (who ch)) as [->|N].
    + injection Hj as <-. rewrite Hw in Hk. injection Hk as <-. exact T'.
    + eapply tinv_frame; [| |eapply GT; eauto]; intros Hu.
      * apply Fe. destruct (enc_b t) eqn:Et; [|reflexivity]. exfalso. apply N. eapply (proj2 GE); eauto.
      * apply Fd. destruct (dec_b t) eqn:Et; [|reflexivity]. exfalso. apply N. eapply (proj2 GD); eauto.
  - eapply excl_put; eauto.
  - eapply excl_put; eauto.
Qed.
Lemma start_inv c work : ginv c work (start work).
Proof.
  split; cbn [start fst snd].
  - unfold bufs. cbn. repeat split; lia.
  - apply map_length.
  - intros i t ks Ht Hk. rewrite nth_error_map, Hk in Ht. cbn in Ht. injection Ht as <-. split; [exact Logic.I|]. exists []. split; [constructor|reflexivity].
  - split; [intros i t Ht|intros i j t u Ht]; rewrite nth_error_map in Ht; destruct (nth_error work i); cbn in Ht; try discriminate; injection Ht as <-; discriminate.
  - split; [intros i t Ht|intros i j t u Ht]; rewrite nth_error_map in Ht; destruct (nth_error work i); cbn in Ht; try discriminate; injection Ht as <-; discriminate.
Qed.
Lemma run_inv c work : calls_ok work -> forall sched s, Forall (choice_ok c) sched -> ginv c work s -> exists s', run c s sched = Ret s' /\ ginv c work s'.
Proof.
  intros Hc. induction sched as [|ch sched IH]; intros s Hs G; [exists s; auto|]. inversion Hs; subst. cbn [run].
  destruct (step_inv c work s ch Hc) as [E|(t & o' & t' & _ & _ & E & _ & _ & _ & G')]; auto; rewrite E; cbn [bind]; apply IH; auto.
Qed.
(** no allocation fails *)
Definition nofail (ts : list thread) : Prop := forall i t, nth_error ts i = Some t -> ~ In Threw (results t).
Lemma run_nofail c work : calls_ok work -> forall sched s s', Forall (choice_ok c) sched -> Forall (fun ch => mem_ok ch = true) sched ->
  ginv c work s -> owned enc_b (enc_locked (fst s)) (snd s) -> owned dec_b (dec_locked (fst s)) (snd s) -> nofail (snd s) ->
  run c s sched = Ret s' -> owned enc_b (enc_locked (fst s')) (snd s') /\ owned dec_b (dec_locked (fst s')) (snd s') /\ nofail (snd s').
Proof.
  intros Hc. induction sched as [|ch sched IH]; intros s s' Hs Hm G Oe Od Hn E; [injection E as <-; auto|]. inversion Hs; subst. inversion Hm; subst. cbn [run] in E.
  destruct (step_inv c work s ch Hc) as [E1|(t & o' & t' & Ht & _ & E1 & Le & Ld & Th & G')]; auto; rewrite E1 in E; cbn [bind] in E; [eapply IH; eauto|].
  rewrite H3 in *. eapply (IH _ s'); eauto; cbn [fst snd].
  - eapply owned_put; eauto. apply G.
  - eapply owned_put; eauto. apply G.
  - intros j u Hj. rewrite nth_put in Hj by (apply nth_error_Some; congruence). destruct (Nat.eqb_spec j (who ch)) as [->|]; [injection Hj as <-; apply Th; auto; eapply Hn; eauto|eapply Hn; eauto].
Qed.
Lemma start_owned work : owned enc_b (enc_locked (fst (start work))) (snd (start work)) /\ owned dec_b (dec_locked (fst (start work))) (snd (start work)) /\ nofail (snd (start work)).
Proof.
  split; [intros H; discriminate|]. split; [intros H; discriminate|]. intros i t Ht. cbn [start snd] in Ht. rewrite nth_error_map in Ht. destruct (nth_error work i); cbn in Ht; [injection Ht as <-; auto|discriminate].
Qed.

(** ** when a thread cannot run *)
Lemma blocked_why c ch ks o t : Forall call_ok ks -> choice_ok c ch -> bufs o -> tinv c o ks t -> step_thread c (mem_ok ch) (stk ch) o t = Blocked ->
  (todo t = [] /\ at_ t = Outside) \/ (exists d sz, at_ t = AtLock (JEnc d) sz /\ enc_locked o = true) \/ (exists x sz, at_ t = AtLock (JDec x) sz /\ dec_locked o = true).
Proof.
  intros Hks Hst HB HT. pose proof HT as (Hp & dn & HF & HJ). unfold step_thread.
  destruct (at_ t) as [|j sz|j sz|j|j n|j n|j s] eqn:Ea; cbn [place_job job_at place_ok] in *; intros E.
  - destruct (todo t) as [|k ks'] eqn:Et; [auto|]. exfalso.
    assert (Hk : call_ok k). { rewrite HJ in Hks. apply Forall_app in Hks as [_ Hks]. inversion Hks; assumption. }
    destruct (job_of_ok c k Hk) as (j & Ej & _ & _). rewrite Ej in E. cbn [lift] in E. destruct (match j with JEnc d => enc_space _ _ | JDec s => dec_space _ _ end) in E; discriminate.
  - destruct j as [d|x]; [destruct (enc_locked o) eqn:L|destruct (dec_locked o) eqn:L]; try discriminate; eauto 7.
  - destruct j as [d|x]; [destruct (encsz o <=? sz)%Z|destruct (decsz o <=? sz)%Z]; destruct (mem_ok ch); discriminate.
  - exfalso. destruct j as [d|x]; destruct Hp as [H1 H2].
    + rewrite encode_f_eq, C06_encode_text in E by assumption. discriminate.
    + rewrite decode_f_eq in E. destruct (c_decodes_dec (api_of c) x H1 (de_cache o) H2) as (tl & E2). rewrite E2 in E. discriminate.
  - exfalso. destruct j as [d|x]; cbn [holds] in Hp; [destruct Hp as (s & tl & V & Z & -> & Ec)|destruct Hp as (s & tl & V & -> & Ec)]; rewrite Ec, wr_app in E by reflexivity; discriminate.
  - exfalso. destruct j as [d|x]; cbn [holds] in Hp; [destruct Hp as (s & tl & V & Z & -> & Ec)|destruct Hp as (s & tl & V & -> & Ec)]; destruct (mem_ok ch); try discriminate.
    + rewrite Ec, c_string_ok in E by (apply in_or_app; right; left; reflexivity). discriminate.
    + destruct (Nat.leb _ _) in E; discriminate.
  - destruct j; discriminate.
Qed.

(** ** how far a thread still has to go *)
Definition togo (t : thread) : nat :=
  7 * length (todo t) + match at_ t with Outside => 0 | AtLock _ _ => 6 | AtCheck _ _ => 5 | AtCall _ => 4 | AtTerminator _ _ => 3 | AtCopy _ _ => 2 | AtUnlock _ _ => 1 end.
Lemma togo_step c m st o t o' t' : step_thread c m st o t = Next o' t' -> togo t' < togo t.
Proof.
  unfold step_thread, togo. destruct (at_ t) as [|j sz|j sz|j|j n|j n|j s] eqn:Ea; intros E.
  - destruct (todo t) as [|k ks]; [discriminate|]. destruct (job_of k) as [j| |]; try discriminate. cbn [lift] in E. destruct (match j with JEnc d => _ | JDec s => _ end); [|discriminate]. injection E as <- <-. cbn [todo at_ length]. lia.
  - destruct j; [destruct (enc_locked o)|destruct (dec_locked o)]; try discriminate; injection E as <- <-; cbn; lia.
  - destruct j; [destruct (encsz o <=? sz)%Z|destruct (decsz o <=? sz)%Z]; try destruct m; try discriminate; injection E as <- <-; cbn; lia.
  - destruct j; [destruct (encode_f _ _ _ _) as [[n e]| |]|destruct (decode_f _ _ _) as [[n e]| |]]; try discriminate; injection E as <- <-; cbn; lia.
  - destruct j; [destruct (wr (en_cache o) n 0%N)|destruct (wr (de_cache o) n 0%N)]; try discriminate; injection E as <- <-; cbn; lia.
  - destruct j; destruct m; [destruct (c_string (en_cache o))| |destruct (Nat.leb _ _)|]; try discriminate; injection E as <- <-; cbn; lia.
  - destruct j; injection E as <- <-; cbn; lia.
Qed.
