(** C87: SHA-1/SHA-2 contexts and threads. *)
From Coq Require Import String.
From Verif Require PropSha.
From Verif Require Import Base SFips180 SShaLib MSha MFront SHash MHashThreads SHashThreads.
Local Open Scope N_scope.

(** ** lists *)
Lemma put_mid {A} (p : list A) x y q : put (length p) x (p ++ y :: q) = p ++ x :: q.
Proof. unfold put. rewrite firstn_app, Nat.sub_diag, firstn_O, app_nil_r, firstn_all. f_equal. f_equal. rewrite skipn_app. replace (S (length p) - length p)%nat with 1%nat by lia. rewrite skipn_all2 by lia. reflexivity. Qed.
Lemma split_at {A} (l : list A) i x : nth_error l i = Some x -> exists p q, l = p ++ x :: q /\ length p = i.
Proof. intros H. apply nth_error_split in H as (p & q & -> & <-). eauto. Qed.
Lemma nth_mid {A} (p : list A) x q : nth_error (p ++ x :: q) (length p) = Some x.
Proof. rewrite nth_error_app2, Nat.sub_diag by lia. reflexivity. Qed.
Lemma nth_other {A} (p : list A) x y q j : j <> length p -> nth_error (p ++ x :: q) j = nth_error (p ++ y :: q) j.
Proof.
  intros H. destruct (Nat.lt_ge_cases j (length p)) as [L|L]; [rewrite !nth_error_app1 by exact L; reflexivity|].
  rewrite !nth_error_app2 by exact L. destruct (j - length p)%nat eqn:E; [lia|reflexivity].
Qed.
Lemma put_same {A} (l : list A) i x y : nth_error l i = Some y -> nth_error (put i x l) i = Some x.
Proof. intros H. apply split_at in H as (p & q & -> & <-). rewrite put_mid. apply nth_mid. Qed.
Lemma put_other {A} (l : list A) i x y j : nth_error l i = Some y -> j <> i -> nth_error (put i x l) j = nth_error l j.
Proof. intros H N. apply split_at in H as (p & q & -> & <-). rewrite put_mid. apply nth_other, N. Qed.

(** ** what is left to do, in one piece *)
Definition after_loop (a : sha_alg) (todo : list (list N)) (r : outcome sha_ctx) : outcome sha_ctx := c <- r ;; updates (sha_impl a) c todo.
Definition full_then (a : sha_alg) (c : sha_ctx) (r : list N) (i : N) (k : bool) (todo : list (list N)) : outcome sha_ctx :=
  let c := if negb k && Nat.eqb (index c) (block_bytes a) then process_block a c else c in
  if i =? INT_MAX then UB SignedOverflow else after_loop a todo (sha_update_loop a c r (i + 1) k).
Definition complete (a : sha_alg) (c : sha_ctx) (t : uthread) : outcome sha_ctx :=
  match ut_at t with
  | UIdle => updates (sha_impl a) c (ut_todo t)
  | UByte r i k => after_loop a (ut_todo t) (sha_update_loop a c r i k)
  | ULen r i => let '(c, k) := add_length a c in full_then a c r i k (ut_todo t)
  | UFull r i k => full_then a c r i k (ut_todo t)
  end.
Lemma complete_step a c t : complete a c t = ('(c, t) <- ut_step a c t ;; complete a c t).
Proof.
  destruct t as [o todo p]. unfold ut_step, complete at 1. cbn [ut_at ut_todo ut_obj]. destruct p as [|r i k|r i|r i k].
  - destruct todo as [|p todo]; reflexivity.
  - destruct r as [|b r]; [reflexivity|]. destruct k; [reflexivity|]. cbn [sha_update_loop]. unfold after_loop.
    destruct (wr (block c) (index c) b) as [blk|u|]; try reflexivity. cbn [bind]. unfold complete. cbn [ut_at ut_todo add_length]. unfold full_then, after_loop. cbn [index state len_low len_high block].
    destruct (i =? INT_MAX); reflexivity.
  - unfold complete. destruct (add_length a c) as [c' k]. reflexivity.
  - unfold full_then. destruct (i =? INT_MAX); reflexivity.
Qed.
Lemma step_obj a c t c' t' : ut_step a c t = Ret (c', t') -> ut_obj t' = ut_obj t.
Proof.
  destruct t as [o todo p]. unfold ut_step. cbn [ut_at ut_todo ut_obj]. destruct p as [|r i k|r i|r i k].
  - destruct todo; intros E; injection E as _ <-; reflexivity.
  - destruct r as [|b r]; [intros E; injection E as _ <-; reflexivity|]. destruct k; [intros E; injection E as _ <-; reflexivity|].
    destruct (wr (block c) (index c) b); cbn [bind]; try discriminate. intros E. injection E as _ <-. reflexivity.
  - destruct (add_length a c) as [c1 k]. intros E. injection E as _ <-. reflexivity.
  - destruct (i =? INT_MAX); [discriminate|]. intros E. injection E as _ <-. reflexivity.
Qed.

(** ** threads with objects of their own *)
Definition only_user (ts : list uthread) (k : nat) (o : nat) : Prop := forall j t, nth_error ts j = Some t -> ut_obj t = o -> j = k.
(** one step: nothing happens, or the context and the thread are replaced *)
Lemma next_cases a cs ts who st : ut_next a (cs, ts) who = Ret st ->
  st = (cs, ts) \/ exists t c c1 t1, nth_error ts who = Some t /\ nth_error cs (ut_obj t) = Some c /\ ut_step a c t = Ret (c1, t1) /\ st = (put (ut_obj t) c1 cs, put who t1 ts).
Proof.
  unfold ut_next. destruct (nth_error ts who) as [t|] eqn:T; [|intros E; injection E as <-; auto].
  destruct (nth_error cs (ut_obj t)) as [c|] eqn:C; [|intros E; injection E as <-; auto].
  destruct (ut_step a c t) as [[c1 t1]| |] eqn:S1; cbn [bind]; [|discriminate..]. intros E. injection E as <-. right. exists t, c, c1, t1. auto.
Qed.
Lemma obj_after ts who t t1 j tj : nth_error ts who = Some t -> ut_obj t1 = ut_obj t -> nth_error (put who t1 ts) j = Some tj ->
  exists tj0, nth_error ts j = Some tj0 /\ ut_obj tj0 = ut_obj tj.
Proof.
  intros T O J. destruct (Nat.eq_dec j who) as [->|N].
  - rewrite (put_same _ _ _ _ T) in J. injection J as <-. eauto.
  - rewrite (put_other _ _ _ _ _ T N) in J. eauto.
Qed.
Lemma run_alone a k o sched : forall cs ts cs' ts' t c, ut_run a (cs, ts) sched = Ret (cs', ts') ->
  nth_error ts k = Some t -> ut_obj t = o -> nth_error cs o = Some c -> only_user ts k o ->
  exists t' c', nth_error ts' k = Some t' /\ nth_error cs' o = Some c' /\ complete a c' t' = complete a c t.
Proof.
  induction sched as [|who sched IH]; intros cs ts cs' ts' t c R T O C U; cbn [ut_run] in R.
  { injection R as <- <-. eauto. }
  destruct (ut_next a (cs, ts) who) as [st| |] eqn:X; cbn [bind] in R; [|discriminate..].
  destruct (next_cases _ _ _ _ _ X) as [->|(tw & cw & c1 & t1 & Tw & Cw & S1 & ->)]; [eapply IH; eassumption|].
  pose proof (step_obj _ _ _ _ _ S1) as Ow.
  assert (U' : only_user (put who t1 ts) k o).
  { intros j tj Tj Oj. destruct (obj_after _ _ _ _ _ _ Tw Ow Tj) as (tj0 & T0 & O0). apply (U j tj0 T0). congruence. }
  destruct (Nat.eq_dec who k) as [->|N].
  - assert (tw = t) as -> by congruence. assert (cw = c) as -> by congruence. rewrite complete_step, S1. cbn [bind].
    apply (IH _ _ _ _ t1 c1 R); [eapply put_same; eassumption|congruence|rewrite <- O; eapply put_same; rewrite O; eassumption|exact U'].
  - assert (No : ut_obj tw <> o) by (intros E; apply N, (U who tw Tw E)).
    apply (IH _ _ _ _ t c R); [rewrite (put_other _ _ _ _ _ Tw); [exact T|congruence]|exact O|rewrite (put_other _ _ _ _ _ Cw); [exact C|congruence]|exact U'].
Qed.
Lemma run_defined a sched : forall cs ts,
  (forall k t, nth_error ts k = Some t -> only_user ts k (ut_obj t) /\ exists c d, nth_error cs (ut_obj t) = Some c /\ complete a c t = Ret d) ->
  exists cs' ts', ut_run a (cs, ts) sched = Ret (cs', ts').
Proof.
  induction sched as [|who sched IH]; intros cs ts H; cbn [ut_run]; [eauto|].
  destruct (nth_error ts who) as [t|] eqn:T; [|unfold ut_next; rewrite T; cbn [bind]; apply IH, H].
  destruct (H who t T) as (U & c & d & C & D). unfold ut_next. rewrite T, C. rewrite complete_step in D.
  destruct (ut_step a c t) as [[c1 t1]| |] eqn:S1; cbn [bind] in D |- *; [|discriminate..]. pose proof (step_obj _ _ _ _ _ S1) as Ow.
  apply IH. intros k tk Tk. split.
  - intros j tj Tj Oj. destruct (obj_after _ _ _ _ _ _ T Ow Tj) as (tj0 & T0 & O0). destruct (obj_after _ _ _ _ _ _ T Ow Tk) as (tk0 & K0 & O1).
    destruct (H k tk0 K0) as [Uk _]. apply (Uk j tj0 T0). congruence.
  - destruct (Nat.eq_dec k who) as [->|N].
    + rewrite (put_same _ _ _ _ T) in Tk. injection Tk as <-. exists c1, d. rewrite Ow. split; [eapply put_same; exact C|exact D].
    + rewrite (put_other _ _ _ _ _ T N) in Tk. destruct (H k tk Tk) as (Uk & ck & dk & Ck & Dk). exists ck, dk. split; [|exact Dk].
      rewrite (put_other _ _ _ _ _ C); [exact Ck|]. intros E. apply N. symmetry. apply (Uk who t T). congruence.
Qed.

(** ** C87: threads that feed different objects do not disturb each other *)
(** Whatever the schedule: no undefined behaviour that the calls of one thread alone would not have, and when a thread has made
    its calls, its object is as if it had been alone. *)
Theorem C87_separate_objects : forall a cs work sched, NoDup (map fst work) ->
  (forall o ps, In (o, ps) work -> exists c d, nth_error cs o = Some c /\ updates (sha_impl a) c ps = Ret d) ->
  exists cs' ts', ut_run a (ut_start cs work) sched = Ret (cs', ts') /\
    forall k o ps t, nth_error work k = Some (o, ps) -> nth_error ts' k = Some t -> finished t ->
    exists c c', nth_error cs o = Some c /\ nth_error cs' o = Some c' /\ updates (sha_impl a) c ps = Ret c'.
Proof.
  intros a cs work sched ND H.
  assert (St : forall k t, nth_error (snd (ut_start cs work)) k = Some t -> exists o ps, nth_error work k = Some (o, ps) /\ t = mkUT o ps UIdle).
  { intros k t T. cbn [ut_start snd] in T. rewrite nth_error_map in T. destruct (nth_error work k) as [[o ps]|]; [|discriminate]. injection T as <-. eauto. }
  assert (Us : forall k t, nth_error (snd (ut_start cs work)) k = Some t -> only_user (snd (ut_start cs work)) k (ut_obj t)).
  { intros k t T j tj Tj Oj. destruct (St k t T) as (o & ps & W & ->). destruct (St j tj Tj) as (o' & ps' & W' & ->). cbn [ut_obj] in Oj. subst o'.
    apply (proj1 (NoDup_nth_error _) ND); [apply nth_error_Some; rewrite nth_error_map, W'; discriminate|rewrite !nth_error_map, W, W'; reflexivity]. }
  destruct (run_defined a sched cs (snd (ut_start cs work))) as (cs' & ts' & R).
  { intros k t T. split; [apply Us, T|]. destruct (St k t T) as (o & ps & W & ->). apply nth_error_In in W. destruct (H o ps W) as (c & d & C & D). exists c, d. auto. }
  exists cs', ts'. split; [exact R|]. intros k o ps t W T [F1 F2].
  destruct (H o ps (nth_error_In _ _ W)) as (c & d & C & D).
  assert (T0 : nth_error (snd (ut_start cs work)) k = Some (mkUT o ps UIdle)) by (cbn [ut_start snd]; rewrite nth_error_map, W; reflexivity).
  destruct (run_alone a k o sched _ _ _ _ (mkUT o ps UIdle) c R T0 eq_refl C (Us k _ T0)) as (t' & c' & T' & C' & E).
  assert (t' = t) as -> by congruence. exists c, c'. split; [exact C|]. split; [exact C'|].
  unfold complete in E. rewrite F1, F2 in E. cbn [updates ut_at ut_todo] in E. symmetry. exact E.
Qed.
Print Assumptions C87_separate_objects.
(** The same for one thread whose object no other thread feeds, whatever the others do with theirs. *)
Theorem C87_own_object : forall a cs work sched cs' ts' k o ps t c, ut_run a (ut_start cs work) sched = Ret (cs', ts') ->
  nth_error work k = Some (o, ps) -> (forall j ps', nth_error work j = Some (o, ps') -> j = k) -> nth_error cs o = Some c ->
  nth_error ts' k = Some t -> finished t -> exists c', nth_error cs' o = Some c' /\ updates (sha_impl a) c ps = Ret c'.
Proof.
  intros a cs work sched cs' ts' k o ps t c R W U C T [F1 F2].
  assert (T0 : nth_error (snd (ut_start cs work)) k = Some (mkUT o ps UIdle)) by (cbn [ut_start snd]; rewrite nth_error_map, W; reflexivity).
  destruct (run_alone a k o sched _ _ _ _ (mkUT o ps UIdle) c R T0 eq_refl C) as (t' & c' & T' & C' & E).
  { intros j tj Tj Oj. cbn [ut_start snd] in Tj. rewrite nth_error_map in Tj. destruct (nth_error work j) as [[o' ps']|] eqn:W'; [|discriminate].
    injection Tj as <-. cbn [ut_obj fst] in Oj. subst o'. apply (U j ps' W'). }
  assert (t' = t) as -> by congruence. exists c'. split; [exact C'|].
  unfold complete in E. rewrite F1, F2 in E. cbn [updates ut_at ut_todo] in E. symmetry. exact E.
Qed.
Print Assumptions C87_own_object.

(** ** C87: an object fed by several threads, one call at a time (as with a lock held during each call) *)
(** [one_at_a_time st log st']: from st to st' every call runs from start to end without another thread in between;
    the log has the object and the data of each call, in the order in which they were made. *)
Inductive one_at_a_time (a : sha_alg) : ut_state -> list (nat * list N) -> ut_state -> Prop :=
| oat_none st : one_at_a_time a st [] st
| oat_call cs ts k t p rest n cs1 ts1 t1 log st2 :
    nth_error ts k = Some t -> ut_at t = UIdle -> ut_todo t = p :: rest ->
    ut_run a (cs, ts) (repeat k n) = Ret (cs1, ts1) -> nth_error ts1 k = Some t1 -> ut_at t1 = UIdle -> ut_todo t1 = rest ->
    one_at_a_time a (cs1, ts1) log st2 -> one_at_a_time a (cs, ts) ((ut_obj t, p) :: log) st2.
(** what is left to do in the current call only *)
Definition in_call (a : sha_alg) (c : sha_ctx) (t : uthread) : outcome sha_ctx := complete a c (mkUT (ut_obj t) [] (ut_at t)).
Lemma step_todo a c t c1 t1 : ut_at t <> UIdle -> ut_step a c t = Ret (c1, t1) ->
  ut_step a c (mkUT (ut_obj t) [] (ut_at t)) = Ret (c1, mkUT (ut_obj t1) [] (ut_at t1)) /\ ut_todo t1 = ut_todo t.
Proof.
  destruct t as [o todo p]. unfold ut_step. cbn [ut_at ut_todo ut_obj]. destruct p as [|r i k|r i|r i k]; intros N; [congruence|..].
  - destruct r as [|b r]; [intros E; injection E as <- <-; auto|]. destruct k; [intros E; injection E as <- <-; auto|].
    destruct (wr (block c) (index c) b); cbn [bind]; try discriminate. intros E. injection E as <- <-. auto.
  - destruct (add_length a c) as [c' k]. intros E. injection E as <- <-. auto.
  - destruct (i =? INT_MAX); [discriminate|]. intros E. injection E as <- <-. auto.
Qed.
Lemma solo a k p rest c0 n : forall cs ts cs1 ts1 t c, ut_run a (cs, ts) (repeat k n) = Ret (cs1, ts1) ->
  nth_error ts k = Some t -> nth_error cs (ut_obj t) = Some c ->
  ((ut_todo t = p :: rest /\ ut_at t = UIdle /\ c = c0) \/ (ut_todo t = rest /\ in_call a c t = sha_update a c0 p) \/ (length (ut_todo t) < length rest)%nat) ->
  exists t1 c1, nth_error ts1 k = Some t1 /\ ut_obj t1 = ut_obj t /\ nth_error cs1 (ut_obj t) = Some c1 /\
    ((ut_todo t1 = p :: rest /\ ut_at t1 = UIdle /\ c1 = c0) \/ (ut_todo t1 = rest /\ in_call a c1 t1 = sha_update a c0 p) \/ (length (ut_todo t1) < length rest)%nat) /\
    (forall o, o <> ut_obj t -> nth_error cs1 o = nth_error cs o).
Proof.
  induction n as [|n IH]; intros cs ts cs1 ts1 t c R T C H; cbn [repeat ut_run] in R.
  { injection R as <- <-. exists t, c. auto 6. }
  destruct (ut_next a (cs, ts) k) as [st| |] eqn:X; cbn [bind] in R; [|discriminate..]. unfold ut_next in X. rewrite T, C in X.
  destruct (ut_step a c t) as [[c' t']| |] eqn:S1; cbn [bind] in X; [|discriminate..]. injection X as <-.
  pose proof (step_obj _ _ _ _ _ S1) as Ow.
  destruct (IH _ _ _ _ t' c' R) as (t1 & c1 & T1 & O1 & C1 & H1 & Rest).
  - eapply put_same; exact T.
  - rewrite Ow. eapply put_same; exact C.
  - destruct (ut_at t) as [|r i q|r i|r i q] eqn:A.
    + unfold ut_step in S1. rewrite A in S1. destruct (ut_todo t) as [|p1 todo] eqn:D.
      * injection S1 as <- <-. rewrite D, A. destruct H as [[H _]|[H|H]]; [discriminate|right; left; exact H|right; right; exact H].
      * injection S1 as <- <-. cbn [ut_todo ut_at]. destruct H as [(H & _ & ->)|[[H _]|H]].
        -- injection H as -> ->. right. left. split; [reflexivity|]. unfold in_call, complete. cbn [ut_at ut_obj ut_todo]. unfold after_loop, sha_update.
           destruct (sha_update_loop a c0 p 0 false); reflexivity.
        -- right. right. rewrite <- H. cbn [length]. lia.
        -- right. right. cbn [length] in H. lia.
    + destruct (step_todo a c t c' t' ltac:(rewrite A; discriminate) S1) as [S2 D2]. rewrite D2. destruct H as [(_ & B & _)|[[D H]|H]]; [congruence| |auto].
      right. left. split; [exact D|]. rewrite <- H. unfold in_call. rewrite (complete_step a c), S2. reflexivity.
    + destruct (step_todo a c t c' t' ltac:(rewrite A; discriminate) S1) as [S2 D2]. rewrite D2. destruct H as [(_ & B & _)|[[D H]|H]]; [congruence| |auto].
      right. left. split; [exact D|]. rewrite <- H. unfold in_call. rewrite (complete_step a c), S2. reflexivity.
    + destruct (step_todo a c t c' t' ltac:(rewrite A; discriminate) S1) as [S2 D2]. rewrite D2. destruct H as [(_ & B & _)|[[D H]|H]]; [congruence| |auto].
      right. left. split; [exact D|]. rewrite <- H. unfold in_call. rewrite (complete_step a c), S2. reflexivity.
  - exists t1, c1. split; [exact T1|]. split; [congruence|]. split; [rewrite <- Ow; exact C1|]. split; [exact H1|].
    intros o No. rewrite Rest by congruence. apply (put_other _ _ _ _ _ C No).
Qed.
(** Every object is as if the calls made on it had been made by one thread, in that order. *)
Theorem C87_one_call_at_a_time : forall a cs ts log cs' ts', one_at_a_time a (cs, ts) log (cs', ts') ->
  Forall (fun t => (ut_obj t < length cs)%nat) ts ->
  forall o c, nth_error cs o = Some c ->
  exists c', nth_error cs' o = Some c' /\ updates (sha_impl a) c (map snd (filter (fun e => Nat.eqb (fst e) o) log)) = Ret c'.
Proof.
  intros a cs ts log cs' ts' H. remember (cs, ts) as st eqn:E1. remember (cs', ts') as st' eqn:E2. revert cs ts E1.
  induction H as [st|cs ts k t p rest n cs1 ts1 t1 log st2 T A D R T1 A1 D1 H IH]; intros cs0 ts0 E1 Ob o c C.
  - assert (cs' = cs0) as -> by congruence. exists c. split; [exact C|]. reflexivity.
  - injection E1 as -> ->. subst st2.
    assert (Lt : (ut_obj t < length cs0)%nat) by (rewrite Forall_forall in Ob; apply Ob; eapply nth_error_In; exact T).
    destruct (nth_error cs0 (ut_obj t)) as [ct|] eqn:Ct; [|apply nth_error_None in Ct; lia].
    destruct (solo a k p rest ct n _ _ _ _ t ct R T Ct (or_introl (conj D (conj A eq_refl)))) as (t1' & c1 & T1' & O1 & C1 & Hc & Rest).
    assert (t1' = t1) as -> by congruence. destruct Hc as [(Dx & _)|[[_ Hc]|Hc]].
    + exfalso. rewrite D1 in Dx. apply (f_equal (@length _)) in Dx. cbn [length] in Dx. lia.
    + unfold in_call, complete in Hc. rewrite A1 in Hc. cbn [ut_at ut_todo updates] in Hc.
      assert (Lcs : length cs1 = length cs0).
      { clear - R. revert cs0 ts0 R. induction n as [|n IH]; intros cs0 ts0 R; cbn [repeat ut_run] in R; [congruence|].
        destruct (ut_next a (cs0, ts0) k) as [st| |] eqn:X; cbn [bind] in R; [|discriminate..].
        destruct (next_cases _ _ _ _ _ X) as [->|(tw & cw & c2 & t2 & Tw & Cw & S1 & ->)]; [apply IH in R; exact R|].
        apply IH in R. rewrite R. apply split_at in Cw as (u & v & -> & <-). rewrite put_mid, !app_length. reflexivity. }
      assert (Ob1 : Forall (fun t => (ut_obj t < length cs1)%nat) ts1).
      { rewrite Lcs. clear - R Ob. revert cs0 ts0 R Ob. intros cs0 ts0 R Ob. generalize (length cs0) as m, Ob. clear Ob. intros m. revert cs0 ts0 R.
        induction n as [|n IH]; intros cs0 ts0 R Ob; cbn [repeat ut_run] in R; [congruence|].
        destruct (ut_next a (cs0, ts0) k) as [st| |] eqn:X; cbn [bind] in R; [|discriminate..].
        destruct (next_cases _ _ _ _ _ X) as [->|(tw & cw & c2 & t2 & Tw & Cw & S1 & ->)]; [eapply IH; eassumption|].
        eapply IH; [exact R|]. apply step_obj in S1. apply split_at in Tw as (u & v & -> & <-). rewrite put_mid.
        apply Forall_app in Ob as [Ob1 Ob2]. apply Forall_app. split; [exact Ob1|]. inversion Ob2; subst. constructor; [rewrite S1; assumption|assumption]. }
      cbn [filter map fst snd]. destruct (Nat.eqb_spec (ut_obj t) o) as [Eo|No].
      * subst o. assert (c = ct) as -> by congruence. destruct (IH eq_refl cs1 ts1 eq_refl Ob1 (ut_obj t) c1 C1) as (c' & C' & U).
        exists c'. split; [exact C'|]. cbn [map updates snd]. change (iupdate (sha_impl a)) with (sha_update a). rewrite <- Hc. exact U.
      * apply (IH eq_refl cs1 ts1 eq_refl Ob1 o c). rewrite Rest by congruence. exact C.
    + exfalso. rewrite D1 in Hc. lia.
Qed.
Print Assumptions C87_one_call_at_a_time.

(** ** one object, several threads at once, no block completed *)
(** the context with the bytes [w] added and [p] of the lengths not counted yet *)
Definition grown (c : sha_ctx) (w : list N) (p : N) (c' : sha_ctx) : Prop :=
  state c' = state c /\ len_high c' = len_high c /\ len_low c' + 8 * p = len_low c + 8 * N.of_nat (length w) /\ index c' = (index c + length w)%nat /\
  block c' = firstn (index c) (block c) ++ w ++ skipn (index c + length w) (block c).
Lemma grown_unique c w p c1 c2 : grown c w p c1 -> grown c w p c2 -> c1 = c2.
Proof.
  intros (A1 & A2 & A3 & A4 & A5) (B1 & B2 & B3 & B4 & B5). destruct c1 as [a1 b1 d1 e1 f1], c2 as [a2 b2 d2 e2 f2]. cbn [state len_high len_low index block] in *. f_equal; try congruence. lia.
Qed.
Lemma skipn_S {A} m : forall (l : list A) x q, skipn m l = x :: q -> skipn (S m) l = q.
Proof. induction m as [|m IH]; intros [|y l] x q E; cbn [skipn] in E |- *; try discriminate; [congruence|]. apply (IH l x q E). Qed.
Lemma grown_write c w p c1 b : grown c w p c1 -> (index c + length w < length (block c))%nat ->
  exists blk, wr (block c1) (index c1) b = Ret blk /\ grown c (w ++ [b]) (p + 1) (mkSha (state c1) (len_low c1) (len_high c1) (S (index c1)) blk).
Proof.
  intros (A1 & A2 & A3 & A4 & A5) L.
  destruct (skipn (index c + length w) (block c)) as [|x q] eqn:Q; [apply (f_equal (@length _)) in Q; rewrite skipn_length in Q; cbn [length] in Q; lia|].
  exists ((firstn (index c) (block c) ++ w) ++ b :: q). split.
  - rewrite A5, A4, app_assoc. apply wr_app. rewrite app_length, firstn_length. lia.
  - unfold grown. cbn [state len_high len_low index block]. rewrite app_length. cbn [length]. repeat split; try assumption; try lia.
    rewrite <- !app_assoc. cbn [app]. f_equal. f_equal. f_equal. apply skipn_S in Q. rewrite <- Q. f_equal. lia.
Qed.
Lemma trunc_small w x : x < 2 ^ w -> trunc w x = x.
Proof. intros H. unfold trunc. rewrite N.land_ones. apply N.mod_small, H. Qed.
Lemma grown_length a c w p c1 : grown c w (p + 1) c1 -> len_low c + 8 * N.of_nat (length w) < 2 ^ word_bits a ->
  exists c2, add_length a c1 = (c2, false) /\ grown c w p c2.
Proof.
  intros (A1 & A2 & A3 & A4 & A5) L. unfold add_length. rewrite trunc_small by lia. replace (len_low c1 + 8 <? len_low c1) with false by (symmetry; apply N.ltb_ge; lia).
  cbn [andb]. eexists. split; [reflexivity|]. unfold grown. cbn [state len_high len_low index block]. repeat split; try assumption. lia.
Qed.
(** bytes added by one call that does not complete a block *)
Lemma grown_update a c : length (block c) = block_bytes a -> forall w2 w1 c1 i, grown c w1 0 c1 -> (index c + length (w1 ++ w2) < block_bytes a)%nat ->
  len_low c + 8 * N.of_nat (length (w1 ++ w2)) < 2 ^ word_bits a -> i + N.of_nat (length w2) <= INT_MAX ->
  exists c2, sha_update_loop a c1 w2 i false = Ret c2 /\ grown c (w1 ++ w2) 0 c2.
Proof.
  intros Lb w2. induction w2 as [|b w2 IH]; intros w1 c1 i G Li Ll Lm.
  { exists c1. rewrite app_nil_r. split; [reflexivity|exact G]. }
  rewrite app_length in Li, Ll. cbn [length] in Li, Ll, Lm.
  destruct (grown_write c w1 0 c1 b G) as (blk & W & G1); [lia|].
  destruct (grown_length a c (w1 ++ [b]) 0 _ G1) as (c2 & Al & G2); [rewrite app_length; cbn [length]; lia|].
  destruct (IH (w1 ++ [b]) c2 (i + 1) G2) as (c3 & U & G3).
  - rewrite <- app_assoc. cbn [app]. rewrite app_length. cbn [length]. lia.
  - rewrite <- app_assoc. cbn [app]. rewrite app_length. cbn [length]. lia.
  - lia.
  - exists c3. rewrite <- app_assoc in G3. cbn [app] in G3. split; [|exact G3]. cbn [sha_update_loop]. rewrite W. cbn [bind].
    unfold add_length in Al. cbn [state len_high len_low index block] in Al. injection Al as Ec Ek.
    destruct G2 as (B1 & B2 & B3 & B4 & B5). rewrite Ek. cbn [negb andb]. cbn [index].
    assert (Ix : Nat.eqb (S (index c1)) (block_bytes a) = false).
    { apply Nat.eqb_neq. rewrite <- Ec in B4. cbn [index] in B4. rewrite B4, app_length. cbn [length]. lia. }
    rewrite Ix. rewrite Ec. replace (i =? INT_MAX) with false by (symmetry; apply N.eqb_neq; lia). exact U.
Qed.

(** what a thread has still to add *)
Definition remaining (t : uthread) : list N :=
  match ut_at t with UIdle => concat (ut_todo t) | UByte r _ _ | ULen r _ | UFull r _ _ => r ++ concat (ut_todo t) end.
Definition pending (t : uthread) : N := match ut_at t with ULen _ _ => 1 | _ => 0 end.
Definition place_ok (T : nat) (t : uthread) : Prop :=
  ut_obj t = 0%nat /\ Forall (fun p => (length p <= T)%nat) (ut_todo t) /\
  match ut_at t with
  | UIdle => True
  | UByte r i k => k = false /\ i + N.of_nat (length r) <= N.of_nat T
  | ULen r i => i + 1 + N.of_nat (length r) <= N.of_nat T
  | UFull r i k => k = false /\ i + 1 + N.of_nat (length r) <= N.of_nat T
  end.
Definition total_left (ts : list uthread) : nat := list_sum (map (fun t => length (remaining t)) ts).
Definition total_pending (ts : list uthread) : N := fold_right N.add 0 (map pending ts).
Lemma total_left_app u v : total_left (u ++ v) = (total_left u + total_left v)%nat.
Proof. unfold total_left. rewrite map_app, list_sum_app. reflexivity. Qed.
Lemma total_left_cons t v : total_left (t :: v) = (length (remaining t) + total_left v)%nat.
Proof. reflexivity. Qed.
Lemma total_pending_app u v : total_pending (u ++ v) = total_pending u + total_pending v.
Proof. unfold total_pending. rewrite map_app, fold_right_app. induction u as [|t u IH]; cbn [map fold_right]; [lia|]. rewrite IH. lia. Qed.
Lemma total_pending_cons t v : total_pending (t :: v) = pending t + total_pending v.
Proof. reflexivity. Qed.
Record shared (a : sha_alg) (c : sha_ctx) (work : list (list (list N))) (T : nat) (c' : sha_ctx) (ts : list uthread) (w : list N) : Prop := {
  sh_places : Forall (place_ok T) ts;
  sh_grown : grown c w (total_pending ts) c';
  sh_total : (length w + total_left ts = T)%nat;
  sh_mixed : forall w', mixed (map remaining ts) w' -> mixed (map (@concat N) work) (w ++ w') }.
Lemma shared_step a c work T c' u t v w : length (block c) = block_bytes a -> (index c + T < block_bytes a)%nat -> len_low c + 8 * N.of_nat T < 2 ^ word_bits a ->
  N.of_nat T <= INT_MAX -> shared a c work T c' (u ++ t :: v) w ->
  exists c1 t1 w1, ut_step a c' t = Ret (c1, t1) /\ shared a c work T c1 (u ++ t1 :: v) w1.
Proof.
  intros Lb Li Ll Lm [Pl G To Mx]. apply Forall_app in Pl as [Pu Pv]. inversion Pv as [|? ? Pt Pv']; subst. clear Pv.
  assert (Same : forall t1, place_ok (length w + total_left (u ++ t :: v)) t1 -> remaining t1 = remaining t -> pending t1 = pending t -> 
    shared a c work (length w + total_left (u ++ t :: v)) c' (u ++ t1 :: v) w).
  { intros t1 P1 R1 D1. split.
    - apply Forall_app. split; [exact Pu|]. constructor; assumption.
    - replace (total_pending (u ++ t1 :: v)) with (total_pending (u ++ t :: v)) by (rewrite !total_pending_app, !total_pending_cons, D1; reflexivity). exact G.
    - rewrite !total_left_app, !total_left_cons, R1. reflexivity.
    - intros w'. replace (map remaining (u ++ t1 :: v)) with (map remaining (u ++ t :: v)) by (rewrite !map_app; cbn [map]; rewrite R1; reflexivity). apply Mx. }
  assert (Lw : (length w + length (remaining t) <= length w + total_left (u ++ t :: v))%nat) by (rewrite total_left_app, total_left_cons; lia).
  remember (length w + total_left (u ++ t :: v))%nat as T eqn:ET.
  destruct t as [o todo p]. destruct Pt as (Po & Pd & Pp). cbn [ut_obj ut_todo ut_at] in Po, Pd, Pp. subst o. unfold ut_step. cbn [ut_at ut_todo ut_obj].
  destruct p as [|r i k|r i|r i k].
  - destruct todo as [|p todo]; eexists _, _, w; (split; [reflexivity|]); apply Same; try reflexivity; unfold place_ok; cbn [ut_obj ut_todo ut_at]; auto.
    inversion Pd; subst. repeat split; [assumption|]. lia.
  - destruct Pp as [-> Pp]. destruct r as [|b r].
    + eexists _, _, w; (split; [reflexivity|]). apply Same; try reflexivity; unfold place_ok; cbn [ut_obj ut_todo ut_at]; auto.
    + cbn [remaining ut_at ut_todo length app] in Lw. rewrite app_length in Lw.
      destruct (grown_write c w _ c' b G) as (blk & W & G1); [lia|]. rewrite W. cbn [bind]. eexists _, _, (w ++ [b]). split; [reflexivity|]. split.
      * apply Forall_app. split; [exact Pu|]. constructor; [|exact Pv']. unfold place_ok; cbn [ut_obj ut_todo ut_at]. repeat split; [exact Pd|]. cbn [length] in Pp. lia.
      * replace (total_pending (u ++ mkUT 0 todo (ULen r i) :: v)) with (total_pending (u ++ mkUT 0 todo (UByte (b :: r) i false) :: v) + 1); [exact G1|].
        rewrite !total_pending_app, !total_pending_cons. cbn [pending ut_at]. lia.
      * rewrite ET. rewrite !total_left_app, !total_left_cons, app_length. cbn [remaining ut_at ut_todo length app]. lia.
      * intros w' M. rewrite <- app_assoc. apply Mx. rewrite map_app in M |- *. cbn [map] in M |- *. cbn [remaining ut_at ut_todo app] in M |- *. apply mixed_byte. exact M.
  - cbn [remaining ut_at ut_todo] in Lw.
    assert (G0 : grown c w (total_pending (u ++ mkUT 0 todo (UFull r i false) :: v) + 1) c').
    { replace (total_pending (u ++ mkUT 0 todo (UFull r i false) :: v) + 1) with (total_pending (u ++ mkUT 0 todo (ULen r i) :: v)); [exact G|].
      rewrite !total_pending_app, !total_pending_cons. cbn [pending ut_at]. lia. }
    destruct (grown_length a c w _ c' G0) as (c2 & Al & G2); [lia|]. rewrite Al. eexists _, _, w. split; [reflexivity|]. split.
    + apply Forall_app. split; [exact Pu|]. constructor; [|exact Pv']. unfold place_ok; cbn [ut_obj ut_todo ut_at]. auto.
    + exact G2.
    + rewrite ET. rewrite !total_left_app, !total_left_cons. reflexivity.
    + intros w' M. apply Mx. rewrite map_app in M |- *. exact M.
  - destruct Pp as [-> Pp]. cbn [remaining ut_at ut_todo] in Lw. destruct G as (G1 & G2 & G3 & G4 & G5).
    replace (Nat.eqb (index c') (block_bytes a)) with false by (symmetry; apply Nat.eqb_neq; lia). cbn [negb andb].
    replace (i =? INT_MAX) with false by (symmetry; apply N.eqb_neq; lia). eexists _, _, w. split; [reflexivity|].
    apply Same; try reflexivity. unfold place_ok; cbn [ut_obj ut_todo ut_at]. auto.
Qed.
Lemma shared_run a c work T : length (block c) = block_bytes a -> (index c + T < block_bytes a)%nat -> len_low c + 8 * N.of_nat T < 2 ^ word_bits a ->
  N.of_nat T <= INT_MAX -> forall sched c' ts w, shared a c work T c' ts w -> exists c1 ts1 w1, ut_run a ([c'], ts) sched = Ret ([c1], ts1) /\ shared a c work T c1 ts1 w1.
Proof.
  intros Lb Li Ll Lm. induction sched as [|who sched IH]; intros c' ts w H; cbn [ut_run]; [eauto|].
  unfold ut_next. destruct (nth_error ts who) as [t|] eqn:Tw; [|cbn [bind]; eapply IH; exact H].
  pose proof (split_at _ _ _ Tw) as (u & v & -> & <-).
  assert (O : ut_obj t = 0%nat) by (destruct H as [Pl _ _ _]; rewrite Forall_forall in Pl; apply (Pl t (in_elt t u v))).
  rewrite O. cbn [nth_error]. destruct (shared_step a c work T c' u t v w Lb Li Ll Lm H) as (c1 & t1 & w1 & S1 & H1). rewrite S1. cbn [bind].
  rewrite put_mid. change (put 0 c1 [c']) with [c1]. eapply IH. exact H1.
Qed.

(** ** C87: one object fed by several threads at once *)
Definition bytes_of (work : list (list (list N))) : nat := list_sum (map (fun ps => length (concat ps)) work).
(** Even if every statement took effect at once: as long as no block is completed, the calls have no undefined behaviour, and when all have
    returned the context has been fed the data of the threads mixed byte by byte. *)
Theorem C87_mixed : forall a c work sched, length (block c) = block_bytes a -> (index c + bytes_of work < block_bytes a)%nat ->
  len_low c + 8 * N.of_nat (bytes_of work) < 2 ^ word_bits a -> N.of_nat (bytes_of work) <= INT_MAX ->
  exists c' ts', ut_run a (ut_start [c] (map (pair 0%nat) work)) sched = Ret ([c'], ts') /\
    (Forall finished ts' -> exists w, mixed (map (@concat N) work) w /\ sha_update a c w = Ret c').
Proof.
  intros a c work sched Lb Li Ll Lm.
  set (ts := map (fun ps => mkUT 0 ps UIdle) work).
  assert (R0 : map remaining ts = map (@concat N) work) by (unfold ts; rewrite map_map; reflexivity).
  assert (H0 : shared a c work (bytes_of work) c ts []).
  { split.
    - unfold ts. apply Forall_forall. intros t Ht. apply in_map_iff in Ht as (ps & <- & Hp). unfold place_ok. cbn [ut_obj ut_todo ut_at]. repeat split.
      apply Forall_forall. intros p Hin. unfold bytes_of. clear - Hp Hin. induction work as [|q work IH]; [destruct Hp|]. cbn [map]. change (list_sum (?x :: ?l)) with (x + list_sum l)%nat.
      destruct Hp as [->|Hp]; [|specialize (IH Hp); lia]. clear IH. induction ps as [|x ps IH]; [destruct Hin|]. cbn [concat]. rewrite app_length.
      destruct Hin as [->|Hin]; [lia|]. specialize (IH Hin). lia.
    - unfold grown. cbn [length]. rewrite !Nat.add_0_r. repeat split; [|rewrite firstn_skipn; reflexivity].
      replace (total_pending ts) with 0; [lia|]. unfold ts, total_pending. clear. induction work as [|q work IH]; [reflexivity|]. cbn [map fold_right]. rewrite <- IH. reflexivity.
    - unfold total_left, ts. rewrite map_map. reflexivity.
    - intros w' M. rewrite R0 in M. exact M. }
  destruct (shared_run a c work _ Lb Li Ll Lm sched c ts [] H0) as (c1 & ts1 & w1 & R & H1).
  exists c1, ts1. split; [unfold ut_start; rewrite map_map; exact R|]. intros F. destruct H1 as [Pl G To Mx]. exists w1.
  assert (Z : Forall (fun l => l = []) (map remaining ts1)).
  { apply Forall_forall. intros l Hl. apply in_map_iff in Hl as (t & <- & Ht). rewrite Forall_forall in F. destruct (F t Ht) as [F1 F2]. unfold remaining. rewrite F1, F2. reflexivity. }
  assert (P0 : total_pending ts1 = 0).
  { clear - F. unfold total_pending. induction F as [|t ts [F1 F2] F IH]; [reflexivity|]. cbn [map fold_right]. rewrite IH. unfold pending. rewrite F1. reflexivity. }
  rewrite P0 in G. split; [rewrite <- (app_nil_r w1); apply Mx; constructor; exact Z|].
  destruct (grown_update a c Lb w1 [] c 0) as (c2 & U & G2).
  - unfold grown. cbn [length]. rewrite !Nat.add_0_r. repeat split; rewrite firstn_skipn; reflexivity.
  - cbn [app]. lia.
  - cbn [app]. lia.
  - lia.
  - cbn [app] in G2. rewrite (grown_unique _ _ _ _ _ G G2). exact U.
Qed.
Print Assumptions C87_mixed.

(** ** every mixture happens *)
Lemma run_app a s1 : forall st s2, ut_run a st (s1 ++ s2) = (st <- ut_run a st s1 ;; ut_run a st s2).
Proof. induction s1 as [|k s1 IH]; intros st s2; cbn [app ut_run]; [reflexivity|]. destruct (ut_next a st k); cbn [bind]; [apply IH|reflexivity..]. Qed.
Lemma next_mid a c1 u t v : ut_obj t = 0%nat -> ut_next a ([c1], u ++ t :: v) (length u) = ('(c2, t2) <- ut_step a c1 t ;; Ret ([c2], u ++ t2 :: v)).
Proof. intros O. unfold ut_next. rewrite nth_mid, O. cbn [nth_error]. destruct (ut_step a c1 t) as [[c2 t2]| |]; cbn [bind]; try reflexivity. rewrite put_mid. reflexivity. Qed.
Lemma byte_run a c w c1 u v b r i : length (block c) = block_bytes a -> grown c w 0 c1 -> (index c + length w + 1 < block_bytes a)%nat ->
  len_low c + 8 * (N.of_nat (length w) + 1) < 2 ^ word_bits a -> i < INT_MAX ->
  exists c2, ut_run a ([c1], u ++ mkUT 0 [] (UByte (b :: r) i false) :: v) (repeat (length u) 3) = Ret ([c2], u ++ mkUT 0 [] (UByte r (i + 1) false) :: v) /\ grown c (w ++ [b]) 0 c2.
Proof.
  intros Lb G Li Ll Lm. destruct (grown_write c w 0 c1 b G) as (blk & W & G1); [lia|].
  destruct (grown_length a c (w ++ [b]) 0 _ G1) as (c2 & Al & G2); [rewrite app_length; cbn [length]; lia|].
  exists c2. split; [|exact G2]. cbn [repeat ut_run]. rewrite next_mid by reflexivity. unfold ut_step at 1. cbn [ut_at ut_todo ut_obj]. rewrite W. cbn [bind].
  rewrite next_mid by reflexivity. unfold ut_step at 1. cbn [ut_at ut_todo ut_obj]. rewrite Al. cbn [bind].
  rewrite next_mid by reflexivity. unfold ut_step at 1. cbn [ut_at ut_todo ut_obj]. destruct G2 as (B1 & B2 & B3 & B4 & B5). rewrite app_length in B4. cbn [length] in B4.
  replace (Nat.eqb (index c2) (block_bytes a)) with false by (symmetry; apply Nat.eqb_neq; lia). cbn [negb andb].
  replace (i =? INT_MAX) with false by (symmetry; apply N.eqb_neq; lia). reflexivity.
Qed.
Definition feeding (x : list N * N) : uthread := mkUT 0 [] (UByte (fst x) (snd x) false).
Definition idle : uthread := mkUT 0 [] UIdle.
Lemma all_start a c ls : forall u, ut_run a ([c], u ++ map (fun l => mkUT 0 [l] UIdle) ls) (seq (length u) (length ls)) = Ret ([c], u ++ map (fun l => feeding (l, 0)) ls).
Proof.
  induction ls as [|l ls IH]; intros u; cbn [map length seq ut_run]; [reflexivity|]. rewrite next_mid by reflexivity. unfold ut_step. cbn [ut_at ut_todo ut_obj bind].
  specialize (IH (u ++ [feeding (l, 0)])). rewrite app_length in IH. cbn [length] in IH. rewrite Nat.add_1_r, <- !app_assoc in IH. exact IH.
Qed.
Lemma all_finish a c xs : Forall (fun x => fst x = []) xs -> forall u, ut_run a ([c], u ++ map feeding xs) (seq (length u) (length xs)) = Ret ([c], u ++ map (fun _ => idle) xs).
Proof.
  induction 1 as [|[l i] xs E H IH]; intros u; cbn [map length seq ut_run]; [reflexivity|]. cbn [fst] in E. subst l. rewrite next_mid by reflexivity.
  unfold ut_step, feeding at 1. cbn [ut_at ut_todo ut_obj fst snd bind].
  specialize (IH (u ++ [idle])). rewrite app_length in IH. cbn [length] in IH. rewrite Nat.add_1_r, <- !app_assoc in IH. exact IH.
Qed.
Lemma map_split {A B} (f : A -> B) : forall l p x q, map f l = p ++ x :: q -> exists l1 y l2, l = l1 ++ y :: l2 /\ map f l1 = p /\ f y = x /\ map f l2 = q.
Proof.
  induction l as [|y l IH]; intros p x q E; [destruct p; discriminate|]. destruct p as [|z p].
  - injection E as E1 E2. exists [], y, l. auto.
  - injection E as E1 E2. destruct (IH p x q E2) as (l1 & y' & l2 & -> & E3 & E4 & E5). exists (y :: l1), y', l2. cbn [map app]. subst. auto.
Qed.
Lemma mix_run a c : length (block c) = block_bytes a -> forall ls w2, mixed ls w2 -> forall xs w1 c1, map fst xs = ls -> grown c w1 0 c1 ->
  (index c + length (w1 ++ w2) < block_bytes a)%nat -> len_low c + 8 * N.of_nat (length (w1 ++ w2)) < 2 ^ word_bits a ->
  Forall (fun x => snd x + N.of_nat (length (fst x)) <= INT_MAX) xs ->
  exists sched c2, ut_run a ([c1], map feeding xs) sched = Ret ([c2], map (fun _ => idle) xs) /\ grown c (w1 ++ w2) 0 c2.
Proof.
  intros Lb ls w2 M. induction M as [ls E|before b l after w2 M IH]; intros xs w1 c1 X G Li Ll Ix.
  - exists (seq 0 (length xs)), c1. rewrite app_nil_r. split; [|exact G]. apply (all_finish a c1 xs) with (u := []).
    subst ls. clear - E. induction xs as [|x xs IH]; [constructor|]. inversion E; subst. constructor; auto.
  - apply map_split in X as (x1 & [l0 i] & x2 & -> & E1 & E2 & E3). cbn [fst] in E2. subst l0.
    apply Forall_app in Ix as [I1 I2]. inversion I2 as [|? ? Ib I3]; subst. cbn [fst snd length] in Ib. rewrite app_length in Li, Ll. cbn [length] in Li, Ll.
    destruct (byte_run a c w1 c1 (map feeding x1) (map feeding x2) b l i Lb G) as (c2 & R & G2); [lia|lia|lia|].
    destruct (IH (x1 ++ (l, i + 1) :: x2) (w1 ++ [b]) c2) as (sched & c3 & R3 & G3).
    + rewrite map_app. reflexivity.
    + exact G2.
    + rewrite !app_length. cbn [length]. lia.
    + rewrite !app_length. cbn [length]. lia.
    + apply Forall_app. split; [exact I1|]. constructor; [cbn [fst snd]; lia|exact I3].
    + exists (repeat (length (map feeding x1)) 3 ++ sched), c3. rewrite <- app_assoc in G3. split; [|exact G3].
      rewrite run_app. rewrite map_app. cbn [map]. unfold feeding at 2. cbn [fst snd]. rewrite R. cbn [bind].
      rewrite !map_app in R3. cbn [map] in R3. rewrite !map_app. exact R3.
Qed.
(** C87: each of these mixtures happens under some schedule: a caller cannot say in which order the data will count, nor that
    the pieces stay whole. *)
Theorem C87_every_mixture_happens_refuted : forall a c ls w, length (block c) = block_bytes a -> (index c + length w < block_bytes a)%nat ->
  len_low c + 8 * N.of_nat (length w) < 2 ^ word_bits a -> Forall (fun l => N.of_nat (length l) <= INT_MAX) ls -> N.of_nat (length w) <= INT_MAX ->
  mixed ls w -> exists sched c' ts', ut_run a (ut_start [c] (map (fun l => (0%nat, [l])) ls)) sched = Ret ([c'], ts') /\ Forall finished ts' /\ sha_update a c w = Ret c'.
Proof.
  intros a c ls w Lb Li Ll Ls Lw M.
  assert (G0 : grown c [] 0 c) by (unfold grown; cbn [length]; rewrite !Nat.add_0_r; repeat split; rewrite firstn_skipn; reflexivity).
  destruct (mix_run a c Lb ls w M (map (fun l => (l, 0)) ls) [] c) as (sched & c2 & R & G2).
  - rewrite map_map, map_id. reflexivity.
  - exact G0.
  - exact Li.
  - exact Ll.
  - apply Forall_forall. intros x Hx. apply in_map_iff in Hx as (l & <- & Hl). rewrite Forall_forall in Ls. cbn [fst snd]. specialize (Ls l Hl). lia.
  - exists (seq 0 (length ls) ++ sched), c2, (map (fun _ => idle) ls). split; [|split].
    + rewrite run_app. unfold ut_start. rewrite map_map. cbn [fst snd]. pose proof (all_start a c ls []) as R0. cbn [app length] in R0. rewrite R0. cbn [bind].
      rewrite !map_map in R. exact R.
    + apply Forall_forall. intros t Ht. apply in_map_iff in Ht as (l & <- & _). split; reflexivity.
    + destruct (grown_update a c Lb w [] c 0 G0 Li Ll) as (c3 & U & G3); [lia|]. rewrite (grown_unique _ _ _ _ _ G2 G3). exact U.
Qed.
Print Assumptions C87_every_mixture_happens_refuted.

(** ** a block completed while another thread is inside update *)
Lemma bytes_run a c v : length (block c) = block_bytes a -> forall p1 p2 w c1 i, grown c w 0 c1 -> (index c + length w + length p1 < block_bytes a)%nat ->
  len_low c + 8 * N.of_nat (length w + length p1) < 2 ^ word_bits a -> i + N.of_nat (length p1) <= INT_MAX ->
  exists c2, ut_run a ([c1], mkUT 0 [] (UByte (p1 ++ p2) i false) :: v) (repeat 0%nat (3 * length p1)) = Ret ([c2], mkUT 0 [] (UByte p2 (i + N.of_nat (length p1)) false) :: v) /\
    grown c (w ++ p1) 0 c2.
Proof.
  intros Lb p1. induction p1 as [|b p1 IH]; intros p2 w c1 i G Li Ll Lm.
  { exists c1. cbn [length]. rewrite Nat.mul_0_r, N.add_0_r, app_nil_r. split; [reflexivity|exact G]. }
  cbn [length] in Li, Ll, Lm. destruct (byte_run a c w c1 [] v b (p1 ++ p2) i Lb G) as (c2 & R & G2); [lia|lia|lia|]. cbn [app length] in R.
  destruct (IH p2 (w ++ [b]) c2 (i + 1) G2) as (c3 & R3 & G3); [rewrite app_length; cbn [length]; lia|rewrite app_length; cbn [length]; lia|lia|].
  exists c3. rewrite <- app_assoc in G3. split; [|exact G3]. cbn [length app]. replace (3 * S (length p1))%nat with (3 + 3 * length p1)%nat by lia.
  rewrite repeat_app, run_app, R. cbn [bind]. rewrite R3. replace (i + 1 + N.of_nat (length p1)) with (i + N.of_nat (S (length p1))) by lia. reflexivity.
Qed.
(** C87, violation: whenever two threads feed one object and the data of the first completes a block, there is a schedule in which
    the second writes behind the end of the block array (the first has filled it and has not yet processed it). *)
Theorem C87_overflow_refuted : forall a c p q, length (block c) = block_bytes a -> (index c < block_bytes a)%nat ->
  (block_bytes a - index c <= length p)%nat -> q <> [] -> N.of_nat (length p) <= INT_MAX -> len_low c + 8 * N.of_nat (block_bytes a) < 2 ^ word_bits a ->
  exists sched, ut_run a (ut_start [c] [(0%nat, [p]); (0%nat, [q])]) sched = UB OutOfBounds.
Proof.
  intros a c p q Lb Li Lp Nq Lm Ll. set (n := (block_bytes a - index c - 1)%nat).
  assert (G0 : grown c [] 0 c) by (unfold grown; cbn [length]; rewrite !Nat.add_0_r; repeat split; rewrite firstn_skipn; reflexivity).
  destruct q as [|y q]; [congruence|]. clear Nq.
  assert (Ln : length (firstn n p) = n) by (rewrite firstn_length; lia).
  destruct (skipn n p) as [|b p2] eqn:Sk; [apply (f_equal (@length _)) in Sk; rewrite skipn_length in Sk; cbn [length] in Sk; lia|].
  destruct (bytes_run a c [mkUT 0 [y :: q] UIdle] Lb (firstn n p) (b :: p2) [] c 0 G0) as (c1 & R & G1); [rewrite Ln; cbn [length]; lia|rewrite Ln; cbn [length]; lia|rewrite Ln; lia|].
  rewrite <- Sk, firstn_skipn, Sk, Ln in R. cbn [app] in G1.
  destruct (grown_write c (firstn n p) 0 c1 b G1) as (blk & W & G2); [rewrite Ln; lia|].
  exists (0%nat :: repeat 0%nat (3 * n) ++ [0; 1; 1]%nat). unfold ut_start. cbn [map fst snd ut_run]. unfold ut_next at 1. cbn [nth_error ut_obj]. unfold ut_step at 1. cbn [ut_at ut_todo ut_obj bind].
  change (put 0 c [c]) with [c]. change (put 0 ?x [?y; ?z]) with [x; z]. rewrite run_app, R. cbn [bind ut_run].
  unfold ut_next at 1. cbn [nth_error ut_obj]. unfold ut_step at 1. cbn [ut_at ut_todo ut_obj]. rewrite W. cbn [bind].
  set (c2 := mkSha _ _ _ _ _) in *. change (put 0 c2 [c1]) with [c2]. change (put 0 ?x [?y; ?z]) with [x; z].
  unfold ut_next at 1. cbn [nth_error ut_obj]. unfold ut_step at 1. cbn [ut_at ut_todo ut_obj bind]. change (put 0 c2 [c2]) with [c2]. change (put 1 ?x [?y; ?z]) with [y; x].
  unfold ut_next at 1. cbn [nth_error ut_obj]. unfold ut_step at 1. cbn [ut_at ut_todo ut_obj].
  destruct G2 as (B1 & B2 & B3 & B4 & B5). rewrite wr_ub; [reflexivity|]. rewrite B5, B4, !app_length, firstn_length, skipn_length, ?app_length, Ln. cbn [length]. lia.
Qed.
Print Assumptions C87_overflow_refuted.

(** ** C87, violation: a digest that no order of the calls gives *)
(** A freshly initialised SHA-256 object, two threads that feed it "ab" and "cd" without a lock: under some schedule everything
    returns, and the digest taken then is the SHA-256 of "acbd", neither that of "abcd" nor that of "cdab". *)
Theorem C87_wrong_digest_refuted : forall g out, typed (sha_impl alg_sha256) g -> length out = 32%nat ->
  exists sched c ts c', ut_run alg_sha256 (ut_start [sha_init alg_sha256 g] [(0%nat, [chars "ab"]); (0%nat, [chars "cd"])]) sched = Ret ([c], ts) /\ Forall finished ts /\
    idigest (sha_impl alg_sha256) c out = Ret (c', SHA256 (chars "acbd")) /\ SHA256 (chars "acbd") <> SHA256 (chars "abcd") /\ SHA256 (chars "acbd") <> SHA256 (chars "cdab").
Proof.
  intros g out Hg Ho. assert (Bk : forall s, (exists b1 b2 b3 b4, s = [b1; b2; b3; b4] /\ b1 < 256 /\ b2 < 256 /\ b3 < 256 /\ b4 < 256) -> int_piece s /\ bits_below 64 s /\ PropSha.roomy 64 8 s).
  { intros s (b1 & b2 & b3 & b4 & -> & ? & ? & ? & ?). split; [split; [repeat constructor; assumption|reflexivity]|]. split; [reflexivity|unfold PropSha.roomy; vm_compute; lia]. }
  assert (K1 : int_piece (chars "acbd") /\ bits_below 64 (chars "acbd") /\ PropSha.roomy 64 8 (chars "acbd")) by (apply Bk; exists 97, 99, 98, 100; repeat split).
  assert (L : length (block g) = 64%nat) by exact Hg.
  destruct (C87_every_mixture_happens_refuted alg_sha256 (sha_init alg_sha256 g) [chars "ab"; chars "cd"] (chars "acbd")) as (sched & c & ts & R & F & U).
  - exact L.
  - vm_compute; lia.
  - reflexivity.
  - repeat constructor; vm_compute; discriminate.
  - vm_compute; discriminate.
  - change (mixed ([] ++ [97; 98] :: [[99; 100]]) [97; 99; 98; 100]). constructor.
    change (mixed ([[98]] ++ [99; 100] :: []) [99; 98; 100]). constructor. change (mixed ([] ++ [98] :: [[100]]) [98; 100]). constructor.
    change (mixed ([[]] ++ [100] :: []) [100]). constructor. constructor. repeat constructor.
  - destruct K1 as (KP & KB & KR). destruct (PropSha.C20_sha256_fips g [chars "acbd"] out Hg) as (c1 & c' & E1 & E2 & _).
    + constructor; [exact KP|constructor].
    + cbn [concat]. rewrite app_nil_r. auto.
    + cbn [idsz sha_impl]. rewrite Ho. reflexivity.
    + cbn [updates iupdate iinit sha_impl] in E1. assert (c1 = c) as ->.
      { change (iupdate (sha_impl alg_sha256)) with (sha_update alg_sha256) in E1. rewrite U in E1. cbn [bind] in E1. congruence. }
      exists sched, c, ts, c'. split; [exact R|]. split; [exact F|]. split; [|split].
      * rewrite E2. cbn [concat]. rewrite app_nil_r, skipn_all2 by (cbn [idsz sha_impl]; rewrite Ho; reflexivity). rewrite app_nil_r. reflexivity.
      * intros C. apply (f_equal (hd 0)) in C. revert C. vm_compute. discriminate.
      * intros C. apply (f_equal (hd 0)) in C. revert C. vm_compute. discriminate.
Qed.
Print Assumptions C87_wrong_digest_refuted.

(** ** Non-vacuity *)
(** the hypotheses about the context hold of every initialised object *)
Example fresh_object : forall a g, length (block g) = block_bytes a -> let c := sha_init a g in
  length (block c) = block_bytes a /\ index c = 0%nat /\ len_low c = 0.
Proof. intros a g L. split; [exact L|split; reflexivity]. Qed.
(** two objects, a thread for each, and a schedule that ends *)
Definition zero_sha1 : sha_ctx := mkSha [] 0 0 0 (repeat 0 64).
Example two_objects : match ut_run alg_sha1 (ut_start [sha_init alg_sha1 zero_sha1; sha_init alg_sha1 zero_sha1]
    [(0%nat, [chars "ab"; chars "c"]); (1%nat, [chars "xy"])]) (concat (repeat [0; 1]%nat 16)) with
  | Ret ([c; d], [t; u]) => (firstn 3 (block c), index c, firstn 2 (block d), index d, ut_at t, ut_todo u) = (chars "abc", 3%nat, chars "xy", 2%nat, UIdle, [])
  | _ => False end.
Proof. vm_compute. reflexivity. Qed.
Example hyps_overflow : (block_bytes alg_sha256 - 0 <= length (repeat 7 100))%nat /\ N.of_nat (length (repeat 7 100)) <= INT_MAX.
Proof. vm_compute. split; [lia|discriminate]. Qed.
