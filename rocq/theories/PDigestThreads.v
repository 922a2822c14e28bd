(** Lemmas for C90. *)
From Verif Require Import Base MDigestThreads SDigestThreads.

Lemma nth_set {A} (l : list A) k x y : nth_error l k = Some y -> nth_error (firstn k l ++ x :: skipn (S k) l) k = Some x.
Proof. revert k. induction l as [|a l IH]; intros [|k] E; try discriminate; [reflexivity|apply (IH k E)]. Qed.
Lemma nth_set_other {A} (l : list A) k x y j : nth_error l k = Some y -> j <> k -> nth_error (firstn k l ++ x :: skipn (S k) l) j = nth_error l j.
Proof. revert k j. induction l as [|a l IH]; intros [|k] [|j] E N; try discriminate; try reflexivity; try congruence. apply (IH k j E). congruence. Qed.

Lemma nth_error_Some_lt {A} (l : list A) p x : nth_error l p = Some x -> (p < length l)%nat.
Proof. intros H. apply nth_error_Some. congruence. Qed.

(** ** pointers that are held: by the member of object [inl i], or by the local variables of thread [inr k] *)
Section Hold.
Context (Q : Prop).
Record held (sd : list (option (list N))) (hold : nat + nat -> option nat) : Prop := {
  h_live : forall x p, hold x = Some p -> exists d, nth_error sd p = Some (Some d);
  h_one : forall x y p, hold x = Some p -> hold y = Some p -> x = y;
  h_all : Q -> forall p d, nth_error sd p = Some (Some d) -> exists x, hold x = Some p }.
Definition ss (x y : nat + nat) : {x = y} + {x <> y}. Proof. decide equality; apply Nat.eq_dec. Defined.
Lemma held_ext sd hold hold' : held sd hold -> (forall x, hold' x = hold x) -> held sd hold'.
Proof.
  intros [A B C] E. split.
  - intros x p. rewrite E. apply A.
  - intros x y p. rewrite !E. apply B.
  - intros q p d X. destruct (C q p d X) as [x H]. exists x. rewrite E. exact H.
Qed.
Lemma held_fresh sd hold x d hold' : held sd hold -> hold x = None -> (forall y, hold' y = if ss y x then Some (length sd) else hold y) -> held (sd ++ [Some d]) hold'.
Proof.
  intros [A B C] N E. split.
  - intros y p. rewrite E. destruct (ss y x) as [->|D]; intros H.
    + injection H as <-. exists d. rewrite nth_error_app2 by lia. rewrite Nat.sub_diag. reflexivity.
    + destruct (A y p H) as [e He]. exists e. rewrite nth_error_app1; [exact He|]. apply nth_error_Some. congruence.
  - intros y z p. rewrite !E. destruct (ss y x) as [->|Dy], (ss z x) as [->|Dz]; intros Y Z; auto.
    + injection Y as <-. destruct (A z _ Z) as [e He]. apply nth_error_Some_lt in He. lia.
    + injection Z as <-. destruct (A y _ Y) as [e He]. apply nth_error_Some_lt in He. lia.
    + apply (B y z p); assumption.
  - intros q p e H. destruct (Nat.lt_ge_cases p (length sd)) as [L|L].
    + rewrite nth_error_app1 in H by exact L. destruct (C q p e H) as [y Hy]. exists y. rewrite E. destruct (ss y x) as [->|]; [congruence|exact Hy].
    + exists x. rewrite E. destruct (ss x x); [|contradiction]. f_equal. apply nth_error_Some_lt in H. rewrite app_length in H. cbn in H. lia.
Qed.
Lemma held_swap sd hold x y hold' : held sd hold -> (forall z, hold' z = if ss z x then hold y else if ss z y then hold x else hold z) -> held sd hold'.
Proof.
  intros [A B C] E. split.
  - intros z p. rewrite E. destruct (ss z x); [apply A|]. destruct (ss z y); apply A.
  - intros z w p. rewrite !E. intros Z W.
    destruct (ss z x), (ss w x); try destruct (ss z y); try destruct (ss w y); pose proof (B _ _ _ Z W); congruence.
  - intros q p d H. destruct (C q p d H) as [z Hz]. destruct (ss z x) as [->|Zx]; [|destruct (ss z y) as [->|Zy]].
    + exists y. rewrite E. destruct (ss y x) as [->|]; [exact Hz|]. destruct (ss y y); [exact Hz|contradiction].
    + exists x. rewrite E. destruct (ss x x); [exact Hz|contradiction].
    + exists z. rewrite E. destruct (ss z x); [contradiction|]. destruct (ss z y); [contradiction|exact Hz].
Qed.
Lemma held_free sd hold x hold' : held sd hold -> (forall y, hold' y = if ss y x then None else hold y) ->
  exists sd', sd_delete sd (hold x) = Ret sd' /\ held sd' hold' /\ forall p, hold x <> Some p -> nth_error sd' p = nth_error sd p.
Proof.
  intros [A B C] E. destruct (hold x) as [p|] eqn:X; cbn [sd_delete].
  - destruct (A x p X) as [d Hd]. rewrite Hd. eexists. split; [reflexivity|].
    assert (O : forall q, q <> p -> nth_error (firstn p sd ++ None :: skipn (S p) sd) q = nth_error sd q) by (intros q N; eapply nth_set_other; eassumption).
    assert (P : nth_error (firstn p sd ++ None :: skipn (S p) sd) p = Some None) by (eapply nth_set; eassumption).
    split; [|intros q N; apply O; congruence]. split.
    + intros y q. rewrite E. destruct (ss y x) as [->|D]; [discriminate|]. intros H. destruct (A y q H) as [e He]. exists e. rewrite O; [exact He|].
      intros ->. apply D, (B y x p H X).
    + intros y z q. rewrite !E. destruct (ss y x); [discriminate|]. destruct (ss z x); [discriminate|]. apply B.
    + intros q1 q e H. destruct (Nat.eq_dec q p) as [->|N]; [congruence|]. rewrite O in H by exact N. destruct (C q1 q e H) as [y Hy]. exists y. rewrite E.
      destruct (ss y x) as [->|]; [congruence|exact Hy].
  - exists sd. split; [reflexivity|]. split; [|reflexivity]. apply (held_ext sd hold); [split; assumption|]. intros y. rewrite E. destruct (ss y x) as [->|]; congruence.
Qed.
End Hold.

Section Sim.
Context (K : digester) (Q : Prop) (who : nat -> nat).
Definition place_hold (p : g_place) : option nat := match p with GAssign _ p | GStore _ p _ => Some p | GFree _ old => old | _ => None end.
Definition holds (s : g_state K) (x : nat + nat) : option nat :=
  match x with inl i => g_out s i | inr k => match nth_error (g_threads s) k with Some t => place_hold (g_at t) | None => None end end.
(** thread [k] of the two machines *)
Definition trel (sd : list (option (list N))) (out : nat -> option nat) (k : nat) (t : g_thread K) (v : v_thread K) : Prop :=
  g_todo t = v_todo v /\ g_seen t = v_seen v /\ (forall g, In (GGet g) (g_todo t) -> who (k_obj K g) = k) /\
  match g_at t with
  | GIdle => match g_last t, v_last v with
             | None, None => True
             | Some p, Some d => exists i, who i = k /\ out i = Some p /\ nth_error sd p = Some (Some d)
             | _, _ => False end
  | GMake i d => who i = k /\ v_last v = Some d
  | GAssign i p => who i = k /\ exists d, nth_error sd p = Some (Some d) /\ v_last v = Some d
  | GStore i p old => who i = k /\ old = out i /\ exists d, nth_error sd p = Some (Some d) /\ v_last v = Some d
  | GFree i _ | GReturn i => who i = k /\ exists p d, out i = Some p /\ nth_error sd p = Some (Some d) /\ v_last v = Some d
  end.
Record inv (s : g_state K) (v : v_state K) : Prop := {
  i_objs : g_objs s = fst v;
  i_held : held Q (g_sd s) (holds s);
  i_thr : forall k, match nth_error (g_threads s) k, nth_error (snd v) k with
                    | Some t, Some w => trel (g_sd s) (g_out s) k t w | None, None => True | _, _ => False end }.
Lemma trel_frame s k t w sd out : nth_error (g_threads s) k = Some t -> trel (g_sd s) (g_out s) k t w ->
  (forall i, who i = k -> out i = g_out s i) ->
  (forall x p, holds s x = Some p -> match x with inl i => who i = k | inr j => j = k end -> nth_error sd p = nth_error (g_sd s) p) ->
  trel sd out k t w.
Proof.
  intros T (A & B & C & D) Ho Hs. split; [exact A|]. split; [exact B|]. split; [exact C|]. pose proof (Hs (inr k)) as Hk. cbn [holds] in Hk. rewrite T in Hk.
  destruct (g_at t) as [|i d|i p|i p old|i old|i]; cbn [place_hold] in Hk.
  - destruct (g_last t) as [p|], (v_last w) as [d|]; auto. destruct D as (i & W & O & H). exists i. split; [exact W|]. split; [rewrite Ho; assumption|]. rewrite (Hs (inl i) p); assumption.
  - exact D.
  - destruct D as (W & d & H & L). split; [exact W|]. exists d. split; [|exact L]. rewrite (Hk p); auto.
  - destruct D as (W & E & d & H & L). split; [exact W|]. split; [rewrite Ho; assumption|]. exists d. split; [|exact L]. rewrite (Hk p); auto.
  - destruct D as (W & p & d & O & H & L). split; [exact W|]. exists p, d. split; [rewrite Ho; assumption|]. split; [|exact L]. rewrite (Hs (inl i) p); assumption.
  - destruct D as (W & p & d & O & H & L). split; [exact W|]. exists p, d. split; [rewrite Ho; assumption|]. split; [|exact L]. rewrite (Hs (inl i) p); assumption.
Qed.
(** one thread's step: the others *)
Lemma inv_step s v k t w h sd out t' w' : inv s v -> nth_error (g_threads s) k = Some t -> nth_error (snd v) k = Some w ->
  let s' := mkGS h sd out (set_thread (g_threads s) k t') in
  held Q sd (holds s') -> trel sd out k t' w' ->
  (forall i, who i <> k -> out i = g_out s i) ->
  (forall x p, holds s x = Some p -> match x with inl i => who i <> k | inr j => j <> k end -> nth_error sd p = nth_error (g_sd s) p) ->
  inv s' (h, firstn k (snd v) ++ w' :: skipn (S k) (snd v)).
Proof.
  intros [Ob He Th] T W s' H' R Ho Hs. split; [reflexivity|exact H'|]. intros j. cbn [g_threads g_sd g_out snd s']. unfold set_thread. destruct (Nat.eq_dec j k) as [->|D].
  - rewrite (nth_set _ _ _ _ T), (nth_set _ _ _ _ W). exact R.
  - rewrite (nth_set_other _ _ _ _ _ T D), (nth_set_other _ _ _ _ _ W D). specialize (Th j).
    destruct (nth_error (g_threads s) j) as [tj|] eqn:Ej, (nth_error (snd v) j) as [wj|] eqn:Wj; auto.
    apply (trel_frame s); auto.
    + intros i Wi. apply Ho. congruence.
    + intros x p Hx Cx. apply (Hs x p Hx). destruct x; congruence.
Qed.
Lemma same_thread {A} (l : list A) k x : nth_error l k = Some x -> firstn k l ++ x :: skipn (S k) l = l.
Proof. revert k. induction l as [|a l IH]; intros [|k] E; try discriminate; [cbn in E; injection E as ->; reflexivity|]. cbn [firstn skipn app]. f_equal. apply IH, E. Qed.
Lemma holds_set s k t h sd out t' x : nth_error (g_threads s) k = Some t ->
  holds (mkGS h sd out (set_thread (g_threads s) k t')) x = match x with inl i => out i | inr j => if Nat.eq_dec j k then place_hold (g_at t') else holds s (inr j) end.
Proof.
  intros T. destruct x as [i|j]; cbn [holds g_out g_threads]; [reflexivity|]. unfold set_thread. destruct (Nat.eq_dec j k) as [->|D]; [rewrite (nth_set _ _ _ _ T); reflexivity|].
  rewrite (nth_set_other _ _ _ _ _ T D). reflexivity.
Qed.
Lemma held_same s k t h t' : held Q (g_sd s) (holds s) -> nth_error (g_threads s) k = Some t -> place_hold (g_at t') = place_hold (g_at t) ->
  held Q (g_sd s) (holds (mkGS h (g_sd s) (g_out s) (set_thread (g_threads s) k t'))).
Proof.
  intros He T E. apply (held_ext _ _ _ _ He). intros x. rewrite (holds_set _ _ _ _ _ _ _ _ T). destruct x as [i|j]; [reflexivity|]. destruct (Nat.eq_dec j k) as [->|]; [|reflexivity].
  cbn [holds]. rewrite T. exact E.
Qed.
Lemma sim_step s v k : inv s v ->
  match g_next s k with
  | Ret s' => exists v', (v' = v \/ v_next v k = Ret v') /\ inv s' v'
  | UB u => v_next v k = UB u
  | Hang => v_next v k = Hang
  end.
Proof.
  intros I. pose proof I as [Ob He Th]. specialize (Th k). unfold g_next. destruct v as [h0 vs]. cbn [fst snd] in *. unfold v_next.
  destruct (nth_error (g_threads s) k) as [t|] eqn:T; [|exists (h0, vs); auto].
  destruct (nth_error vs k) as [w|] eqn:W; [|contradiction]. destruct Th as (A & B & C & D). unfold g_step.
  destruct (g_at t) as [|i d|i p|i p old|i old|i] eqn:At.
  - unfold v_step. rewrite <- A, <- Ob. destruct (g_todo t) as [|[c|g|] r] eqn:To.
    + exists (h0, vs). split; [left; congruence|exact I].
    + destruct (k_do K (g_objs s) c) as [h| |]; cbn [bind]; auto. eexists. split; [right; reflexivity|].
      apply (inv_step s (h0, vs) k t w); auto.
      * apply held_same with t; [exact He|exact T|rewrite At; reflexivity].
      * split; [reflexivity|]. split; [exact B|]. split; [intros g G; apply C; right; exact G|exact D].
    + destruct (k_digest K (g_objs s) g) as [[h d]| |]; cbn [bind]; auto. eexists. split; [right; reflexivity|].
      apply (inv_step s (h0, vs) k t w); auto.
      * apply held_same with t; [exact He|exact T|]. rewrite At. destruct d; reflexivity.
      * split; [reflexivity|]. split; [exact B|]. split; [intros g' G; apply C; right; exact G|]. destruct d as [d|]; cbn [g_at g_last v_last]; [|exact D].
        split; [apply C; left; reflexivity|reflexivity].
    + destruct (g_last t) as [p|] eqn:La, (v_last w) as [d|] eqn:Vl; try contradiction.
      * destruct D as (i & Wi & Oi & Hp). rewrite Hp. eexists. split; [right; reflexivity|]. cbn [bind]. rewrite Ob. rewrite <- Ob.
        apply (inv_step s (h0, vs) k t w); auto.
        -- apply held_same with t; [exact He|exact T|rewrite At; reflexivity].
        -- split; [reflexivity|]. split; [cbn [g_seen v_seen]; rewrite B; reflexivity|]. split; [intros g' G; apply C; right; exact G|]. cbn [g_at g_last v_last]. eauto.
      * eexists. split; [right; reflexivity|]. apply (inv_step s (h0, vs) k t w); auto.
        -- apply held_same with t; [exact He|exact T|rewrite At; reflexivity].
        -- split; [reflexivity|]. split; [cbn [g_seen v_seen]; rewrite app_nil_r; exact B|]. split; [intros g' G; apply C; right; exact G|exact Logic.I].
  - (* make_unique *)
    destruct D as (Wi & L). exists (g_objs s, vs). split; [left; rewrite Ob; reflexivity|]. rewrite <- (same_thread _ _ _ W).
    apply (inv_step s (h0, vs) k t w); auto.
    + eapply (held_fresh Q _ _ (inr k) d); [exact He|cbn [holds]; rewrite T, At; reflexivity|]. intros x. rewrite (holds_set _ _ _ _ _ _ _ _ T).
      destruct x as [j|j]; destruct (ss _ _) as [E|E]; try discriminate; try reflexivity.
      * injection E as ->. destruct (Nat.eq_dec k k); [reflexivity|contradiction].
      * destruct (Nat.eq_dec j k) as [->|]; [contradiction|reflexivity].
    + split; [exact A|]. split; [exact B|]. split; [exact C|]. cbn [g_at]. split; [exact Wi|]. exists d. split; [|exact L]. rewrite nth_error_app2 by lia. rewrite Nat.sub_diag. reflexivity.
    + intros x p Hx _. destruct (h_live _ _ _ He _ _ Hx) as [e Hp]. apply nth_error_app1. apply nth_error_Some. congruence.
  - (* the old pointer *)
    destruct D as (Wi & d & Hd & L). exists (g_objs s, vs). split; [left; rewrite Ob; reflexivity|]. rewrite <- (same_thread _ _ _ W).
    apply (inv_step s (h0, vs) k t w); auto.
    + apply held_same with t; [exact He|exact T|rewrite At; reflexivity].
    + split; [exact A|]. split; [exact B|]. split; [exact C|]. cbn [g_at]. eauto.
  - (* the new pointer *)
    destruct D as (Wi & -> & d & Hd & L). exists (g_objs s, vs). split; [left; rewrite Ob; reflexivity|]. rewrite <- (same_thread _ _ _ W).
    apply (inv_step s (h0, vs) k t w); auto.
    + apply (held_swap Q _ _ (inl i) (inr k) _ He). intros x. rewrite (holds_set _ _ _ _ _ _ _ _ T).
      destruct x as [j|j].
      * unfold set_member. destruct (ss (inl j) (inl i)) as [E|E].
        -- injection E as ->. rewrite Nat.eqb_refl. cbn [holds]. rewrite T, At. reflexivity.
        -- destruct (ss (inl j) (inr k)); [discriminate|]. destruct (Nat.eqb_spec j i) as [->|]; [contradiction|reflexivity].
      * destruct (ss (inr j) (inl i)); [discriminate|]. destruct (ss (inr j) (inr k)) as [E|E].
        -- injection E as ->. destruct (Nat.eq_dec k k); [reflexivity|contradiction].
        -- destruct (Nat.eq_dec j k) as [->|]; [contradiction|reflexivity].
    + split; [exact A|]. split; [exact B|]. split; [exact C|]. cbn [g_at]. split; [exact Wi|]. exists p, d. unfold set_member. rewrite Nat.eqb_refl. auto.
    + intros j Nj. unfold set_member. destruct (Nat.eqb_spec j i) as [->|]; [contradiction|reflexivity].
  - (* delete *)
    destruct D as (Wi & p & d & Oi & Hd & L). 
    assert (Hk : holds s (inr k) = old) by (cbn [holds]; rewrite T, At; reflexivity).
    destruct (held_free Q _ _ (inr k) (fun x => if ss x (inr k) then None else holds s x) He ltac:(reflexivity)) as (sd' & E & He' & O).
    rewrite Hk in E, O. rewrite E. cbn [bind]. exists (g_objs s, vs). split; [left; rewrite Ob; reflexivity|]. rewrite <- (same_thread _ _ _ W).
    apply (inv_step s (h0, vs) k t w); auto.
    + apply (held_ext _ _ _ _ He'). intros x. rewrite (holds_set _ _ _ _ _ _ _ _ T). destruct x as [j|j]; destruct (ss _ _) as [X|X]; try discriminate; try reflexivity.
      * injection X as ->. destruct (Nat.eq_dec k k); [reflexivity|contradiction].
      * destruct (Nat.eq_dec j k) as [->|]; [contradiction|reflexivity].
    + split; [exact A|]. split; [exact B|]. split; [exact C|]. cbn [g_at]. split; [exact Wi|]. exists p, d. split; [exact Oi|]. split; [|exact L]. rewrite O; [exact Hd|].
      intros X. rewrite X in Hk. pose proof (h_one _ _ _ He (inl i) (inr k) p Oi Hk). discriminate.
    + intros x q Hx Cx. apply O. intros X. rewrite X in Hk. pose proof (h_one _ _ _ He x (inr k) q Hx Hk) as Y. subst x. contradiction.
  - (* return *)
    destruct D as (Wi & p & d & Oi & Hd & L). exists (g_objs s, vs). split; [left; rewrite Ob; reflexivity|]. rewrite <- (same_thread _ _ _ W).
    apply (inv_step s (h0, vs) k t w); auto.
    + apply held_same with t; [exact He|exact T|rewrite At; reflexivity].
    + split; [exact A|]. split; [exact B|]. split; [exact C|]. cbn [g_at g_last]. rewrite Oi, L. eauto.
Qed.
Lemma sim_run sched : forall s v, inv s v ->
  match g_run s sched with
  | Ret s' => exists sched' v', v_run v sched' = Ret v' /\ inv s' v'
  | UB u => exists sched', v_run v sched' = UB u
  | Hang => exists sched', v_run v sched' = Hang
  end.
Proof.
  induction sched as [|k r IH]; intros s v I; cbn [g_run].
  - exists [], v. auto.
  - pose proof (sim_step s v k I) as X. destruct (g_next s k) as [s1|u|]; cbn [bind].
    + destruct X as (v1 & E & I1). specialize (IH _ _ I1). destruct (g_run s1 r) as [s'|u|].
      * destruct IH as (sched' & v' & E' & I'). destruct E as [->|E]; [exists sched', v'; auto|]. exists (k :: sched'), v'. cbn [v_run]. rewrite E. auto.
      * destruct IH as (sched' & E'). destruct E as [->|E]; [exists sched'; auto|]. exists (k :: sched'). cbn [v_run]. rewrite E. auto.
      * destruct IH as (sched' & E'). destruct E as [->|E]; [exists sched'; auto|]. exists (k :: sched'). cbn [v_run]. rewrite E. auto.
    + exists [k]. cbn [v_run]. rewrite X. reflexivity.
    + exists [k]. cbn [v_run]. rewrite X. reflexivity.
Qed.
Lemma inv_start h sd out work : members_ok sd out -> (Q -> no_orphan sd out) -> separate who work -> inv (g_start h sd out work) (v_start h work).
Proof.
  intros (A & B) N S. split; [reflexivity| |].
  - assert (X : forall k, holds (g_start h sd out work) (inr k) = None).
    { intros k. cbn [holds g_start g_threads]. rewrite nth_error_map. destruct (nth_error work k); reflexivity. }
    split.
    + intros [i|k] p H; [apply (A i p H)|rewrite X in H; discriminate].
    + intros [i|k] [j|k'] p H H'; try (rewrite X in H; discriminate); try (rewrite X in H'; discriminate). f_equal. apply (B i j p H H').
    + intros q p d H. destruct (N q p d H) as [i Hi]. exists (inl i). exact Hi.
  - intros k. cbn [g_start g_threads v_start snd]. rewrite !nth_error_map. destruct (nth_error work k) as [ops|] eqn:E; [|exact Logic.I]. cbn [option_map].
    split; [reflexivity|]. split; [reflexivity|]. split; [|exact Logic.I]. intros g G. cbn in G. apply (S k ops g E G).
Qed.
End Sim.
