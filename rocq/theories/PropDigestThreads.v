(** C90: digests of encoder objects asked for by several threads. *)
From Coq Require Import String.
From Verif Require Import Base SShaLib MSha MFront MHmac MHmac2 MHashEnc MLife SHash MDigestThreads SDigestThreads PDigestThreads.
Local Open Scope nat_scope.

(** ** Threads with objects of their own *)
(** Whatever the schedule: the run is one of threads whose calls are indivisible and get digests by value. The same is undefined, the objects
    are the same, every thread has read the same digests. *)
Theorem C90_separate_objects : forall K who h sd out work sched, members_ok sd out -> @separate K who work ->
  match g_run (g_start h sd out work) sched with
  | Ret s => exists sched' v, v_run (v_start h work) sched' = Ret v /\ g_objs s = fst v /\
      forall k t, nth_error (g_threads s) k = Some t -> exists w, nth_error (snd v) k = Some w /\ g_todo t = v_todo w /\ g_seen t = v_seen w
  | UB u => exists sched', v_run (v_start h work) sched' = UB u
  | Hang => exists sched', v_run (v_start h work) sched' = Hang
  end.
Proof.
  intros K who h sd out work sched M S. pose proof (sim_run K False who sched _ _ (inv_start K False who h sd out work M (fun f => match f with end) S)) as X.
  destruct (g_run _ sched) as [s|u|]; auto. destruct X as (sched' & v & E & [Ob _ Th]). exists sched', v. split; [exact E|]. split; [exact Ob|].
  intros k t T. specialize (Th k). rewrite T in Th. destruct (nth_error (snd v) k) as [w|]; [|contradiction]. exists w. split; [reflexivity|]. destruct Th as (A & B & _). auto.
Qed.
Print Assumptions C90_separate_objects.
(** When no thread is inside get_digest the members are in order again, and every digest that has not been deleted is owned by an object. *)
Theorem C90_nothing_lost : forall K who h sd out work sched s, members_ok sd out -> no_orphan sd out -> @separate K who work ->
  g_run (g_start h sd out work) sched = Ret s -> (forall t, In t (g_threads s) -> g_at t = GIdle) -> members_ok (g_sd s) (g_out s) /\ no_orphan (g_sd s) (g_out s).
Proof.
  intros K who h sd out work sched s M N S E Id. pose proof (sim_run K True who sched _ _ (inv_start K True who h sd out work M (fun _ => N) S)) as X.
  rewrite E in X. destruct X as (sched' & v & _ & [_ [A B C] _]).
  assert (Z : forall k, holds K s (inr k) = None). { intros k. cbn [holds]. destruct (nth_error (g_threads s) k) as [t|] eqn:T; [|reflexivity]. rewrite (Id t (nth_error_In _ _ T)). reflexivity. }
  split; [split|].
  - intros i p. apply (A (inl i) p).
  - intros i j p H H'. pose proof (B (inl i) (inl j) p H H'). congruence.
  - intros p d H. destruct (C Logic.I p d H) as [[i|k] Hx]; [exists i; exact Hx|rewrite Z in Hx; discriminate].
Qed.
Print Assumptions C90_nothing_lost.

(** ** What threads whose calls are indivisible do is a history of calls *)
Lemma ret_inj {A} (x y : A) : Ret x = Ret y -> x = y.
Proof. intros H. injection H. auto. Qed.
(** the digest step of one thread *)
Definition step_digest (K : digester) (h : k_state K) (o : g_op K) : outcome (k_state K * option (list N)) :=
  match o with GDo c => h <- k_do K h c ;; Ret (h, None) | GGet g => k_digest K h g | GRead => Ret (h, None) end.
Fixpoint history_run (K : digester) (h : k_state K) (log : list (entry K)) : outcome (k_state K) :=
  match log with
  | [] => Ret h
  | x :: log => '(h, d) <- step_digest K h (en_op x) ;; if (match d, en_digest x with Some a, Some b => if list_eq_dec N.eq_dec a b then true else false | None, None => true | _, _ => false end) then history_run K h log else Hang
  end.
Lemma run_history K sched : forall h vs v, v_run (h, vs) sched = Ret v -> exists log, history_run K h log = Ret (fst v) /\
  forall k t, nth_error vs k = Some t -> exists w, nth_error (snd v) k = Some w /\ v_todo t = map en_op (of_thread k log) ++ v_todo w /\
    v_seen w = v_seen t ++ reads_of (v_last t) (of_thread k log).
Proof.
  induction sched as [|k r IH]; intros h vs v E; cbn [v_run] in E.
  - injection E as <-. exists []. split; [reflexivity|]. intros k t T. exists t. cbn. rewrite app_nil_r. auto.
  - unfold v_next in E. destruct (nth_error vs k) as [t|] eqn:T; [|apply (IH _ _ _ E)].
    destruct (v_step h t) as [[h1 t1]| |] eqn:E1; cbn [bind] in E; try discriminate. destruct (IH _ _ _ E) as (log & R & W).
    assert (P : (h1 = h /\ t1 = t) \/ exists o d, step_digest K h o = Ret (h1, d) /\ v_todo t = o :: v_todo t1 /\
      v_seen t1 = v_seen t ++ match o with GRead => match v_last t with Some d => [d] | None => [] end | _ => [] end /\
      v_last t1 = match o with GGet _ => match d with Some d => Some d | None => v_last t end | _ => v_last t end).
    { unfold v_step in E1. destruct (v_todo t) as [|[c|g|] rest] eqn:To.
      - left. injection E1 as <- <-. auto.
      - destruct (k_do K h c) as [h2| |] eqn:E2; cbn [bind] in E1; try discriminate. injection E1 as <- <-. right. exists (GDo c), None. cbn [step_digest v_todo v_seen v_last]. rewrite E2, app_nil_r. auto.
      - destruct (k_digest K h g) as [[h2 d]| |] eqn:E2; cbn [bind] in E1; try discriminate. injection E1 as <- <-. right. exists (GGet g), d. cbn [step_digest v_todo v_seen v_last]. rewrite E2, app_nil_r. auto.
      - injection E1 as <- <-. right. exists GRead, None. cbn. auto. }
    destruct P as [(-> & ->)|(o & d & Es & Et & Se & La)].
    + exists log. split; [exact R|]. intros j u U. apply W. rewrite (same_thread _ _ _ T). exact U.
    + exists (mkEntry k o d :: log). split.
      * cbn [history_run en_op en_digest]. rewrite Es. cbn [bind]. destruct d as [d|]; [destruct (list_eq_dec N.eq_dec d d); [exact R|contradiction]|exact R].
      * intros j u U. unfold of_thread. cbn [filter en_thread]. destruct (Nat.eqb_spec k j) as [<-|D].
        -- assert (u = t) as -> by congruence. destruct (W k t1 (nth_set _ _ _ _ T)) as (w & Hw & Ew & Sw). exists w. split; [exact Hw|]. cbn [map en_op app]. split; [rewrite Et, Ew; reflexivity|].
           rewrite Sw, Se, La. cbn [reads_of en_op en_digest]. destruct o as [c|g|]; cbn [en_op]; rewrite <- ?app_assoc; reflexivity.
        -- apply W. rewrite (nth_set_other _ _ _ _ _ T) by congruence. exact U.
Qed.
(** HashEncoder: the objects went through this history (C55 says what its digests are); the digests are those computed in it; every thread made its
    calls in its own order and read what its last get_digest call computed. *)
Theorem C90_hash_history : forall garbage h work sched v, v_run (@v_start (hash_kind garbage) h work) sched = Ret v ->
  exists log, he_run garbage h (flat_map encoder_calls (map en_op log)) = Ret (fst v : he_state) /\
    s_res (fst v : he_state) = rev (flat_map (fun x => match en_digest x with Some d => [d] | None => [] end) log) ++ s_res h /\
    forall k ops, nth_error work k = Some ops -> exists w, nth_error (snd v) k = Some w /\ ops = map en_op (of_thread k log) ++ v_todo w /\
      v_seen w = reads_of None (of_thread k log).
Proof.
  intros garbage h work sched v E. destruct (run_history _ _ _ _ _ E) as (log & R & W). exists log.
  assert (X : he_run garbage h (flat_map encoder_calls (map en_op log)) = Ret (fst v : he_state) /\
    s_res (fst v : he_state) = rev (flat_map (fun x => match en_digest x with Some d => [d] | None => [] end) log) ++ s_res h).
  { clear E W. revert h R. induction log as [|[k o d] log IH]; intros h R; cbn [history_run] in R; [injection R as ->; split; reflexivity|]. cbn [en_op en_digest map flat_map] in *.
    destruct (step_digest _ h o) as [[h1 d1]| |] eqn:Es; cbn [bind] in R; try discriminate.
    assert (Ed : d1 = d) by (destruct d1, d; try discriminate; [destruct (list_eq_dec N.eq_dec l l0); [congruence|discriminate]|reflexivity]).
    assert (R1 : history_run (hash_kind garbage) h1 log = Ret (fst v)). { destruct d1, d; try discriminate; [destruct (list_eq_dec N.eq_dec l l0); [exact R|discriminate]|exact R]. }
    subst d1. clear R. destruct (IH _ R1) as (A & B). rewrite rev_app_distr, <- app_assoc, B. clear B IH.
    assert (S1 : he_run garbage h (encoder_calls o) = Ret (h1 : he_state) /\ s_res (h1 : he_state) = match d with Some d => [d] | None => [] end ++ s_res h).
    { destruct o as [c|g|]; cbn [step_digest encoder_calls he_run] in *.
      - cbn [k_do hash_kind] in Es. destruct (he_step garbage h (hash_op c)) as [h2| |] eqn:E2; cbn [bind] in Es |- *; try discriminate. assert (h2 = h1) as -> by congruence. assert (d = None) as -> by congruence.
        split; [reflexivity|]. cbn [app]. destruct c as [i al|i dat|i m]; cbn [hash_op he_step] in E2; destruct (obj_of h i) as [e|]; try (assert (h = h1) as -> by congruence; reflexivity).
        + destruct (he_reset _ _ _) as [[[hp e'] ok]| |]; cbn [bind] in E2; try discriminate. apply (@ret_inj he_state) in E2. rewrite <- E2. reflexivity.
        + destruct (he_feed _ _ _ _) as [hp| |]; cbn [bind] in E2; try discriminate. apply (@ret_inj he_state) in E2. rewrite <- E2. reflexivity.
        + destruct (he_feed_cstr _ _ _ _) as [hp| |]; cbn [bind] in E2; try discriminate. apply (@ret_inj he_state) in E2. rewrite <- E2. reflexivity.
      - cbn [k_digest hash_kind] in Es. destruct (obj_of h (hg_obj g)) as [e|] eqn:Ob.
        + destruct (he_step garbage h _) as [h2| |] eqn:E2; cbn [bind] in Es |- *; try discriminate. assert (h2 = h1) as -> by congruence. assert (d = hd_error (s_res (h1 : he_state))) as -> by congruence.
          split; [reflexivity|]. cbn [he_step] in E2. rewrite Ob in E2. destruct (get_digest _ _ _ _ _) as [[[hp e'] q]| |]; cbn [bind] in E2; try discriminate.
          apply (@ret_inj he_state) in E2. rewrite <- E2. reflexivity.
        + assert (h = h1) as -> by congruence. assert (d = None) as -> by congruence. cbn [he_step]. rewrite Ob. split; reflexivity.
      - assert (h = h1) as -> by congruence. assert (d = None) as -> by congruence. split; reflexivity. }
    destruct S1 as (S1 & S2). rewrite S2. split.
    - clear - S1 A. revert h S1. generalize (encoder_calls o). induction l as [|x l IHl]; intros h S1; cbn [app he_run] in *; [injection S1 as ->; exact A|].
      destruct (he_step garbage h x); cbn [bind] in *; try discriminate. apply IHl, S1.
    - destruct d; reflexivity. }
  destruct X as (X1 & X2). split; [exact X1|]. split; [exact X2|]. intros k ops Wk. destruct (W k (mkVT ops None [])) as (w & Hw & Ew & Sw); [rewrite nth_error_map, Wk; reflexivity|].
  exists w. auto.
Qed.
Print Assumptions C90_hash_history.
(** HMACEncoder: likewise, object by object (C38, C66 say what the tags are). *)
Theorem C90_hmac_history : forall J h work sched v, v_run (@v_start (hmac_kind J) h work) sched = Ret v ->
  exists log, (forall i e, nth_error (h : list (encoder (Some J))) i = Some e -> enc_calls (Some J) e (flat_map (calls_on i) (map en_op log)) = Ret (flat_map (digests_on i) log)) /\
    forall k ops, nth_error work k = Some ops -> exists w, nth_error (snd v) k = Some w /\ ops = map en_op (of_thread k log) ++ v_todo w /\
      v_seen w = reads_of None (of_thread k log).
Proof.
  intros J h work sched v E. destruct (run_history _ _ _ _ _ E) as (log & R & W). exists log. split.
  2: { intros k ops Wk. destruct (W k (mkVT ops None [])) as (w & Hw & Ew & Sw); [rewrite nth_error_map, Wk; reflexivity|]. exists w. auto. }
  clear E W. revert h R. induction log as [|[k o d] log IH]; intros h R i e He; cbn [history_run] in R; [reflexivity|]. cbn [en_op en_digest map flat_map] in *.
  destruct (step_digest _ h o) as [[h1 d1]| |] eqn:Es; cbn [bind] in R; try discriminate.
  assert (Ed : d1 = d) by (destruct d1, d; try discriminate; [destruct (list_eq_dec N.eq_dec l l0); [congruence|discriminate]|reflexivity]).
  assert (R1 : history_run (hmac_kind J) h1 log = Ret (fst v)). { destruct d1, d; try discriminate; [destruct (list_eq_dec N.eq_dec l l0); [exact R|discriminate]|exact R]. }
  subst d1. clear R. specialize (IH h1 R1 i).
  assert (OE : forall j f, on_enc h j f = Ret h1 -> exists e1, nth_error (h1 : list (encoder (Some J))) i = Some e1 /\ if Nat.eqb j i then f e = Ret e1 else e1 = e).
  { intros j f F. unfold on_enc in F. destruct (nth_error h j) as [ej|] eqn:Ej.
    - destruct (f ej) as [e1| |] eqn:Ef; cbn [bind] in F; try discriminate. assert (h1 = set_enc h j e1) as -> by congruence. unfold set_enc. destruct (Nat.eqb_spec j i) as [->|D].
      + exists e1. rewrite (nth_set _ _ _ _ Ej). assert (ej = e) as -> by congruence. auto.
      + exists e. rewrite (nth_set_other _ _ _ _ _ Ej) by congruence. auto.
    - assert (h = h1) as <- by congruence. exists e. destruct (Nat.eqb_spec j i) as [->|D]; [congruence|auto]. }
  destruct o as [[j dat|j m|j]|g|]; cbn [step_digest calls_on digests_on en_op] in *.
  - cbn [k_do hmac_kind] in Es. destruct (on_enc h j _) as [h2| |] eqn:E2; cbn [bind] in Es; try discriminate. assert (h2 = h1) as -> by congruence.
    destruct (OE _ _ E2) as (e1 & N1 & F). destruct (Nat.eqb j i); cbn [app enc_calls]; [rewrite F; cbn [bind]; apply IH, N1|subst e1; apply IH, N1].
  - cbn [k_do hmac_kind] in Es. destruct (on_enc h j _) as [h2| |] eqn:E2; cbn [bind] in Es; try discriminate. assert (h2 = h1) as -> by congruence.
    destruct (OE _ _ E2) as (e1 & N1 & F). destruct (Nat.eqb j i); cbn [app enc_calls]; [rewrite F; cbn [bind]; apply IH, N1|subst e1; apply IH, N1].
  - cbn [k_do hmac_kind] in Es. destruct (on_enc h j _) as [h2| |] eqn:E2; cbn [bind] in Es; try discriminate. assert (h2 = h1) as -> by congruence.
    destruct (OE _ _ E2) as (e1 & N1 & F). destruct (Nat.eqb j i); cbn [app enc_calls]; [assert (enc_reset (Some J) e = e1) as -> by congruence; apply IH, N1|subst e1; apply IH, N1].
  - cbn [k_digest hmac_kind] in Es. destruct (nth_error h (mg_obj g)) as [eg|] eqn:Eg.
    + destruct (enc_digest (Some J) _ _ eg) as [[e1 d1]| |] eqn:Ef; cbn [bind] in Es; try discriminate. assert (h1 = set_enc h (mg_obj g) e1) as -> by congruence. assert (d1 = d) as -> by congruence.
      unfold digests_on at 1. cbn [en_op en_digest]. destruct (Nat.eqb_spec (mg_obj g) i) as [<-|D]; cbn [app enc_calls].
      * assert (eg = e) as -> by congruence. rewrite Ef. cbn [bind]. rewrite (IH e1); [reflexivity|]. unfold set_enc. rewrite (nth_set _ _ _ _ Eg). reflexivity.
      * apply IH. unfold set_enc. rewrite (nth_set_other _ _ _ _ _ Eg) by congruence. exact He.
    + assert (h = h1) as <- by congruence. unfold digests_on at 1. cbn [en_op]. destruct (Nat.eqb_spec (mg_obj g) i) as [<-|D]; [congruence|]. cbn [app]. apply IH, He.
  - assert (h = h1) as <- by congruence. cbn [app]. apply IH, He.
Qed.
Print Assumptions C90_hmac_history.

(** ** Parts of a call *)
Lemma g_run_app {K} s1 s2 : forall s : g_state K, g_run s (s1 ++ s2) = (s <- g_run s s1 ;; g_run s s2).
Proof. induction s1 as [|k r IH]; intros s; [reflexivity|]. cbn [app g_run]. destruct (g_next s k); cbn [bind]; auto. Qed.
Lemma set_set {K} (l : list (g_thread K)) k t t' u : nth_error l k = Some u -> set_thread (set_thread l k t) k t' = set_thread l k t'.
Proof.
  revert k. induction l as [|a l IH]; intros [|k] T; try discriminate; [reflexivity|]. unfold set_thread in *. cbn [firstn skipn app]. f_equal. apply (IH k T).
Qed.
Lemma get_1 K h sd out ts k g r la se h1 d : nth_error ts k = Some (mkGT (GGet g :: r) GIdle la se) -> k_digest K h g = Ret (h1, Some d) ->
  g_run (mkGS h sd out ts) [k; k; k] = Ret (mkGS h1 (sd ++ [Some d]) out (set_thread ts k (mkGT r (GStore (k_obj K g) (length sd) (out (k_obj K g))) la se))).
Proof.
  intros T E. cbn [g_run]. unfold g_next at 1. cbn [g_threads]. rewrite T. unfold g_step. cbn [g_at g_todo g_objs g_sd g_out g_last g_seen g_threads]. rewrite E. cbn [bind].
  unfold g_next at 1. cbn [g_threads]. unfold set_thread at 1. rewrite (nth_set _ _ _ _ T). unfold g_step. cbn [g_at g_todo g_objs g_sd g_out g_last g_seen g_threads bind].
  rewrite (set_set _ _ _ _ _ T). unfold g_next at 1. cbn [g_threads]. unfold set_thread at 1. rewrite (nth_set _ _ _ _ T). unfold g_step. cbn [g_at g_todo g_objs g_sd g_out g_last g_seen g_threads bind].
  rewrite (set_set _ _ _ _ _ T). reflexivity.
Qed.
Lemma get_2 K h sd out ts k i p old r la se : nth_error ts k = Some (mkGT r (GStore i p old) la se) ->
  g_run (@mkGS K h sd out ts) [k; k] = (sd <- sd_delete sd old ;; Ret (mkGS h sd (set_member out i (Some p)) (set_thread ts k (mkGT r (GReturn i) la se)))).
Proof.
  intros T. cbn [g_run]. unfold g_next at 1. cbn [g_threads]. rewrite T. unfold g_step. cbn [g_at g_todo g_objs g_sd g_out g_last g_seen g_threads bind].
  unfold g_next at 1. cbn [g_threads]. unfold set_thread at 1. rewrite (nth_set _ _ _ _ T). unfold g_step. cbn [g_at g_todo g_objs g_sd g_out g_last g_seen g_threads].
  destruct (sd_delete sd old); cbn [bind]; auto. rewrite (set_set _ _ _ _ _ T). reflexivity.
Qed.
Lemma get_3 K h sd out ts k i r la se : nth_error ts k = Some (mkGT r (GReturn i) la se) ->
  g_run (@mkGS K h sd out ts) [k] = Ret (mkGS h sd out (set_thread ts k (mkGT r GIdle (out i) se))).
Proof. intros T. cbn [g_run]. unfold g_next at 1. cbn [g_threads]. rewrite T. reflexivity. Qed.
Lemma set_nth {K} (ts : list (g_thread K)) k t u : nth_error ts k = Some u -> nth_error (set_thread ts k t) k = Some t.
Proof. apply nth_set. Qed.
Lemma set_nth_other {K} (ts : list (g_thread K)) k t u j : nth_error ts k = Some u -> j <> k -> nth_error (set_thread ts k t) j = nth_error ts j.
Proof. apply nth_set_other. Qed.
Lemma delete_live sd p d : nth_error sd p = Some (Some d) -> exists sd', sd_delete sd (Some p) = Ret sd' /\ nth_error sd' p = Some None /\ (forall q, q <> p -> nth_error sd' q = nth_error sd q) /\ length sd' = length sd.
Proof.
  intros H. cbn [sd_delete]. rewrite H. eexists. split; [reflexivity|]. split; [eapply nth_set; exact H|]. split; [intros q N; eapply nth_set_other; eassumption|].
  pose proof (nth_error_Some_lt _ _ _ H). rewrite app_length. cbn [length]. rewrite firstn_length, skipn_length. lia.
Qed.

(** ** C90, violations: two threads ask one object, whatever it is, for its digest *)
(** the object has given a digest before: both threads delete it *)
Theorem C90_deleted_twice_refuted : forall K h sd out (ts : list (g_thread K)) k k' g g' r r' la la' se se' p d0 h1 d h2 d',
  k <> k' -> nth_error ts k = Some (mkGT (GGet g :: r) GIdle la se) -> nth_error ts k' = Some (mkGT (GGet g' :: r') GIdle la' se') ->
  k_obj K g = k_obj K g' -> out (k_obj K g) = Some p -> nth_error sd p = Some (Some d0) ->
  k_digest K h g = Ret (h1, Some d) -> k_digest K h1 g' = Ret (h2, Some d') ->
  exists sched, g_run (mkGS h sd out ts) sched = UB DoubleFree.
Proof.
  intros K h sd out ts k k' g g' r r' la la' se se' p d0 h1 d h2 d' N T T' O Hp Hd E E'.
  exists ([k; k; k] ++ [k'; k'; k'] ++ [k; k] ++ [k'; k']). rewrite g_run_app, (get_1 _ _ _ _ _ _ _ _ _ _ _ _ T E). cbn [bind].
  rewrite g_run_app. erewrite get_1; [|rewrite (set_nth_other _ _ _ _ _ T) by congruence; exact T'|exact E']. cbn [bind].
  pose proof (nth_error_Some_lt _ _ _ Hd) as L.
  rewrite g_run_app. erewrite get_2; [|rewrite (set_nth_other _ k' _ (mkGT (GGet g' :: r') GIdle la' se') k); [apply (set_nth _ _ _ _ T)|rewrite (set_nth_other _ _ _ _ _ T) by congruence; exact T'|exact N]].
  rewrite <- O, Hp. destruct (delete_live ((sd ++ [Some d]) ++ [Some d']) p d0) as (sd' & Ed & G & _). { rewrite nth_error_app1 by (rewrite app_length; cbn; lia). rewrite nth_error_app1 by exact L. exact Hd. }
  rewrite Ed. cbn [bind]. erewrite get_2; [|rewrite (set_nth_other _ k _ (mkGT r (GStore (k_obj K g) (length sd) (Some p)) la se) k'); [apply (set_nth _ k' _ (mkGT (GGet g' :: r') GIdle la' se')); rewrite (set_nth_other _ _ _ _ _ T) by congruence; exact T'| |congruence]].
  - cbn [sd_delete]. rewrite G. reflexivity.
  - rewrite (set_nth_other _ k' _ (mkGT (GGet g' :: r') GIdle la' se') k); [apply (set_nth _ _ _ _ T)|rewrite (set_nth_other _ _ _ _ _ T) by congruence; exact T'|exact N].
Qed.
Print Assumptions C90_deleted_twice_refuted.
(** a whole get_digest call without another thread in between *)
Lemma get_all K h sd out ts k g r la se h1 d : nth_error ts k = Some (mkGT (GGet g :: r) GIdle la se) -> k_digest K h g = Ret (h1, Some d) -> members_ok sd out ->
  exists sd', g_run (mkGS h sd out ts) (repeat k 6) =
      Ret (mkGS h1 sd' (set_member out (k_obj K g) (Some (length sd))) (set_thread ts k (mkGT r GIdle (Some (length sd)) se))) /\
    nth_error sd' (length sd) = Some (Some d) /\ length sd' = S (length sd) /\
    (forall q, q <> length sd -> nth_error sd' q = if match out (k_obj K g) with Some p => Nat.eqb p q | None => false end then Some None else nth_error sd q).
Proof.
  intros T E (A & _). change (repeat k 6) with ([k; k; k] ++ [k; k] ++ [k]). rewrite g_run_app, (get_1 _ _ _ _ _ _ _ _ _ _ _ _ T E). cbn [bind].
  rewrite g_run_app. erewrite get_2 by (apply (set_nth _ _ _ _ T)). set (i := k_obj K g).
  assert (X : exists sd', sd_delete (sd ++ [Some d]) (out i) = Ret sd' /\ nth_error sd' (length sd) = Some (Some d) /\ length sd' = S (length sd) /\
    (forall q, q <> length sd -> nth_error sd' q = if match out i with Some p => Nat.eqb p q | None => false end then Some None else nth_error sd q)).
  { assert (Last : nth_error (sd ++ [Some d]) (length sd) = Some (Some d)) by (rewrite nth_error_app2 by lia; rewrite Nat.sub_diag; reflexivity).
    assert (Low : forall q, q <> length sd -> nth_error (sd ++ [Some d]) q = nth_error sd q).
    { intros q Q. destruct (Nat.lt_ge_cases q (length sd)) as [L|L]; [apply nth_error_app1, L|]. rewrite !(proj2 (nth_error_None _ _)); auto. rewrite app_length. cbn. lia. }
    destruct (out i) as [p|] eqn:O.
    - destruct (A i p O) as [d0 Hd]. pose proof (nth_error_Some_lt _ _ _ Hd) as L. destruct (delete_live (sd ++ [Some d]) p d0) as (sd' & Ed & G & Ot & Le); [rewrite Low by lia; exact Hd|].
      exists sd'. split; [exact Ed|]. split; [rewrite Ot by lia; exact Last|]. split; [rewrite Le, app_length; cbn; lia|]. intros q Q. destruct (Nat.eqb_spec p q) as [<-|D]; [exact G|]. rewrite Ot by congruence. apply Low, Q.
    - exists (sd ++ [Some d]). split; [reflexivity|]. split; [exact Last|]. split; [rewrite app_length; cbn; lia|]. exact Low. }
  destruct X as (sd' & Ed & X). exists sd'. rewrite Ed. cbn [bind]. rewrite (set_set _ _ _ _ _ T). split; [|exact X].
  rewrite (get_3 _ _ _ _ _ _ _ _ _ _ (set_nth _ _ _ _ T)), (set_set _ _ _ _ _ T). unfold set_member at 2. rewrite Nat.eqb_refl. reflexivity.
Qed.
(** even when each call is made with a lock held, but not the reading: the digest one thread got is deleted by the other's call *)
Theorem C90_read_after_delete_refuted : forall K h sd out (ts : list (g_thread K)) k k' g g' r r' la la' se se' h1 d h2 d',
  members_ok sd out -> k <> k' -> nth_error ts k = Some (mkGT (GGet g :: GRead :: r) GIdle la se) -> nth_error ts k' = Some (mkGT (GGet g' :: r') GIdle la' se') ->
  k_obj K g = k_obj K g' -> k_digest K h g = Ret (h1, Some d) -> k_digest K h1 g' = Ret (h2, Some d') ->
  g_run (mkGS h sd out ts) (repeat k 6 ++ repeat k' 6 ++ [k]) = UB DoubleFree.
Proof.
  intros K h sd out ts k k' g g' r r' la la' se se' h1 d h2 d' M N T T' O E E'. rewrite g_run_app.
  destruct (get_all _ _ _ _ _ _ _ _ _ _ _ _ T E M) as (sd1 & E1 & L1 & N1 & F1). rewrite E1. cbn [bind].
  assert (M1 : members_ok sd1 (set_member out (k_obj K g) (Some (length sd)))).
  { destruct M as [A B]. split; unfold set_member.
    - intros i p. destruct (Nat.eqb_spec i (k_obj K g)) as [->|D]; intros H; [injection H as <-; eauto|]. destruct (A i p H) as [e He]. exists e.
      pose proof (nth_error_Some_lt _ _ _ He). rewrite F1 by lia. destruct (out (k_obj K g)) as [q|] eqn:Oq; [|exact He]. destruct (Nat.eqb_spec q p) as [->|]; [|exact He]. exfalso. apply D, (B i _ p H Oq).
    - intros i j p. destruct (Nat.eqb_spec i (k_obj K g)), (Nat.eqb_spec j (k_obj K g)); subst; auto; intros H H'.
      + injection H as <-. destruct (A j _ H') as [e He]. apply nth_error_Some_lt in He. lia.
      + injection H' as <-. destruct (A i _ H) as [e He]. apply nth_error_Some_lt in He. lia.
      + apply (B i j p H H'). }
  rewrite g_run_app. assert (T1 : nth_error (set_thread ts k (mkGT (GRead :: r) GIdle (Some (length sd)) se)) k' = Some (mkGT (GGet g' :: r') GIdle la' se')) by (rewrite (set_nth_other _ _ _ _ _ T) by congruence; exact T').
  destruct (get_all _ _ _ _ _ _ _ _ _ _ _ _ T1 E' M1) as (sd2 & E2 & L2 & N2 & F2). rewrite E2. cbn [bind].
  cbn [g_run]. unfold g_next. cbn [g_threads]. rewrite (set_nth_other _ _ _ _ _ T1) by exact N. rewrite (set_nth _ _ _ _ T). unfold g_step. cbn [g_at g_todo g_last g_sd].
  rewrite F2 by lia. rewrite <- O. unfold set_member. rewrite Nat.eqb_refl, Nat.eqb_refl. reflexivity.
Qed.
Print Assumptions C90_read_after_delete_refuted.
(** the object's first digests: no undefined operation, but the one thread reads the other's digest, and its own is never deleted: no object owns it *)
Theorem C90_digest_mixed_up_refuted : forall K h sd out (ts : list (g_thread K)) k k' g g' r r' la la' se se' h1 d h2 d',
  members_ok sd out -> k <> k' -> nth_error ts k = Some (mkGT (GGet g :: GRead :: r) GIdle la se) -> nth_error ts k' = Some (mkGT (GGet g' :: r') GIdle la' se') ->
  k_obj K g = k_obj K g' -> out (k_obj K g) = None -> k_digest K h g = Ret (h1, Some d) -> k_digest K h1 g' = Ret (h2, Some d') ->
  exists sched s, g_run (mkGS h sd out ts) sched = Ret s /\ nth_error (g_threads s) k = Some (mkGT r GIdle (Some (S (length sd))) (se ++ [d'])) /\
    nth_error (g_threads s) k' = Some (mkGT r' GIdle (Some (S (length sd))) se') /\
    nth_error (g_sd s) (length sd) = Some (Some d) /\ forall i, g_out s i <> Some (length sd).
Proof.
  intros K h sd out ts k k' g g' r r' la la' se se' h1 d h2 d' M N T T' O On E E'.
  exists ([k; k; k] ++ [k'; k'; k'] ++ [k; k] ++ [k'; k'] ++ [k] ++ [k'] ++ [k]).
  set (sd2 := (sd ++ [Some d]) ++ [Some d']). set (i := k_obj K g) in *.
  set (u1 := mkGT (GRead :: r) (GStore i (length sd) None) la se). set (u1' := mkGT r' (GStore i (S (length sd)) None) la' se').
  assert (S1 : g_run (mkGS h sd out ts) [k; k; k] = Ret (mkGS h1 (sd ++ [Some d]) out (set_thread ts k u1))) by (rewrite (get_1 _ _ _ _ _ _ _ _ _ _ _ _ T E); fold i; rewrite On; reflexivity).
  pose proof (set_nth _ _ u1 _ T) as K1. assert (K1' : nth_error (set_thread ts k u1) k' = Some (mkGT (GGet g' :: r') GIdle la' se')) by (rewrite (set_nth_other _ _ _ _ _ T) by congruence; exact T').
  rewrite g_run_app, S1. cbn [bind]. set (ts1 := set_thread ts k u1) in *. clearbody ts1.
  rewrite g_run_app, (get_1 _ _ _ _ _ _ _ _ _ _ _ _ K1' E'). cbn [bind]. rewrite <- O, On. rewrite app_length. cbn [length]. rewrite Nat.add_1_r. fold sd2 u1'.
  pose proof (set_nth _ _ u1' _ K1') as K2'. assert (K2 : nth_error (set_thread ts1 k' u1') k = Some u1) by (rewrite (set_nth_other _ _ _ _ _ K1') by congruence; exact K1). set (ts2 := set_thread ts1 k' u1') in *. clearbody ts2.
  rewrite g_run_app, (get_2 _ _ _ _ _ _ _ _ _ _ _ _ K2). cbn [sd_delete bind]. set (u3 := mkGT (GRead :: r) (GReturn i) la se).
  pose proof (set_nth _ _ u3 _ K2) as K3. assert (K3' : nth_error (set_thread ts2 k u3) k' = Some u1') by (rewrite (set_nth_other _ _ _ _ _ K2) by congruence; exact K2'). set (ts3 := set_thread ts2 k u3) in *. clearbody ts3.
  rewrite g_run_app, (get_2 _ _ _ _ _ _ _ _ _ _ _ _ K3'). cbn [sd_delete bind]. set (u3' := mkGT r' (GReturn i) la' se').
  pose proof (set_nth _ _ u3' _ K3') as K4'. assert (K4 : nth_error (set_thread ts3 k' u3') k = Some u3) by (rewrite (set_nth_other _ _ _ _ _ K3') by congruence; exact K3). set (ts4 := set_thread ts3 k' u3') in *. clearbody ts4.
  set (out2 := set_member (set_member out i (Some (length sd))) i (Some (S (length sd)))). assert (Oi : out2 i = Some (S (length sd))) by (unfold out2, set_member; rewrite Nat.eqb_refl; reflexivity).
  rewrite g_run_app, (get_3 _ _ _ _ _ _ _ _ _ _ K4). cbn [bind]. rewrite Oi. set (u5 := mkGT (GRead :: r) GIdle (Some (S (length sd))) se).
  pose proof (set_nth _ _ u5 _ K4) as K5. assert (K5' : nth_error (set_thread ts4 k u5) k' = Some u3') by (rewrite (set_nth_other _ _ _ _ _ K4) by congruence; exact K4'). set (ts5 := set_thread ts4 k u5) in *. clearbody ts5.
  rewrite g_run_app, (get_3 _ _ _ _ _ _ _ _ _ _ K5'). cbn [bind]. rewrite Oi. set (u5' := mkGT r' GIdle (Some (S (length sd))) se').
  pose proof (set_nth _ _ u5' _ K5') as K6'. assert (K6 : nth_error (set_thread ts5 k' u5') k = Some u5) by (rewrite (set_nth_other _ _ _ _ _ K5') by congruence; exact K5). set (ts6 := set_thread ts5 k' u5') in *. clearbody ts6.
  cbn [g_run]. unfold g_next. cbn [g_threads]. rewrite K6. unfold g_step, u5. cbn [g_at g_todo g_last g_sd g_objs g_out g_seen g_threads].
  assert (L : nth_error sd2 (S (length sd)) = Some (Some d')) by (unfold sd2; rewrite nth_error_app2 by (rewrite app_length; cbn; lia); rewrite app_length; cbn [length]; rewrite Nat.add_1_r, Nat.sub_diag; reflexivity).
  rewrite L. cbn [bind]. eexists. split; [reflexivity|]. cbn [g_threads g_sd g_out]. split; [apply (set_nth _ _ _ _ K6)|]. split; [rewrite (set_nth_other _ _ _ _ _ K6) by congruence; exact K6'|]. split.
  - unfold sd2. rewrite nth_error_app1 by (rewrite app_length; cbn; lia). rewrite nth_error_app2 by lia. rewrite Nat.sub_diag. reflexivity.
  - intros j. unfold out2, set_member. destruct (Nat.eqb_spec j i); [intros X; injection X; lia|]. intros X. destruct M as [A _]. destruct (A j _ X) as [e He]. apply nth_error_Some_lt in He. lia.
Qed.
Print Assumptions C90_digest_mixed_up_refuted.

(** ** Shared objects, each section (calls, get_digest, reading) under one lock *)
Lemma members_get sd out i sd' d : members_ok sd out -> nth_error sd' (length sd) = Some (Some d) ->
  (forall q, q <> length sd -> nth_error sd' q = if match out i with Some p => Nat.eqb p q | None => false end then Some None else nth_error sd q) ->
  members_ok sd' (set_member out i (Some (length sd))) /\ (no_orphan sd out -> no_orphan sd' (set_member out i (Some (length sd)))).
Proof.
  intros [A B] N1 F1. split; [split|]; unfold set_member.
  - intros j p. destruct (Nat.eqb_spec j i) as [->|D]; intros H; [injection H as <-; eauto|]. destruct (A j p H) as [e He]. exists e.
    pose proof (nth_error_Some_lt _ _ _ He). rewrite F1 by lia. destruct (out i) as [q|] eqn:Oq; [|exact He]. destruct (Nat.eqb_spec q p) as [->|]; [|exact He]. exfalso. apply D, (B j _ p H Oq).
  - intros j j' p. destruct (Nat.eqb_spec j i), (Nat.eqb_spec j' i); subst; auto; intros H H'.
    + injection H as <-. destruct (A j' _ H') as [e He]. apply nth_error_Some_lt in He. lia.
    + injection H' as <-. destruct (A j _ H) as [e He]. apply nth_error_Some_lt in He. lia.
    + apply (B j j' p H H').
  - intros NO p e H. destruct (Nat.eq_dec p (length sd)) as [->|D]; [exists i; rewrite Nat.eqb_refl; reflexivity|]. rewrite F1 in H by exact D.
    destruct (match out i with Some p0 => Nat.eqb p0 p | None => false end) eqn:Q; [discriminate|]. destruct (NO p e H) as [j Hj]. exists j. destruct (Nat.eqb_spec j i) as [->|]; [|exact Hj].
    rewrite Hj, Nat.eqb_refl in Q. discriminate.
Qed.
Lemma run_calls K cs : forall h h1 sd out ts k r la se, nth_error ts k = Some (mkGT (map GDo cs ++ r) GIdle la se) -> do_all h cs = Ret h1 ->
  g_run (@mkGS K h sd out ts) (repeat k (length cs)) = Ret (mkGS h1 sd out (set_thread ts k (mkGT r GIdle la se))).
Proof.
  induction cs as [|c cs IH]; intros h h1 sd out ts k r la se T E; cbn [do_all length repeat map app] in *.
  - injection E as <-. cbn [g_run]. f_equal. f_equal. symmetry. apply same_thread, T.
  - destruct (k_do K h c) as [h2| |] eqn:E1; cbn [bind] in E; try discriminate. cbn [g_run]. unfold g_next at 1. cbn [g_threads]. rewrite T. unfold g_step. cbn [g_at g_todo g_objs g_sd g_out g_last g_seen g_threads].
    rewrite E1. cbn [bind]. erewrite IH; [|apply (set_nth _ _ _ _ T)|exact E]. rewrite (set_set _ _ _ _ _ T). reflexivity.
Qed.
(** Whatever objects the sections use and in whatever order the threads take the lock: nothing undefined that indivisible sections would not
    do, and each thread reads in each of its sections the digest computed there. *)
Theorem C90_locked_sections : forall K h sd out (work : list (list (section K))) order l, members_ok sd out -> no_orphan sd out ->
  l_run (mkLS h work (map (fun _ => []) work)) order = Ret l ->
  exists s, g_run (g_start h sd out (map (flat_map section_ops) work)) (turns work order) = Ret s /\ g_objs s = l_objs l /\
    members_ok (g_sd s) (g_out s) /\ no_orphan (g_sd s) (g_out s) /\
    forall k t, nth_error (g_threads s) k = Some t -> exists todo, nth_error (l_todo l) k = Some todo /\ g_todo t = flat_map section_ops todo /\ nth_error (l_got l) k = Some (g_seen t).
Proof.
  intros K h sd out work order l M NO E. unfold g_start.
  assert (G : forall order h sd out todo got ts, members_ok sd out -> no_orphan sd out ->
    (forall k, match nth_error ts k, nth_error todo k, nth_error got k with
               | Some t, Some td, Some gt => g_todo t = flat_map section_ops td /\ g_at t = GIdle /\ g_seen t = gt | None, None, None => True | _, _, _ => False end) ->
    l_run (@mkLS K h todo got) order = Ret l ->
    exists s, g_run (mkGS h sd out ts) (turns todo order) = Ret s /\ g_objs s = l_objs l /\ members_ok (g_sd s) (g_out s) /\ no_orphan (g_sd s) (g_out s) /\
      forall k t, nth_error (g_threads s) k = Some t -> exists todo, nth_error (l_todo l) k = Some todo /\ g_todo t = flat_map section_ops todo /\ nth_error (l_got l) k = Some (g_seen t)).
  2: { apply (G order h sd out work (map (fun _ => []) work) _ M NO); [|exact E]. intros k. rewrite !nth_error_map. destruct (nth_error work k); cbn; auto. }
  clear - l. induction order as [|k order IH]; intros h sd out todo got ts M NO R E; cbn [l_run turns] in *.
  - injection E as <-. eexists. split; [reflexivity|]. split; [reflexivity|]. split; [exact M|]. split; [exact NO|]. intros k t T. cbn [g_threads l_todo l_got] in *. specialize (R k). rewrite T in R.
    destruct (nth_error todo k) as [td|]; [|contradiction]. destruct (nth_error got k) as [gt|]; [|contradiction]. destruct R as (A & _ & <-). eauto.
  - cbn [l_todo l_got l_objs] in E. pose proof (R k) as Rk. destruct (nth_error todo k) as [[|[cs g] r]|] eqn:Td; [eapply IH; eassumption| |eapply IH; eassumption].
    destruct (nth_error got k) as [gt|] eqn:Gt; [|destruct (nth_error ts k); contradiction]. destruct (nth_error ts k) as [t|] eqn:T; [|contradiction].
    destruct t as [tt pl la se]. cbn [g_todo g_at g_seen] in Rk. destruct Rk as (Et & -> & ->). cbn [flat_map] in Et. unfold section_ops at 1 in Et. cbn [fst snd] in Et. rewrite <- app_assoc in Et. cbn [app] in Et. subst tt.
    destruct (do_all h cs) as [h1| |] eqn:E1; cbn [bind] in E; try discriminate. destruct (k_digest K h1 g) as [[h2 [d|]]| |] eqn:E2; cbn [bind] in E; try discriminate.
    rewrite repeat_app, <- app_assoc, g_run_app. rewrite (run_calls K cs h h1 _ _ _ _ _ _ _ T E1). cbn [bind].
    set (ts1 := set_thread ts k _). pose proof (set_nth _ _ (mkGT (GGet g :: GRead :: flat_map section_ops r) GIdle la gt) _ T) as T1. fold ts1 in T1.
    change (repeat k 7) with (repeat k 6 ++ [k]). rewrite <- app_assoc, g_run_app. destruct (get_all _ _ _ _ _ _ _ _ _ _ _ _ T1 E2 M) as (sd1 & Eg & N1 & L1 & F1). rewrite Eg. cbn [bind].
    destruct (members_get _ _ _ _ _ M N1 F1) as (M1 & NO1). specialize (NO1 NO).
    set (ts2 := set_thread ts1 k _). pose proof (set_nth _ _ (mkGT (GRead :: flat_map section_ops r) GIdle (Some (length sd)) gt) _ T1) as T2. fold ts2 in T2.
    rewrite g_run_app. cbn [g_run]. unfold g_next at 1. cbn [g_threads]. rewrite T2. unfold g_step. cbn [g_at g_todo g_objs g_sd g_out g_last g_seen g_threads]. rewrite N1. cbn [bind].
    eapply IH; [exact M1|exact NO1| |exact E]. intros j. unfold ts2, ts1. rewrite (set_set ts k _ _ _ T), (set_set ts k _ _ _ T). unfold set_thread. destruct (Nat.eq_dec j k) as [->|D].
    + rewrite (nth_set _ _ _ _ T), (nth_set _ _ _ _ Td), (nth_set _ _ _ _ Gt). cbn. auto.
    + rewrite (nth_set_other _ _ _ _ _ T D), (nth_set_other _ _ _ _ _ Td D), (nth_set_other _ _ _ _ _ Gt D). apply R.
Qed.
Print Assumptions C90_locked_sections.

(** ** Cases: MD5 objects *)
Local Open Scope N_scope.
From Verif Require Import MMd5 PropHashEnc PropLife PropHmac.
Local Notation HK := (hash_kind None).
Local Notation do_ c := (@GDo HK c).
Local Notation get_ g := (@GGet HK g).
Local Notation hcalls := ((list hash_call * hash_get)%type).
Definition two_objects : outcome he_state := he_run None he_start [OpNew A_MD5 raw0 (Some dirty_memory); OpNew A_MD5 raw0 (Some dirty_memory)].
Definition ask (i : nat) : hash_get := mkHG i 0 (fun _ => 5).
Definition own_work : list (list (g_op (hash_kind None))) := [[do_ (HUpdate 0 (chars "a")); get_ (ask 0); GRead]; [do_ (HUpdate 1 (chars "bc")); get_ (ask 1); GRead]].
Example C90_own_case : members_ok [] (fun _ => None) /\ no_orphan [] (fun _ => None) /\ separate (fun i => i) own_work /\
  omap (fun s => map (@g_seen (hash_kind None)) (g_threads s)) (h <- two_objects ;; g_run (@g_start HK h [] (fun _ => None) own_work) [0; 1; 1; 0; 0; 1; 1; 0; 1; 0; 0; 1; 1; 0; 0; 1]%nat) =
    Ret [[SMd5.MD5 (chars "a")]; [SMd5.MD5 (chars "bc")]].
Proof.
  split; [split; intros; discriminate|]. split; [intros [|p] d H; discriminate H|]. split; [|vm_compute; reflexivity].
  intros [|[|k]] ops g E I; cbn in E; try (destruct k; discriminate E); injection E as <-; cbn in I; destruct I as [I|[I|[I|[]]]]; try discriminate I; injection I as <-; reflexivity.
Qed.
(** the schedules of the violations on one object: the second digest call on the finished context gives other bytes *)
Definition shared_work : list (list (g_op (hash_kind None))) := [[get_ (ask 0); GRead]; [get_ (ask 0); GRead]].
Definition shared_run (sd : list (option (list N))) (out : nat -> option nat) (sched : list nat) : outcome (list (list (list N)) * list (option (list N))) :=
  h <- two_objects ;; omap (fun s => (map (@g_seen (hash_kind None)) (g_threads s), g_sd s)) (g_run (@g_start HK h sd out shared_work) sched).
Example C90_shared_case :
  shared_run [Some (chars "x")] (fun i => if Nat.eqb i 0 then Some 0%nat else None) [0; 0; 0; 1; 1; 1; 0; 0; 1; 1]%nat = UB DoubleFree /\
  shared_run [] (fun _ => None) [0; 0; 0; 0; 0; 0; 1; 1; 1; 1; 1; 1; 0]%nat = UB DoubleFree /\
  exists d', shared_run [] (fun _ => None) [0; 0; 0; 1; 1; 1; 0; 0; 1; 1; 0; 1; 0]%nat = Ret ([[d']; []], [Some (SMd5.MD5 []); Some d']) /\ d' <> SMd5.MD5 [].
Proof.
  split; [vm_compute; reflexivity|]. split; [vm_compute; reflexivity|]. eexists. split; [vm_compute; reflexivity|]. vm_compute. discriminate.
Qed.
(** sections under a lock on one object: reset, update, get_digest, read *)
Example C90_locked_case : omap (fun l => l_got l) (h <- two_objects ;;
  l_run (@mkLS (hash_kind None) h [[([HUpdate 0 (chars "a")], ask 0) : hcalls]; [([HReset 0 (Some dirty_memory); HUpdate 0 (chars "bc")], ask 0) : hcalls]] [[]; []]) [0; 1]%nat) =
  Ret [[SMd5.MD5 (chars "a")]; [SMd5.MD5 (chars "bc")]].
Proof. vm_compute. reflexivity. Qed.
(** an HMACEncoder: two threads ask it for its tag after an earlier digest *)
Example C90_hmac_case :
  (e <- enc_new (Some (md5_impl None)) A_MD5 (mkRaw 1 1 1 (blank_hmac (md5_impl None) blank_md5 : ectx (Some (md5_impl None)))) (chars "key") ;;
   omap (fun s => g_sd s) (g_run (@g_start (hmac_kind (md5_impl None)) [e] [Some (chars "x")] (fun i => if Nat.eqb i 0 then Some 0%nat else None)
     (let g := mkMG (md5_impl None) 0 (blank_locals (md5_impl None) blank_md5) (repeat 0 16) in let K := hmac_kind (md5_impl None) in [[@GGet K g]; [@GDo K (MUpdate 0 (chars "m")); @GGet K g]]))
     [1; 0; 0; 0; 1; 1; 1; 0; 0; 1; 1]%nat)) = UB DoubleFree.
Proof. vm_compute. reflexivity. Qed.
