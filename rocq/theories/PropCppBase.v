(** C13-C16: the C++ classes Base16, Base32, Base64: cache sizes, threads, exceptions, histories. *)
From Coq Require Import String.
From Verif Require Import Base MBase SRfc4648 PropBase MCppSize PCppSize MCppBase SCppBase PCppBase PCppBase2.

(** the C functions are deterministic: a call has at most one correct value *)
Lemma same_prefix (s u t1 t2 : list N) : length s = length u -> s ++ t1 = u ++ t2 -> s = u.
Proof. revert u. induction s as [|x s IH]; intros [|y u] L E; try discriminate; [reflexivity|]. injection E as -> E. f_equal. apply IH; auto. Qed.
Definition roomy : stack := mkStack (fun _ => [0%N]) (fun _ => repeat 0%N 100).
Lemma roomy_ok a : slack a roomy. Proof. intros n. destruct a; cbn; lia. Qed.
Lemma c_encodes_inj a x s u : c_encodes a x s -> c_encodes a x u -> s = u.
Proof.
  intros Hs Hu. set (out := repeat 0%N (S (length s + length u))).
  destruct (Hs roomy out (roomy_ok a)) as (t1 & E1); [unfold out; rewrite repeat_length; lia|]. destruct (Hu roomy out (roomy_ok a)) as (t2 & E2); [unfold out; rewrite repeat_length; lia|].
  rewrite E1 in E2. injection E2 as L E. eapply same_prefix; eauto.
Qed.
Lemma c_decodes_inj a x s u : c_decodes a x s -> c_decodes a x u -> s = u.
Proof.
  intros Hs Hu. set (out := repeat 0%N (unit_space a (length x) + 1)).
  destruct (Hs out) as (t1 & E1); [unfold out; rewrite repeat_length; lia|]. destruct (Hu out) as (t2 & E2); [unfold out; rewrite repeat_length; lia|].
  rewrite E1 in E2. injection E2 as L E. eapply same_prefix; eauto.
Qed.

(** ** C13 *)

(** C13: any number of threads, any calls on one object, any schedule, any allocation failures: no access
    outside the caches (nor any other undefined behaviour) ever happens. *)
Theorem C13_caches_never_overflow : forall c work sched,
  Forall (Forall call_ok) work -> Forall (fun ch => slack (api_of c) (stk ch)) sched ->
  exists s, run c (start work) sched = Ret s.
Proof.
  intros c work sched Hw Hs. destruct (run_inv c work Hw sched (start work) Hs (start_inv c work)) as (s & E & _). eauto.
Qed.
Print Assumptions C13_caches_never_overflow.

(** C13: the sizes the caches are given, for every length below 2^62: whenever the binary64 computation asks for a
    new cache (size above the initial one), that size is enough. *)
Theorem C13_cache_big_enough : forall c d, bytes_ok d -> (Z.of_nat (length d) < 2 ^ 62)%Z ->
  (exists sz, enc_space (bitsz c) (Z.of_nat (length d)) = Some sz /\ forall s, c_encodes (api_of c) d s -> (127 <= sz)%Z -> (Z.of_nat (length s) < sz + 1)%Z) /\
  (exists sz, dec_space (bitsz c) (Z.of_nat (length d)) = Some sz /\ ((64 <= sz)%Z -> (Z.of_nat (unit_space (api_of c) (length d)) + 1 <= sz)%Z)).
Proof.
  intros c d Hb Hl. split.
  - destruct (enc_space_bounds (bitsz c) (Z.of_nat (length d)) (bitsz_in c) ltac:(lia)) as (sz & E & _). exists sz. split; [exact E|]. intros s Hs H127.
    pose proof (enc_fits c d sz sz Hb Hl E H127 ltac:(lia)) as F.
    rewrite (c_encodes_inj _ _ _ _ Hs (c_encodes_lib (api_of c) d Hb)). lia.
  - destruct (dec_space_bounds (bitsz c) (Z.of_nat (length d)) (bitsz_in c) ltac:(lia)) as (sz & E & _). exists sz. split; [exact E|]. intros H64.
    pose proof (dec_fits c d sz sz Hl E H64 ltac:(lia)) as F. lia.
Qed.
Print Assumptions C13_cache_big_enough.

Lemma step_single c o t ch o' t' : who ch = 0 -> step_thread c (mem_ok ch) (stk ch) o t = Next o' t' -> step c (o, [t]) ch = Ret (o', [t']).
Proof. intros Hw E. unfold step. rewrite Hw. cbn [nth_error]. rewrite E. reflexivity. Qed.
(** C13, violation: decoding the empty string writes before the cache. *)
Theorem C13_empty_text_refuted : forall c s, upto_nul s = [] ->
  run c (start [[DecodeStr s]]) (repeat (mkChoice 0 true roomy) 4) = UB OutOfBounds.
Proof.
  intros c s Hs. unfold start. cbn [map repeat run].
  rewrite (step_single c _ _ _ new_object (mkThread [] (AtLock (JDec []) 0) [])); [cbn [bind]|reflexivity|].
  2: { unfold step_thread. cbn [at_ todo job_of results mem_ok stk]. rewrite c_string_ok by (apply in_or_app; right; left; reflexivity). rewrite upto_nul_term, Hs. cbn [bind lift length Z.of_nat].
       replace (dec_space (bitsz c) 0) with (Some 0%Z) by (destruct c as [|[]|[]]; vm_compute; reflexivity). reflexivity. }
  rewrite (step_single c _ _ _ (mkObj (repeat 0%N 128) 127 false (repeat 0%N 64) 64 true) (mkThread [] (AtCheck (JDec []) 0) [])) by reflexivity. cbn [bind].
  rewrite (step_single c _ _ _ (mkObj (repeat 0%N 128) 127 false (repeat 0%N 64) 64 true) (mkThread [] (AtCall (JDec [])) [])) by reflexivity. cbn [bind].
  unfold step. cbn [nth_error who mem_ok stk]. unfold step_thread. cbn [at_ de_cache]. rewrite decode_f_eq, C12_decode_empty_refuted. reflexivity.
Qed.
Print Assumptions C13_empty_text_refuted.

(** ** C14 *)

Lemma Forall2_len {A B} (R : A -> B -> Prop) l m : Forall2 R l m -> length l = length m.
Proof. induction 1; cbn; congruence. Qed.

(** C14: under every schedule, a call that has returned a value has returned what the C function gives for
    its own argument (the [k]-th result belongs to the [k]-th call), and at most one thread is inside each critical section. *)
Theorem C14_thread_safe : forall c work sched,
  Forall (Forall call_ok) work -> Forall (fun ch => slack (api_of c) (stk ch)) sched ->
  exists o ts, run c (start work) sched = Ret (o, ts) /\
    (forall i t ks, nth_error ts i = Some t -> nth_error work i = Some ks ->
       length (results t) <= length ks /\
       forall n r k, nth_error (results t) n = Some r -> nth_error ks n = Some k -> r = Threw \/ exists s, r = Value s /\ call_value c k s) /\
    (forall i j t u, nth_error ts i = Some t -> nth_error ts j = Some u -> encoding t -> encoding u -> i = j) /\
    (forall i j t u, nth_error ts i = Some t -> nth_error ts j = Some u -> decoding t -> decoding u -> i = j).
Proof.
  intros c work sched Hw Hs. destruct (run_inv c work Hw sched (start work) Hs (start_inv c work)) as ((o & ts) & E & [GB GL GT GE GD]). exists o, ts. cbn [fst snd] in *.
  split; [exact E|]. split.
  - intros i t ks Ht Hk. destruct (GT i t ks Ht Hk) as (_ & dn & F & HJ).
    assert (exists rest, ks = dn ++ rest) as (rest & ->). { destruct (place_job (at_ t)); [destruct HJ as (k & -> & _)|]; eauto. }
    pose proof (Forall2_len _ _ _ F) as L. split; [rewrite app_length; lia|]. intros n r k Hr Hc. rewrite nth_error_app1 in Hc by (rewrite L; apply nth_error_Some; congruence).
    clear - F Hr Hc. revert n Hr Hc. induction F as [|x y l l' Hxy F IH]; intros [|n] Hr Hc; try discriminate; cbn in *; [|eapply IH; eauto]. injection Hr as <-. injection Hc as <-. exact Hxy.
  - split; intros i j t u Ht Hu He Hf; [eapply (proj2 GE)|eapply (proj2 GD)]; eauto; unfold enc_b, dec_b; destruct He as (? & He), Hf as (? & Hf); rewrite ?He, ?Hf; reflexivity.
Qed.
Print Assumptions C14_thread_safe.

Lemma reach c work sched o ts : Forall (Forall call_ok) work -> Forall (fun ch => slack (api_of c) (stk ch)) sched -> run c (start work) sched = Ret (o, ts) -> ginv c work (o, ts).
Proof. intros Hw Hs E. destruct (run_inv c work Hw sched (start work) Hs (start_inv c work)) as (s & E' & G). congruence. Qed.
Lemma reach_nofail c work sched o ts : Forall (Forall call_ok) work -> Forall (fun ch => slack (api_of c) (stk ch)) sched -> Forall (fun ch => mem_ok ch = true) sched -> run c (start work) sched = Ret (o, ts) ->
  owned enc_b (enc_locked o) ts /\ owned dec_b (dec_locked o) ts /\ nofail ts.
Proof.
  intros Hw Hs Hm E. destruct (start_owned work) as (O1 & O2 & O3).
  exact (run_nofail c work Hw sched _ _ Hs Hm (start_inv c work) O1 O2 O3 E).
Qed.

Definition runnable (c : base_class) (o : object) (t : thread) : Prop :=
  forall st, slack (api_of c) st -> exists o' t', step_thread c true st o t = Next o' t'.
Lemma no_deadlock c work o ts : calls_ok work -> ginv c work (o, ts) -> owned enc_b (enc_locked o) ts -> owned dec_b (dec_locked o) ts ->
  finished ts \/ exists i t, nth_error ts i = Some t /\ runnable c o t.
Proof.
  intros Hw [GB GL GT GE GD] O1 O2. unfold calls_ok in Hw. cbn [fst snd] in *.
  assert (Why : forall i t, nth_error ts i = Some t ->
    runnable c o t \/ ((todo t = [] /\ at_ t = Outside) \/ (exists d sz, at_ t = AtLock (JEnc d) sz /\ enc_locked o = true) \/ (exists x sz, at_ t = AtLock (JDec x) sz /\ dec_locked o = true))).
  { intros i t Ht. destruct (nth_error work i) as [ks|] eqn:Hk; [|apply nth_error_None in Hk; assert (i < length ts) by (apply nth_error_Some; congruence); lia].
    assert (Hks : Forall call_ok ks). { rewrite Forall_forall in Hw. apply Hw. eapply nth_error_In; eauto. } pose proof (GT _ _ _ Ht Hk) as T.
    destruct (step_thread c true roomy o t) as [|o' t'|w] eqn:S.
    - right. eapply (blocked_why c (mkChoice 0 true roomy)); eauto. apply roomy_ok.
    - left. intros st Hst. pose proof (step_thread_good c true st ks o t Hks Hst GB T) as S2. destruct (step_thread c true st o t) as [|o2 t2|w] eqn:S3; [|eauto|destruct S2].
      exfalso. destruct (blocked_why c (mkChoice 0 true st) ks o t Hks Hst GB T S3) as [[E1 E2]|[(d & sz & E1 & E2)|(d & sz & E1 & E2)]]; unfold step_thread in S; rewrite ?E1, ?E2 in S; rewrite ?E1 in S; discriminate.
    - exfalso. pose proof (step_thread_good c true roomy ks o t Hks (roomy_ok _) GB T) as S2. rewrite S in S2. exact S2. }
  assert (Hold : forall i t, nth_error ts i = Some t -> enc_b t = true \/ dec_b t = true -> runnable c o t).
  { intros i t Ht Hb. destruct (Why i t Ht) as [R|[[_ A]|[(d & sz & A & _)|(x & sz & A & _)]]]; [exact R| | |]; exfalso; unfold enc_b, dec_b in Hb; rewrite A in Hb; cbn in Hb; destruct Hb; discriminate. }
  destruct (enc_locked o) eqn:Le; [destruct (O1 eq_refl) as (i & t & Ht & Hb); right; exists i, t; split; [exact Ht|]; apply (Hold i t Ht); auto|]. destruct (dec_locked o) eqn:Ld; [destruct (O2 eq_refl) as (i & t & Ht & Hb); right; exists i, t; split; [exact Ht|]; apply (Hold i t Ht); auto|].
  destruct (Forall_Exists_dec (fun t => todo t = [] /\ at_ t = Outside)) with (l := ts) as [F|F].
  - intros t. destruct (todo t); [|right; intros [? ?]; discriminate]. destruct (at_ t); auto; right; intros [? ?]; discriminate.
  - left. exact F.
  - right. apply Exists_exists in F as (t & Ht & Hn). apply In_nth_error in Ht as (i & Ht). exists i, t. split; [exact Ht|].
    destruct (Why i t Ht) as [R|[H|[(d & sz & _ & H)|(x & sz & _ & H)]]]; [exact R|contradiction|discriminate|discriminate].
Qed.
(** C14: while no allocation fails, the threads never deadlock: unless all calls are finished some
    thread can take a step, and every step takes the object closer to the end, so that a schedule which runs
    only runnable threads has at most 7 steps per call. *)
Theorem C14_no_deadlock : forall c work sched o ts,
  Forall (Forall call_ok) work -> Forall (fun ch => slack (api_of c) (stk ch)) sched -> Forall (fun ch => mem_ok ch = true) sched ->
  run c (start work) sched = Ret (o, ts) ->
  finished ts \/ exists i t, nth_error ts i = Some t /\ runnable c o t.
Proof.
  intros c work sched o ts Hw Hs Hm E. destruct (reach_nofail _ _ _ _ _ Hw Hs Hm E) as (O1 & O2 & _). apply (no_deadlock c work); auto. eapply reach; eauto.
Qed.
Print Assumptions C14_no_deadlock.

Definition work_left (ts : list thread) : nat := list_sum (map togo ts).
Lemma work_put ts i t t' : nth_error ts i = Some t -> togo t' < togo t -> work_left (put ts i t') < work_left ts.
Proof.
  unfold work_left, put. revert i. induction ts as [|u ts IH]; intros [|i] Ht Hlt; try discriminate; cbn in Ht.
  - injection Ht as <-. unfold list_sum. cbn [map fold_right firstn skipn app]. lia.
  - specialize (IH i Ht Hlt). cbn [map list_sum fold_right firstn skipn app] in *. unfold list_sum in *. cbn [fold_right]. destruct ts; [destruct i; discriminate|]. cbn [skipn] in *. lia.
Qed.
(** C14: a step is either blocked and changes nothing, or brings the end closer; at the start there are 7 steps per call to make. *)
Theorem C14_bounded_work :
  (forall work, work_left (snd (start work)) = 7 * list_sum (map (@length call) work)) /\
  (forall c s ch s', step c s ch = Ret s' -> s' = s \/ work_left (snd s') < work_left (snd s)).
Proof.
  split.
  - intros work. cbn [start snd]. unfold work_left, list_sum. induction work as [|ks work IH]; [reflexivity|]. cbn [map fold_right]. rewrite IH. unfold togo. cbn [todo at_]. lia.
  - intros c [o ts] ch s' E. unfold step in E. destruct (nth_error ts (who ch)) as [t|] eqn:Ht; [|injection E as <-; auto].
    destruct (step_thread c (mem_ok ch) (stk ch) o t) as [|o' t'|w] eqn:S; [injection E as <-; auto| |discriminate]. injection E as <-. right. apply (work_put ts (who ch) t t'); [exact Ht|]. eapply togo_step; eauto.
Qed.
Print Assumptions C14_bounded_work.

Lemma all_results c work o ts : ginv c work (o, ts) -> nofail ts -> finished ts ->
  length ts = length work /\
  forall i t ks, nth_error ts i = Some t -> nth_error work i = Some ks -> exists vs, results t = map Value vs /\ Forall2 (call_value c) ks vs.
Proof.
  intros [GB GL GT GE GD] Nf Hf. cbn [fst snd] in *.
  split; [exact GL|]. intros i t ks Ht Hk. destruct (GT i t ks Ht Hk) as (_ & dn & F & HJ). unfold finished in Hf. rewrite Forall_forall in Hf.
  destruct (Hf t (nth_error_In _ _ Ht)) as [E1 E2]. rewrite E2, E1 in HJ. cbn in HJ. rewrite app_nil_r in HJ. subst dn. specialize (Nf i t Ht).
  clear - F Nf. induction F as [|k r ks rs Hr F IH]; [exists []; auto|]. destruct IH as (vs & -> & F2); [intros H; apply Nf; right; exact H|].
  destruct Hr as [->|(v & -> & Hv)]; [exfalso; apply Nf; left; reflexivity|]. exists (v :: vs). auto.
Qed.
(** C14: while no allocation fails, once all calls are finished every thread has received exactly the values of its calls, in order. *)
Theorem C14_all_results : forall c work sched o ts,
  Forall (Forall call_ok) work -> Forall (fun ch => slack (api_of c) (stk ch)) sched -> Forall (fun ch => mem_ok ch = true) sched ->
  run c (start work) sched = Ret (o, ts) -> finished ts ->
  length ts = length work /\
  forall i t ks, nth_error ts i = Some t -> nth_error work i = Some ks -> exists vs, results t = map Value vs /\ Forall2 (call_value c) ks vs.
Proof.
  intros c work sched o ts Hw Hs Hm E Hf. destruct (reach_nofail _ _ _ _ _ Hw Hs Hm E) as (_ & _ & Nf). apply (all_results c work o ts); auto. eapply reach; eauto.
Qed.
Print Assumptions C14_all_results.

(** ** C15 *)

(** C15: without failed allocations a mutex is held exactly while some thread is inside the section it protects; in
    particular it is free whenever no call is in progress. *)
Theorem C15_released_without_exceptions : forall c work sched o ts sd,
  Forall (Forall call_ok) work -> Forall (fun ch => slack (api_of c) (stk ch)) sched -> Forall (fun ch => mem_ok ch = true) sched ->
  run c (start work) sched = Ret (o, ts) ->
  (locked sd o = true <-> exists i t, nth_error ts i = Some t /\ inside sd t).
Proof.
  intros c work sched o ts sd Hw Hs Hm E. pose proof (reach _ _ _ _ _ Hw Hs E) as G. destruct (reach_nofail _ _ _ _ _ Hw Hs Hm E) as (O1 & O2 & _). destruct G as [GB GL GT GE GD]. cbn [fst snd] in *.
  destruct sd; cbn [locked inside]; split.
  - intros H. destruct (O1 H) as (i & t & Ht & Hb). exists i, t. split; [exact Ht|]. unfold enc_b in Hb. unfold encoding. destruct (job_at (at_ t)) as [[d|x]|]; try discriminate. eauto.
  - intros (i & t & Ht & (d & Hd)). apply (proj1 GE i t Ht). unfold enc_b. rewrite Hd. reflexivity.
  - intros H. destruct (O2 H) as (i & t & Ht & Hb). exists i, t. split; [exact Ht|]. unfold dec_b in Hb. unfold decoding. destruct (job_at (at_ t)) as [[d|x]|]; try discriminate. eauto.
  - intros (i & t & Ht & (d & Hd)). apply (proj1 GD i t Ht). unfold dec_b. rewrite Hd. reflexivity.
Qed.
Print Assumptions C15_released_without_exceptions.

Lemma step_results c m st o t o' t' : step_thread c m st o t = Next o' t' ->
  results t' = results t \/ exists r j, results t' = results t ++ [r] /\ job_at (at_ t) = Some j /\ (r = Threw -> o' = o /\ at_ t' = Outside).
Proof.
  unfold step_thread. destruct (at_ t) as [|j sz|j sz|j|j n|j n|j s] eqn:Ea; intros E.
  - destruct (todo t) as [|k ks]; [discriminate|]. destruct (job_of k) as [j| |]; try discriminate. cbn [lift] in E. destruct (match j with JEnc d => _ | JDec s => _ end); [|discriminate]. injection E as <- <-. auto.
  - destruct j; [destruct (enc_locked o)|destruct (dec_locked o)]; try discriminate; injection E as <- <-; auto.
  - destruct j; [destruct (encsz o <=? sz)%Z|destruct (decsz o <=? sz)%Z]; try destruct m; try discriminate; injection E as <- <-; auto; right; do 2 eexists; repeat split.
  - destruct j; [destruct (encode_f _ _ _ _) as [[n e]| |]|destruct (decode_f _ _ _) as [[n e]| |]]; try discriminate; injection E as <- <-; auto.
  - destruct j; [destruct (wr (en_cache o) n 0%N)|destruct (wr (de_cache o) n 0%N)]; try discriminate; injection E as <- <-; auto.
  - destruct j; destruct m; [destruct (c_string (en_cache o))| |destruct (Nat.leb _ _)|]; try discriminate; injection E as <- <-; auto; right; do 2 eexists; repeat split.
  - destruct j; injection E as <- <-; right; do 2 eexists; repeat split; discriminate.
Qed.
Lemma app_one_neq {A} (l : list A) x : l <> l ++ [x].
Proof. intros H. apply (f_equal (@length A)) in H. rewrite app_length in H. cbn in H. lia. Qed.

(** C15, violation: a call that ends with an exception (an allocation inside it failed) leaves the mutex it had taken locked, with no
    thread left to unlock it. *)
Theorem C15_exception_leaks_lock : forall c work sched o ts ch o' ts' t t',
  Forall (Forall call_ok) work -> Forall (fun ch => slack (api_of c) (stk ch)) (sched ++ [ch]) ->
  run c (start work) sched = Ret (o, ts) -> step c (o, ts) ch = Ret (o', ts') ->
  nth_error ts (who ch) = Some t -> nth_error ts' (who ch) = Some t' -> results t' = results t ++ [Threw] ->
  exists sd, inside sd t /\ leaked sd (o', ts').
Proof.
  intros c work sched o ts ch o' ts' t t' Hw Hs E S Ht Ht' Hr. apply Forall_app in Hs as [Hs Hc]. inversion Hc as [|? ? Hc1 _]; subst.
  pose proof (reach _ _ _ _ _ Hw Hs E) as G. destruct G as [GB GL GT GE GD]. cbn [fst snd] in *.
  unfold step in S. rewrite Ht in S. destruct (step_thread c (mem_ok ch) (stk ch) o t) as [|o2 t2|w] eqn:S2; [| |discriminate].
  - injection S as <- <-. rewrite Ht in Ht'. injection Ht' as <-. exfalso. eapply app_one_neq; eauto.
  - assert (o' = o2 /\ ts' = put ts (who ch) t2) as [-> ->] by (unfold put; split; congruence). clear S. assert (Li : who ch < length ts) by (apply nth_error_Some; congruence). rewrite nth_put, Nat.eqb_refl in Ht' by exact Li. injection Ht' as ->.
    destruct (step_results _ _ _ _ _ _ _ S2) as [R|(r & j & R & J & Th)]; [exfalso; rewrite R in Hr; eapply app_one_neq; eauto|].
    rewrite R in Hr. apply app_inv_head in Hr. injection Hr as ->. destruct (Th eq_refl) as [-> Out].
    exists (match j with JEnc _ => Enc | JDec _ => Dec end). destruct j as [d|x]; cbn [inside leaked locked fst snd]; (split; [exists d + exists x; exact J|]).
    + assert (B : enc_b t = true) by (unfold enc_b; rewrite J; reflexivity). split; [cbn [locked fst]; eapply (proj1 GE); eauto|]. cbn [snd inside]. intros i u Hu (d2 & Hd). rewrite nth_put in Hu by exact Li.
      destruct (Nat.eqb_spec i (who ch)) as [->|N]; [injection Hu as <-; rewrite Out in Hd; discriminate|]. apply N. eapply (proj2 GE); eauto. unfold enc_b. rewrite Hd. reflexivity.
    + assert (B : dec_b t = true) by (unfold dec_b; rewrite J; reflexivity). split; [cbn [locked fst]; eapply (proj1 GD); eauto|]. cbn [snd inside]. intros i u Hu (d2 & Hd). rewrite nth_put in Hu by exact Li.
      destruct (Nat.eqb_spec i (who ch)) as [->|N]; [injection Hu as <-; rewrite Out in Hd; discriminate|]. apply N. eapply (proj2 GD); eauto. unfold dec_b. rewrite Hd. reflexivity.
Qed.
Print Assumptions C15_exception_leaks_lock.

Definition inside_b (sd : side) : thread -> bool := match sd with Enc => enc_b | Dec => dec_b end.
Lemma inside_b_ok sd t : inside_b sd t = true <-> inside sd t.
Proof.
  destruct sd; cbn [inside inside_b]; unfold enc_b, dec_b, encoding, decoding; (split; [destruct (job_at (at_ t)) as [[d|x]|]; try discriminate; eauto|intros (d & ->); reflexivity]).
Qed.
Lemma job_side k j : job_of k = Ret j -> forall sd, uses sd k -> match sd, j with Enc, JEnc _ | Dec, JDec _ => True | _, _ => False end.
Proof.
  destruct k; cbn [job_of]; intros E sd U; try (destruct (c_string _); try discriminate; cbn [bind] in E); injection E as <-; destruct sd; cbn in U; try contradiction; exact Logic.I.
Qed.
Lemma leaked_step c work s ch s' sd : calls_ok work -> choice_ok c ch -> ginv c work s -> leaked sd s -> step c s ch = Ret s' ->
  ginv c work s' /\ leaked sd s' /\
  forall i t t' ks k n, nth_error (snd s) i = Some t -> nth_error (snd s') i = Some t' -> nth_error work i = Some ks -> nth_error ks n = Some k -> uses sd k -> length (results t) <= n -> length (results t') <= n.
Proof.
  intros Hc Hch G L E. destruct (step_inv c work s ch Hc Hch G) as [E1|(t & o' & t' & Ht & St & E1 & Le & Ld & Th & G')]; rewrite E1 in E; injection E as <-.
  - split; [exact G|]. split; [exact L|]. intros i u u' ks k n Hu Hu' _ _ _. rewrite Hu in Hu'. injection Hu' as <-. auto.
  - split; [exact G'|]. destruct L as [L1 L2]. assert (Li : who ch < length (snd s)) by (apply nth_error_Some; congruence).
    assert (Nt : inside_b sd t = false). { destruct (inside_b sd t) eqn:B; [|reflexivity]. exfalso. apply (L2 _ _ Ht). apply inside_b_ok. exact B. }
    assert (M : lock_move (mem_ok ch) (inside_b sd t) (inside_b sd t') (locked sd (fst s)) (locked sd o')) by (destruct sd; assumption).
    rewrite Nt, L1 in M. split.
    + destruct (inside_b sd t') eqn:B; [destruct M; discriminate|]. split; [exact M|]. cbn [snd]. intros i u Hu Hin. rewrite nth_put in Hu by exact Li. destruct (Nat.eqb i (who ch)); [injection Hu as <-|exact (L2 _ _ Hu Hin)].
      apply inside_b_ok in Hin. congruence.
    + intros i u u' ks k n Hu Hu' Hk Hn U Hlen. cbn [snd] in Hu'. rewrite nth_put in Hu' by exact Li. destruct (Nat.eqb_spec i (who ch)) as [->|]; [|rewrite Hu in Hu'; injection Hu' as <-; exact Hlen].
      injection Hu' as <-. rewrite Ht in Hu. injection Hu as <-. destruct (step_results _ _ _ _ _ _ _ St) as [->|(r & j & -> & J & _)]; [exact Hlen|]. rewrite app_length. cbn [length].
      apply Nat.le_lteq in Hlen as [Hlen|<-]; [lia|]. exfalso. destruct (gi_thr _ _ _ G _ _ _ Ht Hk) as (_ & dn & F & HJ). assert (PJ : place_job (at_ t) = Some j) by (destruct (at_ t); try discriminate; exact J).
      rewrite PJ in HJ. destruct HJ as (k' & Ek & Ej & _). apply Forall2_len in F. rewrite Ek, nth_error_app2, F, Nat.sub_diag in Hn by lia. cbn in Hn. injection Hn as <-.
      pose proof (job_side _ _ Ej _ U) as Sd. apply (L2 _ _ Ht). destruct sd, j; try contradiction; [exists data|exists text]; exact J.
Qed.

(** C15, violation: from then on, whatever happens, the mutex stays locked, and no call that needs it and had not returned yet ever returns. *)
Theorem C15_leaked_lock_blocks_forever : forall c work sched sched' s s' sd,
  Forall (Forall call_ok) work -> Forall (fun ch => slack (api_of c) (stk ch)) (sched ++ sched') ->
  run c (start work) sched = Ret s -> leaked sd s -> run c s sched' = Ret s' ->
  leaked sd s' /\
  forall i t t' ks k n, nth_error (snd s) i = Some t -> nth_error (snd s') i = Some t' -> nth_error work i = Some ks ->
    nth_error ks n = Some k -> uses sd k -> nth_error (results t) n = None -> nth_error (results t') n = None.
Proof.
  intros c work sched sched' s s' sd Hw Hs E L E'. apply Forall_app in Hs as [Hs Hs']. destruct s as [o ts]. pose proof (reach _ _ _ _ _ Hw Hs E) as G. clear E Hs. revert G L E'. generalize (o, ts) as s. clear o ts.
  induction sched' as [|ch r IH]; intros s G L E'.
  - injection E' as <-. split; [exact L|]. intros i t t' ks k n Ht Ht'. rewrite Ht in Ht'. injection Ht' as <-. auto.
  - inversion Hs'; subst. cbn [run] in E'. destruct (step c s ch) as [s1| |] eqn:S; try discriminate. cbn [bind] in E'.
    destruct (leaked_step c work s ch s1 sd Hw H1 G L S) as (G1 & L1 & P1). destruct (IH H2 s1 G1 L1 E') as (L' & P'). split; [exact L'|].
    intros i t t' ks k n Ht Ht' Hk Hn U Hr. assert (exists t1, nth_error (snd s1) i = Some t1) as (t1 & Ht1).
    { destruct (nth_error (snd s1) i) eqn:X; [eauto|]. apply nth_error_None in X. assert (i < length (snd s)) by (apply nth_error_Some; congruence). rewrite (gi_len _ _ _ G1) in X. rewrite (gi_len _ _ _ G) in *. lia. }
    eapply P'; eauto. apply nth_error_None. eapply P1; eauto. apply nth_error_None. exact Hr.
Qed.
Print Assumptions C15_leaked_lock_blocks_forever.

(** ** C16 *)

Lemma run_app c s a b : run c s (a ++ b) = bind (run c s a) (fun s => run c s b).
Proof. revert s. induction a as [|ch a IH]; intros s; [reflexivity|]. cbn [app run]. destruct (step c s ch); cbn [bind]; auto. Qed.

(** one thread, on any object that no thread is using *)
Definition settled (o : object) : Prop := bufs o /\ enc_locked o = false /\ dec_locked o = false.
Lemma single_run c ks sched o0 : settled o0 -> Forall call_ok ks -> Forall (fun ch => who ch = 0 /\ mem_ok ch = true /\ slack (api_of c) (stk ch)) sched -> 7 * length ks <= length sched ->
  exists o vs, run c (o0, [mkThread ks Outside []]) sched = Ret (o, [mkThread [] Outside (map Value vs)]) /\ Forall2 (call_value c) ks vs /\ settled o.
Proof.
  intros (S1 & S2 & S3) Hk Hs Hl. assert (Hw : Forall (Forall call_ok) [ks]) by (constructor; [exact Hk|constructor]). set (s0 := (o0, [mkThread ks Outside []])).
  assert (G0 : ginv c [ks] s0).
  { split; cbn [s0 fst snd]; auto.
    - intros [|i] t k Ht Hks; [|destruct i; discriminate]. injection Ht as <-. injection Hks as <-. split; [exact Logic.I|]. exists []. split; [constructor|reflexivity].
    - split; [intros [|i] t Ht|intros [|i] j t u Ht]; try (destruct i; discriminate); injection Ht as <-; discriminate.
    - split; [intros [|i] t Ht|intros [|i] j t u Ht]; try (destruct i; discriminate); injection Ht as <-; discriminate. }
  assert (P : exists o t, run c s0 sched = Ret (o, [t]) /\ (togo t = 0 \/ togo t + length sched <= 7 * length ks) /\ ginv c [ks] (o, [t]) /\ owned enc_b (enc_locked o) [t] /\ owned dec_b (dec_locked o) [t] /\ nofail [t]).
  { clear Hl. induction sched as [|ch sched IH] using rev_ind.
    - exists o0, (mkThread ks Outside []). split; [reflexivity|]. split; [right; unfold togo; cbn [todo at_ length]; lia|]. split; [exact G0|]. split; [intros H; congruence|]. split; [intros H; congruence|].
      intros [|i] t Ht; [|destruct i; discriminate]. injection Ht as <-. auto.
    - apply Forall_app in Hs as [Hs Hc]. inversion Hc as [|? ? (C1 & C2 & C3) _]; subst. destruct (IH Hs) as (o & t & E & D & G & O1 & O2 & Nf). rewrite run_app, E. cbn [bind run].
      destruct (no_deadlock c [ks] o [t] Hw G O1 O2) as [F|(i & u & Hu & R)].
      + inversion F as [|? ? [F1 F2] _]; subst. exists o, t. unfold step. rewrite C1. cbn [nth_error]. unfold step_thread. rewrite F2, F1. cbn [bind]. split; [reflexivity|]. split; [|auto]. left. unfold togo. rewrite F1, F2. reflexivity.
      + destruct i as [|i]; [|destruct i; discriminate]. injection Hu as <-. destruct (R (stk ch) C3) as (o' & t' & S). exists o', t'. 
        assert (St : step c (o, [t]) ch = Ret (o', [t'])) by (apply step_single; [exact C1|rewrite C2; exact S]). rewrite St. split; [reflexivity|].
        split. { apply togo_step in S. rewrite app_length. cbn [length]. right. destruct D; lia. }
        assert (C : Forall (choice_ok c) [ch]) by (constructor; [exact C3|constructor]). destruct (run_inv c [ks] Hw [ch] _ C G) as (s' & E' & G'). cbn [run] in E'. rewrite St in E'. cbn [bind] in E'. injection E' as <-. split; [exact G'|].
        apply (run_nofail c [ks] Hw [ch] (o, [t]) (o', [t']) C); auto. cbn [run]. rewrite St. reflexivity. }
  destruct P as (o & t & E & D & G & O1 & O2 & Nf).
  assert (T0 : togo t = 0) by (destruct D; lia). assert (F1 : todo t = [] /\ at_ t = Outside). { unfold togo in T0. destruct (todo t); [|cbn in T0; lia]. destruct (at_ t); cbn in T0; try lia. auto. }
  destruct (all_results c [ks] o [t] G Nf) as (_ & V); [constructor; [exact F1|constructor]|]. destruct (V 0 t ks eq_refl eq_refl) as (vs & R & F2). exists o, vs. split; [|split; [exact F2|]].
  - fold s0. rewrite E. destruct F1 as [F1 F3]. destruct t as [td pl rs]; cbn [todo at_ results] in *. subst. reflexivity.
  - split; [apply G|]. destruct F1 as [F1 F3]. split.
    + destruct (enc_locked o); [|reflexivity]. destruct (O1 eq_refl) as (i & u & Hu & Hb). destruct i as [|i]; [|destruct i; discriminate]. injection Hu as <-. unfold enc_b in Hb. rewrite F3 in Hb. discriminate.
    + destruct (dec_locked o); [|reflexivity]. destruct (O2 eq_refl) as (i & u & Hu & Hb). destruct i as [|i]; [|destruct i; discriminate]. injection Hu as <-. unfold dec_b in Hb. rewrite F3 in Hb. discriminate.
Qed.
Lemma new_settled : settled new_object.
Proof. split; [|auto]. unfold bufs. cbn. repeat split; lia. Qed.

(** C16: on one thread, without failed allocations, a history of calls runs to its end (7 steps a call are enough) and every call returns the value
    of the corresponding C function on its own argument. *)
Theorem C16_history_results : forall c ks sched,
  Forall call_ok ks -> Forall (fun ch => who ch = 0 /\ mem_ok ch = true /\ slack (api_of c) (stk ch)) sched -> 7 * length ks <= length sched ->
  exists o vs, run c (start [ks]) sched = Ret (o, [mkThread [] Outside (map Value vs)]) /\ Forall2 (call_value c) ks vs.
Proof.
  intros c ks sched Hk Hs Hl. destruct (single_run c ks sched new_object new_settled Hk Hs Hl) as (o & vs & E & F & _). exists o, vs. auto.
Qed.
Print Assumptions C16_history_results.

(** C16: a call has only one correct value; so what it returns does not depend on what was encoded or decoded before. *)
Theorem C16_value_unique : forall c k v w, call_value c k v -> call_value c k w -> v = w.
Proof. intros c [] v w; cbn [call_value]; apply c_encodes_inj || apply c_decodes_inj. Qed.
Theorem C16_history_independent : forall c before1 before2 k sched1 sched2 o1 o2 r1 r2,
  let good ks sched := Forall call_ok ks /\ Forall (fun ch => who ch = 0 /\ mem_ok ch = true /\ slack (api_of c) (stk ch)) sched /\ 7 * length ks <= length sched in
  good (before1 ++ [k]) sched1 -> good (before2 ++ [k]) sched2 ->
  run c (start [before1 ++ [k]]) sched1 = Ret (o1, [r1]) -> run c (start [before2 ++ [k]]) sched2 = Ret (o2, [r2]) ->
  nth_error (results r1) (length before1) = nth_error (results r2) (length before2) /\ nth_error (results r1) (length before1) <> None.
Proof.
  intros c b1 b2 k s1 s2 o1 o2 r1 r2 good (K1 & S1 & L1) (K2 & S2 & L2) E1 E2.
  destruct (C16_history_results c _ s1 K1 S1 L1) as (o1' & v1 & E1' & F1). destruct (C16_history_results c _ s2 K2 S2 L2) as (o2' & v2 & E2' & F2).
  rewrite E1' in E1. rewrite E2' in E2. assert (RI : forall A (x y : A), Ret x = Ret y -> x = y) by (intros A x y E; injection E; auto). apply RI in E1. apply RI in E2. assert (X1 : results r1 = map Value v1) by (apply (f_equal snd) in E1; cbn [snd] in E1; injection E1 as <-; reflexivity). assert (X2 : results r2 = map Value v2) by (apply (f_equal snd) in E2; cbn [snd] in E2; injection E2 as <-; reflexivity).
  apply Forall2_app_inv_l in F1 as (p1 & q1 & P1 & Q1 & ->). apply Forall2_app_inv_l in F2 as (p2 & q2 & P2 & Q2 & ->).
  inversion Q1 as [|? v ? ? V1 T1]; subst. inversion T1; subst. inversion Q2 as [|? v' ? ? V2 T2]; subst. inversion T2; subst.
  rewrite X1, X2, !map_app, (Forall2_len _ _ _ P1), (Forall2_len _ _ _ P2), !nth_error_app2, !map_length, !Nat.sub_diag by (rewrite map_length; lia).
  cbn [map nth_error]. rewrite (C16_value_unique c k v v' V1 V2). split; [reflexivity|discriminate].
Qed.
Print Assumptions C16_history_independent.

(** C16: decoding a std::string sees only what precedes its first NUL, encoding a std::string uses all of it. *)
Theorem C16_decode_cut_at_nul : forall c s rest v, ~ In 0%N s ->
  (call_value c (DecodeStr (s ++ 0%N :: rest)) v <-> c_decodes (api_of c) s v) /\
  (call_value c (EncodeStr (s ++ 0%N :: rest)) v <-> c_encodes (api_of c) (s ++ 0%N :: rest) v).
Proof.
  intros c s rest v H. cbn [call_value]. rewrite upto_nul_app; [tauto|]. apply Forall_forall. intros x Hx ->. contradiction.
Qed.
Print Assumptions C16_decode_cut_at_nul.
(** C16: the values are those of C06/C09: an encoder's text is the RFC 4648 one of C06. *)
Theorem C16_encode_text : forall c d, bytes_ok d -> call_value c (Encode d) (lib_text (coding (api_of c)) d).
Proof. intros c d H. apply c_encodes_lib. exact H. Qed.
Print Assumptions C16_encode_text.

(** ** concrete cases *)
Definition ok_at (i : nat) : choice := mkChoice i true roomy.
Definition fail_at (i : nat) : choice := mkChoice i false roomy.
(** two threads, encoding and decoding at the same time *)
Definition two_threads : list (list call) := [[Encode (chars "foo"); DecodeCstr (chars "Zm8=" ++ [0%N])]; [EncodeStr (chars "f"); DecodeStr (chars "Zm9vYg==")]].
Example C14_nonvacuous : Forall (Forall call_ok) two_threads /\
  exists o, run (CBase64 false) (start two_threads) (flat_map (fun _ => [ok_at 0; ok_at 1]) (seq 0 28)) = Ret (o,
    [mkThread [] Outside [Value (chars "Zm9v"); Value (chars "fo")]; mkThread [] Outside [Value (chars "Zg=="); Value (chars "foob")]]).
Proof.
  split; [|eexists; vm_compute; reflexivity]. unfold two_threads.
  repeat (apply Forall_cons || apply Forall_nil); cbn [call_ok]; repeat split; try (vm_compute; congruence); try (repeat (apply Forall_cons || apply Forall_nil); reflexivity).
  apply in_or_app. right. left. reflexivity.
Qed.
(** thread 0 encodes 200 bytes; the reallocation fails; thread 1 then waits forever *)
Definition big_then_small : list (list call) := [[Encode (repeat 65%N 200)]; [Encode [65%N]]].
Example C15_nonvacuous : Forall (Forall call_ok) big_then_small /\
  exists o ts, run (CBase64 false) (start big_then_small) [ok_at 0; ok_at 0; fail_at 0] = Ret (o, ts) /\
    map results ts = [[Threw]; []] /\ leaked Enc (o, ts) /\ uses Enc (Encode [65%N]).
Proof.
  split.
  - repeat (apply Forall_cons || apply Forall_nil); cbn [call_ok]; split; try (vm_compute; congruence); try (apply Forall_forall; intros x Hx; apply repeat_spec in Hx; subst; reflexivity); repeat (apply Forall_cons || apply Forall_nil); reflexivity.
  - do 2 eexists. split; [vm_compute; reflexivity|]. split; [reflexivity|]. split; [|exact Logic.I]. split; [reflexivity|]. cbn [snd]. intros [|[|i]] t Ht; try (injection Ht as <-); try (destruct i; discriminate); intros (d & Hd); discriminate.
Qed.
