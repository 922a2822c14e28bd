(** C87: MD5 and Keccak contexts and threads. *)
From Coq Require Import String.
From Verif Require PropMd5 SMd5 PropKeccak SFips202.
From Verif Require Import Base SHex MSha MFront MMd5 MKeccak SHash SKeccakFns MNull MHashThreads2.
Local Open Scope N_scope.

(** ** lists *)
Lemma putg_same {A} (l : list A) i x y : nth_error l i = Some y -> nth_error (putg i x l) i = Some x.
Proof.
  intros H. assert (L : (i < length l)%nat) by (apply nth_error_Some; congruence). unfold putg.
  rewrite nth_error_app2 by (rewrite firstn_length; lia). rewrite firstn_length, Nat.min_l, Nat.sub_diag by lia. reflexivity.
Qed.
Lemma putg_other {A} (l : list A) i x y j : nth_error l i = Some y -> j <> i -> nth_error (putg i x l) j = nth_error l j.
Proof.
  intros H N. assert (L : (i < length l)%nat) by (apply nth_error_Some; congruence). unfold putg.
  destruct (Nat.lt_ge_cases j i) as [Hj|Hj].
  - rewrite nth_error_app1 by (rewrite firstn_length; lia). rewrite <- (firstn_skipn i l) at 2. rewrite nth_error_app1 by (rewrite firstn_length; lia). reflexivity.
  - rewrite nth_error_app2 by (rewrite firstn_length; lia). rewrite firstn_length, Nat.min_l by lia.
    destruct (j - i)%nat as [|k] eqn:E; [lia|]. cbn [nth_error]. rewrite <- (firstn_skipn (S i) l) at 2. rewrite nth_error_app2 by (rewrite firstn_length; lia).
    rewrite firstn_length, Nat.min_l by lia. f_equal. lia.
Qed.

(** ** the calls of one thread in order, and a call run step by step *)
Fixpoint in_order {C} (upd : C -> list N -> outcome C) (c : C) (ps : list (list N)) : outcome C :=
  match ps with [] => Ret c | p :: ps => c <- upd c p ;; in_order upd c ps end.
Fixpoint steps (U : updater) (n : nat) (c : u_ctx U) (p : u_place U) : outcome (u_ctx U) :=
  match n with
  | O => Hang
  | S n => '(c, o) <- u_step U c p ;; match o with None => Ret c | Some p => steps U n c p end
  end.
(** the statements of U do what the function upd does *)
Definition does (U : updater) (upd : u_ctx U -> list N -> outcome (u_ctx U)) : Prop :=
  forall c p d, upd c p = Ret d -> exists n, steps U n c (u_begin U p) = Ret d.

Section Machine.
Variables (U : updater) (upd : u_ctx U -> list N -> outcome (u_ctx U)).
Hypothesis D : does U upd.
(** the thread, left alone, will leave its object as d *)
Definition will (c : u_ctx U) (t : gthread U) (d : u_ctx U) : Prop :=
  match gt_at t with
  | None => in_order upd c (gt_todo t) = Ret d
  | Some p => exists n c1, steps U n c p = Ret c1 /\ in_order upd c1 (gt_todo t) = Ret d
  end.
Lemma will_step c t d : will c t d -> exists c1 t1, gt_step U c t = Ret (c1, t1) /\ gt_obj t1 = gt_obj t /\ will c1 t1 d.
Proof.
  unfold will, gt_step. destruct t as [o todo [p|]]; cbn [gt_at gt_todo gt_obj].
  - intros (n & c1 & E & R). destruct n as [|n]; [discriminate|]. cbn [steps] in E. destruct (u_step U c p) as [[c2 q]| |]; cbn [bind] in *; try discriminate.
    eexists; eexists; split; [reflexivity|]. split; [reflexivity|]. cbn [gt_at gt_todo]. destruct q as [q|]; [exists n, c1; auto|]. assert (c2 = c1) as -> by congruence. exact R.
  - destruct todo as [|p r]; intros E.
    + eexists; eexists; split; [reflexivity|]. split; [reflexivity|]. exact E.
    + cbn [in_order] in E. destruct (upd c p) as [c1| |] eqn:Eu; cbn [bind] in E; try discriminate. destruct (D _ _ _ Eu) as (n & En).
      eexists; eexists; split; [reflexivity|]. split; [reflexivity|]. cbn [gt_at gt_todo]. exists n, c1. auto.
Qed.
Lemma step_obj c t c1 t1 : gt_step U c t = Ret (c1, t1) -> gt_obj t1 = gt_obj t.
Proof.
  unfold gt_step. destruct (gt_at t) as [p|].
  - destruct (u_step U c p) as [[c2 q]| |]; cbn [bind]; intros E; try discriminate. assert (t1 = mkGT (gt_obj t) (gt_todo t) q) as -> by congruence. reflexivity.
  - destruct (gt_todo t) as [|p r]; intros E; [assert (t1 = t) as -> by congruence; reflexivity|]. assert (t1 = mkGT (gt_obj t) r (Some (u_begin U p))) as -> by congruence. reflexivity.
Qed.
Definition sole_user (ts : list (gthread U)) (k : nat) (o : nat) : Prop := forall j t, nth_error ts j = Some t -> gt_obj t = o -> j = k.
Lemma next_cases cs ts who st : gt_next U (cs, ts) who = Ret st ->
  st = (cs, ts) \/ exists t c c1 t1, nth_error ts who = Some t /\ nth_error cs (gt_obj t) = Some c /\ gt_step U c t = Ret (c1, t1) /\ st = (putg (gt_obj t) c1 cs, putg who t1 ts).
Proof.
  unfold gt_next. destruct (nth_error ts who) as [t|] eqn:Et; [|left; congruence]. destruct (nth_error cs (gt_obj t)) as [c|] eqn:Ec; [|left; congruence].
  destruct (gt_step U c t) as [[c1 t1]| |] eqn:Es; cbn [bind]; intros E; try discriminate. right. exists t, c, c1, t1. repeat split; auto; congruence.
Qed.
Lemma sole_after ts who t t1 k o : nth_error ts who = Some t -> gt_obj t1 = gt_obj t -> sole_user ts k o -> sole_user (putg who t1 ts) k o.
Proof.
  intros Et Eo So j tj Ej Oj. destruct (Nat.eq_dec j who) as [->|Nj].
  - rewrite (putg_same _ _ _ _ Et) in Ej. assert (tj = t1) as -> by congruence. apply (So who t Et). congruence.
  - rewrite (putg_other _ _ _ _ _ Et Nj) in Ej. exact (So j tj Ej Oj).
Qed.
Lemma run_alone k o d sched : forall cs ts cs' ts' t c, gt_run U (cs, ts) sched = Ret (cs', ts') -> nth_error ts k = Some t -> gt_obj t = o -> nth_error cs o = Some c ->
  sole_user ts k o -> will c t d -> exists t' c', nth_error ts' k = Some t' /\ nth_error cs' o = Some c' /\ will c' t' d.
Proof.
  induction sched as [|who sched IH]; intros cs ts cs' ts' t c R Et Eo Ec So W.
  { cbn [gt_run] in R. assert (cs' = cs) as -> by congruence. assert (ts' = ts) as -> by congruence. exists t, c. auto. }
  cbn [gt_run] in R. destruct (gt_next U (cs, ts) who) as [[cs1 ts1]| |] eqn:En; cbn [bind] in R; try discriminate.
  destruct (next_cases _ _ _ _ En) as [E|(t0 & c0 & c1 & t1 & E1 & E2 & E3 & E4)].
  { assert (cs1 = cs) as -> by congruence. assert (ts1 = ts) as -> by congruence. eapply IH; eauto. }
  assert (cs1 = putg (gt_obj t0) c1 cs) as -> by congruence. assert (ts1 = putg who t1 ts) as -> by congruence. clear E4.
  destruct (Nat.eq_dec who k) as [->|Nw].
  - assert (t0 = t) as -> by congruence. assert (c0 = c) as -> by congruence. destruct (will_step _ _ _ W) as (c2 & t2 & S & Ob & W2).
    assert (c2 = c1) as -> by congruence. assert (t2 = t1) as -> by congruence.
    eapply IH; [exact R|apply (putg_same _ _ _ _ E1)|congruence| |apply (sole_after _ _ _ _ _ _ E1 Ob So)|exact W2].
    rewrite <- Eo. apply (putg_same _ _ _ _ E2).
  - eapply IH; [exact R|rewrite (putg_other _ _ _ _ _ E1 (not_eq_sym Nw)); exact Et|exact Eo| |apply (sole_after _ _ _ _ _ _ E1 (step_obj _ _ _ _ E3) So)|exact W].
    rewrite (putg_other _ _ _ _ _ E2); [exact Ec|]. intros C. apply Nw. apply (So who t0 E1). auto.
Qed.
Lemma run_defined sched : forall cs ts,
  (forall k t, nth_error ts k = Some t -> sole_user ts k (gt_obj t) /\ exists c d, nth_error cs (gt_obj t) = Some c /\ will c t d) ->
  exists cs' ts', gt_run U (cs, ts) sched = Ret (cs', ts').
Proof.
  induction sched as [|who sched IH]; intros cs ts H; [eexists; eexists; reflexivity|]. cbn [gt_run]. unfold gt_next at 1.
  destruct (nth_error ts who) as [t|] eqn:Et; [|cbn [bind]; apply IH; exact H]. destruct (H _ _ Et) as (So & c & d & Ec & W). rewrite Ec.
  destruct (will_step _ _ _ W) as (c1 & t1 & S & Ob & W1). rewrite S. cbn [bind]. apply IH. intros k t' Ek. destruct (Nat.eq_dec k who) as [->|Nk].
  - rewrite (putg_same _ _ _ _ Et) in Ek. assert (t' = t1) as -> by congruence. rewrite Ob. split; [apply (sole_after _ _ _ _ _ _ Et Ob So)|].
    exists c1, d. split; [apply (putg_same _ _ _ _ Ec)|exact W1].
  - rewrite (putg_other _ _ _ _ _ Et Nk) in Ek. destruct (H _ _ Ek) as (Sk & ck & dk & Eck & Wk). split; [apply (sole_after _ _ _ _ _ _ Et Ob Sk)|].
    exists ck, dk. split; [|exact Wk]. rewrite (putg_other _ _ _ _ _ Ec); [exact Eck|]. intros C. apply Nk. symmetry. apply (Sk who t Et). auto.
Qed.
Lemma start_thread (work : list (nat * list (list N))) k t : nth_error (map (fun w => @mkGT U (fst w) (snd w) None) work) k = Some t ->
  exists o ps, nth_error work k = Some (o, ps) /\ t = mkGT o ps None.
Proof. rewrite nth_error_map. destruct (nth_error work k) as [[o ps]|]; cbn [option_map fst snd]; intros E; [|discriminate]. exists o, ps. split; congruence. Qed.
Lemma sole_start (work : list (nat * list (list N))) k o : (forall j ps', nth_error work j = Some (o, ps') -> j = k) -> sole_user (snd (gt_start U [] work)) k o.
Proof. intros H j t Ej Oj. cbn [gt_start snd] in Ej. apply start_thread in Ej. destruct Ej as (o' & ps & E & ->). cbn [gt_obj] in Oj. subst o'. exact (H _ _ E). Qed.
Lemma own_object cs work sched cs' ts' k o ps t c d : gt_run U (gt_start U cs work) sched = Ret (cs', ts') ->
  nth_error work k = Some (o, ps) -> (forall j ps', nth_error work j = Some (o, ps') -> j = k) -> nth_error cs o = Some c -> in_order upd c ps = Ret d ->
  nth_error ts' k = Some t -> gt_finished t -> nth_error cs' o = Some d.
Proof.
  intros R Ek So Ec W Et [F1 F2]. destruct (run_alone k o d sched _ _ _ _ (mkGT o ps None) c R) as (t' & c' & E1 & E2 & E3).
  - rewrite nth_error_map, Ek. reflexivity.
  - reflexivity.
  - exact Ec.
  - exact (sole_start work k o So).
  - exact W.
  - assert (t' = t) as -> by congruence. unfold will in E3. rewrite F1, F2 in E3. cbn [in_order] in E3. congruence.
Qed.
Lemma nodup_fst (work : list (nat * list (list N))) j k o p q : NoDup (map fst work) -> nth_error work j = Some (o, p) -> nth_error work k = Some (o, q) -> j = k.
Proof.
  intros ND Ej Ek. rewrite NoDup_nth_error in ND. apply ND.
  - rewrite map_length. apply nth_error_Some. congruence.
  - rewrite !nth_error_map, Ej, Ek. reflexivity.
Qed.
Lemma separate_objects cs work sched : NoDup (map fst work) ->
  (forall o ps, In (o, ps) work -> exists c d, nth_error cs o = Some c /\ in_order upd c ps = Ret d) ->
  exists cs' ts', gt_run U (gt_start U cs work) sched = Ret (cs', ts') /\
    forall k o ps t, nth_error work k = Some (o, ps) -> nth_error ts' k = Some t -> gt_finished t ->
    exists c c', nth_error cs o = Some c /\ nth_error cs' o = Some c' /\ in_order upd c ps = Ret c'.
Proof.
  intros ND H. destruct (run_defined sched cs (snd (gt_start U cs work))) as (cs' & ts' & R).
  - intros k t Ek. cbn [gt_start snd] in Ek. apply start_thread in Ek. destruct Ek as (o & ps & E & ->). cbn [gt_obj]. split.
    + exact (sole_start work k o (fun j ps' Ej => nodup_fst work _ _ o ps' ps ND Ej E)).
    + destruct (H o ps (nth_error_In _ _ E)) as (c & d & E1 & E2). exists c, d. auto.
  - exists cs', ts'. split; [exact R|]. intros k o ps t Ek Et F. destruct (H o ps (nth_error_In _ _ Ek)) as (c & d & E1 & E2). exists c, d.
    split; [exact E1|]. split; [|exact E2]. exact (own_object _ _ _ _ _ _ _ _ _ _ _ R Ek (fun j ps' Ej => nodup_fst work _ _ o ps' ps ND Ej Ek) E1 E2 Et F).
Qed.

(** *** one call at a time *)
Inductive one_by_one : gt_state U -> list (nat * list N) -> gt_state U -> Prop :=
| obo_none st : one_by_one st [] st
| obo_call cs ts k t p rest n cs1 ts1 t1 log st2 :
    nth_error ts k = Some t -> gt_at t = None -> gt_todo t = p :: rest ->
    gt_run U (cs, ts) (repeat k n) = Ret (cs1, ts1) -> nth_error ts1 k = Some t1 -> gt_at t1 = None -> gt_todo t1 = rest ->
    one_by_one (cs1, ts1) log st2 -> one_by_one (cs, ts) ((gt_obj t, p) :: log) st2.
Lemma others_solo k n : forall cs ts cs1 ts1 t, gt_run U (cs, ts) (repeat k n) = Ret (cs1, ts1) -> nth_error ts k = Some t ->
  (forall o, o <> gt_obj t -> nth_error cs1 o = nth_error cs o) /\ (forall j, j <> k -> nth_error ts1 j = nth_error ts j) /\
  exists t1, nth_error ts1 k = Some t1 /\ gt_obj t1 = gt_obj t /\ (length cs1 = length cs).
Proof.
  induction n as [|n IH]; intros cs ts cs1 ts1 t R Et.
  { cbn [repeat gt_run] in R. assert (cs1 = cs) as -> by congruence. assert (ts1 = ts) as -> by congruence. split; [reflexivity|]. split; [reflexivity|]. exists t. auto. }
  cbn [repeat gt_run] in R. destruct (gt_next U (cs, ts) k) as [[cs2 ts2]| |] eqn:En; cbn [bind] in R; try discriminate.
  destruct (next_cases _ _ _ _ En) as [E|(t0 & c0 & c1 & t1 & E1 & E2 & E3 & E4)].
  { assert (cs2 = cs) as -> by congruence. assert (ts2 = ts) as -> by congruence. eapply IH; eauto. }
  assert (t0 = t) as -> by congruence. assert (cs2 = putg (gt_obj t) c1 cs) as -> by congruence. assert (ts2 = putg k t1 ts) as -> by congruence. clear E4.
  destruct (IH _ _ _ _ _ R (putg_same _ _ _ _ E1)) as (A & B & t2 & T1 & T2 & T3). rewrite (step_obj _ _ _ _ E3) in *. split; [|split].
  - intros o No. rewrite A by exact No. apply (putg_other _ _ _ _ _ E2 No).
  - intros j Nj. rewrite B by exact Nj. apply (putg_other _ _ _ _ _ E1 Nj).
  - exists t2. split; [exact T1|]. split; [exact T2|]. rewrite T3. unfold putg. assert (L : (gt_obj t < length cs)%nat) by (apply nth_error_Some; congruence).
    rewrite app_length, firstn_length. cbn [length]. rewrite skipn_length. lia.
Qed.
(** the four situations of the thread during its call *)
Definition situation (p : list N) (rest : list (list N)) (c0 c1 : u_ctx U) (c : u_ctx U) (t : gthread U) : Prop :=
  (gt_at t = None /\ gt_todo t = p :: rest /\ c = c0) \/ (exists pl n, gt_at t = Some pl /\ gt_todo t = rest /\ steps U n c pl = Ret c1) \/
  (gt_at t = None /\ gt_todo t = rest /\ c = c1) \/ (length (gt_todo t) < length rest)%nat.
Lemma situation_step p rest c0 c1 c t c' t' : upd c0 p = Ret c1 -> situation p rest c0 c1 c t -> gt_step U c t = Ret (c', t') -> situation p rest c0 c1 c' t'.
Proof.
  intros Eu S. unfold gt_step. destruct S as [(A & T & ->)|[(pl & n & A & T & E)|[(A & T & ->)|L]]].
  - rewrite A, T. intros E. assert (c' = c0) as -> by congruence. assert (t' = mkGT (gt_obj t) rest (Some (u_begin U p))) as -> by congruence.
    destruct (D _ _ _ Eu) as (n & En). right; left. exists (u_begin U p), n. auto.
  - rewrite A. destruct n as [|n]; [discriminate|]. cbn [steps] in E. destruct (u_step U c pl) as [[c2 q]| |]; cbn [bind] in *; try discriminate. intros X.
    assert (c' = c2) as -> by congruence. assert (t' = mkGT (gt_obj t) (gt_todo t) q) as -> by congruence. unfold situation. cbn [gt_at gt_todo].
    destruct q as [q|]; [right; left; exists q, n; auto|]. right; right; left. repeat split; auto; congruence.
  - rewrite A, T. destruct rest as [|q rest]; intros E.
    + assert (c' = c1) as -> by congruence. assert (t' = t) as -> by congruence. right; right; left. auto.
    + assert (t' = mkGT (gt_obj t) rest (Some (u_begin U q))) as -> by congruence. right; right; right. cbn [gt_todo length]. lia.
  - intros E. right; right; right. destruct (gt_at t) as [pl|].
    + destruct (u_step U c pl) as [[c2 q]| |]; cbn [bind] in E; try discriminate. assert (t' = mkGT (gt_obj t) (gt_todo t) q) as -> by congruence. exact L.
    + destruct (gt_todo t) as [|q r] eqn:T; [assert (t' = t) as -> by congruence; rewrite T; exact L|]. assert (t' = mkGT (gt_obj t) r (Some (u_begin U q))) as -> by congruence.
      cbn [gt_todo length] in *. lia.
Qed.
Lemma solo_call k p rest c0 c1 n : upd c0 p = Ret c1 -> forall cs ts cs1 ts1 t c, gt_run U (cs, ts) (repeat k n) = Ret (cs1, ts1) -> nth_error ts k = Some t ->
  nth_error cs (gt_obj t) = Some c -> situation p rest c0 c1 c t -> exists t1 c2, nth_error ts1 k = Some t1 /\ nth_error cs1 (gt_obj t) = Some c2 /\ situation p rest c0 c1 c2 t1.
Proof.
  intros Eu. induction n as [|n IH]; intros cs ts cs1 ts1 t c R Et Ec S.
  { cbn [repeat gt_run] in R. assert (cs1 = cs) as -> by congruence. assert (ts1 = ts) as -> by congruence. exists t, c. auto. }
  cbn [repeat gt_run] in R. unfold gt_next in R. rewrite Et, Ec in R. destruct (gt_step U c t) as [[c' t']| |] eqn:E; cbn [bind] in R; try discriminate.
  assert (O := step_obj _ _ _ _ E). destruct (IH _ _ _ _ t' c' R (putg_same _ _ _ _ Et)) as (t1 & c2 & A & B & C).
  - rewrite O. apply (putg_same _ _ _ _ Ec).
  - exact (situation_step _ _ _ _ _ _ _ _ Eu S E).
  - exists t1, c2. rewrite <- O. auto.
Qed.
Lemma one_call_at_a_time st log st' : one_by_one st log st' -> Forall (fun t => (gt_obj t < length (fst st))%nat) (snd st) ->
  forall o c d, nth_error (fst st) o = Some c -> in_order upd c (map snd (filter (fun e => Nat.eqb (fst e) o) log)) = Ret d -> nth_error (fst st') o = Some d.
Proof.
  induction 1 as [st|cs ts k t p rest n cs1 ts1 t1 log st2 Et At Tt R Et1 At1 Tt1 O IH]; intros L o c d Ec E; [cbn in E; congruence|].
  cbn [fst snd] in *. destruct (others_solo k n _ _ _ _ _ R Et) as (A & B & t1' & X1 & X2 & X3). assert (t1' = t1) as -> by congruence.
  assert (L1 : Forall (fun t => (gt_obj t < length cs1)%nat) ts1).
  { apply Forall_forall. intros x Hx. apply In_nth_error in Hx. destruct Hx as (j & Hj). rewrite X3. destruct (Nat.eq_dec j k) as [->|Nj].
    - assert (x = t1) as -> by congruence. rewrite X2. exact (proj1 (Forall_forall _ _) L t (nth_error_In _ _ Et)).
    - rewrite B in Hj by exact Nj. exact (proj1 (Forall_forall _ _) L x (nth_error_In _ _ Hj)). }
  cbn [filter fst] in E. destruct (Nat.eqb_spec (gt_obj t) o) as [Eo|No].
  - cbn [map snd in_order] in E. destruct (upd c p) as [c1| |] eqn:Eu; cbn [bind] in E; try discriminate.
    destruct (solo_call k p rest c c1 n Eu _ _ _ _ t c R Et) as (t' & c2 & Y1 & Y2 & S); [rewrite Eo; exact Ec|left; auto|].
    assert (t' = t1) as -> by congruence. rewrite Eo in Y2. apply (IH L1 o c2 d Y2).
    destruct S as [(_ & T & _)|[(pl & m & A' & _ & _)|[(_ & _ & ->)|Lr]]]; [|congruence|exact E|].
    + exfalso. rewrite Tt1 in T. apply (f_equal (@length _)) in T. cbn [length] in T. lia.
    + exfalso. rewrite Tt1 in Lr. lia.
  - apply (IH L1 o c d); [rewrite A by congruence; exact Ec|exact E].
Qed.
End Machine.

(** ** the two update functions, step by step *)
(** the part of md5_update behind the loop *)
Definition md5_tail (garbage : option N) (c : md5_ctx) (rest : list N) (wl : option nat) : outcome md5_ctx :=
  remainder <- match wl with Some w => Ret (N.of_nat w) | None => match garbage with Some v => Ret v | None => UB Indeterminate end end ;;
  '(c, remainder) <- (match rest with
     | [] => Ret (c, remainder)
     | _ => let offset := N.to_nat (u8 (N.land (block_len c) 0x3F)) in
            blk <- blit (mblock c) offset rest ;;
            Ret (mkMd5 (mstate c) (u64 (block_len c + N.of_nat (length rest))) blk, remainder - N.of_nat (length rest))
     end) ;;
  if remainder =? 0 then Ret (mkMd5 (md5_transform (mstate c) (mblock c)) (block_len c) (mblock c)) else Ret c.
Lemma md5_loop_steps garbage fuel : forall c rest wl c1 rest1 wl1 d, md5_loop fuel c rest wl = Ret (c1, rest1, wl1) -> md5_tail garbage c1 rest1 wl1 = Ret d ->
  exists n, steps (md5_updater garbage) n c (MTop rest wl) = Ret d.
Proof.
  induction fuel as [|fuel IH]; intros c rest wl c1 rest1 wl1 d E T; [discriminate|]. cbn [md5_loop] in E. destruct rest as [|b rest].
  - assert (c1 = c) as -> by congruence. assert (rest1 = []) as -> by congruence. assert (wl1 = wl) as -> by congruence. clear E. unfold md5_tail in T. cbn [bind] in T.
    exists 2%nat. cbn [steps md5_updater u_step md5_ustep]. destruct (match wl with Some w => _ | None => _ end) as [r| |]; cbn [bind] in *; try discriminate. cbn [md5_ustep bind].
    rewrite <- T. destruct (r =? 0); reflexivity.
  - set (off := N.to_nat (u8 (N.land (block_len c) 0x3F))) in *. destruct (Nat.ltb (length (b :: rest)) (64 - off)) eqn:Lt.
    + assert (c1 = c) as -> by congruence. assert (rest1 = b :: rest) as -> by congruence. assert (wl1 = Some (64 - off)%nat) as -> by congruence. clear E.
      unfold md5_tail in T. cbn [bind] in T. fold off in T. exists 4%nat. cbn [steps md5_updater u_step md5_ustep]. fold off. rewrite Lt. cbn [bind md5_ustep].
      destruct (blit (mblock c) off (b :: rest)) as [blk| |]; cbn [bind] in *; try discriminate. cbn [md5_ustep bind mstate mblock block_len]. rewrite <- T.
      destruct (N.of_nat (64 - off) - N.of_nat (length (b :: rest)) =? 0); reflexivity.
    + destruct (blit (mblock c) off (firstn (64 - off) (b :: rest))) as [blk| |] eqn:Eb; cbn [bind] in E; try discriminate. destruct (IH _ _ _ _ _ _ _ E T) as (n & En).
      exists (4 + n)%nat. cbn [plus steps md5_updater u_step md5_ustep]. fold off. rewrite Lt. cbn [bind md5_ustep]. rewrite Eb. cbn [bind md5_ustep mstate mblock block_len]. exact En.
Qed.
Lemma md5_does garbage : does (md5_updater garbage) (md5_update garbage).
Proof.
  intros c p d E. unfold md5_update in E. destruct (md5_loop (S (length p)) c p None) as [[[c1 rest1] wl1]| |] eqn:L; cbn [bind] in E; try discriminate.
  exact (md5_loop_steps garbage _ _ _ _ _ _ _ _ L E).
Qed.

Lemma blocks_steps inp i wb n : forall c data st d m, absorb_blocks n (kst c) data (rate c) (nr c) = Ret st ->
  steps keccak_updater m (kset c st (queue c) (inq c)) (KLoop inp (u64 (i + wb * rate c))) = Ret d -> steps keccak_updater (n + S m) c (KBlocks inp n data i wb) = Ret d.
Proof.
  induction n as [|n IH]; intros c data st d m E T.
  - cbn [absorb_blocks] in E. assert (st = kst c) as -> by congruence. cbn [plus steps keccak_updater u_step keccak_ustep bind]. destruct c; exact T.
  - cbn [absorb_blocks] in E. destruct (k_absorb (kst c) data (N.to_nat (rate c / 64)) (nr c)) as [s1| |] eqn:Ea; cbn [bind] in E; try discriminate.
    cbn [plus steps keccak_updater u_step keccak_ustep]. rewrite Ea. cbn [bind]. apply (IH (kset c s1 (queue c) (inq c)) _ st d m); [exact E|exact T].
Qed.
Lemma absorb_steps inp fuel : forall c i d, absorb_loop fuel c inp (u64 (8 * N.of_nat (length inp))) i = Ret d -> exists n, steps keccak_updater n c (KLoop inp i) = Ret d.
Proof.
  set (bl := u64 (8 * N.of_nat (length inp))). induction fuel as [|fuel IH]; intros c i d E; cbn [absorb_loop] in E; destruct (bl <=? i) eqn:Eb; try discriminate.
  1, 2: exists 1%nat; cbn [steps keccak_updater u_step keccak_ustep]; fold bl; rewrite Eb; cbn [bind]; exact E.
  destruct ((inq c =? 0) && (rate c <=? bl) && (i <=? bl - rate c)) eqn:Ew.
  - destruct (absorb_blocks (N.to_nat ((bl - i) / rate c)) (kst c) (skipn (N.to_nat (i / 8)) inp) (rate c) (nr c)) as [st| |] eqn:Ea; cbn [bind] in E; try discriminate.
    destruct (IH _ _ _ E) as (n & En). eexists (S _). cbn [steps keccak_updater u_step keccak_ustep]. fold bl. rewrite Eb, Ew. cbn [bind].
    exact (blocks_steps inp i _ _ c _ st d n Ea En).
  - cbv zeta in E. set (pb := if rate c <? u32 (u32 (bl - i) + inq c) then u32 (rate c + 2 ^ 32 - inq c) else u32 (bl - i)) in *.
    destruct (grab (N.to_nat ((pb - pb mod 8) / 8)) (skipn (N.to_nat (i / 8)) inp)) as [src| |] eqn:Eg; cbn [bind] in E; try discriminate.
    destruct (blit (queue c) (N.to_nat (inq c / 8)) src) as [q| |] eqn:Eq; cbn [bind] in E; try discriminate.
    set (c1 := kset c (kst c) q (u32 (inq c + (pb - pb mod 8)))) in *.
    destruct (if inq c1 =? rate c1 then absorb_queue c1 else Ret c1) as [c2| |] eqn:Ef; cbn [bind] in E; try discriminate.
    assert (X : exists n, steps keccak_updater n c2 (KByte inp (i + (pb - pb mod 8)) (pb mod 8)) = Ret d).
    { destruct (pb mod 8 =? 0) eqn:E8.
      - destruct (IH _ _ _ E) as (n & En). exists (S n). cbn [steps keccak_updater u_step keccak_ustep]. rewrite E8. cbn [bind]. exact En.
      - destruct (rd inp (N.to_nat ((i + (pb - pb mod 8)) / 8))) as [b| |] eqn:Er; cbn [bind] in E; try discriminate.
        destruct (wr (queue c2) (N.to_nat (inq c2 / 8)) (N.land b (u8 (N.shiftl 1 (pb mod 8) - 1)))) as [q2| |] eqn:Ew2; cbn [bind] in E; try discriminate.
        destruct (IH _ _ _ E) as (n & En). exists (S n). cbn [steps keccak_updater u_step keccak_ustep]. rewrite E8, Er. cbn [bind]. rewrite Ew2. cbn [bind]. exact En. }
    destruct X as (n & En). exists (4 + n)%nat. cbn [plus steps keccak_updater u_step keccak_ustep]. fold bl. rewrite Eb, Ew. cbn [bind]. fold pb. cbn [keccak_ustep]. rewrite Eg. cbn [bind]. rewrite Eq. cbn [bind keccak_ustep].
    change (kset (kset c (kst c) q (inq c)) (kst (kset c (kst c) q (inq c))) (queue (kset c (kst c) q (inq c))) (u32 (inq (kset c (kst c) q (inq c)) + (pb - pb mod 8)))) with c1.
    cbn [keccak_ustep bind]. rewrite Ef. cbn [bind]. exact En.
Qed.
Lemma keccak_does : does keccak_updater keccak_update.
Proof.
  intros c p d E. unfold keccak_update, keccak_absorb in E. cbn [u_begin keccak_updater]. destruct (negb (inq c mod 8 =? 0) || squeezing c) eqn:Et.
  - exists 1%nat. cbn [steps keccak_updater u_step keccak_ustep]. rewrite Et. exact E.
  - destruct (absorb_steps _ _ _ _ _ E) as (n & En). exists (S n). cbn [steps keccak_updater u_step keccak_ustep]. rewrite Et. exact En.
Qed.
Lemma md5_order garbage : forall ps c, in_order (md5_update garbage) c ps = updates (md5_impl garbage) c ps.
Proof. induction ps as [|p ps IH]; intros c; [reflexivity|]. cbn [in_order updates]. change (iupdate (md5_impl garbage)) with (md5_update garbage). destruct (md5_update garbage c p) as [c1| |]; cbn [bind]; auto. Qed.
Lemma keccak_order : forall ps c, in_order keccak_update c ps = keccak_updates c ps.
Proof. induction ps as [|p ps IH]; intros c; [reflexivity|]. cbn [in_order keccak_updates]. destruct (keccak_update c p) as [c1| |]; cbn [bind]; auto. Qed.

(** ** C87: separate objects, and one call at a time *)
(** As for SHA-1 and SHA-2 (C87_separate_objects): MD5, then the eight Keccak functions (they share the update function). *)
Theorem C87_md5_separate_objects : forall garbage cs work sched, NoDup (map fst work) ->
  (forall o ps, In (o, ps) work -> exists c d, nth_error cs o = Some c /\ updates (md5_impl garbage) c ps = Ret d) ->
  exists cs' ts', gt_run (md5_updater garbage) (gt_start (md5_updater garbage) cs work) sched = Ret (cs', ts') /\
    forall k o ps t, nth_error work k = Some (o, ps) -> nth_error ts' k = Some t -> gt_finished t ->
    exists c c', nth_error cs o = Some c /\ nth_error cs' o = Some c' /\ updates (md5_impl garbage) c ps = Ret c'.
Proof.
  intros garbage cs work sched ND H. destruct (separate_objects (md5_updater garbage) _ (md5_does garbage) cs work sched ND) as (cs' & ts' & R & F).
  - intros o ps Hi. destruct (H o ps Hi) as (c & d & A & B). exists c, d. rewrite md5_order. auto.
  - exists cs', ts'. split; [exact R|]. intros k o ps t A B C. destruct (F k o ps t A B C) as (c & c' & X & Y & Z). exists c, c'. rewrite md5_order in Z. auto.
Qed.
Theorem C87_keccak_separate_objects : forall cs work sched, NoDup (map fst work) ->
  (forall o ps, In (o, ps) work -> exists c d, nth_error cs o = Some c /\ keccak_updates c ps = Ret d) ->
  exists cs' ts', gt_run keccak_updater (gt_start keccak_updater cs work) sched = Ret (cs', ts') /\
    forall k o ps t, nth_error work k = Some (o, ps) -> nth_error ts' k = Some t -> gt_finished t ->
    exists c c', nth_error cs o = Some c /\ nth_error cs' o = Some c' /\ keccak_updates c ps = Ret c'.
Proof.
  intros cs work sched ND H. destruct (separate_objects keccak_updater _ keccak_does cs work sched ND) as (cs' & ts' & R & F).
  - intros o ps Hi. destruct (H o ps Hi) as (c & d & A & B). exists c, d. rewrite keccak_order. auto.
  - exists cs', ts'. split; [exact R|]. intros k o ps t A B C. destruct (F k o ps t A B C) as (c & c' & X & Y & Z). exists c, c'. rewrite keccak_order in Z. auto.
Qed.
(** If every call runs from start to end without another thread in between ([one_by_one], with the list of the calls made), each object
    is as if one thread had made the calls on it in that order. *)
Theorem C87_md5_one_call_at_a_time : forall garbage cs ts log cs' ts', one_by_one (md5_updater garbage) (cs, ts) log (cs', ts') ->
  Forall (fun t => (gt_obj t < length cs)%nat) ts ->
  forall o c d, nth_error cs o = Some c -> updates (md5_impl garbage) c (map snd (filter (fun e => Nat.eqb (fst e) o) log)) = Ret d -> nth_error cs' o = Some d.
Proof.
  intros garbage cs ts log cs' ts' O L o c d Ec E. rewrite <- md5_order in E.
  exact (one_call_at_a_time (md5_updater garbage) _ (md5_does garbage) (cs, ts) log (cs', ts') O L o c d Ec E).
Qed.
Theorem C87_keccak_one_call_at_a_time : forall cs ts log cs' ts', one_by_one keccak_updater (cs, ts) log (cs', ts') ->
  Forall (fun t => (gt_obj t < length cs)%nat) ts ->
  forall o c d, nth_error cs o = Some c -> keccak_updates c (map snd (filter (fun e => Nat.eqb (fst e) o) log)) = Ret d -> nth_error cs' o = Some d.
Proof.
  intros cs ts log cs' ts' O L o c d Ec E. rewrite <- keccak_order in E.
  exact (one_call_at_a_time keccak_updater _ keccak_does (cs, ts) log (cs', ts') O L o c d Ec E).
Qed.

(** ** C87: an MD5 object fed by several threads at once *)
Definition md5_at_ok (t : option mplace) : Prop :=
  match t with
  | Some (MTop rest wl) => rest = [] -> wl <> None
  | Some (MCopy _ off wr) => (off + wr <= 64)%nat
  | Some (MTail rest off _) => (off + length rest <= 64)%nat
  | _ => True
  end.
Lemma md5_safe_step garbage c (t : gthread (md5_updater garbage)) : length (mblock c) = 64%nat -> md5_at_ok (gt_at t) -> Forall (fun p : list N => p <> []) (gt_todo t) ->
  exists c1 t1, gt_step (md5_updater garbage) c t = Ret (c1, t1) /\ length (mblock c1) = 64%nat /\ md5_at_ok (gt_at t1) /\ Forall (fun p => p <> []) (gt_todo t1).
Proof.
  intros L A F. unfold gt_step. destruct t as [o todo [p|]]; cbn [gt_at gt_todo gt_obj] in *.
  - cbn [u_step md5_updater]. assert (B : forall i src, (i + length src <= 64)%nat -> exists blk, blit (mblock c) i src = Ret blk /\ length blk = 64%nat).
    { intros i src H. rewrite blit_ok by lia. eexists; split; [reflexivity|]. rewrite !app_length, firstn_length, skipn_length. lia. }
    destruct p as [rest wl|rest off wr|rest wr|rest wr|rest off rem|n rem|rem]; cbn [md5_ustep].
    + destruct rest as [|b rest].
      * destruct wl as [w|]; [|exfalso; apply A; reflexivity]. cbn [bind]. eexists; eexists; split; [reflexivity|]. cbn. auto.
      * destruct (Nat.ltb_spec (length (b :: rest)) (64 - N.to_nat (u8 (N.land (block_len c) 63)))) as [H|H]; cbn [bind]; (eexists; eexists; split; [reflexivity|]); cbn [gt_at gt_todo md5_at_ok];
          (split; [exact L|]); (split; [|exact F]).
        -- lia.
        -- assert (u8 (N.land (block_len c) 63) <= 63); [|lia]. unfold u8. change (N.land (block_len c) 63) with (N.land (block_len c) (N.ones 6)). rewrite N.land_ones.
           assert (block_len c mod 2 ^ 6 < 64) by (apply N.mod_lt; discriminate). rewrite N.mod_small; lia.
    + destruct (B off (firstn wr rest)) as (blk & E & Lb); [cbn [md5_at_ok] in A; rewrite firstn_length; lia|]. rewrite E. cbn [bind]. eexists; eexists; split; [reflexivity|]. cbn [mblock gt_at gt_todo md5_at_ok]. auto.
    + cbn [bind]. eexists; eexists; split; [reflexivity|]. cbn [mblock gt_at gt_todo md5_at_ok]. auto.
    + cbn [bind]. eexists; eexists; split; [reflexivity|]. cbn [mblock gt_at gt_todo md5_at_ok]. repeat split; auto; discriminate.
    + destruct (B off rest A) as (blk & E & Lb). rewrite E. cbn [bind]. eexists; eexists; split; [reflexivity|]. cbn [mblock gt_at gt_todo md5_at_ok]. auto.
    + cbn [bind]. eexists; eexists; split; [reflexivity|]. cbn [mblock gt_at gt_todo md5_at_ok]. auto.
    + cbn [bind]. eexists; eexists; split; [reflexivity|]. cbn [gt_at gt_todo md5_at_ok]. split; [destruct (rem =? 0); exact L|auto].
  - destruct todo as [|p r]; eexists; eexists; (split; [reflexivity|]); cbn [gt_at gt_todo md5_updater u_begin md5_at_ok]; [auto|].
    inversion F; subst. split; [exact L|]. split; [|assumption]. intros C. congruence.
Qed.
Lemma forall_putg {A} (P : A -> Prop) i x l : Forall P l -> P x -> Forall P (putg i x l).
Proof. intros F Px. unfold putg. rewrite <- (firstn_skipn i l) in F. apply Forall_app in F. destruct F as [F1 F2]. apply Forall_app. split; [exact F1|]. constructor; [exact Px|].
  destruct (skipn i l) as [|y q] eqn:E; [|]. - replace (skipn (S i) l) with (@nil A); [constructor|]. symmetry. apply skipn_all2. apply (f_equal (@length A)) in E. rewrite skipn_length in E. cbn in E. lia.
  - replace (skipn (S i) l) with q; [inversion F2; assumption|]. clear -E. revert l E. induction i as [|i IH]; intros [|z l] E; cbn in E |- *; try discriminate; [congruence|]. exact (IH _ E).
Qed.
(** Even so no byte outside the block array is touched and every schedule goes on: any number of threads, objects and calls. *)
Theorem C87_md5_in_bounds : forall garbage cs work sched, Forall (fun c => length (mblock c) = 64%nat) cs -> Forall (fun w => Forall (fun p => p <> []) (snd w)) work ->
  exists st, gt_run (md5_updater garbage) (gt_start (md5_updater garbage) cs work) sched = Ret st.
Proof.
  intros garbage cs work sched Lc Lw. unfold gt_start. set (ts := map _ work).
  assert (Lt : Forall (fun t : gthread (md5_updater garbage) => md5_at_ok (gt_at t) /\ Forall (fun p => p <> []) (gt_todo t)) ts).
  { unfold ts. apply Forall_map. revert Lw. apply Forall_impl. intros w H. split; [exact Logic.I|exact H]. }
  clearbody ts. clear Lw work. revert cs ts Lc Lt. induction sched as [|k sched IH]; intros cs ts Lc Lt; [eexists; reflexivity|]. cbn [gt_run]. unfold gt_next at 1.
  destruct (nth_error ts k) as [t|] eqn:Et; [|cbn [bind]; apply IH; assumption]. change (@nth_error (u_ctx (md5_updater garbage))) with (@nth_error md5_ctx). destruct (nth_error cs (gt_obj t)) as [c|] eqn:Ec; [|cbn [bind]; apply IH; assumption].
  destruct (proj1 (Forall_forall _ _) Lt t (nth_error_In _ _ Et)) as (A & F). destruct (md5_safe_step garbage c t (proj1 (Forall_forall _ _) Lc c (nth_error_In _ _ Ec)) A F) as (c1 & t1 & S & L1 & A1 & F1).
  rewrite S. cbn [bind]. apply IH; apply forall_putg; auto.
Qed.

Lemma skipn_skipn' {A} : forall n m (l : list A), skipn n (skipn m l) = skipn (m + n) l.
Proof. intros n m. induction m as [|m IH]; intros l; [reflexivity|]. destruct l as [|x l]; [destruct n; reflexivity|]. exact (IH l). Qed.
Lemma u64_u64 x y z : u64 (u64 (x + y) + z) = u64 (x + (y + z)).
Proof. unfold u64. rewrite N.add_mod_idemp_l by discriminate. f_equal. lia. Qed.
(** C87, violation: two calls of the same length into one object, neither completing a block. Under some schedule the first call's data is
    lost, and the object is as if it had been fed the second call's data followed by as many bytes of what the block array held before. *)
Theorem C87_md5_lost_data_refuted : forall garbage c p q, length (mblock c) = 64%nat -> length p = length q -> p <> [] ->
  let k := N.to_nat (block_len c mod 64) in (k + length p + length q < 64)%nat ->
  exists sched c' ts', gt_run (md5_updater garbage) (gt_start (md5_updater garbage) [c] [(0%nat, [p]); (0%nat, [q])]) sched = Ret ([c'], ts') /\ Forall gt_finished ts' /\
    md5_update garbage c (q ++ firstn (length p) (skipn (k + length q) (mblock c))) = Ret c'.
Proof.
  intros garbage c p q L Lpq Np k Hk. destruct p as [|x p]; [congruence|]. destruct q as [|y q]; [discriminate|]. clear Np.
  assert (Off : N.to_nat (u8 (N.land (block_len c) 63)) = k).
  { unfold k, u8. change (N.land (block_len c) 63) with (N.land (block_len c) (N.ones 6)). rewrite N.land_ones. change (2 ^ 6) with 64.
    assert (block_len c mod 64 < 64) by (apply N.mod_lt; discriminate). rewrite N.mod_small by lia. reflexivity. }
  clearbody k. set (p' := x :: p) in *. set (q' := y :: q) in *. set (n := length q') in *. assert (Hn : (0 < n)%nat) by (unfold n, q'; cbn; lia).
  set (st := firstn (length p') (skipn (k + n) (mblock c))). assert (Ls : length st = n) by (unfold st; rewrite firstn_length, skipn_length; lia).
  exists [0; 1; 0; 1; 0; 1; 0; 1; 0; 1]%nat.
  set (blk := firstn k (mblock c) ++ q' ++ skipn (k + n) (mblock c)).
  set (fin := mkMd5 (mstate c) (u64 (block_len c + (N.of_nat n + N.of_nat n))) blk).
  exists fin, [mkGT 0 [] None; mkGT 0 [] None]. split; [|split; [repeat constructor|]].
  - unfold gt_start. cbn [map fst snd gt_run]. unfold gt_next, gt_step. cbn [nth_error gt_obj gt_at gt_todo bind putg firstn skipn app].
    cbn [u_begin u_step md5_updater md5_ustep]. unfold p' at 1. unfold q' at 1. cbn [md5_ustep]. fold p' q'. rewrite Off.
    destruct (Nat.ltb_spec (length p') (64 - k)) as [_|H]; [|lia]. cbn [bind nth_error gt_obj gt_at gt_todo putg firstn skipn app]. unfold q' at 1. cbn [md5_ustep]. fold q'. rewrite Off.
    destruct (Nat.ltb_spec (length q') (64 - k)) as [_|H]; [|fold n in H; lia]. cbn [bind nth_error gt_obj gt_at gt_todo putg firstn skipn app md5_ustep].
    rewrite blit_ok by lia. cbn [bind nth_error gt_obj gt_at gt_todo putg firstn skipn app md5_ustep mblock mstate block_len].
    rewrite (blit_ok _ q') by (rewrite !app_length, firstn_length, skipn_length; fold n; lia).
    cbn [bind nth_error gt_obj gt_at gt_todo putg firstn skipn app md5_ustep mblock mstate block_len]. fold n. rewrite Lpq.
    destruct (N.eqb_spec (N.of_nat (64 - k) - N.of_nat n) 0) as [H|_]; [lia|].
    cbn [bind nth_error gt_obj gt_at gt_todo putg firstn skipn app md5_ustep mblock mstate block_len].
    assert (EB : firstn k (firstn k (mblock c) ++ p' ++ skipn (k + n) (mblock c)) ++ q' ++ skipn (k + n) (firstn k (mblock c) ++ p' ++ skipn (k + n) (mblock c)) = blk).
    { rewrite firstn_app, firstn_firstn, Nat.min_id, firstn_length, Nat.min_l by lia. rewrite Nat.sub_diag. cbn [firstn]. rewrite app_nil_r. unfold blk. f_equal.
      f_equal. rewrite skipn_app, firstn_length, Nat.min_l by lia. rewrite skipn_all2 by (rewrite firstn_length; lia). replace (k + n - k)%nat with n by lia.
      rewrite skipn_app, Lpq, Nat.sub_diag. rewrite skipn_all2 by lia. cbn [skipn app]. reflexivity. }
    unfold fin. rewrite u64_u64, EB. reflexivity.
  - unfold md5_update. set (w := q' ++ st). assert (Lw : length w = (n + n)%nat) by (unfold w; rewrite app_length; fold n; lia).
    destruct w as [|w0 w'] eqn:Ew; [cbn in Lw; lia|]. rewrite <- Ew in *. cbn [md5_loop]. rewrite Ew at 1. rewrite Off. destruct (Nat.ltb_spec (length w) (64 - k)) as [_|H]; [|lia].
    cbn [bind]. rewrite Ew at 1. rewrite Off, blit_ok by lia. cbn [bind]. destruct (N.eqb_spec (N.of_nat (64 - k) - N.of_nat (length w)) 0) as [H|_]; [lia|].
    assert (EB : firstn k (mblock c) ++ w ++ skipn (k + (n + n)) (mblock c) = blk).
    { unfold blk, w. rewrite <- app_assoc. f_equal. f_equal. unfold st. rewrite Lpq. rewrite <- (firstn_skipn n (skipn (k + n) (mblock c))) at 2. f_equal. rewrite skipn_skipn'. f_equal. lia. }
    rewrite Lw, EB. unfold fin. rewrite Nat2N.inj_add. reflexivity.
Qed.
(** C87, violation: a freshly initialised MD5 object: the digest is that of the second call's data and of as many bytes of whatever the
    memory held before (init does not clear the block array). *)
Theorem C87_md5_digest_refuted : forall garbage g p q out, length (mblock g) = 64%nat -> bytes_ok (mblock g) -> bytes_ok q -> length p = length q -> p <> [] ->
  (length p + length q < 64)%nat -> length out = 16%nat ->
  exists sched c' ts' c'', gt_run (md5_updater garbage) (gt_start (md5_updater garbage) [md5_init g] [(0%nat, [p]); (0%nat, [q])]) sched = Ret ([c'], ts') /\ Forall gt_finished ts' /\
    md5_digest garbage c' out = Ret (c'', SMd5.MD5 (q ++ firstn (length p) (skipn (length q) (mblock g)))).
Proof.
  intros garbage g p q out L Bg Bq Lpq Np Lt Lo. destruct (C87_md5_lost_data_refuted garbage (md5_init g) p q L Lpq Np) as (sched & c' & ts' & R & F & U); [exact Lt|].
  change (N.to_nat (block_len (md5_init g) mod 64)) with 0%nat in U. cbn [plus] in U. change (mblock (md5_init g)) with (mblock g) in U. set (w := q ++ _) in *.
  destruct (PropMd5.C17_md5_rfc1321 garbage g [w] out) as (c & c2 & E1 & E2 & _).
  - exact L.
  - constructor; [|constructor]. split.
    + unfold w. apply Forall_app. split; [exact Bq|]. apply Forall_forall. intros x Hx. apply (proj1 (Forall_forall _ _) Bg).
      rewrite <- (firstn_skipn (length q) (mblock g)). apply in_app_iff. right. rewrite <- (firstn_skipn (length p) (skipn (length q) (mblock g))). apply in_app_iff. left. exact Hx.
    + unfold w. destruct q as [|y q]; [destruct p; [congruence|discriminate]|discriminate].
  - exact Logic.I.
  - rewrite Lo. apply le_n.
  - cbn [updates] in E1. change (iupdate (md5_impl garbage)) with (md5_update garbage) in E1. change (iinit (md5_impl garbage) g) with (md5_init g) in E1. rewrite U in E1. cbn [bind] in E1.
    assert (c = c') as -> by congruence. exists sched, c', ts', c2. split; [exact R|]. split; [exact F|]. change (idigest (md5_impl garbage)) with (md5_digest garbage) in E2. rewrite E2.
    cbn [concat]. rewrite app_nil_r, skipn_all2 by (rewrite Lo; apply le_n). rewrite app_nil_r. reflexivity.
Qed.

(** ** C87: a Keccak object fed by several threads at once *)
Lemma u32_small x : x < 2 ^ 32 -> u32 x = x.
Proof. intros H. apply N.mod_small, H. Qed.
Lemma u64_small x : x < 2 ^ 64 -> u64 x = x.
Proof. intros H. apply N.mod_small, H. Qed.
(** the choice of a partial block that does not fill the queue *)
Lemma keccak_partial c R k p : rate c = 8 * N.of_nat R -> inq c = 8 * N.of_nat k -> (R <= 192)%nat -> p <> [] -> (k + length p < R)%nat ->
  keccak_ustep c (KLoop p 0) = Ret (c, Some (KCopy p 0 (8 * N.of_nat (length p)) 0)).
Proof.
  intros Hr Hi HR Np Lt. assert (Hp : (0 < length p)%nat) by (destruct p; [congruence|cbn; lia]). cbn [keccak_ustep]. rewrite (u64_small (8 * N.of_nat (length p))) by lia.
  destruct (N.leb_spec (8 * N.of_nat (length p)) 0) as [H|_]; [lia|]. replace (rate c <=? 8 * N.of_nat (length p)) with false by (symmetry; apply N.leb_gt; lia).
  rewrite andb_false_r. cbn [andb]. rewrite N.sub_0_r, (u32_small (8 * N.of_nat (length p))) by lia. rewrite u32_small by lia.
  replace (rate c <? 8 * N.of_nat (length p) + inq c) with false by (symmetry; apply N.ltb_ge; lia).
  replace ((8 * N.of_nat (length p)) mod 8) with 0 by (rewrite N.mul_comm, N.mod_mul by discriminate; reflexivity). rewrite N.sub_0_r. reflexivity.
Qed.
Lemma keccak_copy c k p pb : inq c = 8 * N.of_nat k -> pb = 8 * N.of_nat (length p) -> (k + length p <= length (queue c))%nat ->
  keccak_ustep c (KCopy p 0 pb 0) = Ret (kset c (kst c) (firstn k (queue c) ++ p ++ skipn (k + length p) (queue c)) (inq c), Some (KAdd p 0 pb 0)).
Proof.
  intros Hi -> L. cbn [keccak_ustep]. change (N.to_nat (0 / 8)) with 0%nat. cbn [skipn]. replace (8 * N.of_nat (length p) / 8) with (N.of_nat (length p)) by (rewrite N.mul_comm, N.div_mul by discriminate; reflexivity).
  rewrite Nat2N.id. unfold grab. rewrite Nat.ltb_irrefl, firstn_all. cbn [bind]. rewrite Hi. replace (8 * N.of_nat k / 8) with (N.of_nat k) by (rewrite N.mul_comm, N.div_mul by discriminate; reflexivity).
  rewrite Nat2N.id, blit_ok by exact L. reflexivity.
Qed.
Lemma keccak_begin c k p : inq c = 8 * N.of_nat k -> squeezing c = false -> keccak_ustep c (KStart p) = Ret (c, Some (KLoop p 0)).
Proof. intros Hi Sq. cbn [keccak_ustep]. rewrite Sq, Hi, N.mul_comm, N.mod_mul by discriminate. reflexivity. Qed.
Lemma keccak_add c p i pb pbyte : inq c + pb < 2 ^ 32 -> keccak_ustep c (KAdd p i pb pbyte) = Ret (kset c (kst c) (queue c) (inq c + pb), Some (KFull p (i + pb) pbyte)).
Proof. intros H. cbn [keccak_ustep]. rewrite u32_small by exact H. reflexivity. Qed.
Lemma keccak_full c p i pbyte : inq c <> rate c -> keccak_ustep c (KFull p i pbyte) = Ret (c, Some (KByte p i pbyte)).
Proof. intros H. cbn [keccak_ustep]. destruct (N.eqb_spec (inq c) (rate c)); [congruence|reflexivity]. Qed.
Lemma keccak_nobyte c p i : keccak_ustep c (KByte p i 0) = Ret (c, Some (KLoop p i)).
Proof. reflexivity. Qed.
Lemma keccak_end c p i : 8 * N.of_nat (length p) < 2 ^ 64 -> i = 0 + 8 * N.of_nat (length p) -> keccak_ustep c (KLoop p i) = Ret (c, None).
Proof. intros H ->. cbn [keccak_ustep]. rewrite u64_small, N.add_0_l, N.leb_refl by exact H. reflexivity. Qed.
(** two calls that both choose their place before either has copied or counted *)
Lemma keccak_both c R k p q rs : length (queue c) = 192%nat -> rate c = 8 * N.of_nat R -> (R <= 192)%nat -> inq c = 8 * N.of_nat k -> squeezing c = false ->
  p <> [] -> q <> [] -> (k + length p < R)%nat -> (k + length q < R)%nat -> (k + length p + length q)%nat <> R ->
  let Q1 := firstn k (queue c) ++ p ++ skipn (k + length p) (queue c) in
  gt_run keccak_updater (gt_start keccak_updater [c] [(0%nat, p :: rs); (0%nat, [q])]) (concat (repeat [0; 1]%nat 8)) =
  Ret ([kset c (kst c) (firstn k Q1 ++ q ++ skipn (k + length q) Q1) (8 * N.of_nat (k + length p + length q))], [mkGT 0 rs None; mkGT 0 [] None]).
Proof.
  intros L Hr HR Hi Sq Np Nq Lp Lq Ne Q1. assert (L1 : length Q1 = 192%nat) by (unfold Q1; rewrite !app_length, firstn_length, skipn_length; lia).
  cbn [repeat concat app]. unfold gt_start. cbn [map fst snd gt_run]. unfold gt_next, gt_step.
  Ltac on := cbn [nth_error gt_obj gt_at gt_todo bind putg firstn skipn app u_begin u_step keccak_updater].
  on. rewrite (keccak_begin c k p Hi Sq). on. rewrite (keccak_begin c k q Hi Sq). on.
  rewrite (keccak_partial c R k p Hr Hi HR Np Lp). on. rewrite (keccak_partial c R k q Hr Hi HR Nq Lq). on.
  rewrite (keccak_copy c k p _ Hi eq_refl) by lia. on. fold Q1. set (c1 := kset c (kst c) Q1 (inq c)). rewrite (keccak_copy c1 k q _ Hi eq_refl) by (cbn [c1 kset queue]; lia). on.
  change (queue c1) with Q1. set (Q2 := firstn k Q1 ++ q ++ skipn (k + length q) Q1). set (c1' := kset c1 _ _ _). assert (I1 : inq c1' = inq c) by reflexivity.
  rewrite (keccak_add c1') by lia. on. set (c2 := kset c1' _ _ _). assert (I2 : inq c2 = inq c + 8 * N.of_nat (length p)) by reflexivity.
  rewrite (keccak_add c2) by lia. on. set (c3 := kset c2 _ _ _). assert (I3 : inq c3 = inq c + 8 * N.of_nat (length p) + 8 * N.of_nat (length q)) by reflexivity. assert (R3 : rate c3 = rate c) by reflexivity.
  rewrite (keccak_full c3) by lia. on. rewrite (keccak_full c3) by lia. on. rewrite keccak_nobyte. on. rewrite keccak_nobyte. on.
  rewrite (keccak_end c3 p) by (try reflexivity; lia). on. rewrite (keccak_end c3 q) by (try reflexivity; lia). on.
  assert (E : c3 = kset c (kst c) Q2 (8 * N.of_nat (k + length p + length q))); [|rewrite E; reflexivity].
  unfold c3, c2, c1', c1, kset; cbn [kst queue rate inq outlen nr squeezing squeezable ap aplen apadded]. f_equal. lia.
Qed.
(** C87, violation: two calls of the same length: the first call's data is lost, and the object is as if it had been fed the second call's
    data followed by what the queue held there before. *)
Theorem C87_keccak_lost_data_refuted : forall c R k p q, length (queue c) = 192%nat -> rate c = 8 * N.of_nat R -> (R <= 192)%nat -> inq c = 8 * N.of_nat k -> squeezing c = false ->
  length p = length q -> p <> [] -> (k + length p + length q < R)%nat ->
  exists sched c' ts', gt_run keccak_updater (gt_start keccak_updater [c] [(0%nat, [p]); (0%nat, [q])]) sched = Ret ([c'], ts') /\ Forall gt_finished ts' /\
    keccak_update c (q ++ firstn (length p) (skipn (k + length q) (queue c))) = Ret c'.
Proof.
  intros c R k p q L Hr HR Hi Sq Lpq Np Lt. assert (Hp : (0 < length p)%nat) by (destruct p; [congruence|cbn; lia]).
  assert (Nq : q <> []) by (intros ->; cbn in Lpq; lia).
  eexists; eexists; eexists; split; [apply (keccak_both c R k p q [] L Hr HR Hi Sq Np Nq); lia|]. split; [repeat constructor|].
  set (n := length q) in *. rewrite Lpq in *. set (st := firstn n (skipn (k + n) (queue c))). assert (Ls : length st = n) by (unfold st; rewrite firstn_length, skipn_length; lia).
  set (w := q ++ st). assert (Lw : length w = (n + n)%nat) by (unfold w; rewrite app_length; fold n; lia).
  unfold keccak_update, keccak_absorb. rewrite Sq, Hi. replace ((8 * N.of_nat k) mod 8) with 0 by (rewrite N.mul_comm, N.mod_mul by discriminate; reflexivity). cbn [N.eqb negb orb].
  rewrite Lw, (u64_small (8 * _)) by lia. set (bl := 8 * N.of_nat (n + n)). cbn [absorb_loop].
  destruct (N.leb_spec bl 0) as [H|_]; [lia|]. replace (rate c <=? bl) with false by (symmetry; apply N.leb_gt; lia). rewrite andb_false_r. cbn [andb].
  rewrite N.sub_0_r, (u32_small bl), (u32_small (bl + inq c)) by lia. replace (rate c <? bl + inq c) with false by (symmetry; apply N.ltb_ge; lia).
  replace (bl mod 8) with 0 by (unfold bl; rewrite N.mul_comm, N.mod_mul by discriminate; reflexivity). rewrite N.sub_0_r. change (N.to_nat (0 / 8)) with 0%nat. cbn [skipn].
  replace (bl / 8) with (N.of_nat (n + n)) by (unfold bl; rewrite N.mul_comm, N.div_mul by discriminate; reflexivity). rewrite Nat2N.id. unfold grab. rewrite Lw, Nat.ltb_irrefl, firstn_all2 by lia.
  cbn [bind]. rewrite Hi. replace (8 * N.of_nat k / 8) with (N.of_nat k) by (rewrite N.mul_comm, N.div_mul by discriminate; reflexivity). rewrite Nat2N.id, blit_ok by lia. cbn [bind].
  rewrite (u32_small (8 * N.of_nat k + bl)) by lia. cbn [kset inq rate]. destruct (N.eqb_spec (8 * N.of_nat k + bl) (rate c)) as [H|_]; [lia|]. cbn [bind N.eqb].
  destruct (n + n)%nat as [|m] eqn:En; [lia|]. cbn [absorb_loop]. rewrite N.add_0_l, N.leb_refl. rewrite <- En in *.
  assert (EQ : firstn k (queue c) ++ w ++ skipn (k + length w) (queue c) =
    firstn k (firstn k (queue c) ++ p ++ skipn (k + n) (queue c)) ++ q ++ skipn (k + n) (firstn k (queue c) ++ p ++ skipn (k + n) (queue c))).
  { rewrite firstn_app, firstn_firstn, Nat.min_id, firstn_length, Nat.min_l by lia. rewrite Nat.sub_diag. cbn [firstn]. rewrite app_nil_r. unfold w. rewrite <- app_assoc. f_equal. f_equal.
    rewrite skipn_app, firstn_length, Nat.min_l by lia. rewrite (skipn_all2 (firstn k (queue c))) by (rewrite firstn_length; lia). replace (k + n - k)%nat with n by lia.
    rewrite (skipn_app n p), Lpq, Nat.sub_diag. rewrite (skipn_all2 p) by lia. cbn [skipn app]. rewrite app_length. fold n. rewrite Ls.
    unfold st. rewrite <- (firstn_skipn n (skipn (k + n) (queue c))) at 2. f_equal. rewrite skipn_skipn'. f_equal. lia. }
  rewrite EQ. replace (8 * N.of_nat k + bl) with (8 * N.of_nat (k + n + n)) by (unfold bl; lia). reflexivity.
Qed.
(** C87, violation: two calls that do not fill the queue one by one but would together: under some schedule both return, the count of the
    bytes in the queue is beyond its end, and the next call, of whichever thread, reads outside its input. *)
Theorem C87_keccak_out_of_bounds_refuted : forall c R k p q r, length (queue c) = 192%nat -> rate c = 8 * N.of_nat R -> (R <= 192)%nat -> inq c = 8 * N.of_nat k -> squeezing c = false ->
  p <> [] -> q <> [] -> (k + length p < R)%nat -> (k + length q < R)%nat -> (R < k + length p + length q)%nat -> r <> [] -> N.of_nat (length r) < 2 ^ 28 ->
  exists sched, gt_run keccak_updater (gt_start keccak_updater [c] [(0%nat, [p; r]); (0%nat, [q])]) sched = UB OutOfBounds.
Proof.
  intros c R k p q r L Hr HR Hi Sq Np Nq Lp Lq Gt Nr Lr. assert (Hl : (0 < length r)%nat) by (destruct r; [congruence|cbn; lia]).
  exists (concat (repeat [0; 1]%nat 8) ++ [0; 0; 0; 0]%nat).
  assert (RA : forall s1 st s2, gt_run keccak_updater st (s1 ++ s2) = (st <- gt_run keccak_updater st s1 ;; gt_run keccak_updater st s2)).
  { induction s1 as [|x s1 IH]; intros st s2; [reflexivity|]. cbn [app gt_run]. destruct (gt_next keccak_updater st x); cbn [bind]; auto. }
  rewrite RA, (keccak_both c R k p q [r] L Hr HR Hi Sq Np Nq Lp Lq) by lia. cbn [bind].
  set (Q2 := firstn k _ ++ q ++ _). set (c3 := kset c (kst c) Q2 (8 * N.of_nat (k + length p + length q))). clearbody Q2.
  cbn [gt_run]. unfold gt_next, gt_step. on. rewrite (keccak_begin c3 (k + length p + length q) r eq_refl Sq). on.
  cbn [keccak_ustep]. change (inq c3) with (8 * N.of_nat (k + length p + length q)). change (rate c3) with (rate c).
  rewrite (u64_small (8 * N.of_nat (length r))) by lia. destruct (N.leb_spec (8 * N.of_nat (length r)) 0) as [H|_]; [lia|].
  destruct (N.eqb_spec (8 * N.of_nat (k + length p + length q)) 0) as [H|_]; [lia|]. cbn [andb]. rewrite N.sub_0_r, (u32_small (8 * N.of_nat (length r))) by lia.
  rewrite (u32_small (8 * N.of_nat (length r) + _)) by lia. replace (rate c <? 8 * N.of_nat (length r) + 8 * N.of_nat (k + length p + length q)) with true by (symmetry; apply N.ltb_lt; lia).
  set (e := N.of_nat (k + length p + length q) - N.of_nat R). assert (Ee : rate c + 2 ^ 32 - 8 * N.of_nat (k + length p + length q) = (2 ^ 29 - e) * 8).
  { rewrite Hr. change (2 ^ 32) with (2 ^ 29 * 8). unfold e. lia. }
  rewrite Ee, u32_small by (change (2 ^ 32) with (2 ^ 29 * 8); unfold e; lia). rewrite N.mod_mul, N.sub_0_r by discriminate. cbn [bind nth_error gt_obj gt_at gt_todo putg firstn skipn app keccak_ustep].
  change (N.to_nat (0 / 8)) with 0%nat. cbn [skipn]. rewrite N.div_mul by discriminate. unfold grab.
  assert (Lg : N.of_nat (length r) < 2 ^ 29 - e) by (unfold e; change (2 ^ 29) with (2 ^ 28 + 2 ^ 28); lia).
  destruct (Nat.ltb_spec (length r) (N.to_nat (2 ^ 29 - e))) as [_|H]; [reflexivity|]. exfalso. lia.
Qed.
(** C87, violation: a freshly initialised SHA-3 object: the digest is that of the second call's data followed by as many zeros; the first
    call's data does not enter it. *)
Theorem C87_sha3_digest_refuted : forall capacity bits H, In (capacity, bits, H) [(448, 224, SFips202.SHA3_224); (512, 256, SFips202.SHA3_256); (768, 384, SFips202.SHA3_384); (1024, 512, SFips202.SHA3_512)] ->
  forall g p q out, kshape g -> bytes_ok q -> length p = length q -> p <> [] -> 8 * N.of_nat (length p + length q) < 1600 - capacity -> length out = N.to_nat (bits / 8) ->
  exists sched c' ts' c'', gt_run keccak_updater (gt_start keccak_updater [keccak_init capacity bits 2 2 g] [(0%nat, [p]); (0%nat, [q])]) sched = Ret ([c'], ts') /\ Forall gt_finished ts' /\
    keccak_squeeze c' out = Ret (c'', H (q ++ repeat 0 (length p))).
Proof.
  intros capacity bits H Hin g p q out Hg Bq Lpq Np Lt Lo.
  assert (St : streams (sha3_impl capacity bits) keccak_piece (fun _ => True) H /\ exists R, (R <= 192)%nat /\ 1600 - capacity = 8 * N.of_nat R /\
    keccak_init capacity bits 2 2 g = mkK (repeat 0 25) (repeat 0 192) (8 * N.of_nat R) 0 bits 24 false 0 2 2 false).
  { destruct PropKeccak.C25_sha3_fips202 as (S1 & S2 & S3 & S4).
    destruct Hin as [E|[E|[E|[E|[]]]]]; apply pair_equal_spec in E; destruct E as [E <-]; apply pair_equal_spec in E; destruct E as [<- <-]; (split; [assumption|]);
      [exists 144%nat|exists 136%nat|exists 104%nat|exists 72%nat]; repeat split; lia. }
  destruct St as (St & R & HR & Hc & Hi). rewrite Hi. set (c0 := mkK _ _ _ _ _ _ _ _ _ _ _).
  destruct (C87_keccak_lost_data_refuted c0 R 0 p q (repeat_length _ _) eq_refl HR eq_refl eq_refl Lpq Np) as (sched & c' & ts' & Rn & F & U); [lia|].
  replace (firstn (length p) (skipn (0 + length q) (queue c0))) with (repeat 0 (length p)) in U.
  2:{ cbn [plus c0 queue]. replace 192%nat with (length q + (length p + (192 - length q - length p)))%nat by lia. rewrite repeat_app, skipn_app, skipn_all2, repeat_length, Nat.sub_diag by (rewrite repeat_length; lia).
      cbn [skipn app]. rewrite repeat_app, firstn_app, repeat_length, Nat.sub_diag, firstn_all2 by (rewrite repeat_length; lia). cbn [firstn]. rewrite app_nil_r. reflexivity. }
  destruct (St g [q ++ repeat 0 (length p)] out Hg) as (c & c2 & E1 & E2 & _).
  - constructor; [|constructor]. split.
    + apply Forall_app. split; [exact Bq|]. apply Forall_forall. intros x Hx. apply repeat_spec in Hx. subst x. reflexivity.
    + rewrite app_length, repeat_length. lia.
  - exact Logic.I.
  - cbn [idsz sha3_impl]. rewrite Lo. apply le_n.
  - cbn [updates] in E1. change (iupdate (sha3_impl capacity bits)) with keccak_update in E1. change (iinit (sha3_impl capacity bits) g) with (keccak_init capacity bits 2 2 g) in E1. rewrite Hi in E1. fold c0 in E1.
    rewrite U in E1. cbn [bind] in E1. assert (c = c') as -> by congruence. exists sched, c', ts', c2. split; [exact Rn|]. split; [exact F|]. change (idigest (sha3_impl capacity bits)) with keccak_squeeze in E2. rewrite E2.
    cbn [concat]. rewrite app_nil_r, skipn_all2 by (cbn [idsz sha3_impl]; rewrite Lo; apply le_n). rewrite app_nil_r. reflexivity.
Qed.

(** ** Non-vacuity *)
Definition old_md5 : md5_ctx := md5_init (mkMd5 [] 0 (repeat 7 64)).
Example md5_hyps : length (mblock old_md5) = 64%nat /\ bytes_ok (repeat 7 64) /\ N.to_nat (block_len old_md5 mod 64) = 0%nat.
Proof. split; [reflexivity|]. split; [|reflexivity]. apply Forall_forall. intros x Hx. apply repeat_spec in Hx. subst x. reflexivity. Qed.
(** "ab" and "cd" into one fresh object: it holds "cd" and two bytes of before, and counts four *)
Example md5_case : omap (fun st => map (fun c => (firstn 5 (mblock c), block_len c)) (fst st))
  (gt_run (md5_updater None) (gt_start (md5_updater None) [old_md5] [(0%nat, [chars "ab"]); (0%nat, [chars "cd"])]) [0; 1; 0; 1; 0; 1; 0; 1; 0; 1]%nat) = Ret [(chars "cd" ++ [7; 7; 7], 4)].
Proof. vm_compute. reflexivity. Qed.
(** two objects: each has its own data *)
Example md5_separate_case : omap (fun st => map (fun c => (firstn 3 (mblock c), block_len c)) (fst st))
  (gt_run (md5_updater None) (gt_start (md5_updater None) [old_md5; old_md5] [(0%nat, [chars "ab"; chars "x"]); (1%nat, [chars "cd"])]) (concat (repeat [0; 1]%nat 10))) =
  Ret [(chars "abx", 3); (chars "cd" ++ [7], 2)].
Proof. vm_compute. reflexivity. Qed.
Definition old_k : kctx := mkK (repeat 1 25) (repeat 2 192) 3 4 5 6 true 7 8 9 true.
Example keccak_hyps : kshape old_k /\ let c := keccak_init 512 256 2 2 old_k in
  length (queue c) = 192%nat /\ rate c = 8 * N.of_nat 136 /\ inq c = 8 * N.of_nat 0 /\ squeezing c = false /\ (0 + length (repeat 5 100) < 136 < 0 + length (repeat 5 100) + length (repeat 6 100))%nat.
Proof. split; [split; reflexivity|]. cbv zeta. repeat split; try reflexivity; cbn; lia. Qed.
(** after two calls of 100 bytes the object counts 200 bytes in a queue of 136 *)
Example keccak_case : omap (fun st => map inq (fst st)) (gt_run keccak_updater (gt_start keccak_updater [keccak_init 512 256 2 2 old_k] [(0%nat, [repeat 5 100; chars "abc"]); (0%nat, [repeat 6 100])])
  (concat (repeat [0; 1]%nat 8))) = Ret [1600].
Proof. vm_compute. reflexivity. Qed.

Print Assumptions C87_md5_separate_objects.
Print Assumptions C87_keccak_separate_objects.
Print Assumptions C87_md5_one_call_at_a_time.
Print Assumptions C87_keccak_one_call_at_a_time.
Print Assumptions C87_md5_in_bounds.
Print Assumptions C87_md5_lost_data_refuted.
Print Assumptions C87_md5_digest_refuted.
Print Assumptions C87_keccak_lost_data_refuted.
Print Assumptions C87_keccak_out_of_bounds_refuted.
Print Assumptions C87_sha3_digest_refuted.
