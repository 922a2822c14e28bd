(** Property theorems C75: how long the pointer returned by HashEncoder::get_digest can be used. *)
From Coq Require Import String.
From Verif Require Import Base SHex MFront MHmac SHash MHashEnc SHashEnc PHashEnc PHashEnc2 PropHashEnc PropPoly MLife SLife.
Local Open Scope N_scope.

(** ** The invariant: every live SequentialData belongs to exactly one object *)
Definition upd {A} (l : list A) i x := firstn i l ++ x :: skipn (S i) l.
Lemma nth_upd' {A} (l : list A) i x j : (i < length l)%nat -> nth_error (upd l i x) j = if Nat.eqb j i then Some x else nth_error l j.
Proof. apply nth_upd. Qed.
Record own (s : life) : Prop := mkOwn {
  ow_len : length (l_out s) = length (s_objs (l_he s));
  ow_dead : forall i, obj_of (l_he s) i = None -> out_of s i = None;
  ow_live : forall i p, out_of s i = Some p -> exists d, nth_error (l_sd s) p = Some (Some d);
  ow_inj : forall i j p, out_of s i = Some p -> out_of s j = Some p -> i = j;
  ow_owned : forall p d, nth_error (l_sd s) p = Some (Some d) -> exists i, out_of s i = Some p }.
Lemma own_start : own life_start.
Proof.
  split; cbn.
  - reflexivity.
  - intros i _. unfold out_of. cbn. destruct i; reflexivity.
  - intros i p E. unfold out_of in E. cbn in E. destruct i; discriminate.
  - intros i j p E. unfold out_of in E. cbn in E. destruct i; discriminate.
  - intros p d E. destruct p; discriminate.
Qed.
(** a call does not turn other objects' existence *)
Lemma objs_step garbage s o h : he_step garbage s o = Ret h ->
  match o with
  | OpNew _ _ _ => length (s_objs h) = S (length (s_objs s)) /\ forall j, (j < length (s_objs s))%nat -> obj_of h j = obj_of s j
  | OpDestroy i => length (s_objs h) = length (s_objs s) /\ obj_of h i = None /\ forall j, j <> i -> obj_of h j = obj_of s j
  | _ => length (s_objs h) = length (s_objs s) /\ forall j, obj_of h j = None <-> obj_of s j = None
  end.
Proof.
  intros E.
  assert (P : forall i e e' hp r, obj_of s i = Some e -> length (put (s_objs s) i (Some e')) = length (s_objs s) /\
     forall j, obj_of (mkHS hp (put (s_objs s) i (Some e')) r) j = None <-> obj_of s j = None).
  { intros i e e' hp r Eo. pose proof (obj_lt _ _ _ Eo) as L. split; [apply put_length; exact L|]. intros j. unfold obj_of at 1. cbn [s_objs].
    rewrite put_nth by exact L. destruct (Nat.eqb_spec j i) as [->|Hn]; [rewrite Eo; split; discriminate|reflexivity]. }
  destruct o as [a r al|i al|i d|i m|i bl junk|i]; cbn [he_step] in E.
  - destruct (he_new _ r a al) as [[[h1 e1] ok]| |]; [|discriminate|discriminate]. injection E as <-. cbn [s_objs]. rewrite app_length. cbn [length]. split; [lia|].
    intros j Hj. unfold obj_of. cbn [s_objs]. rewrite nth_error_app1 by exact Hj. reflexivity.
  - destruct (obj_of s i) eqn:Eo; [|injection E as <-; split; [reflexivity|intros; reflexivity]]. destruct (he_reset _ _ _) as [[[h1 e1] ok]| |]; [|discriminate|discriminate].
    injection E as <-. apply (P i h0 e1 h1 (s_res s) Eo).
  - destruct (obj_of s i) eqn:Eo; [|injection E as <-; split; [reflexivity|intros; reflexivity]]. destruct (he_feed _ _ _ _); [|discriminate|discriminate]. injection E as <-. split; [reflexivity|intros; reflexivity].
  - destruct (obj_of s i) eqn:Eo; [|injection E as <-; split; [reflexivity|intros; reflexivity]]. destruct (he_feed_cstr _ _ _ _); [|discriminate|discriminate]. injection E as <-. split; [reflexivity|intros; reflexivity].
  - destruct (obj_of s i) eqn:Eo; [|injection E as <-; split; [reflexivity|intros; reflexivity]]. destruct (get_digest _ _ _ _ _) as [[[h1 e1] d1]| |]; [|discriminate|discriminate].
    injection E as <-. apply (P i h0 e1 h1 (d1 :: s_res s) Eo).
  - destruct (obj_of s i) eqn:Eo; [|injection E as <-; split; [reflexivity|split; [exact Eo|intros; reflexivity]]]. destruct (he_delete _ _) as [h1| |]; [|discriminate|discriminate]. injection E as <-.
    pose proof (obj_lt _ _ _ Eo) as L. cbn [s_objs]. split; [apply put_length; exact L|]. split.
    + unfold obj_of. cbn [s_objs]. rewrite put_nth by exact L. rewrite Nat.eqb_refl. reflexivity.
    + intros j Hj. unfold obj_of. cbn [s_objs]. rewrite put_nth by exact L. destruct (Nat.eqb_spec j i) as [->|_]; [contradiction|reflexivity].
Qed.
Lemma out_set h sd l r i o j : (i < length l)%nat -> out_of (mkLife h sd (set_out l i o) r) j = if Nat.eqb j i then o else match nth_error l j with Some x => x | None => None end.
Proof. intros L. unfold out_of. cbn [l_out]. change (set_out l i o) with (upd l i o). rewrite nth_upd' by exact L. destruct (Nat.eqb j i); reflexivity. Qed.
Lemma digest_some garbage s i bl junk h e : he_step garbage s (OpDigest i bl junk) = Ret h -> obj_of s i = Some e -> exists d, s_res h = d :: s_res s.
Proof.
  intros E Eo. cbn [he_step] in E. rewrite Eo in E. destruct (get_digest _ _ _ _ _) as [[[h1 e1] d1]| |]; [|discriminate|discriminate]. injection E as <-. exists d1. reflexivity.
Qed.

(** what a call does to the returned data *)
Lemma step_own garbage s o h : own s -> he_step garbage (l_he s) o = Ret h ->
  exists s', life_step garbage s (LCall o) = Ret s' /\ l_he s' = h /\ l_read s' = l_read s /\ own s' /\
    match o with
    | OpDigest i _ _ => (obj_of (l_he s) i = None /\ l_sd s' = l_sd s /\ l_out s' = l_out s) \/
        (exists d, s_res h = d :: s_res (l_he s) /\ length (l_sd s') = S (length (l_sd s)) /\
         out_of s' i = Some (length (l_sd s)) /\ nth_error (l_sd s') (length (l_sd s)) = Some (Some d) /\
         (forall j, j <> i -> out_of s' j = out_of s j) /\
         (forall p, (p < length (l_sd s))%nat -> out_of s i <> Some p -> nth_error (l_sd s') p = nth_error (l_sd s) p) /\
         (forall p, out_of s i = Some p -> nth_error (l_sd s') p = Some None))
    | OpDestroy i => (obj_of (l_he s) i = None /\ l_sd s' = l_sd s /\ l_out s' = l_out s) \/
        (length (l_sd s') = length (l_sd s) /\ out_of s' i = None /\ (forall j, j <> i -> out_of s' j = out_of s j) /\
         (forall p, out_of s i <> Some p -> nth_error (l_sd s') p = nth_error (l_sd s) p) /\
         (forall p, out_of s i = Some p -> nth_error (l_sd s') p = Some None))
    | _ => l_sd s' = l_sd s /\ forall j, out_of s' j = out_of s j
    end.
Proof.
  intros [OL OD OV OI OO] E. pose proof (objs_step _ _ _ _ E) as Q.
  assert (SAME : length (s_objs h) = length (s_objs (l_he s)) -> (forall j, obj_of h j = None -> obj_of (l_he s) j = None) -> own (mkLife h (l_sd s) (l_out s) (l_read s))).
  { intros Q1 Q2. split; cbn [l_out l_he l_sd].
    - congruence.
    - intros i Hi. apply (OD i (Q2 i Hi)).
    - exact OV. - exact OI. - exact OO. }
  destruct o as [a r al|i al|i d|i m|i bl junk|i]; cbn [life_step]; rewrite E; cbn [bind].
  - destruct Q as [Q1 Q2]. eexists. split; [reflexivity|]. split; [reflexivity|]. split; [reflexivity|].
    assert (X : forall j, out_of (mkLife h (l_sd s) (l_out s ++ [None]) (l_read s)) j = out_of s j).
    { intros j. unfold out_of. cbn [l_out]. destruct (Nat.lt_ge_cases j (length (l_out s))) as [L|L]; [rewrite nth_error_app1 by exact L; reflexivity|].
      rewrite nth_error_app2 by exact L. rewrite (proj2 (nth_error_None (l_out s) j)) by lia. destruct (j - length (l_out s))%nat as [|k]; [reflexivity|]. destruct k; reflexivity. }
    split; [|split; [reflexivity|exact X]].
    split; cbn [l_out l_he l_sd].
    + rewrite app_length. cbn [length]. lia.
    + intros j Hj. rewrite X. destruct (Nat.lt_ge_cases j (length (s_objs (l_he s)))) as [L|L]; [apply OD; rewrite <- (Q2 j L); exact Hj|].
      apply OD. unfold obj_of. rewrite (proj2 (nth_error_None (s_objs (l_he s)) j)) by lia. reflexivity.
    + intros j p. rewrite X. apply OV.
    + intros j k p. rewrite !X. apply OI.
    + intros p d Hp. destruct (OO p d Hp) as [j Hj]. exists j. rewrite X. exact Hj.
  - destruct Q as [Q1 Q2]. eexists. split; [reflexivity|]. split; [reflexivity|]. split; [reflexivity|]. split; [apply SAME; [exact Q1|intros j; apply Q2]|split; reflexivity].
  - destruct Q as [Q1 Q2]. eexists. split; [reflexivity|]. split; [reflexivity|]. split; [reflexivity|]. split; [apply SAME; [exact Q1|intros j; apply Q2]|split; reflexivity].
  - destruct Q as [Q1 Q2]. eexists. split; [reflexivity|]. split; [reflexivity|]. split; [reflexivity|]. split; [apply SAME; [exact Q1|intros j; apply Q2]|split; reflexivity].
  - destruct Q as [Q1 Q2]. destruct (obj_of (l_he s) i) as [e|] eqn:Eo.
    2:{ eexists. split; [reflexivity|]. split; [reflexivity|]. split; [reflexivity|]. split; [apply SAME; [exact Q1|intros j; apply Q2]|left; auto]. }
    destruct (digest_some _ _ _ _ _ _ _ E Eo) as [d Ed]. rewrite Ed.
    assert (Li : (i < length (l_out s))%nat) by (rewrite OL; apply (obj_lt _ _ _ Eo)).
    set (n := length (l_sd s)).
    assert (F : exists sd, sd_free (l_sd s ++ [Some d]) (out_of s i) = Ret sd /\ length sd = S n /\ nth_error sd n = Some (Some d) /\
      (forall p, (p < n)%nat -> out_of s i <> Some p -> nth_error sd p = nth_error (l_sd s) p) /\ (forall p, out_of s i = Some p -> nth_error sd p = Some None)).
    { destruct (out_of s i) as [p|] eqn:Ep.
      - destruct (OV i p Ep) as [x Hx]. assert (Lp : (p < n)%nat) by (apply (nth_lt _ _ _ Hx)).
        cbn [sd_free]. rewrite nth_error_app1 by exact Lp. rewrite Hx. eexists. split; [reflexivity|].
        change (firstn p (l_sd s ++ [Some d]) ++ None :: skipn (S p) (l_sd s ++ [Some d])) with (upd (l_sd s ++ [Some d]) p None).
        assert (Lq : (p < length (l_sd s ++ [Some d]))%nat) by (rewrite app_length; cbn [length]; unfold n in Lp; lia).
        split; [unfold upd; rewrite app_length, firstn_length; cbn [length]; rewrite skipn_length, app_length; cbn [length]; unfold n in *; lia|].
        split; [rewrite nth_upd' by exact Lq; destruct (Nat.eqb_spec n p) as [->|_]; [lia|]; rewrite nth_error_app2 by (unfold n; lia); unfold n; rewrite Nat.sub_diag; reflexivity|].
        split.
        + intros q Lq' Hq. rewrite nth_upd' by exact Lq. destruct (Nat.eqb_spec q p) as [->|_]; [congruence|]. apply nth_error_app1. exact Lq'.
        + intros q [= <-]. rewrite nth_upd' by exact Lq. rewrite Nat.eqb_refl. reflexivity.
      - cbn [sd_free]. eexists. split; [reflexivity|]. split; [rewrite app_length; cbn [length]; unfold n; lia|].
        split; [rewrite nth_error_app2 by (unfold n; lia); unfold n; rewrite Nat.sub_diag; reflexivity|].
        split; [intros q Lq _; apply nth_error_app1; exact Lq|discriminate]. }
    destruct F as (sd & F1 & F2 & F3 & F4 & F5). rewrite F1. cbn [bind]. eexists. split; [reflexivity|]. split; [reflexivity|]. split; [reflexivity|].
    assert (X : forall j, out_of (mkLife h sd (set_out (l_out s) i (Some n)) (l_read s)) j = if Nat.eqb j i then Some n else out_of s j)
      by (intros j; rewrite out_set by exact Li; reflexivity).
    split.
    + split; cbn [l_out l_he l_sd].
      * change (set_out (l_out s) i (Some n)) with (put (map (fun _ => None) (l_out s)) i None) || idtac. unfold set_out. rewrite app_length, firstn_length. cbn [length]. rewrite skipn_length. lia.
      * intros j Hj. rewrite X. destruct (Nat.eqb_spec j i) as [->|_]; [apply Q2 in Hj; congruence|]. apply OD. apply Q2. exact Hj.
      * intros j p. rewrite X. destruct (Nat.eqb_spec j i) as [->|Hn]; [intros [= <-]; exists d; exact F3|]. intros Hj. destruct (OV j p Hj) as [x Hx]. exists x.
        rewrite F4; [exact Hx|apply (nth_lt _ _ _ Hx)|]. intros Hi. apply Hn. apply (OI j i p Hj Hi).
      * intros j k p. rewrite !X.
        assert (B : forall j, out_of s j = Some n -> False) by (intros j' Hj; destruct (OV j' n Hj) as [x Hx]; apply nth_lt in Hx; unfold n in Hx; lia).
        destruct (Nat.eqb_spec j i) as [->|_], (Nat.eqb_spec k i) as [->|_]; [reflexivity| | |apply OI].
        -- intros [= <-] Hk. destruct (B k Hk).
        -- intros Hj [= <-]. destruct (B j Hj).
      * intros p x Hp. assert (Lp : (p < S n)%nat) by (rewrite <- F2; apply (nth_lt _ _ _ Hp)).
        destruct (Nat.eq_dec p n) as [->|Hn]; [exists i; rewrite X, Nat.eqb_refl; reflexivity|].
        assert (Hx : out_of s i <> Some p) by (intros Hi; rewrite (F5 p Hi) in Hp; discriminate).
        rewrite F4 in Hp by (lia || exact Hx). destruct (OO p x Hp) as [j Hj]. exists j. rewrite X. destruct (Nat.eqb_spec j i) as [->|_]; [congruence|exact Hj].
    + right. exists d. split; [reflexivity|]. split; [exact F2|]. split; [rewrite X, Nat.eqb_refl; reflexivity|]. split; [exact F3|].
      split; [intros j Hj; rewrite X; destruct (Nat.eqb_spec j i); [contradiction|reflexivity]|]. split; [exact F4|exact F5].
  - destruct Q as (Q1 & Q2 & Q3). destruct (obj_of (l_he s) i) as [e|] eqn:Eo.
    2:{ eexists. split; [reflexivity|]. split; [reflexivity|]. split; [reflexivity|].
        split; [apply SAME; [exact Q1|intros j Hj; destruct (Nat.eq_dec j i) as [->|Hn]; [exact Eo|rewrite <- (Q3 j Hn); exact Hj]]|left; auto]. }
    assert (Li : (i < length (l_out s))%nat) by (rewrite OL; apply (obj_lt _ _ _ Eo)).
    assert (F : exists sd, sd_free (l_sd s) (out_of s i) = Ret sd /\ length sd = length (l_sd s) /\
      (forall p, out_of s i <> Some p -> nth_error sd p = nth_error (l_sd s) p) /\ (forall p, out_of s i = Some p -> nth_error sd p = Some None)).
    { destruct (out_of s i) as [p|] eqn:Ep.
      - destruct (OV i p Ep) as [x Hx]. assert (Lp : (p < length (l_sd s))%nat) by (apply (nth_lt _ _ _ Hx)).
        cbn [sd_free]. rewrite Hx. eexists. split; [reflexivity|]. change (firstn p (l_sd s) ++ None :: skipn (S p) (l_sd s)) with (upd (l_sd s) p None).
        split; [unfold upd; rewrite app_length, firstn_length; cbn [length]; rewrite skipn_length; lia|].
        split; [intros q Hq|intros q [= <-]]; rewrite nth_upd' by exact Lp.
        + destruct (Nat.eqb_spec q p) as [->|_]; [congruence|reflexivity].
        + rewrite Nat.eqb_refl. reflexivity.
      - cbn [sd_free]. eexists. split; [reflexivity|]. split; [reflexivity|]. split; [reflexivity|discriminate]. }
    destruct F as (sd & F1 & F2 & F4 & F5). rewrite F1. cbn [bind]. eexists. split; [reflexivity|]. split; [reflexivity|]. split; [reflexivity|].
    assert (X : forall j, out_of (mkLife h sd (set_out (l_out s) i None) (l_read s)) j = if Nat.eqb j i then None else out_of s j)
      by (intros j; rewrite out_set by exact Li; reflexivity).
    split.
    + split; cbn [l_out l_he l_sd].
      * unfold set_out. rewrite app_length, firstn_length. cbn [length]. rewrite skipn_length. lia.
      * intros j Hj. rewrite X. destruct (Nat.eqb_spec j i) as [->|Hn]; [reflexivity|]. apply OD. rewrite <- (Q3 j Hn). exact Hj.
      * intros j p. rewrite X. destruct (Nat.eqb_spec j i) as [->|Hn]; [discriminate|]. intros Hj. destruct (OV j p Hj) as [x Hx]. exists x.
        rewrite F4; [exact Hx|]. intros Hi. apply Hn. apply (OI j i p Hj Hi).
      * intros j k p. rewrite !X. destruct (Nat.eqb j i), (Nat.eqb k i); try discriminate. apply OI.
      * intros p x Hp. assert (Hx : out_of s i <> Some p) by (intros Hi; rewrite (F5 p Hi) in Hp; discriminate).
        rewrite F4 in Hp by exact Hx. destruct (OO p x Hp) as [j Hj]. exists j. rewrite X. destruct (Nat.eqb_spec j i) as [->|_]; [congruence|exact Hj].
    + right. split; [exact F2|]. split; [rewrite X, Nat.eqb_refl; reflexivity|].
      split; [intros j Hj; rewrite X; destruct (Nat.eqb_spec j i); [contradiction|reflexivity]|]. split; [exact F4|exact F5].
Qed.
Lemma step_inv garbage s o s' : own s -> life_step garbage s (LCall o) = Ret s' -> exists h, he_step garbage (l_he s) o = Ret h.
Proof. intros _ E. cbn [life_step] in E. destruct (he_step garbage (l_he s) o) as [h| |]; [exists h; reflexivity|discriminate|discriminate]. Qed.
Lemma step_keep garbage s op s' : own s -> life_step garbage s op = Ret s' -> own s'.
Proof.
  intros O E. destruct op as [o|p].
  - destruct (step_inv _ _ _ _ O E) as [h Eh]. destruct (step_own _ _ _ _ O Eh) as (s2 & E2 & _ & _ & O2 & _). congruence.
  - cbn [life_step] in E. destruct (nth_error (l_sd s) p) as [[d|]|]; [|discriminate|]; injection E as <-; [|exact O]. destruct O. split; assumption.
Qed.
Lemma run_keep garbage ops : forall s s', own s -> life_run garbage s ops = Ret s' -> own s'.
Proof.
  induction ops as [|o ops IH]; intros s s' O E; cbn [life_run] in E; [injection E as <-; exact O|].
  destruct (life_step garbage s o) as [s1| |] eqn:E1; [|discriminate|discriminate]. apply (IH s1); [apply (step_keep _ _ _ _ O E1)|exact E].
Qed.
(** a freed SequentialData stays freed; one that its object still owns stays as it is until that object's next get_digest or its end *)
Lemma freed_stays garbage op s s' p : own s -> life_step garbage s op = Ret s' -> nth_error (l_sd s) p = Some None -> nth_error (l_sd s') p = Some None.
Proof.
  intros O E Hp. assert (Lp := nth_lt _ _ _ Hp).
  assert (NO : forall i, out_of s i <> Some p) by (intros i Hi; destruct (ow_live s O i p Hi) as [d Hd]; congruence).
  destruct op as [o|q].
  - destruct (step_inv _ _ _ _ O E) as [h Eh]. destruct (step_own _ _ _ _ O Eh) as (s2 & E2 & _ & _ & _ & C). assert (s2 = s') by congruence. subst s2.
    destruct o as [a r al|i al|i d|i m|i bl junk|i]; try (destruct C as [C _]; rewrite C; exact Hp).
    + destruct C as [(_ & C & _)|(d & _ & _ & _ & _ & _ & C & _)]; [rewrite C; exact Hp|]. rewrite C; [exact Hp|exact Lp|apply NO].
    + destruct C as [(_ & C & _)|(_ & _ & _ & C & _)]; [rewrite C; exact Hp|]. rewrite C; [exact Hp|apply NO].
  - cbn [life_step] in E. destruct (nth_error (l_sd s) q) as [[d|]|]; [|discriminate|]; injection E as <-; exact Hp.
Qed.
Lemma freed_run garbage ops : forall s s' p, own s -> life_run garbage s ops = Ret s' -> nth_error (l_sd s) p = Some None -> nth_error (l_sd s') p = Some None.
Proof.
  induction ops as [|o ops IH]; intros s s' p O E Hp; cbn [life_run] in E; [injection E as <-; exact Hp|].
  destruct (life_step garbage s o) as [s1| |] eqn:E1; [|discriminate|discriminate].
  apply (IH s1); [apply (step_keep _ _ _ _ O E1)|exact E|apply (freed_stays _ _ _ _ _ O E1 Hp)].
Qed.
Lemma owned_stays garbage op s s' i p d : own s -> life_step garbage s op = Ret s' -> ~ ends i op -> out_of s i = Some p -> nth_error (l_sd s) p = Some (Some d) ->
  out_of s' i = Some p /\ nth_error (l_sd s') p = Some (Some d).
Proof.
  intros O E NE Hi Hp. assert (Lp := nth_lt _ _ _ Hp). destruct op as [o|q].
  - destruct (step_inv _ _ _ _ O E) as [h Eh]. destruct (step_own _ _ _ _ O Eh) as (s2 & E2 & _ & _ & _ & C). assert (s2 = s') by congruence. subst s2.
    destruct o as [a r al|j al|j x|j m|j bl junk|j]; try (destruct C as [C1 C2]; rewrite C1, C2; split; assumption).
    + cbn [ends] in NE. destruct C as [(_ & C1 & C2)|(x & _ & _ & _ & _ & C1 & C2 & _)]; [unfold out_of; rewrite C1, C2; split; assumption|].
      rewrite C1 by congruence. rewrite C2; [split; assumption|exact Lp|]. intros Hj. apply NE. apply (ow_inj s O j i p Hj Hi).
    + cbn [ends] in NE. destruct C as [(_ & C1 & C2)|(_ & _ & C1 & C2 & _)]; [unfold out_of; rewrite C1, C2; split; assumption|].
      rewrite C1 by congruence. rewrite C2; [split; assumption|]. intros Hj. apply NE. apply (ow_inj s O j i p Hj Hi).
  - cbn [life_step] in E. destruct (nth_error (l_sd s) q) as [[x|]|]; [|discriminate|]; injection E as <-; split; assumption.
Qed.
Lemma owned_run garbage ops : forall s s' i p d, own s -> life_run garbage s ops = Ret s' -> Forall (fun op => ~ ends i op) ops -> out_of s i = Some p ->
  nth_error (l_sd s) p = Some (Some d) -> out_of s' i = Some p /\ nth_error (l_sd s') p = Some (Some d).
Proof.
  induction ops as [|o ops IH]; intros s s' i p d O E NE Hi Hp; cbn [life_run] in E; [injection E as <-; split; assumption|].
  destruct (life_step garbage s o) as [s1| |] eqn:E1; [|discriminate|discriminate]. inversion_clear NE.
  destruct (owned_stays _ _ _ _ _ _ _ O E1 H Hi Hp) as [A B]. apply (IH s1 s' i p d); [apply (step_keep _ _ _ _ O E1)|exact E|assumption|exact A|exact B].
Qed.
Lemma end_frees garbage op s s' i p : own s -> life_step garbage s op = Ret s' -> ends i op -> out_of s i = Some p -> nth_error (l_sd s') p = Some None.
Proof.
  intros O E EN Hi. destruct op as [o|q]; [|contradiction]. destruct (step_inv _ _ _ _ O E) as [h Eh]. destruct (step_own _ _ _ _ O Eh) as (s2 & E2 & _ & _ & _ & C).
  assert (s2 = s') by congruence. subst s2. assert (NN : obj_of (l_he s) i <> None) by (intros N; rewrite (ow_dead s O i N) in Hi; discriminate).
  destruct o as [a r al|j al|j x|j m|j bl junk|j]; cbn [ends] in EN; try contradiction; subst j.
  - destruct C as [(N & _)|(x & _ & _ & _ & _ & _ & _ & C)]; [contradiction|apply C; exact Hi].
  - destruct C as [(N & _)|(_ & _ & _ & _ & C)]; [contradiction|apply C; exact Hi].
Qed.

(** ** C75 *)
(** Whatever happened before, and whatever is done afterwards with this and other encoders, short of another get_digest on this one or its
    destruction: through the pointer that get_digest returned (it is the one of number [length (l_sd s)]) the digest can be read. *)
Theorem C75_valid : forall garbage ops s i bl junk s1 ops2 s2,
  life_run garbage life_start ops = Ret s -> obj_of (l_he s) i <> None ->
  life_step garbage s (LCall (OpDigest i bl junk)) = Ret s1 ->
  life_run garbage s1 ops2 = Ret s2 -> Forall (fun op => ~ ends i op) ops2 ->
  exists d s3, s_res (l_he s1) = d :: s_res (l_he s) /\
    life_step garbage s2 (LRead (length (l_sd s))) = Ret s3 /\ l_read s3 = d :: l_read s2.
Proof.
  intros garbage ops s i bl junk s1 ops2 s2 E No E1 E2 NE. assert (O := run_keep _ _ _ _ own_start E). assert (O1 := step_keep _ _ _ _ O E1).
  destruct (step_inv _ _ _ _ O E1) as [h Eh]. destruct (step_own _ _ _ _ O Eh) as (x & Ex & Eh1 & _ & _ & C). assert (x = s1) by congruence. subst x.
  destruct C as [(N & _)|(d & C1 & _ & C3 & C4 & _)]; [contradiction|].
  destruct (owned_run _ _ _ _ _ _ _ O1 E2 NE C3 C4) as [_ R]. exists d. eexists. split; [rewrite Eh1; exact C1|].
  cbn [life_step]. rewrite R. split; reflexivity.
Qed.
Print Assumptions C75_valid.
(** Once get_digest was called again on the encoder, or it was destroyed, reading through the old pointer uses freed memory. *)
Theorem C75_dangling : forall garbage ops s i bl junk s1 ops2 op ops3 s2,
  life_run garbage life_start ops = Ret s -> obj_of (l_he s) i <> None ->
  life_step garbage s (LCall (OpDigest i bl junk)) = Ret s1 ->
  life_run garbage s1 (ops2 ++ op :: ops3) = Ret s2 -> ends i op ->
  life_step garbage s2 (LRead (length (l_sd s))) = UB DoubleFree.
Proof.
  intros garbage ops s i bl junk s1 ops2 op ops3 s2 E No E1 E2 EN. assert (O := run_keep _ _ _ _ own_start E). assert (O1 := step_keep _ _ _ _ O E1).
  destruct (step_inv _ _ _ _ O E1) as [h Eh]. destruct (step_own _ _ _ _ O Eh) as (x & Ex & Eh1 & _ & _ & C). assert (x = s1) by congruence. subst x.
  destruct C as [(N & _)|(d & _ & _ & C3 & C4 & _)]; [contradiction|].
  assert (D : forall ops2 s1, own s1 -> (out_of s1 i = Some (length (l_sd s)) /\ nth_error (l_sd s1) (length (l_sd s)) = Some (Some d)) \/ nth_error (l_sd s1) (length (l_sd s)) = Some None ->
    life_run garbage s1 (ops2 ++ op :: ops3) = Ret s2 -> nth_error (l_sd s2) (length (l_sd s)) = Some None).
  { clear E2 C3 C4 O1 E1 Eh Ex Eh1. intros l. induction l as [|o l IH]; intros t Ot H Er; cbn [app life_run] in Er.
    - destruct (life_step garbage t op) as [t1| |] eqn:Et; [|discriminate|discriminate]. cbn [bind] in Er.
      apply (freed_run garbage ops3 t1 s2 _ (step_keep _ _ _ _ Ot Et) Er). destruct H as [[H _]|H]; [apply (end_frees _ _ _ _ _ _ Ot Et EN H)|apply (freed_stays _ _ _ _ _ Ot Et H)].
    - destruct (life_step garbage t o) as [t1| |] eqn:Et; [|discriminate|discriminate]. cbn [bind] in Er. apply (IH t1 (step_keep _ _ _ _ Ot Et)); [|exact Er].
      destruct H as [[H1 H2]|H]; [|right; apply (freed_stays _ _ _ _ _ Ot Et H)].
      assert (DD : ends i o \/ ~ ends i o) by (destruct o as [[]|]; cbn [ends]; try (right; intros []; fail); apply Nat.eq_decidable).
      destruct DD as [DD|DD]; [right; apply (end_frees _ _ _ _ _ _ Ot Et DD H1)|left; apply (owned_stays _ _ _ _ _ _ _ Ot Et DD H1 H2)]. }
  cbn [life_step]. rewrite (D ops2 s1 O1 (or_introl (conj C3 C4)) E2). reflexivity.
Qed.
Print Assumptions C75_dangling.
(** The library itself never frees a digest twice: a call goes wrong only where it does so for the contexts (C54). *)
Theorem C75_calls : forall garbage ops s o, life_run garbage life_start ops = Ret s ->
  omap l_he (life_step garbage s (LCall o)) = he_step garbage (l_he s) o.
Proof.
  intros garbage ops s o E. assert (O := run_keep _ _ _ _ own_start E). destruct (he_step garbage (l_he s) o) as [h| |] eqn:Eh.
  - destruct (step_own _ _ _ _ O Eh) as (s' & E1 & E2 & _). rewrite E1. cbn [omap bind]. rewrite E2. reflexivity.
  - cbn [life_step]. rewrite Eh. reflexivity.
  - cbn [life_step]. rewrite Eh. reflexivity.
Qed.
Print Assumptions C75_calls.
(** so that a program which does not read through a pointer of that kind ends as the calls alone say *)
Theorem C75_whole_program : forall garbage ops s, life_run garbage life_start ops = Ret s -> he_run garbage he_start (calls_of ops) = Ret (l_he s).
Proof.
  intros garbage ops. change he_start with (l_he life_start). generalize life_start. induction ops as [|o ops IH]; intros s0 s E; cbn [life_run] in E; [injection E as <-; reflexivity|].
  destruct (life_step garbage s0 o) as [s1| |] eqn:E1; [|discriminate|discriminate]. cbn [bind] in E. specialize (IH _ _ E). destruct o as [o|p]; cbn [calls_of].
  - cbn [he_run]. assert (X : he_step garbage (l_he s0) o = Ret (l_he s1)).
    { cbn [life_step] in E1. destruct (he_step garbage (l_he s0) o) as [h| |]; [|discriminate|discriminate]. cbn [bind] in E1.
      destruct o; try (injection E1 as <-; reflexivity).
      - destruct (obj_of (l_he s0) i), (s_res h); try (injection E1 as <-; reflexivity). destruct (sd_free _ _); [|discriminate|discriminate]. injection E1 as <-; reflexivity.
      - destruct (obj_of (l_he s0) i); [|injection E1 as <-; reflexivity]. destruct (sd_free _ _); [|discriminate|discriminate]. injection E1 as <-; reflexivity. }
    rewrite X. exact IH.
  - assert (X : l_he s1 = l_he s0) by (cbn [life_step] in E1; destruct (nth_error (l_sd s0) p) as [[d|]|]; [|discriminate|]; injection E1 as <-; reflexivity).
    rewrite <- X. exact IH.
Qed.
Print Assumptions C75_whole_program.
Definition there {A} (x : option A) : bool := match x with Some _ => true | None => false end.
Definition live_at {A} (l : list (option A)) (p : nat) : bool := match nth_error l p with Some (Some _) => true | _ => false end.
Lemma live_count {A} (l : list (option A)) : length (filter there l) = length (filter (live_at l) (seq 0 (length l))).
Proof.
  induction l as [|x l IH]; [reflexivity|]. cbn [length seq filter]. change (live_at (x :: l) 0) with (there x). rewrite <- seq_shift.
  assert (X : forall ks, length (filter (live_at (x :: l)) (map S ks)) = length (filter (live_at l) ks)).
  { induction ks as [|k ks IHk]; [reflexivity|]. cbn [map filter]. change (live_at (x :: l) (S k)) with (live_at l k). destruct (live_at l k); cbn [length]; rewrite IHk; reflexivity. }
  destruct (there x); cbn [length]; rewrite X, IH; reflexivity.
Qed.
(** No leak: once no encoder is left, all the digests ever returned have been freed; and at any time at most one per living encoder is not. *)
Theorem C75_no_leak : forall garbage ops s, life_run garbage life_start ops = Ret s ->
  (Forall (fun o => o = None) (s_objs (l_he s)) -> Forall (fun x => x = None) (l_sd s)) /\
  (length (filter there (l_sd s)) <=
   length (filter there (s_objs (l_he s))))%nat.
Proof.
  intros garbage ops s E. assert (O := run_keep _ _ _ _ own_start E). split.
  - intros H. apply Forall_forall. intros [d|] Hin; [|reflexivity]. apply In_nth_error in Hin. destruct Hin as [p Hp].
    destruct (ow_owned s O p d Hp) as [i Hi]. rewrite (ow_dead s O i) in Hi; [discriminate|]. unfold obj_of.
    destruct (nth_error (s_objs (l_he s)) i) as [x|] eqn:Ei; [|reflexivity]. rewrite Forall_forall in H. rewrite (H x (nth_error_In _ _ Ei)). reflexivity.
  - rewrite !live_count. set (is := filter (live_at (s_objs (l_he s))) (seq 0 (length (s_objs (l_he s))))).
    set (owned := flat_map (fun i => match out_of s i with Some p => [p] | None => [] end) is).
    apply Nat.le_trans with (length owned).
    + apply NoDup_incl_length; [apply NoDup_filter, seq_NoDup|]. intros p Hp. apply filter_In in Hp. destruct Hp as [_ Hp]. unfold live_at in Hp.
      destruct (nth_error (l_sd s) p) as [[d|]|] eqn:Ep; try discriminate. destruct (ow_owned s O p d Ep) as [i Hi]. apply in_flat_map. exists i. split; [|rewrite Hi; left; reflexivity].
      destruct (obj_of (l_he s) i) as [e|] eqn:Eo; [|rewrite (ow_dead s O i Eo) in Hi; discriminate].
      apply filter_In. split; [apply in_seq; pose proof (obj_lt _ _ _ Eo); lia|]. unfold live_at. unfold obj_of in Eo. destruct (nth_error _ i) as [[x|]|]; try discriminate. reflexivity.
    + unfold owned. induction is as [|i is IH]; [reflexivity|]. cbn [flat_map]. rewrite app_length. destruct (out_of s i); cbn [length]; cbn in IH; lia.
Qed.
Print Assumptions C75_no_leak.


(** ** A case: two encoders; the first one's digest survives the second's, a reset and an update, not the next get_digest *)
Definition life_program : list life_op :=
  [LCall (OpNew A_SHA1 raw0 (Some dirty_memory)); LCall (OpNew A_SHA1 raw0 (Some dirty_memory)); LCall (OpUpdate 0 (chars "abc"));
   LCall (OpDigest 0 160 (fun _ => 6)); LCall (OpReset 0 (Some dirty_memory)); LCall (OpUpdate 1 (chars "abc")); LCall (OpDigest 1 0 (fun _ => 7)); LCall (OpDestroy 1); LRead 0].
Definition sha1_abc : list N := flat_map (SFips180.be_bytes 4) [0xa9993e36; 0x4706816a; 0xba3e2571; 0x7850c26c; 0x9cd0d89d].
Example C75_case : omap (fun s => (l_read s, l_sd s, l_out s)) (life_run None life_start life_program) = Ret ([sha1_abc], [Some sha1_abc; None], [Some 0%nat; None]).
Proof. vm_compute. reflexivity. Qed.
Example C75_case_dangling : life_run None life_start (life_program ++ [LRead 1]) = UB DoubleFree /\ life_run None life_start (life_program ++ [LCall (OpDigest 0 0 (fun _ => 6)); LRead 0]) = UB DoubleFree /\ omap l_sd (life_run None life_start (life_program ++ [LCall (OpDestroy 0)])) = Ret [None; None].
Proof. vm_compute. split; [reflexivity|split; reflexivity]. Qed.
(** the hypotheses of the theorems, on the same calls *)
Example C75_hyps : exists s s1 s2, life_run None life_start (firstn 3 life_program) = Ret s /\ obj_of (l_he s) 0 <> None /\ life_step None s (LCall (OpDigest 0 160 (fun _ => 6))) = Ret s1 /\ life_run None s1 (skipn 4 life_program) = Ret s2 /\ Forall (fun op => ~ ends 0 op) (skipn 4 life_program) /\ length (l_sd s) = 0%nat.
Proof.
  destruct (life_run None life_start (firstn 3 life_program)) as [s| |] eqn:E; [|vm_compute in E; discriminate|vm_compute in E; discriminate].
  assert (E9 : omap (fun _ => tt) (life_run None life_start life_program) = Ret tt) by (vm_compute; reflexivity).
  assert (A : forall l1 l2 s, life_run None s (l1 ++ l2) = (s <- life_run None s l1 ;; life_run None s l2)).
  { induction l1 as [|o l1 IH]; intros l2 t; [reflexivity|]. cbn [app life_run]. destruct (life_step None t o); cbn [bind]; [apply IH|reflexivity|reflexivity]. }
  change life_program with (firstn 3 life_program ++ LCall (OpDigest 0 160 (fun _ => 6)) :: skipn 4 life_program) in E9. rewrite A, E in E9. cbn [bind life_run] in E9.
  destruct (life_step None s (LCall (OpDigest 0 160 (fun _ => 6)))) as [s1| |] eqn:E1; [|discriminate|discriminate]. cbn [bind] in E9.
  destruct (life_run None s1 (skipn 4 life_program)) as [s2| |] eqn:E2; [|discriminate|discriminate].
  assert (X : omap (fun s => (length (l_sd s), map (fun o => match o with Some _ => true | None => false end) (s_objs (l_he s)))) (life_run None life_start (firstn 3 life_program)) = Ret (0%nat, [true; true])) by (vm_compute; reflexivity).
  rewrite E in X. cbn [omap bind] in X. injection X as X1 X2.
  exists s, s1, s2. split; [reflexivity|]. split.
  - unfold obj_of. destruct (s_objs (l_he s)) as [|[e|] l]; cbn in X2 |- *; discriminate.
  - split; [exact E1|]. split; [exact E2|]. split; [|exact X1].
    repeat constructor; cbn; intros H; try discriminate; exact H.
Qed.
