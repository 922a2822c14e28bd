(** Property theorems C82: one TOTP object shared by threads without a lock. *)
From Coq Require Import String.
From Verif Require Import Base MFront MSha MHmac SHmac PHmac PropHmac MOtp SOtp POtp PropOtp MOtpObj SOtpObj PropOtpObj MTotpThreads STotpThreads.
Local Open Scope N_scope.

(** ** runs *)
Lemma nth_split {A} (l : list A) i x : nth_error l i = Some x -> l = firstn i l ++ x :: skipn (S i) l.
Proof.
  revert l. induction i as [|i IH]; intros [|y l] E; try discriminate; cbn in *; [injection E as ->; reflexivity|]. rewrite <- IH by exact E. reflexivity.
Qed.
Lemma F2_impl {A B} (P Q : A -> B -> Prop) l m : (forall x y, P x y -> Q x y) -> Forall2 P l m -> Forall2 Q l m.
Proof. intros X F. induction F; constructor; auto. Qed.
Section Inv.
Context {garbage : option N} {a : alg_choice}.
Variables (clk : Z -> Prop) (IS : shared -> Prop) (J : shared -> list (tcall garbage a) -> tthread garbage a -> Prop).
Hypothesis Hstep : forall sh ks t pick now, clk now -> IS sh -> J sh ks t ->
  exists sh' t', tt_step sh t pick now = Ret (sh', t') /\ IS sh' /\ J sh' ks t' /\ (forall ks2 t2, J sh ks2 t2 -> J sh' ks2 t2).
Lemma run_inv : forall sched sh ts work, Forall (fun c => clk (tc_now c)) sched -> IS sh -> Forall2 (J sh) work ts ->
  exists sh' ts', tt_run (sh, ts) sched = Ret (sh', ts') /\ IS sh' /\ Forall2 (J sh') work ts'.
Proof.
  induction sched as [|ch sched IH]; intros sh ts work Hc HI HJ; [exists sh, ts; auto|].
  inversion Hc as [|? ? C1 C2]; subst. cbn [tt_run tt_next]. destruct (nth_error ts (tc_who ch)) as [t|] eqn:E; [|cbn [bind]; apply IH; auto].
  rewrite (nth_split ts _ t E) in HJ. apply Forall2_app_inv_r in HJ. destruct HJ as (w1 & w2 & F1 & F2 & ->). inversion F2 as [|ks ? w3 ? J1 F3]; subst.
  destruct (Hstep sh ks t (tc_pick ch) (tc_now ch) C1 HI J1) as (sh' & t' & E1 & HI' & J2 & Mono). rewrite E1. cbn [bind]. apply IH; [exact C2|exact HI'|].
  apply Forall2_app; [|constructor; [exact J2|]]; (eapply F2_impl; [|eassumption]); auto.
Qed.
End Inv.

Lemma time_sub_small x y : (- 2 ^ 62 <= x < 2 ^ 62)%Z -> (- 2 ^ 62 <= y < 2 ^ 62)%Z -> time_sub x y = Ret (x - y)%Z.
Proof.
  intros Hx Hy. unfold time_sub. pow62. match goal with |- context[(?m <=? x - y)%Z] => destruct (Z.leb_spec m (x - y)) as [_|X]; [|lia] end.
  replace (x - y <? 9223372036854775808)%Z with true by (symmetry; apply Z.ltb_lt; lia). reflexivity.
Qed.
(** the call a place belongs to *)
Definition current {garbage a} (p : place garbage a) : list (tcall garbage a) :=
  match p with
  | Idle => []
  | AtRemaining e d _ _ _ | AtClock e d | AtSetUpdate e d _ | AtArgs e d _ _ _ | AtSetDelta e d _ _ | AtSetCounter e d _ | AtCheck e d
  | AtHotpArgs e d _ _ _ | AtCompute e d _ _ _ => [CGenerate e d]
  end.
Definition opt {A} (P : A -> Prop) (o : option A) : Prop := match o with Some x => P x | None => True end.
Lemma opt_fill {A} (P : A -> Prop) o v : opt P o -> P v -> opt P (fill o v).
Proof. destruct o; cbn [fill opt]; auto. Qed.
Ltac conj := repeat match goal with |- (?P /\ ?Q) => lazymatch P with (_ <= _)%Z => fail | _ => split end end; try (apply opt_fill); try assumption; try exact Logic.I; auto.
Definition i32 (x : Z) : Prop := (- 2 ^ 31 <= x < 2 ^ 31)%Z.

(** ** any schedule *)
Section Any.
Context {garbage : option N} {a : alg_choice}.
Variables (H : list N -> list N) (B D : nat) (s : list N) (iv : N) (t0 : Z) (co0 : N) (clk : Z -> Prop).
Hypothesis Hiv : 0 < iv < 2 ^ 32.
Hypothesis Hclk : forall now, clk now -> clock_ok t0 now.
Hypothesis Hgen : forall (e : locals garbage a) d c, locals_any D e -> hotp_generic garbage a (lo_ctx e) (lo_loc e) (lo_out e) s c d = Ret (HOTP H B s c d).
Definition kn (c : N) : Prop := c = co0 \/ exists now, clk now /\ c = Z.to_N (time_step now t0 iv).
Definition ISh (sh : shared) : Prop :=
  sh_gen sh = O /\ secret (hotp_part (sh_obj sh)) = Some s /\ interval_ (sh_obj sh) = iv /\ initial_time_ (sh_obj sh) = t0 /\
  (0 <= update_time_ (sh_obj sh) < 2 ^ 62)%Z /\ i32 (delta_ (sh_obj sh)) /\ kn (co (hotp_part (sh_obj sh))).
Definition place_ok (sh : shared) (p : place garbage a) : Prop :=
  match p with
  | AtRemaining _ _ dl n u => opt i32 dl /\ opt clk n /\ opt (fun u => (0 <= u < 2 ^ 62)%Z) u
  | AtSetUpdate _ _ n => clk n
  | AtArgs _ _ u i t => clk (update_time_ (sh_obj sh)) /\ opt clk u /\ opt (eq iv) i /\ opt (eq t0) t
  | AtSetDelta _ _ c dl => kn c /\ i32 dl
  | AtSetCounter _ _ c => kn c
  | AtHotpArgs _ _ p len c => opt (eq O) p /\ opt (eq (length s)) len /\ opt kn c
  | AtCompute _ _ p len c => O = p /\ length s = len /\ kn c
  | Idle | AtClock _ _ | AtCheck _ _ => True
  end.
Definition JT (sh : shared) (ks : list (tcall garbage a)) (t : tthread garbage a) : Prop :=
  Forall (generate_call D) ks /\ place_ok sh (tt_at t) /\
  exists first, ks = first ++ current (tt_at t) ++ tt_todo t /\
    Forall2 (fun k r => exists e d c, k = CGenerate e d /\ kn c /\ r = Otp (HOTP H B s c d)) first (tt_results t).
Lemma place_mono sh sh' p : (clk (update_time_ (sh_obj sh)) -> clk (update_time_ (sh_obj sh'))) -> place_ok sh p -> place_ok sh' p.
Proof. intros X. destruct p; cbn [place_ok]; auto. intros (? & ? & ? & ?). auto. Qed.
Lemma JT_go sh sh' ks t p : (clk (update_time_ (sh_obj sh)) -> clk (update_time_ (sh_obj sh'))) -> JT sh ks t -> current p = current (tt_at t) -> place_ok sh' p ->
  JT sh' ks (mkTT (tt_todo t) p (tt_results t)).
Proof. intros X (F & _ & first & E & R) Hc Hp. split; [exact F|]. split; [exact Hp|]. exists first. cbn [tt_at tt_todo tt_results]. rewrite Hc. auto. Qed.
Lemma JT_mono sh sh' : (clk (update_time_ (sh_obj sh)) -> clk (update_time_ (sh_obj sh'))) -> forall ks t, JT sh ks t -> JT sh' ks t.
Proof. intros X ks t (F & P & R). split; [exact F|]. split; [eapply place_mono; eauto|exact R]. Qed.

Lemma any_step sh ks t pick now : clk now -> ISh sh -> JT sh ks t ->
  exists sh' t', tt_step sh t pick now = Ret (sh', t') /\ ISh sh' /\ JT sh' ks t' /\ (forall ks2 t2, JT sh ks2 t2 -> JT sh' ks2 t2).
Proof.
  intros Hn HI HJ. pose proof HI as (G & Se & Ei & Et & Hu & Hd & Hco). pose proof HJ as (F & Hp & first & E & R).
  (* a step that leaves the object as it is *)
  assert (GO : forall p, current p = current (tt_at t) -> place_ok sh p ->
     exists sh' t', Ret (sh, mkTT (tt_todo t) p (tt_results t)) = Ret (sh', t') /\ ISh sh' /\ JT sh' ks t' /\ (forall ks2 t2, JT sh ks2 t2 -> JT sh' ks2 t2)).
  { intros p Hc Hp'. do 2 eexists. split; [reflexivity|]. split; [exact HI|]. split; [eapply JT_go; eauto|auto]. }
  (* a step that writes *)
  assert (WR : forall o' p, (clk (update_time_ (sh_obj sh)) -> clk (update_time_ o')) -> ISh (mkShared (sh_gen sh) o') -> current p = current (tt_at t) -> place_ok (mkShared (sh_gen sh) o') p ->
     exists sh' t', Ret (mkShared (sh_gen sh) o', mkTT (tt_todo t) p (tt_results t)) = Ret (sh', t') /\ ISh sh' /\ JT sh' ks t' /\ (forall ks2 t2, JT sh ks2 t2 -> JT sh' ks2 t2)).
  { intros o' p X HI' Hc Hp'. do 2 eexists. split; [reflexivity|]. split; [exact HI'|]. split; [eapply JT_go; eauto|]. apply JT_mono. exact X. }
  unfold tt_step. destruct (tt_at t) as [|e d dl n u|e d|e d n|e d u i t1|e d c dl|e d c|e d|e d p len c|e d p len c] eqn:At; cbn [place_ok current] in *.
  - destruct (tt_todo t) as [|[e d|b] r] eqn:Td.
    + do 2 eexists. split; [reflexivity|]. auto.
    + do 2 eexists. split; [reflexivity|]. split; [exact HI|]. split; [|auto]. split; [exact F|]. split; [cbn; auto|]. exists first. cbn [tt_at tt_todo tt_results current app] in *. auto.
    + exfalso. rewrite E in F. apply Forall_app in F. destruct F as [_ F]. inversion F as [|? ? (? & ? & X & _) _]. discriminate.
  - destruct Hp as (P1 & P2 & P3). destruct dl as [dl|]; [destruct n as [n|]; [destruct u as [u|]|]|].
    1:{ cbn [opt] in *. destruct (Hclk n P2) as (Cn & _). unfold i32 in P1. rewrite time_sub_small by (pow62; lia). cbn [bind].
        rewrite time_sub_small by (pow62; lia). cbn [bind]. destruct (_ <=? 0)%Z; apply GO; cbn; auto. }
    all: destruct pick as [|[|pick]]; apply GO; try reflexivity; cbn [place_ok]; conj.
  - apply GO; cbn; auto.
  - apply WR; cbn [update_time_ with_update sh_obj current place_ok opt]; auto. destruct (Hclk n Hp) as (Cn & _). split; [exact G|]. split; [exact Se|]. split; [exact Ei|]. split; [exact Et|]. split; [exact Cn|]. split; [exact Hd|exact Hco].
  - destruct Hp as (P0 & P1 & P2 & P3). destruct u as [u|]; [destruct i as [i|]; [destruct t1 as [t1|]|]|].
    1:{ cbn [opt] in *. subst i t1. destruct (Hclk u P1) as (Cn & Cn2 & Cn3).
        unfold calc_periodic_counter. rewrite time_sub_small by (pow62; lia). cbn [bind]. replace (iv =? 0) with false by (symmetry; apply N.eqb_neq; lia). cbn [bind].
        apply GO; [reflexivity|]. cbn [place_ok]. split; [right; exists u; split; [exact P1|]|unfold i32; apply to_i32_range].
        unfold time_step. rewrite Z.quot_div_nonneg by lia. unfold to_u64. f_equal. apply Z.mod_small. split; [apply Z.div_pos; lia|].
        apply Z.le_lt_trans with (u - t0)%Z; [apply Z.div_le_upper_bound; [lia|]|pow62; change (2 ^ 64)%Z with 18446744073709551616%Z; lia]. nia. }
    all: destruct pick as [|[|pick]]; apply GO; try reflexivity; cbn [place_ok]; conj.
  - destruct Hp as (P1 & P2). apply WR; cbn [update_time_ with_delta sh_obj current place_ok opt]; auto. split; [exact G|]. split; [exact Se|]. split; [exact Ei|]. split; [exact Et|]. split; [exact Hu|]. split; [exact P2|exact Hco].
  - apply WR; cbn [update_time_ with_co sh_obj current place_ok opt]; auto. split; [exact G|]. split; [exact Se|]. split; [exact Ei|]. split; [exact Et|]. split; [exact Hu|]. split; [exact Hd|exact Hp].
  - rewrite Se. apply GO; cbn; auto.
  - destruct Hp as (P1 & P2 & P3). destruct p as [p|]; [destruct len as [len|]; [destruct c as [c|]|]|].
    1:{ apply GO; cbn in *; auto. }
    all: destruct pick as [|[|pick]]; apply GO; try reflexivity; cbn [place_ok]; rewrite ?Se, ?G; conj.
  - destruct Hp as (<- & <- & P3). unfold read_secret. rewrite G, Nat.eqb_refl, Se, Nat.leb_refl, firstn_all. cbn [bind].
    assert (LA : locals_any D e). { rewrite E in F. apply Forall_app in F. destruct F as [_ F]. inversion F as [|? ? (? & ? & X & Y) _]. injection X as <- <-. exact Y. }
    rewrite (Hgen e d c LA). cbn [bind]. do 2 eexists. split; [reflexivity|]. split; [exact HI|]. split; [|auto]. split; [exact F|]. split; [exact Logic.I|].
    exists (first ++ [CGenerate e d]). cbn [tt_at tt_todo tt_results current app]. split; [rewrite <- app_assoc; exact E|]. apply Forall2_app; [exact R|]. constructor; [|constructor]. exists e, d, c. auto.
Qed.
End Any.
Lemma start_inv {garbage a} (J : shared -> list (tcall garbage a) -> tthread garbage a -> Prop) sh work : (forall ks, In ks work -> J sh ks (mkTT ks Idle [])) ->
  Forall2 (J sh) work (map (fun ks => mkTT ks Idle []) work).
Proof. induction work as [|ks work IH]; intros X; constructor; [apply X; left; reflexivity|]. apply IH. intros k Hk. apply X. right. exact Hk. Qed.

(** C82: threads that only generate, in any schedule: no undefined operation, and every result is the one-time password for a time step
    at which the clock was read, or for the counter the object held at the start *)
Theorem C82_values : forall garbage a P M H B D, choice_std a P M H B D -> a <> A_MD5 ->
  forall o s iv t0, secret (hotp_part o) = Some s -> bytes_ok s -> (length s <= B)%nat -> interval_ o = iv -> 0 < iv < 2 ^ 32 -> initial_time_ o = t0 ->
  (0 <= update_time_ o < 2 ^ 62)%Z -> (- 2 ^ 31 <= delta_ o < 2 ^ 31)%Z ->
  forall (work : list (list (tcall garbage a))) sched, only_generate D work -> Forall (clock_ok t0) (times sched) ->
  exists sh ts, tt_run (tt_start o work) sched = Ret (sh, ts) /\ secret (hotp_part (sh_obj sh)) = Some s /\
    Forall2 (results_for (fun c => c = co (hotp_part o) \/ exists now, In now (times sched) /\ c = Z.to_N (time_step now t0 iv)) H B s) work ts.
Proof.
  intros garbage a P M H B D K Ha o s iv t0 Hs Hb Hl Ei Hi Et Hu Hd work sched Hw Hc.
  set (clk := fun now => In now (times sched)).
  assert (Hclk : forall now, clk now -> clock_ok t0 now) by (intros now; apply (proj1 (Forall_forall _ _) Hc)).
  assert (Hgen : forall (e : locals garbage a) d c, locals_any D e -> hotp_generic garbage a (lo_ctx e) (lo_loc e) (lo_out e) s c d = Ret (HOTP H B s c d)).
  { intros e d c (L1 & L2 & L3). apply (C39_hotp_rfc4226 garbage a P M H B D K Ha); assumption. }
  destruct (run_inv clk (ISh s iv t0 (co (hotp_part o)) clk) (JT H B D s iv t0 (co (hotp_part o)) clk) (any_step H B D s iv t0 (co (hotp_part o)) clk Hi Hclk Hgen)
             sched (mkShared 0 o) (map (fun ks => mkTT ks Idle []) work) work) as (sh & ts & E & HI & HJ).
  - apply Forall_forall. intros c Hin. unfold clk, times. apply in_map. exact Hin.
  - split; [reflexivity|]. split; [exact Hs|]. split; [exact Ei|]. split; [exact Et|]. split; [exact Hu|]. split; [exact Hd|]. left. reflexivity.
  - apply start_inv. intros ks Hk. split; [exact (proj1 (Forall_forall _ _) Hw ks Hk)|]. split; [exact Logic.I|]. exists []. split; [reflexivity|constructor].
  - exists sh, ts. split; [exact E|]. split; [apply HI|]. eapply F2_impl; [|exact HJ]. intros ks t (_ & _ & first & E1 & R). exists first, (current (tt_at t) ++ tt_todo t). split; [exact E1|exact R].
Qed.
Print Assumptions C82_values.

(** ** within one step *)
Section Same.
Context {garbage : option N} {a : alg_choice}.
Variables (H : list N -> list N) (B D : nat) (s : list N) (o : totp_obj) (clk : Z -> Prop).
Hypothesis Hs : secret (hotp_part o) = Some s.
Hypothesis Hu : (0 <= update_time_ o < 2 ^ 62)%Z.
Hypothesis Hd : i32 (delta_ o).
Hypothesis Hclk : forall now, clk now -> (update_time_ o <= now < update_time_ o + delta_ o)%Z /\ (now < 2 ^ 62)%Z.
Hypothesis Hgen : forall (e : locals garbage a) d c, locals_any D e -> hotp_generic garbage a (lo_ctx e) (lo_loc e) (lo_out e) s c d = Ret (HOTP H B s c d).
Definition place_same (p : place garbage a) : Prop :=
  match p with
  | AtRemaining _ _ dl n u => opt (eq (delta_ o)) dl /\ opt clk n /\ opt (eq (update_time_ o)) u
  | AtHotpArgs _ _ p len c => opt (eq O) p /\ opt (eq (length s)) len /\ opt (eq (co (hotp_part o))) c
  | AtCompute _ _ p len c => O = p /\ length s = len /\ co (hotp_part o) = c
  | Idle | AtCheck _ _ => True
  | AtClock _ _ | AtSetUpdate _ _ _ | AtArgs _ _ _ _ _ | AtSetDelta _ _ _ _ | AtSetCounter _ _ _ => False
  end.
Definition JS (sh : shared) (ks : list (tcall garbage a)) (t : tthread garbage a) : Prop :=
  Forall (generate_call D) ks /\ place_same (tt_at t) /\
  exists first, ks = first ++ current (tt_at t) ++ tt_todo t /\
    Forall2 (fun k r => exists e d c, k = CGenerate e d /\ c = co (hotp_part o) /\ r = Otp (HOTP H B s c d)) first (tt_results t).
Lemma same_step sh ks t pick now : clk now -> sh = mkShared 0 o -> JS sh ks t ->
  exists sh' t', tt_step sh t pick now = Ret (sh', t') /\ sh' = mkShared 0 o /\ JS sh' ks t' /\ (forall ks2 t2, JS sh ks2 t2 -> JS sh' ks2 t2).
Proof.
  intros Hn -> HJ. pose proof HJ as (F & Hp & first & E & R).
  assert (GO : forall p, current p = current (tt_at t) -> place_same p ->
     exists sh' t', Ret (mkShared 0 o, mkTT (tt_todo t) p (tt_results t)) = Ret (sh', t') /\ sh' = mkShared 0 o /\ JS sh' ks t' /\ (forall ks2 t2, JS (mkShared 0 o) ks2 t2 -> JS sh' ks2 t2)).
  { intros p Hc Hp'. do 2 eexists. split; [reflexivity|]. split; [reflexivity|]. split; [|auto]. split; [exact F|]. split; [exact Hp'|]. exists first. cbn [tt_at tt_todo tt_results]. rewrite Hc. auto. }
  unfold tt_step. destruct (tt_at t) as [|e d dl n u|e d|e d n|e d u i t1|e d c dl|e d c|e d|e d p len c|e d p len c] eqn:At; cbn [place_same current sh_obj sh_gen] in *; try contradiction.
  - destruct (tt_todo t) as [|[e d|b] r] eqn:Td.
    + do 2 eexists. split; [reflexivity|]. auto.
    + do 2 eexists. split; [reflexivity|]. split; [reflexivity|]. split; [|auto]. split; [exact F|]. split; [cbn; auto|]. exists first. cbn [tt_at tt_todo tt_results current app] in *. auto.
    + exfalso. rewrite E in F. apply Forall_app in F. destruct F as [_ F]. inversion F as [|? ? (? & ? & X & _) _]. discriminate.
  - destruct Hp as (P1 & P2 & P3). destruct dl as [dl|]; [destruct n as [n|]; [destruct u as [u|]|]|].
    1:{ cbn [opt] in *. subst dl u. destruct (Hclk n P2) as (C1 & C2). unfold i32 in Hd. rewrite time_sub_small by (pow62; lia). cbn [bind].
        rewrite time_sub_small by (pow62; lia). cbn [bind]. match goal with |- context[(?x <=? 0)%Z] => destruct (Z.leb_spec x 0); [lia|] end. apply GO; cbn; auto. }
    all: destruct pick as [|[|pick]]; apply GO; try reflexivity; cbn [place_same]; conj.
  - rewrite Hs. apply GO; cbn; auto.
  - destruct Hp as (P1 & P2 & P3). destruct p as [p|]; [destruct len as [len|]; [destruct c as [c|]|]|].
    1:{ apply GO; cbn in *; auto. }
    all: destruct pick as [|[|pick]]; apply GO; try reflexivity; cbn [place_same]; rewrite ?Hs; conj.
  - destruct Hp as (<- & <- & <-). unfold read_secret. cbn [sh_gen sh_obj]. rewrite Nat.eqb_refl, Hs, Nat.leb_refl, firstn_all. cbn [bind].
    assert (LA : locals_any D e). { rewrite E in F. apply Forall_app in F. destruct F as [_ F]. inversion F as [|? ? (? & ? & X & Y) _]. injection X as <- <-. exact Y. }
    rewrite (Hgen e d _ LA). cbn [bind]. do 2 eexists. split; [reflexivity|]. split; [reflexivity|]. split; [|auto]. split; [exact F|]. split; [exact Logic.I|].
    exists (first ++ [CGenerate e d]). cbn [tt_at tt_todo tt_results current app]. split; [rewrite <- app_assoc; exact E|]. apply Forall2_app; [exact R|]. constructor; [|constructor]. exists e, d, (co (hotp_part o)). auto.
Qed.
End Same.

(** C82: while the clock shows times of the step the object was updated for, any number of threads may generate without a lock:
    every result is the one for the step, and the object does not change *)
Theorem C82_within_a_step : forall garbage a P M H B D, choice_std a P M H B D -> a <> A_MD5 ->
  forall o s iv t0 u rem, updated_at o t0 iv u rem -> secret (hotp_part o) = Some s -> bytes_ok s -> (length s <= B)%nat ->
  forall (work : list (list (tcall garbage a))) sched, only_generate D work -> Forall (fun now => (u <= now < u + rem)%Z /\ (now < 2 ^ 62)%Z) (times sched) ->
  exists sh ts, tt_run (tt_start o work) sched = Ret (sh, ts) /\ sh_obj sh = o /\
    Forall2 (results_for (fun c => c = Z.to_N (time_step u t0 iv)) H B s) work ts.
Proof.
  intros garbage a P M H B D K Ha o s iv t0 u rem (_ & Eu & Ec & Ed & Hr & Hu & Hr2) Hs Hb Hl work sched Hw Hc.
  set (clk := fun now => In now (times sched)).
  assert (Hgen : forall (e : locals garbage a) d c, locals_any D e -> hotp_generic garbage a (lo_ctx e) (lo_loc e) (lo_out e) s c d = Ret (HOTP H B s c d)).
  { intros e d c (L1 & L2 & L3). apply (C39_hotp_rfc4226 garbage a P M H B D K Ha); assumption. }
  assert (Hclk : forall now, clk now -> (update_time_ o <= now < update_time_ o + delta_ o)%Z /\ (now < 2 ^ 62)%Z) by (rewrite Eu, Ed; intros now; apply (proj1 (Forall_forall _ _) Hc)).
  destruct (run_inv clk (fun sh => sh = mkShared 0 o) (JS H B D s o clk)
     (same_step H B D s o clk Hs ltac:(rewrite Eu; exact Hu) ltac:(rewrite Ed; unfold i32; pow62; lia) Hclk Hgen)
             sched (mkShared 0 o) (map (fun ks => mkTT ks Idle []) work) work) as (sh & ts & E & HI & HJ).
  - apply Forall_forall. intros c Hin. unfold clk, times. apply in_map. exact Hin.
  - reflexivity.
  - apply start_inv. intros ks Hk. split; [exact (proj1 (Forall_forall _ _) Hw ks Hk)|]. split; [exact Logic.I|]. exists []. split; [reflexivity|constructor].
  - exists sh, ts. split; [exact E|]. subst sh. split; [reflexivity|]. eapply F2_impl; [|exact HJ]. intros ks t (_ & _ & first & E1 & R).
    exists first, (current (tt_at t) ++ tt_todo t). rewrite Ec in R. split; [exact E1|exact R].
Qed.
Print Assumptions C82_within_a_step.

(** ** calls one at a time *)
Section Alone.
Context {garbage : option N} {a : alg_choice}.
Variables (clk : Z -> Prop) (g0 : nat) (o : totp_obj) (e : locals garbage a) (d : N) (lo : Z).
Definition rd (hi n : Z) : Prop := clk n /\ (lo <= n <= hi)%Z.
(** the counter is to be updated: [n1], [n2] are the two clock readings *)
Definition due (n1 : Z) : Prop := exists r, remaining_time o n1 = Ret r /\ (r <= 0)%Z.
Definition upd (hi n1 n2 : Z) : Prop := rd n2 n1 /\ rd hi n2 /\ due n1.
Definition refreshed (hi : Z) (sh : shared) : Prop := exists n1 n2, rd n2 n1 /\ rd hi n2 /\ refresh o n1 n2 = Ret (sh_obj sh).
Definition phase (hi : Z) (sh : shared) (p : place garbage a) : Prop :=
  sh_gen sh = g0 /\ current p = [CGenerate e d] /\
  match p with
  | AtRemaining _ _ dl n u => sh_obj sh = o /\ opt (eq (delta_ o)) dl /\ opt (rd hi) n /\ opt (eq (update_time_ o)) u
  | AtClock _ _ => sh_obj sh = o /\ exists n1, rd hi n1 /\ due n1
  | AtSetUpdate _ _ n2 => sh_obj sh = o /\ exists n1, upd hi n1 n2
  | AtArgs _ _ u i t => exists n1 n2, upd hi n1 n2 /\ sh_obj sh = with_update o n2 /\ opt (eq n2) u /\ opt (eq (interval_ o)) i /\ opt (eq (initial_time_ o)) t
  | AtSetDelta _ _ c dl => exists n1 n2, upd hi n1 n2 /\ sh_obj sh = with_update o n2 /\ calc_periodic_counter n2 (interval_ o) (initial_time_ o) true = Ret (c, Some dl)
  | AtSetCounter _ _ c => exists n1 n2 dl, upd hi n1 n2 /\ sh_obj sh = with_delta (with_update o n2) dl /\ calc_periodic_counter n2 (interval_ o) (initial_time_ o) true = Ret (c, Some dl)
  | AtCheck _ _ => refreshed hi sh
  | AtHotpArgs _ _ p len c => refreshed hi sh /\ exists s, secret (hotp_part (sh_obj sh)) = Some s /\ opt (eq (sh_gen sh)) p /\ opt (eq (length s)) len /\ opt (eq (co (hotp_part (sh_obj sh)))) c
  | AtCompute _ _ p len c => refreshed hi sh /\ exists s, secret (hotp_part (sh_obj sh)) = Some s /\ sh_gen sh = p /\ length s = len /\ co (hotp_part (sh_obj sh)) = c
  | Idle => False
  end.
Lemma rd_mono hi hi' n : (hi <= hi')%Z -> rd hi n -> rd hi' n.
Proof. intros X (C & L). split; [exact C|lia]. Qed.
Lemma upd_mono hi hi' n1 n2 : (hi <= hi')%Z -> upd hi n1 n2 -> upd hi' n1 n2.
Proof. intros X (A & B & C). split; [exact A|]. split; [eapply rd_mono; eauto|exact C]. Qed.
Lemma refreshed_mono hi hi' sh : (hi <= hi')%Z -> refreshed hi sh -> refreshed hi' sh.
Proof. intros X (n1 & n2 & A & B & C). exists n1, n2. split; [exact A|]. split; [eapply rd_mono; eauto|exact C]. Qed.
Definition ended (hi : Z) (sh : shared) (res : gen_result N) : Prop :=
  sh_gen sh = g0 /\ exists n1 n2, rd n2 n1 /\ rd hi n2 /\ totp_generate e o n1 n2 d = Ret (sh_obj sh, res).
Lemma alone_step hi sh t pick now sh' t' : (hi <= now)%Z -> (lo <= hi)%Z -> clk now -> phase hi sh (tt_at t) -> tt_step sh t pick now = Ret (sh', t') ->
  tt_todo t' = tt_todo t /\
  ((phase now sh' (tt_at t') /\ tt_results t' = tt_results t) \/ (tt_at t' = Idle /\ exists res, tt_results t' = tt_results t ++ [res] /\ ended now sh' res)).
Proof.
  intros Hh Hlo Hn (G & Cu & Hp) E. assert (Rn : rd now now) by (split; [exact Hn|lia]). pose proof (fun n => rd_mono hi now n Hh) as RM.
  assert (OM : forall n, opt (rd hi) n -> opt (rd now) n) by (intros [n|]; cbn [opt]; auto).
  assert (GO : forall p, Ret (sh, mkTT (tt_todo t) p (tt_results t)) = Ret (sh', t') -> phase now sh p ->
    tt_todo t' = tt_todo t /\ ((phase now sh' (tt_at t') /\ tt_results t' = tt_results t) \/ (tt_at t' = Idle /\ exists res, tt_results t' = tt_results t ++ [res] /\ ended now sh' res))).
  { intros p X Y. injection X as <- <-. cbn [tt_at tt_todo tt_results]. auto. }
  assert (WR : forall o' p, Ret (mkShared (sh_gen sh) o', mkTT (tt_todo t) p (tt_results t)) = Ret (sh', t') -> phase now (mkShared (sh_gen sh) o') p ->
    tt_todo t' = tt_todo t /\ ((phase now sh' (tt_at t') /\ tt_results t' = tt_results t) \/ (tt_at t' = Idle /\ exists res, tt_results t' = tt_results t ++ [res] /\ ended now sh' res))).
  { intros o' p X Y. injection X as <- <-. cbn [tt_at tt_todo tt_results]. auto. }
  assert (FI : forall r, Ret (sh, mkTT (tt_todo t) Idle (tt_results t ++ [r])) = Ret (sh', t') -> ended now sh r ->
    tt_todo t' = tt_todo t /\ ((phase now sh' (tt_at t') /\ tt_results t' = tt_results t) \/ (tt_at t' = Idle /\ exists res, tt_results t' = tt_results t ++ [res] /\ ended now sh' res))).
  { intros r X Y. injection X as <- <-. cbn [tt_at tt_todo tt_results]. split; [reflexivity|]. right. split; [reflexivity|]. exists r. auto. }
  unfold tt_step in E. destruct (tt_at t) as [|e' d' dl n u|e' d'|e' d' n|e' d' u i t1|e' d' c dl|e' d' c|e' d'|e' d' p len c|e' d' p len c] eqn:At; cbn [current] in Cu;
    [contradiction|injection Cu as -> ->..].
  - destruct Hp as (So & P1 & P2 & P3). destruct dl as [dl|]; [destruct n as [n|]; [destruct u as [u|]|]|].
    1:{ cbn [opt] in *. subst dl u. destruct (time_sub n (update_time_ o)) as [x| |] eqn:E1; cbn [bind] in E; try discriminate.
        destruct (time_sub (delta_ o) x) as [r| |] eqn:E2; cbn [bind] in E; try discriminate.
        assert (Hr : remaining_time o n = Ret r) by (unfold remaining_time; rewrite E1; exact E2).
        destruct (Z.leb_spec r 0) as [X|X].
        - eapply GO; [exact E|]. split; [exact G|]. split; [reflexivity|]. split; [exact So|]. exists n. split; [auto|]. exists r. auto.
        - eapply GO; [exact E|]. split; [exact G|]. split; [reflexivity|]. exists n, n. split; [|split; [auto|]]. { destruct P2. split; [assumption|lia]. }
          unfold refresh. rewrite Hr. cbn [bind]. destruct (Z.leb_spec r 0); [lia|]. rewrite So. reflexivity. }
    all: rewrite So in E; destruct pick as [|[|pick]]; (eapply GO; [exact E|]); (split; [exact G|]); (split; [reflexivity|]); conj.
  - eapply GO; [exact E|]. destruct Hp as (So & n1 & R1 & Du). split; [exact G|]. split; [reflexivity|]. split; [exact So|]. exists n1. split; [auto|]. split; assumption.
  - eapply WR; [exact E|]. destruct Hp as (So & n1 & U). split; [exact G|]. split; [reflexivity|]. exists n1, n. split; [eapply upd_mono; eauto|]. rewrite So. cbn [opt]. auto.
  - destruct Hp as (n1 & n2 & U & So & P1 & P2 & P3). pose proof (upd_mono _ _ _ _ Hh U) as U'. destruct u as [u|]; [destruct i as [i|]; [destruct t1 as [t1|]|]|].
    1:{ cbn [opt] in *. subst u i t1. destruct (calc_periodic_counter n2 _ _ true) as [[c [dl|]]| |] eqn:Ec; cbn [bind] in E; try discriminate.
        - eapply GO; [exact E|]. split; [exact G|]. split; [reflexivity|]. exists n1, n2. auto.
        - exfalso. unfold calc_periodic_counter in Ec. destruct (time_sub _ _); cbn [bind] in Ec; try discriminate. destruct (_ =? _); discriminate. }
    all: rewrite So in E; destruct pick as [|[|pick]]; (eapply GO; [exact E|]); (split; [exact G|]); (split; [reflexivity|]); exists n1, n2; conj.
  - destruct Hp as (n1 & n2 & U & So & Ec). eapply WR; [exact E|]. split; [exact G|]. split; [reflexivity|]. exists n1, n2, dl. split; [eapply upd_mono; eauto|]. cbn [sh_obj]. rewrite So. auto.
  - destruct Hp as (n1 & n2 & dl & U & So & Ec). eapply WR; [exact E|]. split; [exact G|]. split; [reflexivity|]. destruct U as (U1 & U2 & r & Ur & Ul).
    exists n1, n2. split; [exact U1|]. split; [auto|]. unfold refresh. rewrite Ur. cbn [bind sh_obj]. destruct (Z.leb_spec r 0); [|lia]. unfold update_counter. rewrite Ec, So. reflexivity.
  - destruct (secret (hotp_part (sh_obj sh))) as [s|] eqn:Es.
    + eapply GO; [exact E|]. split; [exact G|]. split; [reflexivity|]. split; [eapply refreshed_mono; eauto|]. exists s. cbn [opt]. auto.
    + eapply FI; [exact E|]. split; [exact G|]. destruct Hp as (n1 & n2 & R1 & R2 & Rf). exists n1, n2. split; [exact R1|]. split; [auto|]. unfold totp_generate. rewrite Rf. cbn [bind]. unfold hotp_generate. rewrite Es. reflexivity.
  - destruct Hp as (Rf & s & Es & P1 & P2 & P3). pose proof (refreshed_mono _ _ _ Hh Rf) as Rf'. destruct p as [p|]; [destruct len as [len|]; [destruct c as [c|]|]|].
    1:{ eapply GO; [exact E|]. split; [exact G|]. split; [reflexivity|]. split; [exact Rf'|]. exists s. cbn [opt] in *. auto. }
    all: rewrite Es in E; destruct pick as [|[|pick]]; (eapply GO; [exact E|]); (split; [exact G|]); (split; [reflexivity|]); (split; [exact Rf'|]); exists s; conj.
  - destruct Hp as (Rf & s & Es & <- & <- & <-). unfold read_secret in E. rewrite Nat.eqb_refl, Es, Nat.leb_refl, firstn_all in E. cbn [bind] in E.
    destruct (hotp_generic _ _ _ _ _ s _ d) as [v| |] eqn:Ev; cbn [bind] in E; try discriminate. eapply FI; [exact E|]. split; [exact G|]. destruct Rf as (n1 & n2 & R1 & R2 & Rf).
    exists n1, n2. split; [exact R1|]. split; [auto|]. unfold totp_generate. rewrite Rf. cbn [bind]. unfold hotp_generate. rewrite Es, Ev. reflexivity.
Qed.
End Alone.
Lemma step_results {garbage a} sh (t : tthread garbage a) p n sh' t' : tt_step sh t p n = Ret (sh', t') ->
  (tt_results t' = tt_results t /\ (tt_at t <> Idle -> tt_at t' <> Idle)) \/ exists r, tt_results t' = tt_results t ++ [r].
Proof.
  assert (GO : forall sh1 q, q <> Idle -> Ret (sh1, mkTT (tt_todo t) q (tt_results t)) = Ret (sh', t') -> tt_results t' = tt_results t /\ (tt_at t <> Idle -> tt_at t' <> Idle)).
  { intros sh1 q Hq X. injection X as _ <-. cbn [tt_results tt_at]. auto. }
  unfold tt_step. intros E.
  destruct (tt_at t) as [|e d dl m u|e d|e d m|e d u i t1|e d c dl|e d c|e d|e d q len c|e d q len c] eqn:At.
  - destruct (tt_todo t) as [|[e d|b] r]; injection E as <- <-; left; (split; [reflexivity|]); intros X; congruence.
  - left. destruct dl as [dl|]; [destruct m as [m|]; [destruct u as [u|]|]|].
    1:{ destruct (time_sub m u) as [x| |]; cbn [bind] in E; try discriminate. destruct (time_sub dl x) as [r| |]; cbn [bind] in E; try discriminate.
        destruct (r <=? 0)%Z; eapply GO; try exact E; discriminate. }
    all: destruct p as [|[|p]]; eapply GO; try exact E; discriminate.
  - left. eapply GO; try exact E; discriminate.
  - left. eapply GO; try exact E; discriminate.
  - left. destruct u as [u|]; [destruct i as [i|]; [destruct t1 as [t1|]|]|].
    1:{ destruct (calc_periodic_counter u i t1 true) as [[c [dl|]]| |]; cbn [bind] in E; try discriminate; eapply GO; try exact E; discriminate. }
    all: destruct p as [|[|p]]; eapply GO; try exact E; discriminate.
  - left. eapply GO; try exact E; discriminate.
  - left. eapply GO; try exact E; discriminate.
  - destruct (secret _).
    + left. eapply GO; try exact E; discriminate.
    + right. injection E as <- <-. eexists. reflexivity.
  - left. destruct q as [q|]; [destruct len as [len|]; [destruct c as [c|]|]|].
    1:{ eapply GO; try exact E; discriminate. }
    all: destruct p as [|[|p]]; eapply GO; try exact E; discriminate.
  - right. destruct (read_secret sh q len); cbn [bind] in E; try discriminate. destruct (hotp_generic _ _ _ _ _ _ _ _); cbn [bind] in E; try discriminate. injection E as <- <-. eexists. reflexivity.
Qed.
Fixpoint alone {garbage a} (sh : shared) (t : tthread garbage a) (cs : list tchoice) : outcome (shared * tthread garbage a) :=
  match cs with [] => Ret (sh, t) | c :: cs => '(sh, t) <- tt_step sh t (tc_pick c) (tc_now c) ;; alone sh t cs end.
Lemma run_alone {garbage a} i cs : Forall (fun c => tc_who c = i) cs -> forall sh (ts : list (tthread garbage a)) t, nth_error ts i = Some t ->
  tt_run (sh, ts) cs = ('(sh, t) <- alone sh t cs ;; Ret (sh, firstn i ts ++ t :: skipn (S i) ts)).
Proof.
  intros F. induction F as [|c cs Hc F IH]; intros sh ts t E; cbn [tt_run alone bind].
  - rewrite <- (nth_split ts i t E). reflexivity.
  - unfold tt_next. rewrite Hc, E. destruct (tt_step sh t (tc_pick c) (tc_now c)) as [[sh1 t1]| |]; cbn [bind]; [|reflexivity|reflexivity].
    assert (Li : (i < length ts)%nat) by (apply nth_error_Some; congruence).
    assert (Lf : length (firstn i ts) = i) by (apply firstn_length_le; lia).
    assert (E1 : nth_error (firstn i ts ++ t1 :: skipn (S i) ts) i = Some t1) by (rewrite nth_error_app2 by lia; rewrite Lf, Nat.sub_diag; reflexivity).
    rewrite (IH sh1 _ t1 E1). destruct (alone sh1 t1 cs) as [[sh2 t2]| |]; cbn [bind]; [|reflexivity|reflexivity]. do 2 f_equal.
    assert (Fi : firstn i (firstn i ts ++ t1 :: skipn (S i) ts) = firstn i ts) by (rewrite firstn_app, Lf, Nat.sub_diag, firstn_O, app_nil_r; apply firstn_all2; lia).
    assert (Sk : skipn (S i) (firstn i ts ++ t1 :: skipn (S i) ts) = skipn (S i) ts).
    { rewrite skipn_app, Lf, skipn_all2 by lia. replace (S i - i)%nat with 1%nat by lia. reflexivity. }
    rewrite Fi, Sk. reflexivity.
Qed.
Definition final (last : Z) (l : list Z) : Z := fold_left (fun _ x => x) l last.
Lemma ascending_final : forall l last, ascending last l -> (last <= final last l)%Z.
Proof. induction l as [|x l IH]; intros last Ha; [apply Z.le_refl|]. destruct Ha as [L A]. cbn [final fold_left]. specialize (IH x A). unfold final in IH. lia. Qed.
Lemma ascending_app : forall l m last, ascending last (l ++ m) -> ascending last l /\ ascending (final last l) m.
Proof. induction l as [|x l IH]; intros m last Ha; [split; [exact Logic.I|exact Ha]|]. destruct Ha as [L A]. destruct (IH m x A) as [A1 A2]. split; [split; assumption|exact A2]. Qed.

(** a block of steps in which a thread makes exactly one call is that call of the sequential model *)
Lemma block_call {garbage a} (clk : Z -> Prop) sh0 (t : tthread garbage a) e d rest lo : tt_at t = Idle -> tt_todo t = CGenerate e d :: rest ->
  Forall (fun k => exists e d, k = CGenerate e d) rest ->
  forall cs sh1 t1 r, Forall (fun c => clk (tc_now c)) cs -> ascending lo (times cs) -> alone sh0 t cs = Ret (sh1, t1) -> tt_at t1 = Idle -> tt_results t1 = tt_results t ++ [r] ->
  tt_todo t1 = rest /\ ended clk (sh_gen sh0) (sh_obj sh0) e d lo (final lo (times cs)) sh1 r.
Proof.
  intros Hi Ht Hrest cs sh1 t1 r Hc Ha E E1 E2.
  set (n0 := length (tt_results t)).
  set (beyond := fun t' : tthread garbage a => (tt_at t' <> Idle /\ (S n0 <= length (tt_results t'))%nat) \/ (S (S n0) <= length (tt_results t'))%nat).
  set (St := fun hi sh (t' : tthread garbage a) =>
    (sh = sh0 /\ t' = t) \/ (phase clk (sh_gen sh0) (sh_obj sh0) e d lo hi sh (tt_at t') /\ tt_todo t' = rest /\ tt_results t' = tt_results t) \/
    (tt_at t' = Idle /\ tt_todo t' = rest /\ exists res, tt_results t' = tt_results t ++ [res] /\ ended clk (sh_gen sh0) (sh_obj sh0) e d lo hi sh res) \/ beyond t').
  assert (G : forall cs hi sh t', (lo <= hi)%Z -> St hi sh t' -> Forall (fun c => clk (tc_now c)) cs -> ascending hi (times cs) -> alone sh t' cs = Ret (sh1, t1) ->
    St (final hi (times cs)) sh1 t1).
  { clear cs Hc Ha E. induction cs as [|c cs IH]; intros hi sh t' Hlo HS Hc Ha E; [injection E as <- <-; exact HS|].
    inversion Hc as [|? ? C1 C2]; subst. cbn [times map ascending] in Ha. destruct Ha as [L A]. cbn [alone] in E.
    destruct (tt_step sh t' (tc_pick c) (tc_now c)) as [[sh2 t2]| |] eqn:Es; cbn [bind] in E; try discriminate.
    assert (Lo2 : (lo <= tc_now c)%Z) by lia. change (final hi (times (c :: cs))) with (final (tc_now c) (times cs)). apply (IH (tc_now c) sh2 t2); auto.
    destruct HS as [(-> & ->)|[(Ph & Td & Rs)|[(I1 & Td & res & Rs & En)|By]]].
    - right. left. unfold tt_step in Es. rewrite Hi, Ht in Es. injection Es as <- <-. cbn [tt_at tt_todo tt_results]. split; [|auto]. split; [reflexivity|]. split; [reflexivity|]. cbn [opt]. auto.
    - destruct (alone_step clk _ _ e d lo hi sh t' (tc_pick c) (tc_now c) sh2 t2 L Hlo C1 Ph Es) as (T2 & [(P2 & R2)|(I2 & res & R2 & En)]).
      + right. left. split; [exact P2|]. split; congruence.
      + right. right. left. split; [exact I2|]. split; [congruence|]. exists res. split; [congruence|exact En].
    - unfold tt_step in Es. rewrite I1, Td in Es. destruct rest as [|[e' d'|b] rest'].
      + injection Es as <- <-. right. right. left. split; [exact I1|]. split; [exact Td|]. exists res. split; [exact Rs|]. destruct En as (G1 & m1 & m2 & R1 & R2 & R3). split; [exact G1|]. exists m1, m2. split; [exact R1|].
        split; [|exact R3]. eapply rd_mono; [|exact R2]. exact L.
      + injection Es as <- <-. right. right. right. left. cbn [tt_at tt_results]. split; [discriminate|]. rewrite Rs, app_length. cbn [length]. fold n0. lia.
      + inversion Hrest as [|? ? (? & ? & X) _]. discriminate.
    - right. right. right. destruct (step_results _ _ _ _ _ _ Es) as [(R & X)|(r' & R)]; destruct By as [(B1 & B2)|B1]; unfold beyond; rewrite R.
      + left. auto.
      + right. exact B1.
      + right. rewrite app_length. cbn [length]. lia.
      + right. rewrite app_length. lia. }
  specialize (G cs lo sh0 t (Z.le_refl _) (or_introl (conj eq_refl eq_refl)) Hc Ha E). destruct G as [(-> & ->)|[(Ph & _)|[(_ & Td & res & Rs & En)|By]]].
  - exfalso. apply (f_equal (@length _)) in E2. rewrite app_length in E2. cbn [length] in E2. lia.
  - exfalso. destruct Ph as (_ & X & _). rewrite E1 in X. discriminate.
  - split; [exact Td|]. rewrite E2 in Rs. apply app_inv_head in Rs. injection Rs as <-. exact En.
  - exfalso. destruct By as [(B1 & _)|B1]; [apply B1; exact E1|]. rewrite E2, app_length in B1. cbn [length] in B1. fold n0 in B1. lia.
Qed.

(** C82: with calls made one at a time (as with a lock around every call), by whichever threads, every result is the one for a time
    shown by the clock during that call *)
Theorem C82_one_at_a_time : forall garbage a P M H B D, choice_std a P M H B D -> a <> A_MD5 ->
  forall o s iv t0, fresh o -> secret (hotp_part o) = Some s -> bytes_ok s -> (length s <= B)%nat -> interval_ o = iv -> 0 < iv < 2 ^ 32 -> initial_time_ o = t0 ->
  forall (work : list (list (tcall garbage a))) sched st log, only_generate D work -> one_at_a_time (tt_start o work) sched st log ->
  Forall (clock_ok t0) (times sched) -> ascending 0 (times sched) ->
  Forall (fun '(d, ts, r) => exists now, In now ts /\ r = Otp (HOTP H B s (Z.to_N (time_step now t0 iv)) d)) log.
Proof.
  intros garbage a P M H B D K Ha o s iv t0 Fr Hs Hb Hl Ei Hi Et work sched st log Hw Ho Hc As.
  set (good_t := fun t : tthread garbage a => Forall (generate_call D) (tt_todo t)).
  set (ok := fun (st : tt_state garbage a) last => secret (hotp_part (sh_obj (fst st))) = Some s /\ tracks t0 iv (sh_obj (fst st)) last /\ Forall good_t (snd st)).
  assert (O : ok (tt_start o work) 0%Z).
  { split; [exact Hs|]. split; [split; [exact Ei|split; [exact Et|left; exact Fr]]|]. cbn [snd tt_start]. apply Forall_forall. intros t Hin. apply in_map_iff in Hin. destruct Hin as (ks & <- & Hk).
    exact (proj1 (Forall_forall _ _) Hw ks Hk). }
  clear Fr Ei Et Hs Hw. revert O As Hc. generalize 0%Z.
  induction Ho as [st|sh ts i t e d rest cs sh1 t1 r sched st2 log Hn I0 Td Fw Er I1 R1 Hrest IH]; intros last O As Hc; [constructor|].
  destruct O as (Hs & Tr & Gt). cbn [fst snd] in *. unfold times in As, Hc. rewrite map_app in As, Hc. fold (times cs) (times sched) in As, Hc.
  destruct (ascending_app _ _ _ As) as (A1 & A2). apply Forall_app in Hc. destruct Hc as (C1 & C2).
  assert (Gti : good_t t) by (exact (proj1 (Forall_forall _ _) Gt t (nth_error_In _ _ Hn))). unfold good_t in Gti. rewrite Td in Gti. inversion Gti as [|? ? (e1 & d1 & X & Le) Gr]; subst. injection X as <- <-.
  rewrite (run_alone i cs Fw sh ts t Hn) in Er. destruct (alone sh t cs) as [[sh1' t1']| |] eqn:Ea; cbn [bind] in Er; try discriminate. injection Er as -> El.
  apply app_inv_head in El. injection El as ->.
  destruct (block_call (fun n => In n (times cs)) sh t e d rest last I0 Td) with (cs := cs) (sh1 := sh1) (t1 := t1) (r := r) as (T1 & _ & n1 & n2 & (I2 & L1) & (I3 & L2) & Eg); auto.
  { eapply Forall_impl; [|exact Gr]. intros k (e' & d' & -> & _). eauto. }
  { apply Forall_forall. intros c Hin. unfold times. apply in_map. exact Hin. }
  pose proof (proj1 (Forall_forall _ _) C1 n1 I2) as K1. pose proof (proj1 (Forall_forall _ _) C1 n2 I3) as K2.
  destruct (refresh_tracks t0 iv (sh_obj sh) last n1 n2 Hi Tr K1 K2) as (o' & Er & T' & S' & _ & n & Hn' & Co); [lia|lia|].
  unfold totp_generate in Eg. rewrite Er in Eg. cbn [bind] in Eg. unfold hotp_generate in Eg. rewrite S', Hs, Co in Eg.
  destruct Le as (Le1 & Le2 & Le3). rewrite (C39_hotp_rfc4226 garbage a P M H B D K Ha) in Eg by assumption. cbn [bind] in Eg. injection Eg as Eo <-.
  constructor.
  - exists n. split; [destruct Hn' as [->| ->]; assumption|reflexivity].
  - apply (IH (final last (times cs))); [|exact A2|exact C2]. subst o'. unfold ok. cbn [fst snd]. split; [rewrite S'; exact Hs|]. split.
    + destruct T' as (T1' & T2' & [Tf|(u & Lu & Tu)]); (split; [exact T1'|]); (split; [exact T2'|]); [left; exact Tf|right; exists u; split; [lia|exact Tu]].
    + cbn [snd]. rewrite (nth_split ts i t Hn) in Gt. apply Forall_app in Gt. destruct Gt as [G1 G2]. inversion G2; subst. apply Forall_app. split; [exact G1|]. constructor; [exact Gr|assumption].
Qed.
Print Assumptions C82_one_at_a_time.

(** ** violations *)
Definition steps (i : nat) (picks : list nat) (now : Z) : list tchoice := map (fun p => mkTC i p now) picks.
Lemma times_steps i ps now : Forall (eq now) (times (steps i ps now)).
Proof. unfold times, steps. rewrite map_map. cbn [tc_now]. apply Forall_forall. intros x Hx. apply in_map_iff in Hx. destruct Hx as (? & <- & _). reflexivity. Qed.
Lemma updated_rem o t0 iv u rem : 0 < iv < 2 ^ 32 -> updated_at o t0 iv u rem -> clock_ok t0 u /\ rem = (Z.of_N iv - (u - t0) mod Z.of_N iv)%Z.
Proof.
  intros Hi ((_ & _ & T) & Eu & _ & Ed & Hr & Hu & H31). destruct T as [(F1 & F2)|(u' & _ & S1 & S2 & _ & S4)]; [lia|]. rewrite Eu in S1. subst u'. split; [exact S2|].
  rewrite Ed in S4. rewrite S4. apply to_i32_small. rewrite S4 in Hr, H31. pose proof (Z.mod_pos_bound (u - t0) (Z.of_N iv) ltac:(lia)) as Mb. revert Mb Hr H31.
  generalize ((u - t0) mod Z.of_N iv)%Z. intros m Mb Hr H31. destruct (Z.lt_ge_cases (Z.of_N iv - m) (2 ^ 31)) as [X|X]; [pow62; lia|]. exfalso.
  pose proof (to_i32_wrap (Z.of_N iv - m) ltac:(pow62; change (2 ^ 32)%N with 4294967296%N in Hi; lia)). lia.
Qed.
Lemma later_step t0 iv u now : 0 < iv -> (u + (Z.of_N iv - (u - t0) mod Z.of_N iv) <= now)%Z -> (time_step u t0 iv < time_step now t0 iv)%Z.
Proof.
  intros Hi L. unfold time_step. pose proof (Z.div_mod (u - t0) (Z.of_N iv) ltac:(lia)) as E. apply Z.lt_le_trans with ((u - t0) / Z.of_N iv + 1)%Z; [lia|].
  apply Z.div_le_lower_bound; [lia|]. rewrite Z.mul_add_distr_l. revert E L. generalize ((u - t0) mod Z.of_N iv)%Z. intros m E L. lia.
Qed.
Ltac go1 := cbn [tt_run tt_next nth_error tc_who tc_pick tc_now tt_step tt_at tt_todo tt_results sh_obj sh_gen bind fill firstn skipn app
  delta_ update_time_ interval_ initial_time_ hotp_part secret co base32 with_update with_delta with_co].
(** between the two assignments of another thread's update, a thread gets the password of the old step, however long ago that was *)
Theorem C82_stale_refuted : forall garbage a P M H B D, choice_std a P M H B D -> a <> A_MD5 ->
  forall o s iv t0 u rem, updated_at o t0 iv u rem -> 0 < iv < 2 ^ 32 -> secret (hotp_part o) = Some s -> bytes_ok s -> (length s <= B)%nat ->
  forall now (e e' : locals garbage a) d d', clock_ok t0 now -> (u + rem <= now)%Z -> locals_any D e' ->
  (time_step u t0 iv < time_step now t0 iv)%Z /\
  exists sched sh ta tb, Forall (eq now) (times sched) /\
    tt_run (tt_start o [[CGenerate e d]; [CGenerate e' d']]) sched = Ret (sh, [ta; tb]) /\
    tt_results tb = [Otp (HOTP H B s (Z.to_N (time_step u t0 iv)) d')].
Proof.
  intros garbage a P M H B D K Ha o s iv t0 u rem Up Hi Hs Hb Hl now e e' d d' Hn Hl2 (L1 & L2 & L3).
  destruct (updated_rem _ _ _ _ _ Hi Up) as (Cu & Er). split; [apply later_step; [lia|rewrite <- Er; exact Hl2]|].
  destruct Up as (_ & Eu & Ec & Ed & Hr & Hu & H31). destruct o as [[sec c b32] iv0 t00 u0 dl0]. cbn [hotp_part secret co update_time_ delta_] in *. subst sec u0 dl0.
  destruct Hn as (N1 & N2 & N3).
  exists (steps 0 [0; 0; 1; 2; 0; 0; 0]%nat now ++ steps 1 [0; 0; 1; 2; 0; 0; 0; 1; 2; 0; 0]%nat now).
  do 3 eexists. split; [unfold times; rewrite map_app; apply Forall_app; split; apply times_steps|]. unfold tt_start, steps. cbn [map app].
  do 4 go1. go1. rewrite time_sub_small by (pow62; lia). go1. rewrite time_sub_small by (pow62; lia). go1. match goal with |- context[(?x <=? 0)%Z] => destruct (Z.leb_spec x 0); [|lia] end. go1.
  rewrite (time_sub_small now now) by (pow62; lia). go1. rewrite time_sub_small by (pow62; lia). go1. match goal with |- context[(?x <=? 0)%Z] => destruct (Z.leb_spec x 0); [lia|] end. go1.
  unfold read_secret. go1. rewrite Nat.eqb_refl, Nat.leb_refl, firstn_all. go1. rewrite (C39_hotp_rfc4226 garbage a P M H B D K Ha) by assumption. go1.
  split; [reflexivity|]. cbn [tt_results]. rewrite Ec. reflexivity.
Qed.
Print Assumptions C82_stale_refuted.
Ltac gen_r := repeat match goal with H : context[(_ mod _)%Z] |- _ => revert H end; match goal with |- context[(?x - ?y mod ?z)%Z] => generalize (x - y mod z)%Z end; intros; pow62.
Ltac leb_case := match goal with |- context[(?x <=? 0)%Z] => destruct (Z.leb_spec x 0) as [LC|LC] end.
Lemma calc_eq u iv t0 : 0 < iv < 2 ^ 32 -> clock_ok t0 u ->
  calc_periodic_counter u iv t0 true = Ret (Z.to_N (time_step u t0 iv), Some (to_i32 (Z.of_N iv - (u - t0) mod Z.of_N iv))).
Proof.
  intros Hi (C1 & C2 & C3). unfold calc_periodic_counter. rewrite time_sub_small by (pow62; lia). cbn [bind]. replace (iv =? 0) with false by (symmetry; apply N.eqb_neq; lia).
  rewrite Z.quot_div_nonneg, Z.rem_mod_nonneg by lia. unfold to_u64, time_step. do 2 f_equal. f_equal. apply Z.mod_small. split; [apply Z.div_pos; lia|].
  apply Z.le_lt_trans with (u - t0)%Z; [apply Z.div_le_upper_bound; [lia|]|pow62; change (2 ^ 64)%Z with 18446744073709551616%Z; lia]. nia.
Qed.
Lemma small_delta u iv t0 : 0 < iv < 2 ^ 31 -> to_i32 (Z.of_N iv - (u - t0) mod Z.of_N iv) = (Z.of_N iv - (u - t0) mod Z.of_N iv)%Z /\ (0 < Z.of_N iv - (u - t0) mod Z.of_N iv < 2 ^ 31)%Z.
Proof.
  intros Hi. pose proof (Z.mod_pos_bound (u - t0) (Z.of_N iv) ltac:(lia)) as Mb. change (2 ^ 31)%N with 2147483648%N in Hi. revert Mb. generalize ((u - t0) mod Z.of_N iv)%Z. intros m Mb.
  split; [apply to_i32_small|]; pow62; lia.
Qed.
(** on a new object a thread can get the password for the counter as it was before anything was stored in it *)
Theorem C82_uninitialised_refuted : forall garbage a P M H B D, choice_std a P M H B D -> a <> A_MD5 ->
  forall o s iv t0, fresh o -> interval_ o = iv -> initial_time_ o = t0 -> 0 < iv < 2 ^ 31 -> secret (hotp_part o) = Some s -> bytes_ok s -> (length s <= B)%nat ->
  forall now (e e' : locals garbage a) d d', clock_ok t0 now -> locals_any D e' ->
  exists sched sh ta tb, Forall (eq now) (times sched) /\
    tt_run (tt_start o [[CGenerate e d]; [CGenerate e' d']]) sched = Ret (sh, [ta; tb]) /\
    tt_results tb = [Otp (HOTP H B s (co (hotp_part o)) d')].
Proof.
  intros garbage a P M H B D K Ha o s iv t0 (F1 & F2) Ei Et Hi Hs Hb Hl now e e' d d' Hn (L1 & L2 & L3). assert (Hi' : 0 < iv < 2 ^ 32) by (split; [apply Hi|eapply N.lt_trans; [apply Hi|reflexivity]]).
  destruct (small_delta now iv t0 Hi) as (Sd & Sp).
  destruct o as [[sec c b32] iv0 t00 u0 dl0]. cbn [hotp_part secret co update_time_ delta_ interval_ initial_time_] in *. subst sec u0 dl0 iv0 t00. pose proof Hn as (N1 & N2 & N3).
  exists (steps 0 [0; 0; 1; 2; 0; 0; 0; 0; 1; 2; 0; 0]%nat now ++ steps 1 [0; 0; 1; 2; 0; 0; 0; 1; 2; 0; 0]%nat now).
  do 3 eexists. split; [unfold times; rewrite map_app; apply Forall_app; split; apply times_steps|]. unfold tt_start, steps. cbn [map app].
  do 5 go1. rewrite time_sub_small by (pow62; lia). go1. rewrite time_sub_small by (pow62; lia). go1. leb_case; [|lia]. go1.
  rewrite (calc_eq now iv t0 Hi' Hn). go1. rewrite Sd. clear LC.
  rewrite (time_sub_small now now) by (pow62; lia). go1. rewrite time_sub_small by (gen_r; lia). go1. leb_case; [gen_r; lia|]. go1.
  unfold read_secret. go1. rewrite Nat.eqb_refl, Nat.leb_refl, firstn_all. go1. rewrite (C39_hotp_rfc4226 garbage a P M H B D K Ha) by assumption. go1.
  split; reflexivity.
Qed.
Print Assumptions C82_uninitialised_refuted.
(** a thread that is late with its assignments leaves the object with the counter of the earlier step and the update time of the later one:
    generate calls made alone, after all threads have finished, give the password of the earlier step *)
Definition late_sched (n1 n2 : Z) : list tchoice :=
  steps 0 [0; 0; 1; 2; 0; 0; 0; 0; 1; 2; 0]%nat n1 ++ steps 1 [0; 0; 1; 2; 0; 0; 0; 0; 1; 2; 0; 0; 0; 0; 0; 1; 2; 0; 0]%nat n2 ++ steps 0 [0; 0; 0; 0; 1; 2; 0; 0]%nat n2.
Lemma run_app {garbage a} : forall l m (st : tt_state garbage a), tt_run st (l ++ m) = (st <- tt_run st l ;; tt_run st m).
Proof. induction l as [|c l IH]; intros m st; [reflexivity|]. cbn [app tt_run]. destruct (tt_next st c); cbn [bind]; [apply IH|reflexivity|reflexivity]. Qed.
Lemma late_ascending n1 n2 : (n1 <= n2)%Z -> ascending n1 (times (late_sched n1 n2)).
Proof. intros L. cbn [late_sched steps map app times tc_now ascending]. repeat (split; [lia|]). exact Logic.I. Qed.
Section Late.
Context {garbage : option N} {a : alg_choice}.
Variables (H : list N -> list N) (B D : nat) (s : list N) (c : N) (b32 : MCppBase.object) (iv : N) (t0 n1 n2 : Z) (e e' : locals garbage a) (d d' : N).
Hypothesis Hgen : forall (e : locals garbage a) d c, locals_any D e -> hotp_generic garbage a (lo_ctx e) (lo_loc e) (lo_out e) s c d = Ret (HOTP H B s c d).
Hypotheses (Hi : 0 < iv < 2 ^ 32) (C1 : clock_ok t0 n1) (C2 : clock_ok t0 n2) (Le : (n1 <= n2)%Z) (L : locals_any D e) (L' : locals_any D e').
Let c1 := Z.to_N (time_step n1 t0 iv).
Let c2 := Z.to_N (time_step n2 t0 iv).
Let r1 := to_i32 (Z.of_N iv - (n1 - t0) mod Z.of_N iv).
Let r2 := to_i32 (Z.of_N iv - (n2 - t0) mod Z.of_N iv).
Lemma late1 : tt_run (tt_start (mkTotp (mkHotp (Some s) c b32) iv t0 0 0) [[CGenerate e d]; [CGenerate e' d']]) (steps 0 [0; 0; 1; 2; 0; 0; 0; 0; 1; 2; 0]%nat n1) =
  Ret (mkShared 0 (mkTotp (mkHotp (Some s) c b32) iv t0 n1 0), [mkTT [] (AtSetDelta e d c1 r1) []; mkTT [CGenerate e' d'] Idle []]).
Proof.
  pose proof C1 as (N1 & _). unfold tt_start, steps. cbn [map].
  do 5 go1. rewrite time_sub_small by (pow62; lia). go1. rewrite time_sub_small by (pow62; lia). go1. leb_case; [|lia]. go1.
  rewrite (calc_eq n1 iv t0 Hi C1). go1. reflexivity.
Qed.
Lemma late2 ta : tt_run (mkShared 0 (mkTotp (mkHotp (Some s) c b32) iv t0 n1 0), [ta; mkTT [CGenerate e' d'] Idle []]) (steps 1 [0; 0; 1; 2; 0; 0; 0; 0; 1; 2; 0; 0; 0; 0; 0; 1; 2; 0; 0]%nat n2) =
  Ret (mkShared 0 (mkTotp (mkHotp (Some s) c2 b32) iv t0 n2 r2), [ta; mkTT [] Idle [Otp (HOTP H B s c2 d')]]).
Proof.
  pose proof C1 as (N1 & _). pose proof C2 as (N2 & _). unfold steps. cbn [map].
  do 5 go1. rewrite time_sub_small by (pow62; lia). go1. rewrite time_sub_small by (pow62; lia). go1. leb_case; [|lia]. go1.
  rewrite (calc_eq n2 iv t0 Hi C2). go1.
  unfold read_secret. go1. rewrite Nat.eqb_refl, Nat.leb_refl, firstn_all. go1. rewrite Hgen by assumption. go1. reflexivity.
Qed.
Lemma late3 tb : tt_run (mkShared 0 (mkTotp (mkHotp (Some s) c2 b32) iv t0 n2 r2), [mkTT [] (AtSetDelta e d c1 r1) []; tb]) (steps 0 [0; 0; 0; 0; 1; 2; 0; 0]%nat n2) =
  Ret (mkShared 0 (mkTotp (mkHotp (Some s) c1 b32) iv t0 n2 r1), [mkTT [] Idle [Otp (HOTP H B s c1 d)]; tb]).
Proof.
  unfold steps. cbn [map]. go1. unfold read_secret. go1. rewrite Nat.eqb_refl, Nat.leb_refl, firstn_all. go1. rewrite Hgen by assumption. go1. reflexivity.
Qed.
Lemma late_run : tt_run (tt_start (mkTotp (mkHotp (Some s) c b32) iv t0 0 0) [[CGenerate e d]; [CGenerate e' d']]) (late_sched n1 n2) =
  Ret (mkShared 0 (mkTotp (mkHotp (Some s) c1 b32) iv t0 n2 r1), [mkTT [] Idle [Otp (HOTP H B s c1 d)]; mkTT [] Idle [Otp (HOTP H B s c2 d')]]).
Proof. unfold late_sched. rewrite run_app, late1. cbn [bind]. rewrite run_app, late2. cbn [bind]. apply late3. Qed.
End Late.
Theorem C82_late_writer_refuted : forall garbage a P M H B D, choice_std a P M H B D -> a <> A_MD5 ->
  forall o s iv t0, fresh o -> interval_ o = iv -> initial_time_ o = t0 -> 0 < iv < 2 ^ 31 -> secret (hotp_part o) = Some s -> bytes_ok s -> (length s <= B)%nat ->
  forall n1 n2 (e e' : locals garbage a) d d', clock_ok t0 n1 -> clock_ok t0 n2 -> (n1 <= n2)%Z -> locals_any D e -> locals_any D e' ->
  exists sched sh ta tb, ascending n1 (times sched) /\ Forall (fun x => x = n1 \/ x = n2) (times sched) /\
    tt_run (tt_start o [[CGenerate e d]; [CGenerate e' d']]) sched = Ret (sh, [ta; tb]) /\
    tt_todo ta = [] /\ tt_at ta = Idle /\ tt_todo tb = [] /\ tt_at tb = Idle /\
    forall (e2 : locals garbage a) d2 now1 now2, locals_any D e2 -> (n2 <= now1 < n2 + (Z.of_N iv - (n1 - t0) mod Z.of_N iv))%Z -> (now1 < 2 ^ 62)%Z ->
      omap snd (totp_generate e2 (sh_obj sh) now1 now2 d2) = Ret (Otp (HOTP H B s (Z.to_N (time_step n1 t0 iv)) d2)).
Proof.
  intros garbage a P M H B D K Ha o s iv t0 (F1 & F2) Ei Et Hi Hs Hb Hl n1 n2 e e' d d' Hn1 Hn2 Le L L'.
  assert (Hi' : 0 < iv < 2 ^ 32) by (split; [apply Hi|eapply N.lt_trans; [apply Hi|reflexivity]]).
  assert (Hgen : forall (e : locals garbage a) d c, locals_any D e -> hotp_generic garbage a (lo_ctx e) (lo_loc e) (lo_out e) s c d = Ret (HOTP H B s c d)).
  { intros e0 d0 c0 (L1 & L2 & L3). apply (C39_hotp_rfc4226 garbage a P M H B D K Ha); assumption. }
  destruct (small_delta n1 iv t0 Hi) as (Sd & Sp). destruct o as [[sec c b32] iv0 t00 u0 dl0]. cbn [hotp_part secret co update_time_ delta_ interval_ initial_time_] in *. subst sec u0 dl0 iv0 t00.
  exists (late_sched n1 n2). do 3 eexists. split; [apply late_ascending; exact Le|].
  split. { unfold late_sched, times. rewrite !map_app. rewrite !Forall_app. repeat split; (eapply Forall_impl; [|apply times_steps]); intros x <-; auto. }
  split; [apply (late_run H B D s c b32 iv t0 n1 n2 e e' d d'); assumption|]. split; [reflexivity|]. split; [reflexivity|]. split; [reflexivity|]. split; [reflexivity|].
  intros e2 d2 now1 now2 L2 Hr Hn. pose proof Hn2 as (N2 & _). cbn [sh_obj]. rewrite Sd.
  unfold totp_generate, refresh, remaining_time. go1. rewrite (time_sub_small now1 n2) by (pow62; lia). go1. rewrite time_sub_small by (gen_r; lia). go1. leb_case; [gen_r; lia|]. go1.
  unfold hotp_generate. go1. rewrite Hgen by assumption. reflexivity.
Qed.
Print Assumptions C82_late_writer_refuted.
(** set_secret during another thread's generate: that thread reads the deleted secret *)
Theorem C82_set_secret_refuted : forall garbage a o s t0 iv u rem, updated_at o t0 iv u rem -> secret (hotp_part o) = Some s ->
  forall now (e : locals garbage a) d b, (u <= now < u + rem)%Z -> (now < 2 ^ 62)%Z ->
  exists sched, Forall (eq now) (times sched) /\ tt_run (tt_start o [[CGenerate e d]; [CSetSecret b]]) sched = UB DoubleFree.
Proof.
  intros garbage a o s t0 iv u rem (_ & Eu & Ec & Ed & Hr & Hu & H31) Hs now e d b Hn Hn2.
  destruct o as [[sec c b32] iv0 t00 u0 dl0]. cbn [hotp_part secret co update_time_ delta_] in *. subst sec u0 dl0.
  exists (steps 0 [0; 0; 1; 2; 0; 0; 0; 1; 2; 0]%nat now ++ steps 1 [0]%nat now ++ steps 0 [0]%nat now).
  split; [unfold times; rewrite !map_app, !Forall_app; repeat split; apply times_steps|]. unfold tt_start, steps. cbn [map app].
  do 5 go1. rewrite time_sub_small by (pow62; lia). go1. rewrite time_sub_small by (pow62; lia). go1. leb_case; [lia|]. go1. reflexivity.
Qed.
Print Assumptions C82_set_secret_refuted.

(** ** Cases that meet the hypotheses *)
Lemma env1_any : locals_any 20 env1.
Proof. split; [split; [reflexivity|split; reflexivity]|]. split; [split; reflexivity|reflexivity]. Qed.
Example ex_work : only_generate 20 [[CGenerate env1 6; CGenerate env1 8]; [CGenerate env1 6]] /\ fresh totp1 /\ secret (hotp_part totp1) = Some rfc_secret.
Proof. split; [repeat (constructor; try (do 2 eexists; split; [reflexivity|exact env1_any]))|]. split; [split; reflexivity|reflexivity]. Qed.
(** two threads, one after the other, and then interleaved: 755224 is the password of seconds 0-29, 287082 of seconds 30-59 *)
Definition full := [0; 0; 1; 2; 0; 0; 0; 0; 1; 2; 0; 0; 0; 0; 0; 1; 2; 0; 0]%nat.
Definition short := [0; 2; 1; 0; 0; 0; 0; 1; 2; 0; 0]%nat.
Definition outs (r : outcome (tt_state None A_SHA1)) : outcome (list (list (gen_result N))) := omap (fun st => map tt_results (snd st)) r.
Example ex_runs : let st := tt_start totp1 [[CGenerate env1 6; CGenerate env1 6]; [CGenerate env1 6]] in
  outs (tt_run st (steps 0 full 5 ++ steps 1 short 29 ++ steps 0 full 31)) = Ret [[Otp 755224; Otp 287082]; [Otp 755224]] /\
  outs (tt_run st (steps 0 full 5 ++ steps 0 (firstn 7 full) 31 ++ steps 1 short 31)) = Ret [[Otp 755224]; [Otp 755224]].
Proof. vm_compute. auto. Qed.
