(** C91: whole programs on one TOTP object. C45: the text of generate_str. *)
From Coq Require Import String.
From Verif Require SFips202 SMd5.
From Verif Require Import Base MBase SRfc4648 PropBase MCppSize MCppBase SCppBase PCppBase PCppBase2 PropCppBase.
From Verif Require Import SFips180 SShaLib MSha MFront MMd5 MKeccak SHash SKeccakFns SHashFns PTyped MHmac SHmac PHmac PropHmac MOtp SOtp POtp PropOtp MOtpObj SOtpObj PropOtpObj MTotpProgram STotpProgram.
Local Open Scope N_scope.

Section Program.
Context {garbage : option N} {a : alg_choice}.
Notation call := (totp_call garbage a).

Lemma sets_app (x y : list call) : sets (x ++ y) = sets x ++ sets y.
Proof. unfold sets. apply flat_map_app. Qed.
Lemma readings_app (x y : list call) : readings (x ++ y) = readings x ++ readings y.
Proof. unfold readings. apply flat_map_app. Qed.
Lemma interval_snoc (ks : list call) k iv0 iv : interval_after (ks ++ [k]) iv0 iv <-> k = TSetInterval iv \/ (~ sets_interval k /\ interval_after ks iv0 iv).
Proof.
  split.
  - intros [(b & af & E & F)|[-> F]].
    + destruct af as [|y af] using rev_ind.
      * apply app_inj_tail in E as [_ <-]. auto.
      * clear IHaf. rewrite app_comm_cons, app_assoc in E. apply app_inj_tail in E as [-> <-]. apply Forall_app in F as [F1 F2]. inversion F2; subst. right. split; [assumption|]. left. eauto.
    + apply Forall_app in F as [F1 F2]. inversion F2; subst. right. split; [assumption|]. right. auto.
  - intros [->|[C [(b & af & -> & F)|[-> F]]]].
    + left. exists ks, []. auto.
    + left. exists b, (af ++ [k]). split; [rewrite <- app_assoc; reflexivity|]. apply Forall_app. split; [exact F|constructor; [exact C|constructor]].
    + right. split; [reflexivity|]. apply Forall_app. split; [exact F|constructor; [exact C|constructor]].
Qed.
Lemma initial_snoc (ks : list call) k t0 : initial_after (ks ++ [k]) t0 <-> k = TSetInitialTime t0 \/ (~ sets_initial k /\ initial_after ks t0).
Proof.
  split.
  - intros [(b & af & E & F)|[-> F]].
    + destruct af as [|y af] using rev_ind.
      * apply app_inj_tail in E as [_ <-]. auto.
      * clear IHaf. rewrite app_comm_cons, app_assoc in E. apply app_inj_tail in E as [-> <-]. apply Forall_app in F as [F1 F2]. inversion F2; subst. right. split; [assumption|]. left. eauto.
    + apply Forall_app in F as [F1 F2]. inversion F2; subst. right. split; [assumption|]. right. auto.
  - intros [->|[C [(b & af & -> & F)|[-> F]]]].
    + left. exists ks, []. auto.
    + left. exists b, (af ++ [k]). split; [rewrite <- app_assoc; reflexivity|]. apply Forall_app. split; [exact F|constructor; [exact C|constructor]].
    + right. split; [reflexivity|]. apply Forall_app. split; [exact F|constructor; [exact C|constructor]].
Qed.
(** at most one interval and one initial time are the right ones *)
Theorem C91_interval_unique : forall (ks : list call) iv0 iv iv', interval_after ks iv0 iv -> interval_after ks iv0 iv' -> iv = iv'.
Proof.
  induction ks as [|k ks IH] using rev_ind; intros iv0 iv iv'.
  - intros [(b & ? & E & _)|[-> _]] [(b' & ? & E' & _)|[-> _]]; try (destruct b; discriminate); try (destruct b'; discriminate). reflexivity.
  - rewrite !interval_snoc. intros [->|[C S]] [E|[C' S']]; try congruence; try (exfalso; subst; cbn in *; tauto). eapply IH; eauto.
Qed.
Theorem C91_initial_unique : forall (ks : list call) t0 t0', initial_after ks t0 -> initial_after ks t0' -> t0 = t0'.
Proof.
  induction ks as [|k ks IH] using rev_ind; intros t0 t0'.
  - intros [(b & ? & E & _)|[-> _]] [(b' & ? & E' & _)|[-> _]]; try (destruct b; discriminate); try (destruct b'; discriminate). reflexivity.
  - rewrite !initial_snoc. intros [->|[C S]] [E|[C' S']]; try congruence; try (exfalso; subst; cbn in *; tauto). eapply IH; eauto.
Qed.

Definition call_fine (k : call) : Prop := match k with
  | TSet k => set_ok k /\ forall s, gives k s -> bytes_ok s
  | TGenerate e _ _ _ => ectx_ok (lo_ctx e) /\ eloc_ok (lo_loc e) /\ length (lo_out e) = digest_size a
  | TGenerateStr e _ _ d => ectx_ok (lo_ctx e) /\ eloc_ok (lo_loc e) /\ length (lo_out e) = digest_size a /\ 0 < d
  | _ => True end.
(** what a call after the first request may be: a request or a new secret *)
Definition later (k : call) : Prop := match k with TSet k => ~ counter_call k | TGenerate _ _ _ _ | TGenerateStr _ _ _ _ => True | _ => False end.

Definition secret_right (pre : list call) (t : totp_obj) : Prop :=
  hok (hotp_part t) /\ secret_after (sets pre) (secret (hotp_part t)) /\ forall s, secret (hotp_part t) = Some s -> bytes_ok s.
Lemma set_step pre t k : secret_right pre t -> call_fine (TSet k) -> exists h, do_set true (hotp_part t) k = Ret h /\
  secret_right (pre ++ [TSet k]) (mkTotp h (interval_ t) (initial_time_ t) (update_time_ t) (delta_ t)) /\ (~ counter_call k -> co h = co (hotp_part t)).
Proof.
  intros (O & S & B) [K1 K2]. destruct (do_set_ok (hotp_part t) k O K1) as (h & E & O' & D). exists h. split; [exact E|]. split.
  - split; [exact O'|]. cbn [hotp_part]. rewrite sets_app. cbn [sets flat_map app]. destruct D as [(c & -> & -> & _)|(NC & _ & s & Es & G)].
    + split; [|exact B]. apply secret_snoc. left. split; [exact Logic.I|exact S].
    + split; [apply secret_snoc; right; eauto|]. intros s' E'. rewrite Es in E'. injection E' as <-. apply K2, G.
  - intros NC. destruct D as [(c & -> & _)|(_ & C & _)]; [exfalso; apply NC; exact Logic.I|exact C].
Qed.

(** the calls before the first request *)
Lemma setup_run co0 iv0 (ks : list call) : Forall call_fine ks -> Forall (fun k => asks k = false) ks ->
  exists t, totp_run true (new_totp co0 iv0) ks = Ret t /\ secret_right ks t /\ fresh t /\ interval_after ks iv0 (interval_ t) /\ initial_after ks (initial_time_ t).
Proof.
  induction ks as [|k ks IH] using rev_ind; intros F G.
  - eexists. split; [reflexivity|]. split; [|split; [split; reflexivity|split; right; split; auto]]. split; [exact new_settled|]. split; [constructor|]. cbn. discriminate.
  - apply Forall_app in F as [F F1]. apply Forall_app in G as [G G1]. inversion F1 as [|? ? Fk _]; subst. inversion G1 as [|? ? Gk _]; subst. destruct (IH F G) as (t & E & S & Fr & Iv & It).
    assert (R : forall k', totp_run true (new_totp co0 iv0) (ks ++ [k']) = totp_do true t k').
    { intros k'. revert E. generalize (new_totp co0 iv0). clear. induction ks as [|x ks IH]; intros u E; cbn [app totp_run] in *.
      - assert (u = t) as -> by congruence. destruct (totp_do true t k'); reflexivity.
      - destruct (totp_do true u x); cbn [bind] in *; try discriminate. apply IH, E. }
    rewrite R. destruct k as [k|iv|t1|e n1 n2 d|e n1 n2 d]; try discriminate Gk; cbn [totp_do].
    + destruct (set_step ks t k S Fk) as (h & E' & S' & _). rewrite E'. cbn [bind]. eexists. split; [reflexivity|]. split; [exact S'|]. split; [exact Fr|]. split; [apply interval_snoc|apply initial_snoc]; right; split; cbn; auto.
    + eexists. split; [reflexivity|]. split; [unfold secret_right; rewrite sets_app, app_nil_r; exact S|]. split; [exact Fr|]. split; [apply interval_snoc; left; reflexivity|apply initial_snoc; right; split; cbn; auto].
    + eexists. split; [reflexivity|]. split; [unfold secret_right; rewrite sets_app, app_nil_r; exact S|]. split; [exact Fr|]. split; [apply interval_snoc; right; split; cbn; auto|apply initial_snoc; left; reflexivity].
Qed.
Lemma session_app ltr (ks rest : list call) : Forall (fun k => asks k = false) ks -> forall t, totp_session ltr t (ks ++ rest) = (t <- totp_run ltr t ks ;; totp_session ltr t rest).
Proof.
  induction 1 as [|k ks Hk _ IH]; intros t; [reflexivity|]. cbn [app totp_session totp_run].
  destruct k as [k|iv|t1|e n1 n2 d|e n1 n2 d]; try discriminate Hk; (destruct (totp_do ltr t _); cbn [bind]; [apply IH|reflexivity|reflexivity]).
Qed.
Lemma filter_none (ks : list call) : Forall (fun k => asks k = false) ks -> filter asks ks = [].
Proof. induction 1 as [|k ks Hk _ IH]; [reflexivity|]. cbn [filter]. rewrite Hk. exact IH. Qed.

(** every request among [rest] gets the right answer *)
Definition all_right H B t0 iv (pre rest : list call) (rs : list totp_answer) : Prop :=
  length rs = length (filter asks rest) /\
  forall mid k post, rest = mid ++ k :: post -> asks k = true ->
    exists so r, secret_after (sets (pre ++ mid)) so /\ nth_error rs (length (filter asks mid)) = Some r /\ answered H B t0 iv so k r.
Lemma right_cons_set H B t0 iv pre k rest rs : asks k = false -> all_right H B t0 iv (pre ++ [k]) rest rs -> all_right H B t0 iv pre (k :: rest) rs.
Proof.
  intros Hk [L A]. split; [cbn [filter]; rewrite Hk; exact L|]. intros mid k' post E Ak. destruct mid as [|x mid]; cbn [app] in E.
  - assert (k = k') by congruence. subst. congruence.
  - assert (x = k) as -> by congruence. assert (rest = mid ++ k' :: post) as E' by congruence. destruct (A mid k' post E' Ak) as (so & r & P). exists so, r. cbn [filter]. rewrite Hk. rewrite <- app_assoc in P. exact P.
Qed.
Lemma right_cons_ask H B t0 iv pre k rest rs so r : asks k = true -> secret_after (sets pre) so -> answered H B t0 iv so k r -> all_right H B t0 iv (pre ++ [k]) rest rs -> all_right H B t0 iv pre (k :: rest) (r :: rs).
Proof.
  intros Hk S An [L A]. split; [cbn [filter]; rewrite Hk; cbn [length]; f_equal; exact L|]. intros mid k' post E Ak. destruct mid as [|x mid]; cbn [app] in E.
  - assert (k = k') as <- by congruence. exists so, r. rewrite app_nil_r. cbn [filter length nth_error]. auto.
  - assert (x = k) as -> by congruence. assert (rest = mid ++ k' :: post) as E' by congruence. destruct (A mid k' post E' Ak) as (so' & r' & P). exists so', r'. cbn [filter]. rewrite Hk. cbn [length nth_error]. rewrite <- app_assoc in P. exact P.
Qed.

Lemma requests_run P M H B D (K : choice_std a P M H B D) (Ha : a <> A_MD5) t0 iv (Hi : 0 < iv < 2 ^ 32) (rest : list call) :
  forall pre t last, Forall call_fine rest -> Forall later rest -> Forall (clock_ok t0) (readings rest) -> ascending last (readings rest) ->
  secret_right pre t -> tracks t0 iv t last -> exists rs, totp_session true t rest = Ret rs /\ all_right H B t0 iv pre rest rs.
Proof.
  induction rest as [|k rest IH]; intros pre t last F G C As S T.
  { exists []. split; [reflexivity|]. split; [reflexivity|]. intros mid k post E. destruct mid; discriminate. }
  inversion F as [|? ? Fk F']; subst. inversion G as [|? ? Gk G']; subst.
  assert (Gen : forall (e : locals garbage a) n1 n2 d, ectx_ok (lo_ctx e) /\ eloc_ok (lo_loc e) /\ length (lo_out e) = digest_size a ->
    Forall (clock_ok t0) (n1 :: n2 :: readings rest) -> ascending last (n1 :: n2 :: readings rest) ->
    exists t' res, totp_generate e t n1 n2 d = Ret (t', res) /\ refresh t n1 n2 = Ret t' /\ hotp_generate e (hotp_part t') d = Ret res /\ secret_right pre t' /\ tracks t0 iv t' n2 /\ ascending n2 (readings rest) /\ Forall (clock_ok t0) (readings rest) /\
      secret (hotp_part t') = secret (hotp_part t) /\
      match secret (hotp_part t) with None => res = NotInitialized | Some s => exists now, (now = n1 \/ now = n2) /\ res = Otp (HOTP H B (firstn B s) (Z.to_N (time_step now t0 iv)) d) /\
        exists g l o c, hotp_generic garbage a g l o s c d = Ret (HOTP H B (firstn B s) (Z.to_N (time_step now t0 iv)) d) end).
  { intros e n1 n2 d (E1 & E2 & E3) C0 A0. pose proof (Forall_inv C0) as C1. pose proof (Forall_inv_tail C0) as C0'. pose proof (Forall_inv C0') as C2. pose proof (Forall_inv_tail C0') as C3. cbn [ascending] in A0. destruct A0 as (L1 & L2 & A0).
    destruct (refresh_tracks t0 iv t last n1 n2 Hi T C1 C2 L1 L2) as (t' & E & T' & Es & Eb & r & Hr & Co). unfold totp_generate. rewrite E. cbn [bind].
    assert (S' : secret_right pre t'). { destruct S as (O & S1 & S2). split; [unfold hok; rewrite Eb; exact O|]. rewrite Es. split; [exact S1|exact S2]. }
    assert (HG : exists res, hotp_generate e (hotp_part t') d = Ret res /\
      match secret (hotp_part t) with None => res = NotInitialized | Some s => exists now, (now = n1 \/ now = n2) /\ res = Otp (HOTP H B (firstn B s) (Z.to_N (time_step now t0 iv)) d) /\
        exists g l o c, hotp_generic garbage a g l o s c d = Ret (HOTP H B (firstn B s) (Z.to_N (time_step now t0 iv)) d) end).
    { unfold hotp_generate. rewrite Es. destruct (secret (hotp_part t)) as [s|] eqn:Esec; [|eexists; split; reflexivity].
      rewrite Co. assert (Hb : bytes_ok s) by (apply (proj2 (proj2 S)); exact Esec).
      assert (V : hotp_generic garbage a (lo_ctx e) (lo_loc e) (lo_out e) s (Z.to_N (time_step r t0 iv)) d = Ret (HOTP H B (firstn B s) (Z.to_N (time_step r t0 iv)) d)).
      { apply (C39_long_secret_cut garbage a P M H B D K Ha); auto. rewrite <- (size_of_choice _ _ _ _ _ _ K). exact E3. }
      rewrite V. cbn [bind]. eexists. split; [reflexivity|]. exists r. split; [exact Hr|]. split; [reflexivity|]. eauto. }
    destruct HG as (res & HG & V). rewrite HG. cbn [bind]. exists t', res. do 2 (split; [reflexivity|]). split; [exact HG|]. split; [exact S'|]. split; [exact T'|]. split; [exact A0|]. split; [exact C3|]. split; [exact Es|exact V]. }
  destruct k as [k|i|t1|e n1 n2 d|e n1 n2 d]; cbn [later] in Gk; try contradiction; cbn [totp_session].
  - destruct (set_step pre t k S Fk) as (h & E & S' & Co). cbn [totp_do]. rewrite E. cbn [bind].
    destruct (IH (pre ++ [TSet k]) _ last F' G' C As S') as (rs & Er & R).
    { destruct T as (T1 & T2 & T3). split; [exact T1|]. split; [exact T2|]. destruct T3 as [T3|(u & Lu & (U1 & U2 & U3 & U4))]; [left; exact T3|]. right. exists u. split; [exact Lu|]. split; [exact U1|]. split; [exact U2|]. cbn [hotp_part delta_]. rewrite (Co Gk). split; assumption. }
    exists rs. split; [exact Er|]. apply right_cons_set; [reflexivity|exact R].
  - destruct (Gen e n1 n2 d Fk C As) as (t' & res & E & _ & _ & S' & T' & A' & C' & _ & V). rewrite E. cbn [bind].
    assert (S'' : secret_right (pre ++ [TGenerate e n1 n2 d]) t') by (unfold secret_right; rewrite sets_app, app_nil_r; exact S').
    destruct (IH (pre ++ [TGenerate e n1 n2 d]) t' n2 F' G' C' A' S'' T') as (rs & Er & R). rewrite Er. cbn [bind]. eexists. split; [reflexivity|].
    apply right_cons_ask with (so := secret (hotp_part t)); [reflexivity|apply S| |exact R]. cbn [answered]. destruct (secret (hotp_part t)) as [s|]; [|f_equal; exact V]. destruct V as (now & Hn & -> & _). exists now. auto.
  - destruct Fk as (F1 & F2 & F3 & F4). destruct (Gen e n1 n2 d (conj F1 (conj F2 F3)) C As) as (t' & res & _ & E & Eg & S' & T' & A' & C' & _ & V). unfold totp_generate_str. rewrite E. cbn [bind]. unfold hotp_generate_str. rewrite Eg. cbn [bind].
    assert (S'' : secret_right (pre ++ [TGenerateStr e n1 n2 d]) t') by (unfold secret_right; rewrite sets_app, app_nil_r; exact S').
    destruct (IH (pre ++ [TGenerateStr e n1 n2 d]) t' n2 F' G' C' A' S'' T') as (rs & Er & R).
    destruct (secret (hotp_part t)) as [s|] eqn:Es.
    + destruct V as (now & Hn & -> & g & l & o & c & Eh). destruct (C43_generated_text garbage a g l o s c d _ F4 Eh) as (text & Et & Dt). rewrite Et. cbn [bind]. rewrite Er. cbn [bind]. eexists. split; [reflexivity|].
      apply right_cons_ask with (so := Some s); [reflexivity|rewrite <- Es; apply S| |exact R]. cbn [answered]. exists now, text. auto.
    + subst res. cbn [bind]. rewrite Er. cbn [bind]. eexists. split; [reflexivity|]. apply right_cons_ask with (so := None); [reflexivity|rewrite <- Es; apply S|reflexivity|exact R].
Qed.
End Program.

(** C91: a program makes a TOTP object, gives it settings in any order (interval, initial time, secrets, counters), and then asks for values and texts and
    sets new secrets, in any order; the clock does not go backwards and is never before the initial time. Every request gets the value of the step of a
    clock reading made in that very call, for the interval and the initial time set last and the secret set last before the request. *)
Theorem C91_totp_program : forall garbage a P M H B D, choice_std a P M H B D -> a <> A_MD5 ->
  forall co0 iv0 (setup rest : list (totp_call garbage a)) iv t0,
  Forall call_fine (setup ++ rest) -> Forall (fun k => asks k = false) setup -> Forall later rest ->
  interval_after setup iv0 iv -> initial_after setup t0 -> 0 < iv < 2 ^ 32 ->
  Forall (clock_ok t0) (readings rest) -> ascending 0 (readings rest) ->
  exists rs, totp_session true (new_totp co0 iv0) (setup ++ rest) = Ret rs /\ length rs = length (filter asks rest) /\
    forall mid k post, rest = mid ++ k :: post -> asks k = true -> forall so, secret_after (sets (setup ++ mid)) so ->
      exists r, nth_error rs (length (filter asks mid)) = Some r /\ answered H B t0 iv so k r.
Proof.
  intros garbage a P M H B D K Ha co0 iv0 setup rest iv t0 F Gs Gr Iv It Hi C As. apply Forall_app in F as [Fs Fr].
  destruct (setup_run co0 iv0 setup Fs Gs) as (t & E & S & Fh & Iv' & It'). 
  assert (T : tracks t0 iv t 0). { split; [exact (C91_interval_unique _ _ _ _ Iv' Iv)|]. split; [exact (C91_initial_unique _ _ _ It' It)|]. left. exact Fh. }
  destruct (requests_run P M H B D K Ha t0 iv Hi rest setup t 0%Z Fr Gr C As S T) as (rs & Er & L & R). exists rs. rewrite session_app by exact Gs. rewrite E. split; [exact Er|]. split; [exact L|].
  intros mid k post Em Ak so Hs. destruct (R mid k post Em Ak) as (so' & r & Hs' & N' & A'). exists r. split; [exact N'|]. rewrite (C46_secret_unique _ _ _ Hs Hs'). exact A'.
Qed.
Print Assumptions C91_totp_program.
(** there is always exactly one secret (or none), interval and initial time: C46_secret_unique, the two above, and *)
Theorem C91_settings_exist : forall garbage a (setup mid : list (totp_call garbage a)) iv0, Forall call_fine (setup ++ mid) -> Forall (fun k => asks k = false) setup ->
  (exists iv, interval_after setup iv0 iv) /\ (exists t0, initial_after setup t0) /\ exists so, secret_after (sets (setup ++ mid)) so.
Proof.
  intros garbage a setup mid iv0 F G. apply Forall_app in F as F'. destruct F' as [Fs _]. destruct (setup_run 0 iv0 setup Fs G) as (t & _ & _ & _ & Iv & It). split; [eauto|]. split; [eauto|].
  clear -F. induction (setup ++ mid) as [|k ks IH] using rev_ind; [exists None; constructor|]. apply Forall_app in F as [F1 F2]. inversion F2 as [|? ? Fk _]; subst. destruct (IH F1) as (so & Hs). rewrite sets_app.
  destruct k as [k|i|t1|e n1 n2 d|e n1 n2 d]; cbn [sets flat_map app]; rewrite ?app_nil_r; eauto.
  destruct (do_set_ok (new_hotp 0) k new_settled (proj1 Fk)) as (h & _ & _ & [(c & -> & _)|(_ & _ & s & _ & Gv)]); [exists so|exists (Some s)]; apply secret_snoc; [left; split; [exact Logic.I|exact Hs]|right; eauto].
Qed.
Print Assumptions C91_settings_exist.
Print Assumptions C91_interval_unique.
Print Assumptions C91_initial_unique.

(** C91, two parties: two TOTP objects with the same interval and initial time (a device and a server), with any two histories, asked for [d] digits with the same
    secret and with all clock readings of the two requests in one step, give the same value. *)
Definition program_ok {garbage a} (co0 iv0 : N) (setup rest : list (totp_call garbage a)) (iv : N) (t0 : Z) : Prop :=
  Forall call_fine (setup ++ rest) /\ Forall (fun k => asks k = false) setup /\ Forall later rest /\
  interval_after setup iv0 iv /\ initial_after setup t0 /\ Forall (clock_ok t0) (readings rest) /\ ascending 0 (readings rest).
Theorem C91_two_parties : forall garbage garbage' a P M H B D, choice_std a P M H B D -> a <> A_MD5 -> forall iv t0 s n, 0 < iv < 2 ^ 32 ->
  forall co0 iv0 (setup mid post : list (totp_call garbage a)) e n1 n2 d, program_ok co0 iv0 setup (mid ++ TGenerate e n1 n2 d :: post) iv t0 ->
  forall co0' iv0' (setup' mid' post' : list (totp_call garbage' a)) e' n1' n2', program_ok co0' iv0' setup' (mid' ++ TGenerate e' n1' n2' d :: post') iv t0 ->
  secret_after (sets (setup ++ mid)) (Some s) -> secret_after (sets (setup' ++ mid')) (Some s) ->
  Forall (fun now => time_step now t0 iv = n) [n1; n2; n1'; n2'] ->
  exists rs rs' v, totp_session true (new_totp co0 iv0) (setup ++ mid ++ TGenerate e n1 n2 d :: post) = Ret rs /\
    totp_session true (new_totp co0' iv0') (setup' ++ mid' ++ TGenerate e' n1' n2' d :: post') = Ret rs' /\
    nth_error rs (length (filter asks mid)) = Some (AValue (Otp v)) /\ nth_error rs' (length (filter asks mid')) = Some (AValue (Otp v)).
Proof.
  intros garbage garbage' a P M H B D K Ha iv t0 s n Hi co0 iv0 setup mid post e n1 n2 d (A1 & A2 & A3 & A4 & A5 & A6 & A7)
    co0' iv0' setup' mid' post' e' n1' n2' (B1 & B2 & B3 & B4 & B5 & B6 & B7) S S' Hn.
  destruct (C91_totp_program _ _ _ _ _ _ _ K Ha co0 iv0 _ _ iv t0 A1 A2 A3 A4 A5 Hi A6 A7) as (rs & R & _ & Q).
  destruct (C91_totp_program _ _ _ _ _ _ _ K Ha co0' iv0' _ _ iv t0 B1 B2 B3 B4 B5 Hi B6 B7) as (rs' & R' & _ & Q').
  destruct (Q _ _ _ eq_refl eq_refl _ S) as (r & N1 & (now & W & V)). destruct (Q' _ _ _ eq_refl eq_refl _ S') as (r' & N2 & (now' & W' & V')).
  exists rs, rs', (HOTP H B (firstn B s) (Z.to_N n) d). split; [exact R|]. split; [exact R'|].
  rewrite !Forall_cons_iff in Hn. destruct Hn as (E1 & E2 & E3 & E4 & _).
  assert (Enow : time_step now t0 iv = n) by (destruct W; subst now; assumption).
  assert (Enow' : time_step now' t0 iv = n) by (destruct W'; subst now'; assumption).
  rewrite Enow in V. rewrite Enow' in V'. subst r r'. split; assumption.
Qed.

(** C45: on any object, generate_str leaves the object generate leaves and gives the text of its value *)
Theorem C45_generate_str : forall garbage a (e : locals garbage a) t now1 now2 d, 0 < d ->
  match totp_generate e t now1 now2 d with
  | Ret (t', Otp v) => exists text, totp_generate_str e t now1 now2 d = Ret (t', Otp text) /\ decimal (N.to_nat d) v text
  | Ret (t', NotInitialized) => totp_generate_str e t now1 now2 d = Ret (t', NotInitialized)
  | UB w => totp_generate_str e t now1 now2 d = UB w
  | Hang => totp_generate_str e t now1 now2 d = Hang
  end.
Proof.
  intros garbage a e t now1 now2 d Hd. unfold totp_generate, totp_generate_str, hotp_generate_str, hotp_generate. destruct (refresh t now1 now2) as [t'| |]; cbn [bind]; try reflexivity.
  destruct (secret (hotp_part t')) as [s|]; cbn [bind]; [|reflexivity]. destruct (hotp_generic garbage a (lo_ctx e) (lo_loc e) (lo_out e) s (co (hotp_part t')) d) as [v| |] eqn:E; cbn [bind]; try reflexivity.
  destruct (C43_generated_text _ _ _ _ _ _ _ _ _ Hd E) as (text & Et & Dt). rewrite Et. cbn [bind]. eauto.
Qed.
Print Assumptions C45_generate_str.

(** Non-vacuity: settings twice, a request before any secret, two secrets, values and texts *)
Definition program_setup : list (totp_call None A_SHA1) := [TSetInterval 60; TSetInitialTime 1000; TSet (SetCounter 4); TSetInterval 30; TSetInitialTime 0].
Definition program_rest : list (totp_call None A_SHA1) :=
  [TGenerate env1 0 1 6; TSet (SetSecret (chars "x")); TSet (SetSecret rfc_secret); TGenerate env1 29 29 6; TGenerateStr env1 59 60 8; TGenerateStr env1 1111111109 1111111109 8].
Example C91_case : totp_session true (new_totp 77 45) (program_setup ++ program_rest) =
  Ret [AValue NotInitialized; AValue (Otp 755224); AText (Otp (chars "37359152")); AText (Otp (chars "07081804"))].
Proof. vm_compute. reflexivity. Qed.
Example C91_hyps : Forall call_fine (program_setup ++ program_rest) /\ Forall (fun k => asks k = false) program_setup /\ Forall later program_rest /\
  interval_after program_setup 45 30 /\ initial_after program_setup 0 /\ Forall (clock_ok 0) (readings program_rest) /\ ascending 0 (readings program_rest) /\
  secret_after (sets (program_setup ++ firstn 4 program_rest)) (Some rfc_secret).
Proof.
  assert (Ek : ectx_ok (lo_ctx env1) /\ eloc_ok (lo_loc env1) /\ length (lo_out env1) = digest_size A_SHA1) by (split; [apply blank1_ok|]; split; [apply blank1_ok|reflexivity]).
  split; [|split; [|split; [|split; [|split; [|split; [|split]]]]]].
  - unfold program_setup, program_rest. cbn [app]. repeat (apply Forall_cons || apply Forall_nil); cbn [call_fine set_ok]; try exact Logic.I; try exact Ek; try (split; [exact Logic.I|]; cbn [gives]; intros s H; try contradiction; subst s; apply Forall_forall; intros x Hx; vm_compute in Hx; intuition (subst; vm_compute; reflexivity)); destruct Ek as (E1 & E2 & E3); repeat split; auto.
  - repeat constructor.
  - repeat (apply Forall_cons || apply Forall_nil); cbn; auto.
  - left. exists [TSetInterval 60; TSetInitialTime 1000; TSet (SetCounter 4)], [TSetInitialTime 0]. split; [reflexivity|]. repeat constructor. cbn. auto.
  - left. exists [TSetInterval 60; TSetInitialTime 1000; TSet (SetCounter 4); TSetInterval 30], []. split; [reflexivity|]. constructor.
  - cbn [program_rest readings flat_map app]. repeat (apply Forall_cons || apply Forall_nil); unfold clock_ok; pow62; lia.
  - cbn. lia.
  - exists [SetCounter 4; SetSecret (chars "x")], (SetSecret rfc_secret), []. split; [reflexivity|]. split; [reflexivity|constructor].
Qed.
(** two parties: the program above (its request at second 29) and a server that was given the secret at once and is asked at seconds 2-3 *)
Definition server_setup : list (totp_call None A_SHA1) := [TSet (SetSecret rfc_secret); TSetInterval 30].
Definition server_rest : list (totp_call None A_SHA1) := [TGenerate env1 2 3 6].
Example C91_two_case : program_rest = firstn 3 program_rest ++ TGenerate env1 29 29 6 :: skipn 4 program_rest /\
  program_ok 77 45 program_setup program_rest 30 0 /\ program_ok 5 60 server_setup ([] ++ server_rest) 30 0 /\
  secret_after (sets (program_setup ++ firstn 3 program_rest)) (Some rfc_secret) /\ secret_after (sets (server_setup ++ [])) (Some rfc_secret) /\
  Forall (fun now => time_step now 0 30 = 0%Z) [29; 29; 2; 3]%Z /\
  totp_session true (new_totp 5 60) (server_setup ++ server_rest) = Ret [AValue (Otp 755224)].
Proof.
  assert (Ek : ectx_ok (lo_ctx env1) /\ eloc_ok (lo_loc env1) /\ length (lo_out env1) = digest_size A_SHA1) by (split; [apply blank1_ok|]; split; [apply blank1_ok|reflexivity]).
  destruct C91_hyps as (A1 & A2 & A3 & A4 & A5 & A6 & A7 & _).
  split; [reflexivity|]. split; [repeat (split; [assumption|]); assumption|].
  split; [|split; [|split; [|split]]].
  - split; [|split; [|split; [|split; [|split; [|split]]]]].
    + unfold server_setup, server_rest. cbn [app]. repeat (apply Forall_cons || apply Forall_nil); cbn [call_fine set_ok]; try exact Logic.I; try exact Ek; (split; [exact Logic.I|]; cbn [gives]; intros s H; subst s; apply Forall_forall; intros x Hx; vm_compute in Hx; intuition (subst; vm_compute; reflexivity)).
    + repeat constructor.
    + repeat (apply Forall_cons || apply Forall_nil); cbn; auto.
    + left. exists [TSet (SetSecret rfc_secret)], []. split; [reflexivity|]. constructor.
    + right. split; [reflexivity|]. repeat (apply Forall_cons || apply Forall_nil); cbn; auto.
    + cbn [server_rest readings flat_map app]. repeat (apply Forall_cons || apply Forall_nil); unfold clock_ok; pow62; lia.
    + cbn. lia.
  - exists [SetCounter 4; SetSecret (chars "x")], (SetSecret rfc_secret), []. split; [reflexivity|]. split; [reflexivity|constructor].
  - exists [], (SetSecret rfc_secret), []. split; [reflexivity|]. split; [reflexivity|constructor].
  - repeat constructor.
  - vm_compute. reflexivity.
Qed.
Print Assumptions C91_two_parties.
