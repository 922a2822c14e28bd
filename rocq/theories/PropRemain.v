(** Property theorems C74: TOTP::remaining_time and update_time. *)
From Coq Require Import String.
From Verif Require Import Base MFront MHmac MOtp SOtp POtp MOtpObj SOtpObj PropOtp PropOtpObj.
Local Open Scope Z_scope.

Lemma updated_remaining t t0 iv u rem now : updated_at t t0 iv u rem -> 0 <= now < 2 ^ 62 -> remaining_time t now = Ret (rem - (now - u)).
Proof.
  intros (_ & U1 & _ & U3 & U4 & U5 & U6) H. rewrite remaining_eq; [rewrite U1, U3; reflexivity|exact H|rewrite U1; exact U5|].
  rewrite U3. pow62. lia.
Qed.
Lemma rem_end t0 iv u : 0 < iv -> iv - (u - t0) mod iv + u = t0 + ((u - t0) / iv + 1) * iv.
Proof. intros H. pose proof (Z.div_mod (u - t0) iv ltac:(lia)). nia. Qed.
(** what is left of the step of [u] at time [now] *)
Definition step_end (t0 : Z) (iv : N) (u : Z) : Z := t0 + (time_step u t0 iv + 1) * Z.of_N iv.

(** ** C74 *)
(** After a generate that updated the counter at [u], remaining_time counts down to the end of the step of [u], and update_time is [u]. *)
Theorem C74_countdown : forall t t0 iv u now, updated_at t t0 iv u (Z.of_N iv - (u - t0) mod Z.of_N iv) -> 0 <= now < 2 ^ 62 ->
  remaining_time t now = Ret (step_end t0 iv u - now) /\ update_time_ t = u.
Proof.
  intros t t0 iv u now U H. rewrite (updated_remaining _ _ _ _ _ _ U H). destruct U as (_ & U1 & _ & _ & U4 & _). split; [|exact U1]. f_equal.
  unfold step_end, time_step. rewrite <- (rem_end t0 (Z.of_N iv) u) by lia. lia.
Qed.
Print Assumptions C74_countdown.
(** As long as the step lasts this is the number of seconds after which the counter increases: at least 1, at most the interval. *)
Theorem C74_within_step : forall t t0 iv u now r, updated_at t t0 iv u (Z.of_N iv - (u - t0) mod Z.of_N iv) -> u <= now < 2 ^ 62 ->
  time_step now t0 iv = time_step u t0 iv -> remaining_time t now = Ret r ->
  1 <= r <= Z.of_N iv /\ time_step (now + r) t0 iv = time_step now t0 iv + 1 /\ forall x, now <= x < now + r -> time_step x t0 iv = time_step now t0 iv.
Proof.
  intros t t0 iv u now r U H Es E. pose proof U as (_ & _ & _ & _ & U4 & U5 & _). destruct (C74_countdown _ _ _ _ now U) as [E1 _]; [lia|].
  rewrite E1 in E. injection E as <-. unfold step_end. rewrite <- Es. unfold time_step in *. set (i := Z.of_N iv) in *.
  assert (Hi : 0 < i) by lia. pose proof (Z.div_mod (now - t0) i ltac:(lia)) as D. pose proof (Z.mod_pos_bound (now - t0) i Hi) as B.
  set (q := (now - t0) / i) in *. set (m := (now - t0) mod i) in *. split; [nia|]. split.
  - replace (now + (t0 + (q + 1) * i - now) - t0) with ((q + 1) * i) by lia. apply Z.div_mul. lia.
  - intros x Hx. symmetry. apply (Z.div_unique (x - t0) i q (x - t0 - i * q)); [left; nia|lia].
Qed.
Print Assumptions C74_within_step.
(** The same of every generate and generate_str on every object: one that finds no time left sets the countdown to the end of the step of
    the clock it reads, any other leaves the countdown as it is. *)
Lemma refresh_countdown t now1 now2 t' r now : remaining_time t now1 = Ret r -> (0 < interval_ t < 2 ^ 31)%N -> clock_ok (initial_time_ t) now2 -> 0 <= now < 2 ^ 62 ->
  refresh t now1 now2 = Ret t' ->
  (r <= 0 -> remaining_time t' now = Ret (step_end (initial_time_ t) (interval_ t) now2 - now) /\ update_time_ t' = now2) /\
  (0 < r -> remaining_time t' now = remaining_time t now /\ update_time_ t' = update_time_ t).
Proof.
  intros Er Hi C2 Hn E. unfold refresh in E. rewrite Er in E. cbn [bind] in E. destruct (Z.leb_spec r 0) as [Hr|Hr].
  - split; [intros _|lia]. assert (Hi' : (0 < interval_ t < 2 ^ 32)%N) by (split; [apply Hi|eapply N.lt_trans; [apply Hi|reflexivity]]).
    rewrite update_eq in E by assumption. injection E as <-. pose proof C2 as (C2a & C2b & C2c).
    assert (Hi2 : 0 < Z.of_N (interval_ t) < 2 ^ 31).
    { destruct Hi as [X Y]. change (2 ^ 31)%N with 2147483648%N in Y. change (2 ^ 31) with 2147483648. lia. }
    assert (G : 0 <= (now2 - initial_time_ t) mod Z.of_N (interval_ t) < Z.of_N (interval_ t)) by (apply Z.mod_pos_bound; lia).
    assert (R : to_i32 (Z.of_N (interval_ t) - (now2 - initial_time_ t) mod Z.of_N (interval_ t)) = Z.of_N (interval_ t) - (now2 - initial_time_ t) mod Z.of_N (interval_ t)).
    { apply to_i32_small. revert G. generalize ((now2 - initial_time_ t) mod Z.of_N (interval_ t)). intros z G. lia. }
    rewrite remaining_eq; cbn [update_time_ delta_]; rewrite ?R; [|exact Hn|exact C2a|revert G; generalize ((now2 - initial_time_ t) mod Z.of_N (interval_ t)); intros z G; change (2 ^ 31) with 2147483648 in Hi2; pow62; lia]. split; [|reflexivity]. f_equal.
    unfold step_end, time_step. rewrite <- (rem_end (initial_time_ t) (Z.of_N (interval_ t)) now2) by lia. lia.
  - split; [lia|]. intros _. injection E as <-. split; reflexivity.
Qed.
Theorem C74_every_generate : forall garbage a (e : locals garbage a) t now1 now2 d t' r now,
  remaining_time t now1 = Ret r -> (0 < interval_ t < 2 ^ 31)%N -> clock_ok (initial_time_ t) now2 -> 0 <= now < 2 ^ 62 ->
  (exists res, totp_generate e t now1 now2 d = Ret (t', res)) \/ (exists res, totp_generate_str e t now1 now2 d = Ret (t', res)) ->
  (r <= 0 -> remaining_time t' now = Ret (step_end (initial_time_ t) (interval_ t) now2 - now) /\ update_time_ t' = now2) /\
  (0 < r -> remaining_time t' now = remaining_time t now /\ update_time_ t' = update_time_ t).
Proof.
  intros garbage a e t now1 now2 d t' r now Er Hi C2 Hn E. apply (refresh_countdown t now1 now2 t' r now Er Hi C2 Hn).
  destruct E as [[res E]|[res E]]; unfold totp_generate, totp_generate_str in E; destruct (refresh t now1 now2) as [t1| |]; cbn [bind] in E; try discriminate.
  - destruct (hotp_generate e (hotp_part t1) d); cbn [bind] in E; try discriminate. congruence.
  - destruct (hotp_generate_str e (hotp_part t1) d); cbn [bind] in E; try discriminate. congruence.
Qed.
Print Assumptions C74_every_generate.
(** Violation: once the step is over it is zero or negative, by as much as has passed since (asking does not update the counter). *)
Theorem C74_over_refuted : forall t t0 iv u now r, updated_at t t0 iv u (Z.of_N iv - (u - t0) mod Z.of_N iv) -> u <= now < 2 ^ 62 ->
  time_step u t0 iv < time_step now t0 iv -> remaining_time t now = Ret r -> r = - (now - step_end t0 iv u) /\ r <= 0.
Proof.
  intros t t0 iv u now r U H Es E. pose proof U as (_ & _ & _ & _ & U4 & U5 & _). destruct (C74_countdown _ _ _ _ now U) as [E1 _]; [lia|].
  rewrite E1 in E. injection E as <-. split; [lia|]. unfold step_end, time_step in *. set (i := Z.of_N iv) in *.
  assert (Hi : 0 < i) by lia. pose proof (Z.div_mod (now - t0) i ltac:(lia)) as D. pose proof (Z.mod_pos_bound (now - t0) i Hi) as B.
  set (q := (u - t0) / i) in *. set (q' := (now - t0) / i) in *. assert (q + 1 <= q') by lia. nia.
Qed.
Print Assumptions C74_over_refuted.
(** Violation: before the first generate it is minus the clock, whatever was set. *)
Theorem C74_fresh_refuted : forall t now, fresh t -> 0 <= now < 2 ^ 62 -> remaining_time t now = Ret (- now).
Proof. intros t now [F1 F2] H. rewrite remaining_eq; rewrite ?F1, ?F2; [f_equal; lia|exact H|pow62; lia|pow62; lia]. Qed.
Print Assumptions C74_fresh_refuted.
(** Violation: new settings, secrets or counters do not change it, although the step they define ends at another time. *)
Definition setting {garbage a} (k : totp_call garbage a) : Prop := match k with TGenerate _ _ _ _ | TGenerateStr _ _ _ _ => False | _ => True end.
Theorem C74_settings_refuted : forall garbage a ltr (ks : list (totp_call garbage a)) t t' now, Forall setting ks -> totp_run ltr t ks = Ret t' ->
  remaining_time t' now = remaining_time t now /\ update_time_ t' = update_time_ t.
Proof.
  intros garbage a ltr ks. induction ks as [|k ks IH]; intros t t' now F E; [injection E as <-; split; reflexivity|]. inversion F as [|? ? F1 F2]; subst. cbn [totp_run] in E.
  destruct (totp_do ltr t k) as [t1| |] eqn:E1; [|discriminate|discriminate]. cbn [bind] in E. destruct (IH t1 t' now F2 E) as [A B]. rewrite A, B. unfold remaining_time.
  destruct k as [k|i|t1'|e n1 n2 d|e n1 n2 d]; cbn [setting] in F1; try contradiction; cbn [totp_do] in E1.
  - destruct (do_set ltr (hotp_part t) k); [|discriminate|discriminate]. injection E1 as <-. split; reflexivity.
  - injection E1 as <-. split; reflexivity.
  - injection E1 as <-. split; reflexivity.
Qed.
Print Assumptions C74_settings_refuted.

(** ** Cases *)
(** interval 30: generate at 70, asked at 70, 89, 90 and 100 *)
Example C74_case :
  omap (fun x => map (remaining_time (fst x)) [70; 89; 90; 100]) (totp_generate env1 totp1 70 70 6) = Ret [Ret 20; Ret 1; Ret 0; Ret (-10)] /\
  remaining_time totp1 70 = Ret (-70) /\ fresh totp1.
Proof. split; [vm_compute; reflexivity|]. split; [reflexivity|split; reflexivity]. Qed.
(** the second generate, at 95, finds no time left; a third one, at 100, does *)
Example C74_every_generate_case : match totp_generate env1 totp1 70 70 6 with
  | Ret (t, _) => remaining_time t 95 = Ret (-5) /\ match totp_generate env1 t 95 95 6 with
      | Ret (t', _) => remaining_time t' 100 = Ret 20 /\ omap (fun x => remaining_time (fst x) 101) (totp_generate env1 t' 100 100 6) = Ret (Ret 19)
      | _ => False end
  | _ => False end /\ (0 < interval_ totp1 < 2 ^ 31)%N /\ clock_ok (initial_time_ totp1) 95.
Proof. split; [vm_compute; repeat split; reflexivity|]. split; [split; reflexivity|]. split; [pow62; cbn; lia|]. split; [cbn; lia|pow62; cbn; lia]. Qed.
Example C74_hyps : exists t, updated_at t 0 30 70 (Z.of_N 30 - (70 - 0) mod Z.of_N 30).
Proof.
  assert (C : clock_ok 0 70) by (split; [pow62; lia|]; split; [lia|pow62; lia]).
  destruct (totp_generate env1 totp1 70 70 6) as [[t r]| |] eqn:E.
  - exists t. apply (C45_updated_reachable None A_SHA1 env1 totp1 0 30 70 70 6 t r); try assumption; try reflexivity; split; reflexivity.
  - exfalso. assert (X : omap snd (totp_generate env1 totp1 70 70 6) = Ret (Otp 359152%N)) by (vm_compute; reflexivity). rewrite E in X. discriminate.
  - exfalso. assert (X : omap snd (totp_generate env1 totp1 70 70 6) = Ret (Otp 359152%N)) by (vm_compute; reflexivity). rewrite E in X. discriminate.
Qed.
