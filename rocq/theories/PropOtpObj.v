(** C45, C46: the classes HOTP and TOTP. *)
From Coq Require Import String.
From Verif Require SFips202 SMd5.
From Verif Require Import Base MBase SRfc4648 PropBase MCppSize MCppBase SCppBase PCppBase PCppBase2 PropCppBase.
From Verif Require Import SFips180 SShaLib MSha MFront MMd5 MKeccak SHash SKeccakFns SHashFns PTyped MHmac SHmac PHmac PropHmac MOtp SOtp POtp PropOtp MOtpObj SOtpObj.
Local Open Scope N_scope.

(** ** C46 *)
Lemma base32_decode_ok o k : settled o -> call_ok k -> exists o' v, base32_decode o k = Ret (o', v) /\ call_value (CBase32 false) k v /\ settled o'.
Proof.
  intros Ho Hk. destruct (single_run (CBase32 false) [k] (repeat (mkChoice 0 true idle) 7) o Ho) as (o' & vs & E & F & Ho').
  - constructor; [exact Hk|constructor].
  - apply Forall_forall. intros ch Hc. apply repeat_spec in Hc. subst ch. cbn [who MCppBase.mem_ok stk]. repeat split; cbn; lia.
  - rewrite repeat_length. cbn [length]. lia.
  - inversion F as [|? v ? ? Hv F0]; subst. inversion F0; subst. exists o', v. unfold base32_decode. rewrite E. cbn [bind map]. auto.
Qed.
Lemma counter_dec k : {counter_call k} + {~ counter_call k}. Proof. destruct k; cbn; auto. Qed.
Lemma secret_snoc ks k r : secret_after (ks ++ [k]) r <-> (counter_call k /\ secret_after ks r) \/ exists s, r = Some s /\ gives k s.
Proof.
  split.
  - destruct r as [s|]; cbn [secret_after].
    + intros (b & k' & af & E & G & F). destruct af as [|y af] using rev_ind.
      * apply app_inj_tail in E as [_ <-]. right. eauto.
      * clear IHaf. rewrite app_comm_cons, app_assoc in E. apply app_inj_tail in E as [-> <-]. apply Forall_app in F as [F1 F2]. inversion F2; subst. left. split; [assumption|]. exists b, k', af. auto.
    + intros F. apply Forall_app in F as [F1 F2]. inversion F2; subst. auto.
  - intros [[C S]|(s & -> & G)].
    + destruct r as [s|]; cbn [secret_after] in *; [|apply Forall_app; split; [exact S|constructor; [exact C|constructor]]].
      destruct S as (b & k' & af & -> & G & F). exists b, k', (af ++ [k]). split; [rewrite <- app_assoc; reflexivity|]. split; [exact G|]. apply Forall_app. split; [exact F|constructor; [exact C|constructor]].
    + cbn [secret_after]. exists ks, k, []. auto.
Qed.
Lemma counter_snoc ks k co0 c : counter_after (ks ++ [k]) co0 c <-> k = SetCounter c \/ (~ counter_call k /\ counter_after ks co0 c).
Proof.
  split.
  - intros [(b & af & E & F)|[-> F]].
    + destruct af as [|y af] using rev_ind.
      * apply app_inj_tail in E as [_ <-]. auto.
      * clear IHaf. rewrite app_comm_cons, app_assoc in E. apply app_inj_tail in E as [-> <-]. apply Forall_app in F as [F1 F2]. inversion F2; subst. right. split; [assumption|]. left. eauto.
    + apply Forall_app in F as [F1 F2]. inversion F2; subst. right. split; [assumption|]. right. auto.
  - intros [->|[C [(b & af & -> & F)|[-> F]]]].
    + left. exists ks, []. auto.
    + left. exists b, (af ++ [k]). split; [rewrite <- app_assoc; reflexivity|]. apply Forall_app. split; [exact F|constructor; [exact C|constructor]].
    + right. split; [reflexivity|]. apply Forall_app. split; [exact F|constructor; [exact C|constructor]].
Qed.
Lemma gives_inj k s u : gives k s -> gives k u -> s = u.
Proof. destruct k as [|m []|m []| | | |]; cbn [gives]; try congruence; try contradiction; apply c_decodes_inj. Qed.
(** at most one secret and one counter are the right ones *)
Theorem C46_secret_unique : forall ks r r', secret_after ks r -> secret_after ks r' -> r = r'.
Proof.
  induction ks as [|k ks IH] using rev_ind; intros r r'.
  - destruct r, r'; try reflexivity; cbn; intros; try (destruct H as (b & ? & ? & E & _); destruct b; discriminate); destruct H0 as (b & ? & ? & E & _); destruct b; discriminate.
  - rewrite !secret_snoc. intros [[C S]|(s & -> & G)] [[C' S']|(s' & -> & G')]; auto.
    + destruct k; cbn in *; contradiction.
    + destruct k; cbn in *; contradiction.
    + f_equal. eapply gives_inj; eauto.
Qed.
Theorem C46_counter_unique : forall ks co0 c c', counter_after ks co0 c -> counter_after ks co0 c' -> c = c'.
Proof.
  induction ks as [|k ks IH] using rev_ind; intros co0 c c'.
  - intros [(b & ? & E & _)|[-> _]] [(b' & ? & E' & _)|[-> _]]; try (destruct b; discriminate); try (destruct b'; discriminate). reflexivity.
  - rewrite !counter_snoc. intros [->|[C S]] [E|[C' S']]; try congruence; try (exfalso; subst; cbn in *; tauto). eapply IH; eauto.
Qed.

Definition hok (h : hotp_obj) : Prop := settled (base32 h).
Lemma set_base32_ok h k : hok h -> call_ok k -> exists h' v, set_secret_base32 true h k = Ret h' /\ call_value (CBase32 false) k v /\ secret h' = Some v /\ co h' = co h /\ hok h'.
Proof.
  intros Hh Hk. destruct (base32_decode_ok (base32 h) k Hh Hk) as (o' & v & E & V & S). unfold set_secret_base32. rewrite E. cbn [bind set_secret_sd]. eexists. exists v. split; [reflexivity|]. auto.
Qed.
Lemma do_set_ok h k : hok h -> set_ok k -> exists h', do_set true h k = Ret h' /\ hok h' /\
  ((exists c, k = SetCounter c /\ secret h' = secret h /\ co h' = c) \/ (~ counter_call k /\ co h' = co h /\ exists s, secret h' = Some s /\ gives k s)).
Proof.
  intros Hh Hk. destruct k as [x|m []|x []|x|m|x|c]; cbn [do_set set_ok] in *.
  - eexists. split; [reflexivity|]. split; [exact Hh|]. right. repeat split; auto. exists x. split; reflexivity.
  - destruct (set_base32_ok h _ Hh Hk) as (h' & v & E & V & S & C & O). exists h'. split; [exact E|]. split; [exact O|]. right. repeat split; auto. exists v. split; [exact S|exact V].
  - unfold set_secret_cstr. rewrite c_string_ok by exact Hk. cbn [bind]. eexists. split; [reflexivity|]. split; [exact Hh|]. right. repeat split; auto. eexists. split; reflexivity.
  - destruct (set_base32_ok h _ Hh Hk) as (h' & v & E & V & S & C & O). exists h'. split; [exact E|]. split; [exact O|]. right. repeat split; auto. exists v. split; [exact S|exact V].
  - eexists. split; [reflexivity|]. split; [exact Hh|]. right. repeat split; auto. exists x. split; reflexivity.
  - eexists. split; [reflexivity|]. split; [exact Hh|]. right. repeat split; auto. exists x. split; reflexivity.
  - destruct (set_base32_ok h _ Hh Hk) as (h' & v & E & V & S & C & O). exists h'. split; [exact E|]. split; [exact O|]. right. repeat split; auto. exists v. split; [exact S|exact V].
  - destruct (set_base32_ok h _ Hh Hk) as (h' & v & E & V & S & C & O). exists h'. split; [exact E|]. split; [exact O|]. right. repeat split; auto. exists v. split; [exact S|exact V].
  - eexists. split; [reflexivity|]. split; [exact Hh|]. left. exists c. auto.
Qed.
Lemma do_sets_app ltr h a b : do_sets ltr h (a ++ b) = (h <- do_sets ltr h a ;; do_sets ltr h b).
Proof. revert h. induction a as [|k a IH]; intros h; [reflexivity|]. cbn [app do_sets]. destruct (do_set ltr h k); cbn [bind]; auto. Qed.
Lemma do_sets_ok co0 ks : Forall set_ok ks -> exists h, do_sets true (new_hotp co0) ks = Ret h /\ hok h /\ secret_after ks (secret h) /\ counter_after ks co0 (co h).
Proof.
  induction ks as [|k ks IH] using rev_ind; intros Hk.
  - exists (new_hotp co0). split; [reflexivity|]. split; [exact new_settled|]. split; [constructor|]. right. split; [reflexivity|constructor].
  - apply Forall_app in Hk as [Hk H1]. inversion H1; subst. destruct (IH Hk) as (h & E & Hh & S & C). destruct (do_set_ok h k Hh H2) as (h' & E' & Hh' & D). exists h'.
    rewrite do_sets_app, E. cbn [bind do_sets]. rewrite E'. split; [reflexivity|]. split; [exact Hh'|]. rewrite secret_snoc, counter_snoc.
    destruct D as [(c & -> & -> & ->)|(N & -> & s & -> & G)].
    + split; [left; split; [exact Logic.I|exact S]|left; reflexivity].
    + split; [right; eauto|right; auto].
Qed.

(** C46: after any history of set_secret and set_counter calls (the arguments evaluated from left to right), generate throws exactly when no secret was ever set,
    and otherwise is the C function on the last secret and the last counter; generate_str is its text. *)
Theorem C46_hotp_history : forall garbage a co0 ks, Forall set_ok ks ->
  exists h, do_sets true (new_hotp co0) ks = Ret h /\
    (exists r c, secret_after ks r /\ counter_after ks co0 c) /\
    forall r c, secret_after ks r -> counter_after ks co0 c -> forall (e : locals garbage a) d,
      hotp_generate e h d = match r with
        | None => Ret NotInitialized
        | Some s => v <- hotp_generic garbage a (lo_ctx e) (lo_loc e) (lo_out e) s c d ;; Ret (Otp v)
        end /\
      hotp_generate_str e h d = match r with
        | None => Ret NotInitialized
        | Some s => v <- hotp_generic garbage a (lo_ctx e) (lo_loc e) (lo_out e) s c d ;; t <- otp_str v d ;; Ret (Otp t)
        end.
Proof.
  intros garbage a co0 ks Hk. destruct (do_sets_ok co0 ks Hk) as (h & E & _ & S & C). exists h. split; [exact E|]. split; [eauto|].
  intros r c Hr Hc e d. rewrite (C46_secret_unique _ _ _ Hr S), (C46_counter_unique _ _ _ _ Hc C). unfold hotp_generate_str, hotp_generate. destruct (secret h) as [s|]; [|split; reflexivity].
  split; [reflexivity|]. destruct (hotp_generic _ _ _ _ _ s _ d); reflexivity.
Qed.
Print Assumptions C46_hotp_history.

(** C46, violation: with the other evaluation order the size of a SequentialData secret is an uninitialised variable; this includes
    every Base32 secret, as those go through a SequentialData. *)
Theorem C46_argument_order_refuted : forall h s, hok h ->
  do_set false h (SetSecretSD s) = UB Indeterminate /\
  (call_ok (DecodeStr s) -> do_set false h (SetSecretFromBase32Str s) = UB Indeterminate /\ do_set false h (SetSecretStr s true) = UB Indeterminate).
Proof.
  intros h s Hh. split; [reflexivity|]. intros Hs. destruct (base32_decode_ok (base32 h) _ Hh Hs) as (o' & v & E & _). cbn [do_set]. unfold set_secret_base32. rewrite E. split; reflexivity.
Qed.
Print Assumptions C46_argument_order_refuted.

Lemma c_decodes_text x v : x <> [] -> bytes_ok x -> c_decodes B32 (lib_text (coding B32) x) v -> v = without_tail B32 x.
Proof.
  intros Hx Hb H. set (t := lib_text (coding B32) x) in *. set (out := repeat 0 (unit_space B32 (length t) + (octets (coding B32) * ((length x + octets (coding B32) - 1) / octets (coding B32)) + 1))%nat).
  destruct (H out) as (tl & E); [unfold out; rewrite repeat_length; lia|].
  destruct (C08_decode_encode B32 x t out (or_introl eq_refl) Hx Hb) as (tl2 & E2); [unfold out; rewrite repeat_length; lia|].
  rewrite E in E2. apply Ret_inj in E2. injection E2 as L E2. eapply same_prefix; eauto.
Qed.
(** C46, violation: a secret given as its own Base32 text loses everything from the first zero byte of its last group of five bytes on. *)
Theorem C46_base32_secret_shortened : forall x v, x <> [] -> bytes_ok x ->
  gives (SetSecretFromBase32Str (lib_text (coding B32) x)) v ->
  v = firstn (before_last (coding B32) x) x ++ upto_nul (skipn (before_last (coding B32) x) x) /\
  (v = x <-> ~ In 0 (skipn (before_last (coding B32) x) x)).
Proof.
  intros x v Hx Hb H. cbn [gives] in H.
  assert (EU : upto_nul (lib_text (coding B32) x) = lib_text (coding B32) x). { pose proof (lib_text_nonzero B32 x Hb) as Z. rewrite <- upto_nul_term. apply upto_nul_app. exact Z. }
  rewrite EU in H. apply c_decodes_text in H; auto. subst v. unfold without_tail. split; [reflexivity|].
  set (k := before_last (coding B32) x). rewrite <- (firstn_skipn k x) at 3. split.
  - intros E Hin. apply app_inv_head in E. apply upto_nul_in in Hin. apply (f_equal (@length N)) in E. lia.
  - intros Hn. f_equal. rewrite <- upto_nul_term. apply upto_nul_app. apply Forall_forall. intros y Hy ->. contradiction.
Qed.
Print Assumptions C46_base32_secret_shortened.

(** ** C45 *)
(** The counter a TOTP call uses when the object holds [co] for the step containing [u]. *)
Definition with_counter (h : hotp_obj) (c : N) : hotp_obj := mkHotp (secret h) c (base32 h).
(** clock readings the arithmetic is defined for *)
Definition clock_ok (t0 now : Z) : Prop := (0 <= now < 2 ^ 62 /\ t0 <= now /\ - 2 ^ 62 < t0)%Z.
Lemma is_time_small x : (- 2 ^ 63 <= x < 2 ^ 63)%Z -> is_time x. Proof. auto. Qed.
Ltac pow62 := change (2 ^ 62)%Z with 4611686018427387904%Z in *; change (2 ^ 63)%Z with 9223372036854775808%Z in *; change (2 ^ 31)%Z with 2147483648%Z in *; change (2 ^ 32)%Z with 4294967296%Z in *.
Lemma to_i32_range x : (- 2 ^ 31 <= to_i32 x < 2 ^ 31)%Z.
Proof. unfold to_i32. pose proof (Z.mod_pos_bound (x + 2 ^ 31) (2 ^ 32) ltac:(reflexivity)). pow62. lia. Qed.
Lemma to_i32_wrap x : (2 ^ 31 <= x < 2 ^ 32)%Z -> (to_i32 x < 0)%Z.
Proof.
  intros H. unfold to_i32. pow62. replace (x + 2147483648)%Z with ((x - 2147483648) + 1 * 4294967296)%Z by lia. rewrite Z.mod_add, Z.mod_small by lia. lia.
Qed.

Lemma remaining_eq t now : (0 <= now < 2 ^ 62)%Z -> (0 <= update_time_ t < 2 ^ 62)%Z -> (- 2 ^ 31 <= delta_ t < 2 ^ 31)%Z ->
  remaining_time t now = Ret (delta_ t - (now - update_time_ t))%Z.
Proof.
  intros H1 H2 H3. unfold remaining_time. rewrite time_sub_ok by (apply is_time_small; pow62; lia). cbn [bind]. apply time_sub_ok. apply is_time_small. pow62. lia.
Qed.
Lemma update_eq t now : 0 < interval_ t < 2 ^ 32 -> clock_ok (initial_time_ t) now ->
  update_counter t now = Ret (mkTotp (with_counter (hotp_part t) (Z.to_N (time_step now (initial_time_ t) (interval_ t)))) (interval_ t) (initial_time_ t) now
    (to_i32 (Z.of_N (interval_ t) - (now - initial_time_ t) mod Z.of_N (interval_ t)))).
Proof.
  intros [I1 I2] (C1 & C2 & C3). unfold update_counter. rewrite calc_eq; [reflexivity|exact I1|exact I2|exact C2|]. apply is_time_small. pow62. lia.
Qed.

(** An object is fresh before its first generate, and later holds the step of the time of its last update. *)
Definition fresh (t : totp_obj) : Prop := update_time_ t = 0%Z /\ delta_ t = 0%Z.
Definition in_step (t0 : Z) (iv : N) (t : totp_obj) (u : Z) : Prop :=
  update_time_ t = u /\ clock_ok t0 u /\ co (hotp_part t) = Z.to_N (time_step u t0 iv) /\ delta_ t = to_i32 (Z.of_N iv - (u - t0) mod Z.of_N iv).
Definition tracks (t0 : Z) (iv : N) (t : totp_obj) (last : Z) : Prop :=
  interval_ t = iv /\ initial_time_ t = t0 /\ (fresh t \/ exists u, (u <= last)%Z /\ in_step t0 iv t u).

Lemma refresh_tracks t0 iv t last now1 now2 : 0 < iv < 2 ^ 32 -> tracks t0 iv t last -> clock_ok t0 now1 -> clock_ok t0 now2 -> (last <= now1)%Z -> (now1 <= now2)%Z ->
  exists t', refresh t now1 now2 = Ret t' /\ tracks t0 iv t' now2 /\ secret (hotp_part t') = secret (hotp_part t) /\ base32 (hotp_part t') = base32 (hotp_part t) /\
    exists r, (r = now1 \/ r = now2) /\ co (hotp_part t') = Z.to_N (time_step r t0 iv).
Proof.
  intros Hi (E1 & E2 & D) C1 C2 L1 L2. unfold refresh.
  assert (U : exists t', update_counter t now2 = Ret t' /\ tracks t0 iv t' now2 /\ secret (hotp_part t') = secret (hotp_part t) /\ base32 (hotp_part t') = base32 (hotp_part t) /\ exists r, (r = now1 \/ r = now2) /\ co (hotp_part t') = Z.to_N (time_step r t0 iv)).
  { rewrite update_eq by (rewrite ?E1, ?E2; assumption). eexists. split; [reflexivity|]. split.
    - split; [exact E1|]. split; [exact E2|]. right. exists now2. split; [lia|]. rewrite E1, E2. split; [reflexivity|]. split; [exact C2|]. split; reflexivity.
    - split; [reflexivity|]. split; [reflexivity|]. exists now2. split; [auto|]. cbn [hotp_part with_counter co]. rewrite E1, E2. reflexivity. }
  destruct D as [[F1 F2]|(u & Lu & Eu & Cu & Eco & Ed)].
  - rewrite remaining_eq; [|apply C1|rewrite F1; pow62; lia|rewrite F2; pow62; lia]. cbn [bind]. rewrite F1, F2. destruct C1 as (C1 & _). destruct (Z.leb_spec (0 - (now1 - 0)) 0); [exact U|lia].
  - pose proof (to_i32_range (Z.of_N iv - (u - t0) mod Z.of_N iv)) as Rg. rewrite <- Ed in Rg.
    rewrite remaining_eq; [|apply C1|rewrite Eu; apply Cu|exact Rg]. cbn [bind]. destruct (Z.leb_spec (delta_ t - (now1 - update_time_ t)) 0) as [X|X]; [exact U|].
    exists t. split; [reflexivity|]. split; [split; [exact E1|split; [exact E2|right; exists u; split; [lia|repeat split; auto; apply Cu]]]|]. split; [reflexivity|]. split; [reflexivity|].
    exists now1. split; [auto|]. rewrite Eco. f_equal. destruct Cu as (Cu1 & Cu2 & Cu3).
    destruct (step_facts (u - t0) (Z.of_N iv) ltac:(lia) ltac:(lia)) as (F1 & F2 & F3). revert Ed F1 F2. clear F3. generalize (Z.of_N iv - (u - t0) mod Z.of_N iv)%Z. intros d Ed F1 F2.
    assert (Small : (d < 2 ^ 31)%Z). { destruct (Z.lt_ge_cases d (2 ^ 31)) as [|G]; [assumption|]. exfalso. assert (d < 2 ^ 32)%Z by (destruct Hi as [_ Hi]; pow62; change (2 ^ 32) with 4294967296 in Hi; lia). pose proof (to_i32_wrap d (conj G H)). lia. }
    rewrite to_i32_small in Ed by (pow62; lia). unfold time_step. replace (now1 - t0)%Z with (u - t0 + (now1 - u))%Z by lia. symmetry. apply F2. lia.
Qed.

(** settings made before the first generate keep the object fresh *)
Theorem C45_setup_is_fresh : forall garbage a ltr co0 iv0 (ks : list (totp_call garbage a)) t,
  Forall (fun k => match k with TGenerate _ _ _ _ | TGenerateStr _ _ _ _ => False | _ => True end) ks ->
  totp_run ltr (new_totp co0 iv0) ks = Ret t -> fresh t.
Proof.
  intros garbage a ltr co0 iv0 ks t. assert (F0 : fresh (new_totp co0 iv0)) by (split; reflexivity). revert F0. generalize (new_totp co0 iv0). induction ks as [|k ks IH]; intros s F Hk E; [injection E as <-; exact F|].
  inversion Hk; subst. cbn [totp_run] in E. destruct k as [k|i|t1|e n1 n2 d|e n1 n2 d]; try contradiction; cbn [totp_do] in E.
  - destruct (do_set ltr (hotp_part s) k); try discriminate. cbn [bind] in E. eapply IH; [|assumption|exact E]. exact F.
  - cbn [bind] in E. eapply IH; [|assumption|exact E]. exact F.
  - cbn [bind] in E. eapply IH; [|assumption|exact E]. exact F.
Qed.

(** A run of generate calls: uninitialised locals, the two clock readings, digits. *)
Record gen (garbage : option N) (a : alg_choice) := mkGen { g_env : locals garbage a; g_now1 : Z; g_now2 : Z; g_digits : N }.
Arguments mkGen {garbage a}. Arguments g_env {garbage a}. Arguments g_now1 {garbage a}. Arguments g_now2 {garbage a}. Arguments g_digits {garbage a}.
Fixpoint generates {garbage a} (t : totp_obj) (gs : list (gen garbage a)) : outcome (list (gen_result N)) :=
  match gs with
  | [] => Ret []
  | g :: gs => '(t, r) <- totp_generate (g_env g) t (g_now1 g) (g_now2 g) (g_digits g) ;; rs <- generates t gs ;; Ret (r :: rs)
  end.
(** the clock never goes backwards *)
Definition clock {garbage a} (gs : list (gen garbage a)) : list Z := flat_map (fun g => [g_now1 g; g_now2 g]) gs.
Fixpoint ascending (last : Z) (l : list Z) : Prop := match l with [] => True | x :: l => (last <= x)%Z /\ ascending x l end.

(** C45: on an object that has a secret and on which generate has not been called yet, with interval [iv] and initial time [t0], and a clock that never goes
    backwards: every generate gives the RFC 6238 value for a time at which the clock was read during that very call. *)
Theorem C45_current_step : forall garbage a P M H B D, choice_std a P M H B D -> a <> A_MD5 ->
  forall t s iv t0 (gs : list (gen garbage a)),
  fresh t -> secret (hotp_part t) = Some s -> bytes_ok s -> (length s <= B)%nat -> interval_ t = iv -> 0 < iv < 2 ^ 32 -> initial_time_ t = t0 ->
  Forall (fun g => ectx_ok (lo_ctx (g_env g)) /\ eloc_ok (lo_loc (g_env g)) /\ length (lo_out (g_env g)) = D) gs ->
  Forall (clock_ok t0) (clock gs) -> ascending 0 (clock gs) ->
  exists rs, generates t gs = Ret rs /\
    Forall2 (fun g r => exists now, (now = g_now1 g \/ now = g_now2 g) /\ r = Otp (HOTP H B s (Z.to_N (time_step now t0 iv)) (g_digits g))) gs rs.
Proof.
  intros garbage a P M H B D K Ha t s iv t0 gs Fr Hs Hb Hl Ei Hi Et Hg Hc As.
  assert (T : tracks t0 iv t 0) by (split; [exact Ei|split; [exact Et|left; exact Fr]]). clear Fr Ei Et. revert T As. generalize 0%Z. revert t Hs Hg Hc.
  induction gs as [|g gs IH]; intros t Hs Hg Hc last T As; [exists []; split; [reflexivity|constructor]|].
  pose proof (Forall_inv Hg) as (G1 & G2 & G3). pose proof (Forall_inv_tail Hg) as Hg'. cbn [clock flat_map app] in Hc, As. pose proof (Forall_inv Hc) as C1. pose proof (Forall_inv_tail Hc) as Hc1. pose proof (Forall_inv Hc1) as C2. pose proof (Forall_inv_tail Hc1) as Hc2. cbn [ascending] in As. destruct As as (L1 & L2 & As).
  destruct (refresh_tracks t0 iv t last (g_now1 g) (g_now2 g) Hi T C1 C2 L1 L2) as (t' & E & T' & S' & _ & r & Hr & Co).
  cbn [generates]. unfold totp_generate. rewrite E. cbn [bind]. unfold hotp_generate. rewrite S', Hs, Co.
  rewrite (C39_hotp_rfc4226 garbage a P M H B D K Ha) by assumption. cbn [bind].
  destruct (IH t' (eq_trans S' Hs) Hg' Hc2 (g_now2 g) T' As) as (rs & E2 & F2). rewrite E2. cbn [bind]. eexists. split; [reflexivity|]. constructor; [|exact F2]. exists r. auto.
Qed.
Print Assumptions C45_current_step.

(** C45: what a call uses in general: the counter the object holds, as long as the remaining time of the last update has not passed; a new one otherwise. *)
Theorem C45_counter_used : forall garbage a (e : locals garbage a) t u now1 now2 d,
  update_time_ t = u -> (0 <= u < 2 ^ 62)%Z -> (- 2 ^ 31 <= delta_ t < 2 ^ 31)%Z -> (0 <= now1 < 2 ^ 62)%Z ->
  0 < interval_ t < 2 ^ 32 -> clock_ok (initial_time_ t) now2 ->
  omap snd (totp_generate e t now1 now2 d) =
    hotp_generate e (with_counter (hotp_part t)
      (if (now1 <? u + delta_ t)%Z then co (hotp_part t) else Z.to_N (time_step now2 (initial_time_ t) (interval_ t)))) d.
Proof.
  intros garbage a e t u now1 now2 d Eu Hu Hd H1 Hi H2. unfold totp_generate, refresh. rewrite remaining_eq by (rewrite ?Eu; assumption). cbn [bind]. rewrite Eu.
  destruct (Z.leb_spec (delta_ t - (now1 - u)) 0) as [X|X]; destruct (Z.ltb_spec now1 (u + delta_ t)) as [Y|Y]; try lia.
  - rewrite update_eq by assumption. cbn [bind hotp_part]. destruct (hotp_generate e _ d); reflexivity.
  - cbn [bind]. unfold with_counter. destruct (hotp_part t) as [sc c b]. cbn [secret co base32]. destruct (hotp_generate e _ d); reflexivity.
Qed.
Print Assumptions C45_counter_used.

(** C45, violations. After an update at time [u], with [rem] seconds of the step left: *)
Definition updated_at (t : totp_obj) (t0 : Z) (iv : N) (u : Z) (rem : Z) : Prop :=
  tracks t0 iv t u /\ update_time_ t = u /\ co (hotp_part t) = Z.to_N (time_step u t0 iv) /\ delta_ t = rem /\ (0 < rem <= Z.of_N iv)%Z /\ (0 <= u < 2 ^ 62)%Z /\ (rem < 2 ^ 31)%Z.
(** such a state is what the first generate leaves behind *)
Theorem C45_updated_reachable : forall garbage a (e : locals garbage a) t t0 iv now1 now2 d t' r,
  fresh t -> interval_ t = iv -> initial_time_ t = t0 -> 0 < iv < 2 ^ 31 -> clock_ok t0 now1 -> clock_ok t0 now2 ->
  totp_generate e t now1 now2 d = Ret (t', r) -> updated_at t' t0 iv now2 (Z.of_N iv - (now2 - t0) mod Z.of_N iv).
Proof.
  intros garbage a e t t0 iv now1 now2 d t' r [F1 F2] Ei Et Hi C1 C2 E. assert (Hi' : 0 < iv < 2 ^ 32) by (split; [apply Hi|eapply N.lt_trans; [apply Hi|reflexivity]]).
  unfold totp_generate, refresh in E. rewrite remaining_eq in E; [|apply C1|rewrite F1; pow62; lia|rewrite F2; pow62; lia]. cbn [bind] in E. rewrite F1, F2 in E. pose proof C1 as (C1a & _).
  destruct (Z.leb_spec (0 - (now1 - 0)) 0); [|lia]. rewrite update_eq in E by (rewrite ?Ei, ?Et; assumption). cbn [bind] in E. destruct (hotp_generate e _ d); try discriminate. cbn [bind] in E. injection E as <- _.
  rewrite Ei, Et. pose proof C2 as (C2a & C2b & C2c). destruct (step_facts (now2 - t0) (Z.of_N iv) ltac:(lia) ltac:(lia)) as (G1 & _ & _).
  assert (S : (Z.of_N iv - (now2 - t0) mod Z.of_N iv < 2 ^ 31)%Z). { destruct Hi as [_ Hi]. change (2 ^ 31) with 2147483648 in Hi. revert G1. generalize (Z.of_N iv - (now2 - t0) mod Z.of_N iv)%Z. intros z G1. pow62. lia. }
  assert (R : to_i32 (Z.of_N iv - (now2 - t0) mod Z.of_N iv) = (Z.of_N iv - (now2 - t0) mod Z.of_N iv)%Z). { revert G1 S. generalize (Z.of_N iv - (now2 - t0) mod Z.of_N iv)%Z. intros z G1 S. apply to_i32_small. pow62. lia. }
  unfold updated_at. split.
  { split; [reflexivity|]. split; [reflexivity|]. right. exists now2. split; [lia|]. split; [reflexivity|]. split; [exact C2|]. split; reflexivity. }
  cbn [update_time_ delta_ hotp_part with_counter co]. split; [reflexivity|]. split; [reflexivity|]. split; [exact R|]. clear R. revert G1 S. generalize (Z.of_N iv - (now2 - t0) mod Z.of_N iv)%Z. intros z G1 S. lia.
Qed.
Print Assumptions C45_updated_reachable.
(** - new settings are ignored until the old step is over (set_interval, set_initial_time); *)
Theorem C45_settings_ignored_refuted : forall garbage a (e : locals garbage a) t t0 iv u rem iv' t0' now1 now2 d,
  updated_at t t0 iv u rem -> (u <= now1 < u + rem)%Z -> (now1 < 2 ^ 62)%Z -> 0 < iv' < 2 ^ 32 -> clock_ok t0' now2 ->
  omap snd (totp_generate e (set_initial_time (set_interval t iv') t0') now1 now2 d) = hotp_generate e (with_counter (hotp_part t) (Z.to_N (time_step u t0 iv))) d.
Proof.
  intros garbage a e t t0 iv u rem iv' t0' now1 now2 d (_ & U1 & U2 & U3 & U4 & U5 & U6) H1 H2 H3 H4.
  rewrite (C45_counter_used garbage a e _ u) by (cbn [set_initial_time set_interval update_time_ delta_ interval_ initial_time_]; rewrite ?U3; auto; pow62; lia).
  cbn [set_initial_time set_interval delta_ hotp_part]. rewrite U3. destruct (Z.ltb_spec now1 (u + rem)); [|lia]. rewrite U2. reflexivity.
Qed.
Print Assumptions C45_settings_ignored_refuted.
(** - a clock that steps backwards leaves the later step in use, however far it steps back; *)
Theorem C45_clock_back_refuted : forall garbage a (e : locals garbage a) t t0 iv u rem now1 now2 d,
  updated_at t t0 iv u rem -> (0 <= now1 < u)%Z -> 0 < iv < 2 ^ 32 -> clock_ok t0 now2 ->
  omap snd (totp_generate e t now1 now2 d) = hotp_generate e (with_counter (hotp_part t) (Z.to_N (time_step u t0 iv))) d.
Proof.
  intros garbage a e t t0 iv u rem now1 now2 d ((T1 & T2 & _) & U1 & U2 & U3 & U4 & U5 & U6) H1 H3 H4.
  rewrite (C45_counter_used garbage a e t u) by (rewrite ?U3, ?T1, ?T2; auto; pow62; lia). rewrite U3. destruct (Z.ltb_spec now1 (u + rem)); [|lia]. rewrite U2. reflexivity.
Qed.
Print Assumptions C45_clock_back_refuted.
(** - set_counter (inherited, public) replaces the time-based counter for the rest of the step; *)
Theorem C45_set_counter_refuted : forall garbage a (e : locals garbage a) t t0 iv u rem c now1 now2 d,
  updated_at t t0 iv u rem -> (u <= now1 < u + rem)%Z -> (now1 < 2 ^ 62)%Z -> 0 < iv < 2 ^ 32 -> clock_ok t0 now2 ->
  omap snd (t' <- totp_do true t (TSet (SetCounter c) : totp_call garbage a) ;; totp_generate e t' now1 now2 d) = hotp_generate e (with_counter (hotp_part t) c) d.
Proof.
  intros garbage a e t t0 iv u rem c now1 now2 d ((T1 & T2 & _) & U1 & U2 & U3 & U4 & U5 & U6) H1 H2 H3 H4. cbn [totp_do do_set bind].
  rewrite (C45_counter_used garbage a e _ u) by (cbn [update_time_ delta_ interval_ initial_time_]; rewrite ?U3, ?T1, ?T2; auto; pow62; lia).
  cbn [delta_ hotp_part]. rewrite U3. destruct (Z.ltb_spec now1 (u + rem)); [|lia]. reflexivity.
Qed.
Print Assumptions C45_set_counter_refuted.
(** - a clock before 1970 on the first call, or any call through a reference to the base class (TOTP::generate does not override
    the const virtual function), uses the counter member uninitialised. *)
Theorem C45_uninitialised_counter_refuted : forall garbage a (e : locals garbage a) co0 iv s now1 now2 d,
  (- 2 ^ 62 < now1 < 0)%Z ->
  let t := mkTotp (set_secret (new_hotp co0) s) iv 0 0 0 in
  totp_generate e t now1 now2 d = (r <- hotp_generate e (hotp_part t) d ;; Ret (t, r)) /\
  hotp_generate e (hotp_part t) d = (v <- hotp_generic garbage a (lo_ctx e) (lo_loc e) (lo_out e) s co0 d ;; Ret (Otp v)).
Proof.
  intros garbage a e co0 iv s now1 now2 d H t. split; [|reflexivity]. unfold totp_generate, refresh, remaining_time. subst t. cbn [update_time_ delta_].
  rewrite time_sub_ok by (apply is_time_small; pow62; lia). cbn [bind]. rewrite time_sub_ok by (apply is_time_small; pow62; lia). cbn [bind]. destruct (Z.leb_spec (0 - (now1 - 0)) 0); [lia|]. reflexivity.
Qed.
Print Assumptions C45_uninitialised_counter_refuted.
(** C45: an interval of zero is a division by zero at the first generate *)
Theorem C45_interval_zero_refuted : forall garbage a (e : locals garbage a) co0 s now1 now2 d, (0 <= now1 < 2 ^ 62)%Z -> (0 <= now2 < 2 ^ 62)%Z ->
  totp_generate e (mkTotp (set_secret (new_hotp co0) s) 0 0 0 0) now1 now2 d = UB DivByZero.
Proof.
  intros garbage a e co0 s now1 now2 d H1 H2. unfold totp_generate, refresh. rewrite remaining_eq by (cbn; pow62; lia). cbn [bind update_time_ delta_]. destruct (Z.leb_spec (0 - (now1 - 0)) 0); [|lia].
  unfold update_counter. cbn [interval_ initial_time_]. rewrite C44_interval_zero_refuted; [reflexivity|]. apply is_time_small. pow62. lia.
Qed.
Print Assumptions C45_interval_zero_refuted.

(** ** concrete cases *)
Definition env1 : locals None A_SHA1 := mkLocals (a := A_SHA1) (garbage := None) (blank_hmac (sha_impl alg_sha1) (blank_sha alg_sha1)) (blank_locals (sha_impl alg_sha1) (blank_sha alg_sha1)) (repeat 7 20).
Example C46_case : Forall set_ok [SetCounter 9; SetSecretFromBase32Str (chars "MZXW6YTBOI======"); SetCounter 1] /\
  secret_after [SetCounter 9; SetSecretFromBase32Str (chars "MZXW6YTBOI======"); SetCounter 1] (Some (chars "foobar")) /\
  counter_after [SetCounter 9; SetSecretFromBase32Str (chars "MZXW6YTBOI======"); SetCounter 1] 77 1 /\
  hotp_generate env1 (new_hotp 0) 6 = Ret NotInitialized.
Proof.
  split; [repeat (apply Forall_cons || apply Forall_nil); cbn [set_ok call_ok]; try exact Logic.I; split; [discriminate|vm_compute; reflexivity]|]. split; [|split; [|reflexivity]].
  - exists [SetCounter 9], (SetSecretFromBase32Str (chars "MZXW6YTBOI======")), [SetCounter 1]. split; [reflexivity|]. split; [|repeat constructor]. cbn [gives].
    pose proof (c_decodes_dec B32 (upto_nul (chars "MZXW6YTBOI======")) ltac:(discriminate)) as H. replace (chars "foobar") with (dec_text B32 (upto_nul (chars "MZXW6YTBOI======"))) by (vm_compute; reflexivity). exact H.
  - left. exists [SetCounter 9; SetSecretFromBase32Str (chars "MZXW6YTBOI======")], []. split; [reflexivity|constructor].
Qed.
(** RFC 4226/6238 values for the test secret: 755224 in the first step (seconds 0-29), 287082 in the second; then a clock that went back *)
Definition totp1 : totp_obj := mkTotp (set_secret (new_hotp 99) rfc_secret) 30 0 0 0.
Example C45_case :
  generates totp1 [mkGen env1 0 1 6; mkGen env1 29 29 6; mkGen env1 30 30 6; mkGen env1 59 60 6] = Ret [Otp 755224; Otp 755224; Otp 287082; Otp 287082] /\
  generates totp1 [mkGen env1 30 30 6; mkGen env1 0 0 6] = Ret [Otp 287082; Otp 287082] /\
  generates (set_interval totp1 60) [mkGen env1 30 30 6] = Ret [Otp 755224] /\
  fresh totp1 /\ Forall (clock_ok 0) (clock [mkGen env1 0 1 6; mkGen env1 29 29 6]) /\ ascending 0 (clock [mkGen env1 0 1 6; mkGen env1 29 29 6]).
Proof.
  split; [vm_compute; reflexivity|]. split; [vm_compute; reflexivity|]. split; [vm_compute; reflexivity|]. split; [split; reflexivity|]. split; [|cbn; lia].
  cbn [clock flat_map app g_now1 g_now2]. repeat (apply Forall_cons || apply Forall_nil); unfold clock_ok; pow62; lia.
Qed.
