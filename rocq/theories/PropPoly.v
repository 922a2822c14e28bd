(** Property theorems C73: objects used through their base classes. *)
From Coq Require Import String.
From Verif Require Import Base SHex MFront MHmac SHash MHashEnc SHashEnc PHashEnc PHashEnc2 PropHashEnc MOtp SOtp MOtpObj SOtpObj PropOtp PropOtpObj MPoly SPoly.
Local Open Scope N_scope.

(** ** HashEncoder *)
Lemma poly_he_eq garbage s o : omap p_he (poly_he garbage s o) = he_step garbage (p_he s) o.
Proof. unfold poly_he. destruct (he_step garbage (p_he s) o); reflexivity. Qed.
(** Reset and update work as if called directly, and the get_digest calls through the base class change nothing. *)
Theorem C73_same_objects : forall garbage ops, omap p_he (poly_run garbage poly_start ops) = he_run garbage he_start (directly ops).
Proof.
  intros garbage ops. change he_start with (p_he poly_start). generalize poly_start. induction ops as [|o ops IH]; intros s; [reflexivity|].
  assert (G : forall o', omap p_he (s1 <- poly_he garbage s o' ;; poly_run garbage s1 ops) = (h <- he_step garbage (p_he s) o' ;; he_run garbage h (directly ops))).
  { intros o'. unfold poly_he. destruct (he_step garbage (p_he s) o'); cbn [bind omap]; [|reflexivity|reflexivity]. rewrite IH. reflexivity. }
  destruct o as [o|i al|i d|i m|i]; cbn [poly_run poly_step directly he_run]; try apply G.
  destruct (obj_of (p_he s) i); cbn [bind]; rewrite IH; reflexivity.
Qed.
Print Assumptions C73_same_objects.
(** the pointers that are not null are those of the direct calls *)
Lemma digest_res garbage s o h : he_step garbage s o = Ret h ->
  s_res h = match o with OpDigest i _ _ => match obj_of s i, s_res h with Some _, d :: _ => d :: s_res s | _, _ => s_res s end | _ => s_res s end.
Proof.
  intros E. destruct o as [a r al|i al|i d|i m|i bl junk|i]; cbn [he_step] in E.
  - destruct (he_new _ r a al) as [[[h1 e1] ok]| |]; [|discriminate|discriminate]. injection E as <-. reflexivity.
  - destruct (obj_of s i); [|injection E as <-; reflexivity]. destruct (he_reset _ _ _) as [[[h1 e1] ok]| |]; [|discriminate|discriminate]. injection E as <-. reflexivity.
  - destruct (obj_of s i); [|injection E as <-; reflexivity]. destruct (he_feed _ _ _ _); [|discriminate|discriminate]. injection E as <-. reflexivity.
  - destruct (obj_of s i); [|injection E as <-; reflexivity]. destruct (he_feed_cstr _ _ _ _); [|discriminate|discriminate]. injection E as <-. reflexivity.
  - destruct (obj_of s i); [|injection E as <-; reflexivity]. destruct (get_digest _ _ _ _ _) as [[[h1 e1] d1]| |]; [|discriminate|discriminate]. injection E as <-. reflexivity.
  - destruct (obj_of s i); [|injection E as <-; reflexivity]. destruct (he_delete _ _); [|discriminate|discriminate]. injection E as <-. reflexivity.
Qed.
Theorem C73_direct_results : forall garbage ops s, poly_run garbage poly_start ops = Ret s -> not_null (p_res s) = s_res (p_he s).
Proof.
  intros garbage ops. assert (H0 : not_null (p_res poly_start) = s_res (p_he poly_start)) by reflexivity. revert H0. generalize poly_start.
  induction ops as [|o ops IH]; intros s0 H0 s E; [injection E as <-; exact H0|]. cbn [poly_run] in E.
  assert (G : forall o' s1, poly_he garbage s0 o' = Ret s1 -> not_null (p_res s1) = s_res (p_he s1)).
  { intros o' s1 E1. unfold poly_he in E1. destruct (he_step garbage (p_he s0) o') as [h| |] eqn:Eh; [|discriminate|discriminate]. cbn [bind] in E1. injection E1 as <-.
    cbn [p_res p_he]. pose proof (digest_res _ _ _ _ Eh) as R. destruct o'; try (rewrite R; exact H0).
    destruct (obj_of (p_he s0) i); [|rewrite R; exact H0]. destruct (s_res h) as [|d ds]; [rewrite R in *; exact H0|]. cbn [not_null]. rewrite H0. exact (eq_sym R). }
  destruct (poly_step garbage s0 o) as [s1| |] eqn:E1; [|discriminate|discriminate]. cbn [bind] in E. apply (IH s1); [|exact E].
  destruct o as [o|i al|i d|i m|i]; cbn [poly_step] in E1; try (apply (G _ _ E1)).
  destruct (obj_of (p_he s0) i); injection E1 as <-; exact H0.
Qed.
Print Assumptions C73_direct_results.
(** Violation: whatever was fed to an encoder, by whichever calls, get_digest through the base class returns a null pointer, where the
    direct call returns the digest of what was fed. *)
Theorem C73_digest_null_refuted : forall garbage ops s i a ps junk,
  Forall op_memory_ok (directly ops) -> poly_run garbage poly_start ops = Ret s ->
  nth_error (spec_run (directly ops)) i = Some (Feeding a ps) -> Forall (piece_ok a) ps -> message_ok a (concat ps) -> message_std a (concat ps) ->
  (exists s', poly_step garbage s (BaseDigest i) = Ret s' /\ hd_error (p_res s') = Some None) /\
  (exists s', poly_step garbage s (Direct (OpDigest i (8 * size_digest a) junk)) = Ret s' /\
     hd_error (p_res s') = Some (Some (std_digest a (N.to_nat (size_digest a)) (concat ps)))).
Proof.
  intros garbage ops s i a ps junk Hm E Hi HP HM HS. pose proof (C73_same_objects garbage ops) as R. rewrite E in R. cbn [omap bind] in R. symmetry in R.
  destruct (C54_alive garbage (directly ops) (p_he s) i (Feeding a ps) Hm R Hi) as (e & p & c & Eo & _).
  split.
  - cbn [poly_step]. rewrite Eo. eexists. split; reflexivity.
  - destruct (C55_digest garbage (directly ops) (p_he s) i a ps junk Hm R Hi HP HM HS) as (h & E1 & E2).
    cbn [poly_step]. unfold poly_he. rewrite E1. cbn [bind]. rewrite Eo, E2. eexists. split; reflexivity.
Qed.
Print Assumptions C73_digest_null_refuted.

(** ** TOTP *)
Lemma poly_sets {garbage a} : forall (ks : list (totp_poly garbage a)) t t', Forall base_only ks -> totp_poly_run true t ks = Ret t' ->
  do_sets true (hotp_part t) (sets_of ks) = Ret (hotp_part t').
Proof.
  induction ks as [|k ks IH]; intros t t' F E; [injection E as <-; reflexivity|]. inversion F as [|? ? F1 F2]; subst. cbn [totp_poly_run] in E.
  destruct k as [[k|iv|t0|e n1 n2 d|e n1 n2 d]|e d|e d]; cbn [base_only] in F1; try contradiction; cbn [totp_poly_do totp_do sets_of do_sets] in *.
  - destruct (do_set true (hotp_part t) k) as [h| |]; [|discriminate|discriminate]. cbn [bind] in *. exact (IH _ _ F2 E).
  - cbn [bind] in E. exact (IH _ _ F2 E).
  - cbn [bind] in E. exact (IH _ _ F2 E).
  - destruct (hotp_generate e (hotp_part t) d); [|discriminate|discriminate]. cbn [bind] in E. exact (IH _ _ F2 E).
  - destruct (hotp_generate_str e (hotp_part t) d); [|discriminate|discriminate]. cbn [bind] in E. exact (IH _ _ F2 E).
Qed.
(** A TOTP object used through HOTP or AbstractOTP only: it is a HOTP object. Its codes are those of the counter set last, or, if none was
    set, of whatever the memory of the new object contained ([co0]); no clock is read. *)
Theorem C73_totp_is_hotp : forall garbage a co0 iv (ks : list (totp_poly garbage a)) t, Forall base_only ks -> Forall set_ok (sets_of ks) ->
  totp_poly_run true (new_totp co0 iv) ks = Ret t ->
  (exists r c, secret_after (sets_of ks) r /\ counter_after (sets_of ks) co0 c) /\
  forall r c, secret_after (sets_of ks) r -> counter_after (sets_of ks) co0 c -> forall (e : locals garbage a) d,
    hotp_generate e (hotp_part t) d = match r with
      | None => Ret NotInitialized
      | Some s => v <- hotp_generic garbage a (lo_ctx e) (lo_loc e) (lo_out e) s c d ;; Ret (Otp v)
      end.
Proof.
  intros garbage a co0 iv ks t F S E. apply poly_sets in E; [|exact F]. change (hotp_part (new_totp co0 iv)) with (new_hotp co0) in E.
  destruct (C46_hotp_history garbage a co0 (sets_of ks) S) as (h & E1 & X & G). rewrite E in E1. injection E1 as <-. split; [exact X|].
  intros r c Hr Hc e d. apply (G r c Hr Hc e d).
Qed.
Print Assumptions C73_totp_is_hotp.
(** After a direct generate at time u: however many calls through the base class follow, and however late, they give the code of the
    step of u; every step that begins later is another one. *)
Theorem C73_totp_stale_refuted : forall garbage a t t0 iv u rem (ks : list (totp_poly garbage a)) t' (e : locals garbage a) d,
  updated_at t t0 iv u rem -> rem = (Z.of_N iv - (u - t0) mod Z.of_N iv)%Z -> Forall base_generate ks -> totp_poly_run true t ks = Ret t' ->
  hotp_generate e (hotp_part t') d = hotp_generate e (with_counter (hotp_part t) (Z.to_N (time_step u t0 iv))) d /\
  forall now, (u + rem <= now)%Z -> (time_step u t0 iv < time_step now t0 iv)%Z.
Proof.
  intros garbage a t t0 iv u rem ks t' e d U Er F E. assert (Et : t' = t).
  { clear U Er. revert t E. induction ks as [|k ks IH]; intros t E; [injection E as <-; reflexivity|]. inversion F as [|? ? F1 F2]; subst. cbn [totp_poly_run] in E.
    destruct k as [k|e1 d1|e1 d1]; [contradiction| |]; cbn [totp_poly_do] in E.
    - destruct (hotp_generate e1 (hotp_part t) d1); [|discriminate|discriminate]. cbn [bind] in E. apply IH; assumption.
    - destruct (hotp_generate_str e1 (hotp_part t) d1); [|discriminate|discriminate]. cbn [bind] in E. apply IH; assumption. }
  subst t'. destruct U as (_ & _ & U2 & _ & U4 & _). split.
  - rewrite <- U2. unfold with_counter. destruct (hotp_part t); reflexivity.
  - intros now H. unfold time_step. assert (Hi : (0 < Z.of_N iv)%Z) by lia. subst rem.
    pose proof (Z.div_mod (u - t0) (Z.of_N iv) ltac:(lia)) as D. set (q := ((u - t0) / Z.of_N iv)%Z) in *. set (m := ((u - t0) mod Z.of_N iv)%Z) in *.
    enough (q + 1 <= (now - t0) / Z.of_N iv)%Z by lia. apply Z.div_le_lower_bound; nia.
Qed.
Print Assumptions C73_totp_stale_refuted.

(** ** Cases *)
Definition poly_program : list poly_op :=
  [Direct (OpNew A_SHA1 raw0 (Some dirty_memory)); BaseUpdate 0 (chars "xx"); BaseReset 0 (Some dirty_memory); BaseUpdate 0 (chars "a"); BaseCstr 0 (chars "bc" ++ [0]); BaseDigest 0;
   Direct (OpDigest 0 160 (fun _ => 6))].
Example C73_case : omap p_res (poly_run None poly_start poly_program) = Ret [Some (flat_map (SFips180.be_bytes 4) [0xa9993e36; 0x4706816a; 0xba3e2571; 0x7850c26c; 0x9cd0d89d]); None].
Proof. vm_compute. reflexivity. Qed.
(** the RFC's secret; a fresh object whose memory held 3; the code for time 59 would be 287082 *)
Example C73_totp_case :
  omap (fun t => hotp_generate env1 (hotp_part t) 6) (totp_poly_run true (new_totp 3 30) [TDirect (TSet (SetSecret rfc_secret) : totp_call None A_SHA1); TBaseGenerate env1 6]) = Ret (Ret (Otp 969429)) /\
  omap (fun t => hotp_generate env1 (hotp_part t) 6) (totp_poly_run true totp1 [TDirect (TGenerate env1 0 0 6); TBaseGenerate env1 6; TBaseGenerateStr env1 6]) = Ret (Ret (Otp 755224)) /\
  omap snd (totp_generate env1 totp1 59 59 6) = Ret (Otp 287082).
Proof. split; [vm_compute; reflexivity|]. split; vm_compute; reflexivity. Qed.
