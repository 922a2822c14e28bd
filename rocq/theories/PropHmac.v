(** C34-C38: HMAC. [HMAC] is RFC 2104 (SHmac.v); [choice_lib] and [choice_std] list the hash functions. *)
From Coq Require Import String.
From Verif Require SFips202 SMd5 PropSha PShaInst PShaStream.
From Verif Require Import Base SHex SFips180 SShaLib MSha MFront MMd5 MKeccak SHash SKeccakFns SHashFns PShort PTyped MHmac SHmac PHmac.
Local Open Scope N_scope.

Lemma ops_updates I ps : forall c, hmac_ops I c (map HUpdate ps) = hmac_updates I c ps.
Proof.
  induction ps as [|p ps IH]; intros c; [reflexivity|]. cbn [map hmac_ops hmac_step hmac_updates].
  destruct (hmac_update I c p); cbn [bind]; [apply IH|reflexivity|reflexivity].
Qed.
Lemma hmac_block_rfc H B key m : (length key <= B)%nat -> hmac_block H (arrcpy B key) m = HMAC H B key m.
Proof. intros L. unfold hmac_block, HMAC. rewrite (arrcpy_block H B key L). reflexivity. Qed.
Lemma firstn_short {A} B (k : list A) : (length (firstn B k) <= B)%nat.
Proof. rewrite firstn_length. lia. Qed.
Lemma M_nil : forall a P M H B D, choice_lib a P M H B D -> M [].
Proof. intros a P M H B D K. destruct K; first [exact Logic.I|vm_compute; reflexivity]. Qed.
Lemma M_nil_std : forall a P M H B D, choice_std a P M H B D -> M [].
Proof. intros a P M H B D K. destruct K; first [exact Logic.I|split; [vm_compute; reflexivity|vm_compute; lia]]. Qed.

(** everything about one choice *)
Lemma good_run garbage a P M H B D : good garbage a P M H B D -> M [] -> exists I, sp_case garbage a = Some I /\ iblock I = B /\ idsz I = D /\ keeps_typed I /\
  forall c key ps l out, typed I (hash_ctx c) -> bytes_ok key -> Forall P ps -> M (concat ps) -> locals_ok l -> (D <= length out)%nat ->
  exists c1 c2 c3, hmac_set_key I c key = Ret c1 /\ hmac_updates I c1 ps = Ret c2 /\
    hmac_digest I l c2 out = Ret (c3, HMAC H B (firstn B key) (concat ps) ++ skipn D out) /\ length (HMAC H B (firstn B key) (concat ps)) = D.
Proof.
  intros [(I & T & E & <- & <- & S & Kp & TM & TD) HP HB HS] M0. exists I. split; [exact E|]. split; [reflexivity|]. split; [reflexivity|]. split; [exact Kp|].
  intros c key ps l out Hc Hk Hps HM Hl Ho. set (kb := arrcpy (iblock I) key).
  assert (L : length kb = iblock I) by apply arrcpy_length. assert (Bk : bytes_ok kb) by (apply arrcpy_bytes; exact Hk).
  destruct (set_key_keyed I P T H S HP HB HS c key Hc Hk) as (c1 & E1 & K1).
  { fold kb. specialize (TM (xor_pad 0x36 kb) []). rewrite app_nil_r in TM. apply TM; [rewrite xor_pad_length; exact L|exact M0]. }
  fold kb in K1.
  destruct (updates_keyed I P T H S HP HB HS kb L Bk [] ps c1 K1 (Forall_nil _) Hps) as (c2 & E2 & K2).
  { apply TM; [rewrite xor_pad_length; exact L|exact HM]. }
  cbn [app] in K2.
  assert (Ht : T (xor_pad 0x36 kb ++ concat ps)) by (apply TM; [rewrite xor_pad_length; exact L|exact HM]).
  assert (LH : length (H (xor_pad 0x36 kb ++ concat ps)) = idsz I).
  { destruct K2 as (g & Hg & _). destruct (S g (xor_pad 0x36 kb :: ps) (repeat 0 (idsz I)) Hg) as (? & ? & _ & _ & _ & X); [constructor; [|exact Hps]|exact Ht|rewrite repeat_length; lia|exact X].
    eapply pad_piece; eauto. reflexivity. }
  destruct (digest_keyed I P T H S HP HB HS kb ps c2 l out L Bk K2 Hps Ht) as (_ & c3 & E3 & L3); auto.
  { apply TD; [rewrite xor_pad_length; exact L|exact LH]. }
  exists c1, c2, c3. split; [exact E1|]. split; [exact E2|]. rewrite <- (hmac_block_rfc H (iblock I) (firstn (iblock I) key)) by apply firstn_short.
  rewrite <- arrcpy_firstn. fold kb. split; assumption.
Qed.
Lemma run_of I c key ps l out c1 c2 c3 d : hmac_set_key I c key = Ret c1 -> hmac_updates I c1 ps = Ret c2 -> hmac_digest I l c2 out = Ret (c3, d) ->
  hmac_run I c key ps l out = Ret d.
Proof. intros E1 E2 E3. unfold hmac_run. cbn [hmac_ops hmac_step]. rewrite E1. cbn [bind]. rewrite ops_updates, E2. cbn [bind]. rewrite E3. reflexivity. Qed.

(** ** C34: keys of at most one block *)
(** over the library's own hash function, any splitting of the message *)
Theorem C34_hmac_of_library_hash : forall garbage a P M H B D, choice_lib a P M H B D -> exists I, sp_case garbage a = Some I /\ 
  forall c key ps l out, hmac_typed c -> bytes_ok key -> (length key <= B)%nat -> Forall P ps -> M (concat ps) -> locals_ok l -> (D <= length out)%nat ->
  hmac_run I c key ps l out = Ret (HMAC H B key (concat ps) ++ skipn D out).
Proof.
  intros garbage a P M H B D K. destruct (good_run _ _ _ _ _ _ _ (lib_good garbage _ _ _ _ _ _ K) (M_nil _ _ _ _ _ _ K)) as (I & E & _ & _ & _ & R).
  exists I. split; [exact E|]. intros c key ps l out [Hc _] Hk L Hps HM Hl Ho.
  destruct (R c key ps l out Hc Hk Hps HM Hl Ho) as (c1 & c2 & c3 & E1 & E2 & E3 & _). rewrite (firstn_all2 key L) in E3. eapply run_of; eassumption.
Qed.
(** RFC 2104 over the standard hash function, for messages whose length leaves room for the padding *)
Theorem C34_hmac_rfc2104 : forall garbage a P M H B D, choice_std a P M H B D -> exists I, sp_case garbage a = Some I /\ 
  forall c key ps l out, hmac_typed c -> bytes_ok key -> (length key <= B)%nat -> Forall P ps -> M (concat ps) -> locals_ok l -> (D <= length out)%nat ->
  hmac_run I c key ps l out = Ret (HMAC H B key (concat ps) ++ skipn D out).
Proof.
  intros garbage a P M H B D K. destruct (good_run _ _ _ _ _ _ _ (std_good garbage _ _ _ _ _ _ K) (M_nil_std _ _ _ _ _ _ K)) as (I & E & _ & _ & _ & R).
  exists I. split; [exact E|]. intros c key ps l out [Hc _] Hk L Hps HM Hl Ho.
  destruct (R c key ps l out Hc Hk Hps HM Hl Ho) as (c1 & c2 & c3 & E1 & E2 & E3 & _). rewrite (firstn_all2 key L) in E3. eapply run_of; eassumption.
Qed.
(** the twelve fixed-size algorithms are all in both tables *)
Theorem C34_tables_complete : forall garbage a I, sp_case garbage a = Some I ->
  (exists P M H B D, choice_lib a P M H B D /\ iblock I = B /\ idsz I = D) /\ (exists P M H B D, choice_std a P M H B D /\ iblock I = B /\ idsz I = D).
Proof.
  intros garbage a I E. destruct a; try discriminate E; cbn [sp_case] in E; injection E as <-; split; do 5 eexists; (split; [constructor|split; reflexivity]).
Qed.
(** HMAC-MD5 of an empty message through one update call: undefined behaviour (see C18) *)
Theorem C34_md5_empty_piece : forall c key l out ps, hmac_typed c -> bytes_ok key -> Forall md5_piece ps ->
  hmac_run (md5_impl None) c key (ps ++ [[]]) l out = UB Indeterminate.
Proof.
  intros c key l out ps [Hc _] Hk Hps.
  destruct (good_run None A_MD5 _ _ _ _ _ (lib_good None _ _ _ _ _ _ cl_md5) Logic.I) as (I & E & _ & _ & _ & R). injection E as <-.
  destruct (R c key ps (mkLocals (I := md5_impl None) (repeat 0 17) (mkMd5 [] 0 (repeat 0 64))) (repeat 0 16) Hc Hk Hps Logic.I) as (c1 & c2 & _ & E1 & E2 & _);
    [split; reflexivity|rewrite repeat_length; auto|].
  unfold hmac_run. cbn [hmac_ops hmac_step]. rewrite E1. cbn [bind]. rewrite ops_updates.
  assert (A : forall c', hmac_updates (md5_impl None) c' (ps ++ [[]]) = (c' <- hmac_updates (md5_impl None) c' ps ;; hmac_updates (md5_impl None) c' [[]])).
  { clear. induction ps as [|p ps IH]; intros c'; [reflexivity|]. cbn [app hmac_updates]. destruct (hmac_update _ c' p); cbn [bind]; [apply IH|reflexivity|reflexivity]. }
  rewrite A, E2. reflexivity.
Qed.

(** ** C35: keys longer than a block are cut, not hashed *)
Theorem C35_only_first_block_matters : forall I c key ps l out,
  hmac_run I c key ps l out = hmac_run I c (firstn (iblock I) key) ps l out.
Proof. intros I c key ps l out. unfold hmac_run. cbn [hmac_ops hmac_step]. unfold hmac_set_key. rewrite <- arrcpy_firstn. reflexivity. Qed.
Theorem C35_truncated_hmac : forall garbage a P M H B D, choice_std a P M H B D -> exists I, sp_case garbage a = Some I /\ 
  forall c key ps l out, hmac_typed c -> bytes_ok key -> Forall P ps -> M (concat ps) -> locals_ok l -> (D <= length out)%nat ->
  hmac_run I c key ps l out = Ret (HMAC H B (firstn B key) (concat ps) ++ skipn D out).
Proof.
  intros garbage a P M H B D K. destruct (good_run _ _ _ _ _ _ _ (std_good garbage _ _ _ _ _ _ K) (M_nil_std _ _ _ _ _ _ K)) as (I & E & _ & _ & _ & R).
  exists I. split; [exact E|]. intros c key ps l out [Hc _] Hk Hps HM Hl Ho.
  destruct (R c key ps l out Hc Hk Hps HM Hl Ho) as (c1 & c2 & c3 & E1 & E2 & E3 & _). eapply run_of; eassumption.
Qed.

(** ** C36: setting a key restarts *)
Lemma step_typed I c o c' : keeps_typed I -> hmac_typed c -> hmac_step I c o = Ret c' -> hmac_typed c'.
Proof.
  intros (K1 & K2 & K3) (H1 & H2 & H3) E. destruct o; cbn [hmac_step] in E.
  - unfold hmac_init in E. cbv zeta in E. inv_bind E. injection E as <-. split; [eapply K2; [|exact X]; apply K1; exact H1|]. cbn [k_i_pad k_o_pad]. rewrite !repeat_length. auto.
  - unfold hmac_set_key in E. cbv zeta in E. inv_bind E. injection E as <-. split; [eapply K2; [|exact X]; apply K1; exact H1|]. cbn [k_i_pad k_o_pad]. rewrite !map_length, arrcpy_length. auto.
  - unfold hmac_update in E. inv_bind E. injection E as <-. split; [eapply K2; [|exact X]; exact H1|]. auto.
  - destruct (hmac_digest I l c out) as [[c1 o1]| |] eqn:D; cbn [omap] in E; try discriminate E. injection E as <-. cbn [fst].
    unfold hmac_digest in D. inv_bind D. destruct a as [h mid]. inv_bind D. injection D as <- _. split; [eapply K3; eassumption|]. auto.
Qed.
Lemma ops_typed I os : keeps_typed I -> forall c c', hmac_typed c -> hmac_ops I c os = Ret c' -> hmac_typed c'.
Proof.
  intros K. induction os as [|o os IH]; intros c c' Hc E; cbn [hmac_ops] in E; [injection E as <-; exact Hc|].
  inv_bind E. eapply IH; [|exact E]. eapply step_typed; eassumption.
Qed.
(** any history of init, set_key, update and digest calls before the last set_key is forgotten *)
Theorem C36_set_key_restarts : forall garbage a P M H B D, choice_lib a P M H B D -> exists I, sp_case garbage a = Some I /\ 
  forall c0 history c key ps l out, hmac_typed c0 -> hmac_ops I c0 history = Ret c ->
  bytes_ok key -> Forall P ps -> M (concat ps) -> locals_ok l -> (D <= length out)%nat ->
  hmac_run I c key ps l out = Ret (HMAC H B (firstn B key) (concat ps) ++ skipn D out).
Proof.
  intros garbage a P M H B D K. destruct (good_run _ _ _ _ _ _ _ (lib_good garbage _ _ _ _ _ _ K) (M_nil _ _ _ _ _ _ K)) as (I & E & _ & _ & Kp & R).
  exists I. split; [exact E|]. intros c0 hist c key ps l out Hc0 Hh Hk Hps HM Hl Ho. destruct (ops_typed I hist Kp c0 c Hc0 Hh) as [Hc _].
  destruct (R c key ps l out Hc Hk Hps HM Hl Ho) as (c1 & c2 & c3 & E1 & E2 & E3 & _). eapply run_of; eassumption.
Qed.
(** init alone: the empty key *)
Theorem C36_init_is_empty_key : forall I c, hmac_init I c = hmac_set_key I c [].
Proof.
  intros I c. unfold hmac_init, hmac_set_key. cbv zeta. assert (E : arrcpy (iblock I) [] = repeat 0 (iblock I)).
  { unfold arrcpy. cbv zeta. cbn [length]. destruct (Nat.ltb_spec 0 (iblock I)) as [X|X]; cbn [firstn app].
    - rewrite Nat.sub_0_r. reflexivity.
    - replace (iblock I) with 0%nat by lia. reflexivity. }
  rewrite E, !map_repeat. reflexivity.
Qed.

(** ** C37: pgfe_hmac *)
Theorem C37_dispatch : forall garbage a P M H B D, choice_std a P M H B D ->
  forall g l key data out, ectx_ok g -> eloc_ok l ->
  bytes_ok key -> (length key <= B)%nat -> P data -> M data -> (D <= length out)%nat ->
  pgfe_hmac garbage a g l key data out = Ret (HMAC H B key data ++ skipn D out).
Proof.
  intros garbage a P M H B D K. pose proof (M_nil_std _ _ _ _ _ _ K) as M0. pose proof (std_good garbage _ _ _ _ _ _ K) as G.
  destruct (good_run _ _ _ _ _ _ _ G M0) as (I & E & EB & ED & Kp & R).
  intros g l key data out Hg Hl Hk L HP HM Ho. unfold pgfe_hmac. revert g l Hg Hl. rewrite E. intros g l Hg Hl. cbn [hmac_case ectx_ok eloc_ok ectx eloc] in *. unfold hmac_one_shot.
  destruct (R g [] [] l out) as (c1 & _ & _ & E1 & _); auto; try apply Hg; try constructor. rewrite <- C36_init_is_empty_key in E1. rewrite E1. cbn [bind].
  assert (Hc1 : hmac_typed c1) by (apply (step_typed I g HInit c1 Kp Hg); exact E1).
  destruct (R c1 key [data] l out) as (c2 & c3 & c4 & E2 & E3 & E4 & _); auto; try apply Hc1; [cbn [concat]; rewrite app_nil_r; exact HM|].
  rewrite E2. cbn [bind]. cbn [hmac_updates] in E3. destruct (hmac_update I c2 data) as [c5| |]; cbn [bind] in E3 |- *; try discriminate E3. injection E3 as ->.
  rewrite E4. cbn [bind concat]. rewrite app_nil_r, (firstn_all2 key L). reflexivity.
Qed.
(** the same for every key and message length, over the library's hash and with the key cut *)
Theorem C37_dispatch_library : forall garbage a P M H B D, choice_lib a P M H B D ->
  forall g l key data out, ectx_ok g -> eloc_ok l ->
  bytes_ok key -> P data -> M data -> (D <= length out)%nat ->
  pgfe_hmac garbage a g l key data out = Ret (HMAC H B (firstn B key) data ++ skipn D out).
Proof.
  intros garbage a P M H B D K. pose proof (M_nil _ _ _ _ _ _ K) as M0. pose proof (lib_good garbage _ _ _ _ _ _ K) as G.
  destruct (good_run _ _ _ _ _ _ _ G M0) as (I & E & EB & ED & Kp & R).
  intros g l key data out Hg Hl Hk HP HM Ho. unfold pgfe_hmac. revert g l Hg Hl. rewrite E. intros g l Hg Hl. cbn [hmac_case ectx_ok eloc_ok ectx eloc] in *. unfold hmac_one_shot.
  destruct (R g [] [] l out) as (c1 & _ & _ & E1 & _); auto; try apply Hg; try constructor. rewrite <- C36_init_is_empty_key in E1. rewrite E1. cbn [bind].
  assert (Hc1 : hmac_typed c1) by (apply (step_typed I g HInit c1 Kp Hg); exact E1).
  destruct (R c1 key [data] l out) as (c2 & c3 & c4 & E2 & E3 & E4 & _); auto; try apply Hc1; [cbn [concat]; rewrite app_nil_r; exact HM|].
  rewrite E2. cbn [bind]. cbn [hmac_updates] in E3. destruct (hmac_update I c2 data) as [c5| |]; cbn [bind] in E3 |- *; try discriminate E3. injection E3 as ->.
  rewrite E4. cbn [bind concat]. rewrite app_nil_r. reflexivity.
Qed.
Theorem C37_xof_untouched : forall garbage a, In a [A_RawSHAKE128; A_SHAKE128; A_RawSHAKE256; A_SHAKE256] ->
  forall g l key data out, pgfe_hmac garbage a g l key data out = Ret out.
Proof. intros garbage a Ha g l key data out. cbn [In] in Ha. repeat (destruct Ha as [<-|Ha]; [reflexivity|]). destruct Ha. Qed.

(** ** C38: HMACEncoder *)
Lemma on_some I f : on_ctx (Some I) f = f I. Proof. reflexivity. Qed.

Definition is_data (o : enc_op) : bool := match o with EReset => false | _ => true end.
Lemma data_concat ops : concat (map op_bytes (filter is_data ops)) = concat (map op_bytes ops).
Proof. induction ops as [|o ops IH]; [reflexivity|]. destruct o; cbn [filter is_data map concat op_bytes app]; congruence. Qed.
Lemma data_ok P ops : Forall (op_ok P) ops -> Forall P (map op_bytes (filter is_data ops)).
Proof.
  induction 1 as [|o ops Ho Hops IH]; [constructor|]. destruct o; cbn [filter is_data map op_bytes]; [constructor; assumption| |exact IH].
  constructor; [apply Ho|exact IH].
Qed.
Lemma upto_nul_lt m : In 0 m -> (length (upto_nul m) < length m)%nat.
Proof.
  induction m as [|x m IH]; intros H; [destruct H|]. cbn [upto_nul]. destruct (N.eqb_spec x 0) as [->|X]; [cbn; lia|].
  destruct H as [->|H]; [congruence|]. apply IH in H. cbn [length]. lia.
Qed.
Lemma enc_ops_some I P ops : Forall (op_ok P) ops -> forall e : encoder (Some I),
  enc_ops (Some I) e ops = (c <- hmac_updates I (e_ctx e) (map op_bytes (filter is_data ops)) ;; Ret (mkEnc (o := Some I) (e_digsz e) (e_blocksz e) c (e_output e))).
Proof.
  induction 1 as [|o ops Ho Hops IH]; intros e; [destruct e; reflexivity|].
  assert (U : forall p, (e0 <- enc_update (Some I) e p ;; enc_ops (Some I) e0 ops) =
    (c <- (c <- hmac_update I (e_ctx e) p ;; hmac_updates I c (map op_bytes (filter is_data ops))) ;; Ret (mkEnc (o := Some I) (e_digsz e) (e_blocksz e) c (e_output e)))).
  { intros p. unfold enc_update. rewrite on_some. destruct (hmac_update I (e_ctx e) p) as [c| |]; cbn [bind]; [|reflexivity|reflexivity]. rewrite IH. reflexivity. }
  destruct o as [p|m|]; cbn [enc_ops filter is_data map op_bytes hmac_updates]; [apply U| |apply IH].
  unfold enc_update_cstr. destruct Ho as [Hz _]. apply upto_nul_lt in Hz. destruct (Nat.eqb_spec (length (upto_nul m)) (length m)); [lia|]. apply U.
Qed.
Lemma enc_new_some I a (r : raw_object (Some I)) key : keeps_typed I -> hmac_typed (r_ctx r : hmac_ctx I) -> (exists c, hmac_init I (r_ctx r) = Ret c) ->
  exists c, hmac_typed c /\ enc_new (Some I) a r key =
    (c' <- hmac_set_key I c key ;; Ret (mkEnc (o := Some I) (if alg_code a =? r_alg r then r_digsz r else N.of_nat (idsz I))
                                            (if alg_code a =? r_alg r then r_blocksz r else N.of_nat (iblock I)) c' None)).
Proof.
  intros Kp Hr [c0 E0]. unfold enc_new, enc_select. rewrite on_some. destruct (alg_code a =? r_alg r).
  - exists (r_ctx r : hmac_ctx I). split; [exact Hr|]. reflexivity.
  - exists c0. split; [apply (step_typed I (r_ctx r : hmac_ctx I) HInit c0 Kp Hr); exact E0|]. rewrite E0. reflexivity.
Qed.
Lemma encoder_good garbage a P M H B D : good garbage a P M H B D -> M [] ->
  forall r key ops l l_out, ectx_ok (r_ctx r) -> eloc_ok l -> length l_out = D ->
  bytes_ok key -> Forall (op_ok P) ops -> M (concat (map op_bytes ops)) ->
  encoder_run (sp_case garbage a) a r key ops l l_out = Ret (Some (HMAC H B (firstn B key) (concat (map op_bytes ops)))) /\
  (encoder_sizes (sp_case garbage a) a r key = Ret (if alg_code a =? r_alg r then (r_digsz r, r_blocksz r) else (N.of_nat D, N.of_nat B))).
Proof.
  intros G M0 r key ops l l_out Hr Hl Ho Hk Hops HM. destruct (good_run _ _ _ _ _ _ _ G M0) as (I & E & EB & ED & Kp & R).
  revert r l Hr Hl. rewrite E. intros r l Hr Hl. cbn [ectx_ok eloc_ok ectx eloc] in *. unfold encoder_run, encoder_sizes.
  destruct (enc_new_some I a r key Kp Hr) as (c & Hc & En).
  { destruct (R (r_ctx r) [] [] l l_out) as (c1 & _ & _ & E1 & _); auto; [apply Hr|constructor|lia|]. rewrite <- C36_init_is_empty_key in E1. eauto. }
  rewrite En. pose proof (data_concat ops) as DC. pose proof (data_ok P ops Hops) as DP.
  destruct (R c key (map op_bytes (filter is_data ops)) l l_out) as (c1 & c2 & c3 & E1 & E2 & E3 & L3); auto; [apply Hc|rewrite DC; exact HM|lia|].
  rewrite E1. cbn [bind]. rewrite (enc_ops_some I P ops Hops). cbn [e_ctx]. rewrite E2. cbn [bind enc_digest e_ctx].
  rewrite firstn_all2 by lia. rewrite E3. cbn [bind omap snd]. rewrite DC in *.
  rewrite skipn_all2 by lia. rewrite app_nil_r. split; [reflexivity|]. cbn [e_digsz e_blocksz]. rewrite EB, ED. destruct (alg_code a =? r_alg r); reflexivity.
Qed.
(** the digest, whatever the object's memory contained before *)
Theorem C38_digest : forall garbage a P M H B D, choice_std a P M H B D ->
  forall r key ops l l_out, ectx_ok (r_ctx r) -> eloc_ok l -> length l_out = D ->
  bytes_ok key -> (length key <= B)%nat -> Forall (op_ok P) ops -> M (concat (map op_bytes ops)) ->
  encoder_run (sp_case garbage a) a r key ops l l_out = Ret (Some (HMAC H B key (concat (map op_bytes ops)))).
Proof.
  intros garbage a P M H B D K r key ops l l_out Hr Hl Ho Hk L Hops HM.
  destruct (encoder_good _ _ _ _ _ _ _ (std_good garbage _ _ _ _ _ _ K) (M_nil_std _ _ _ _ _ _ K) r key ops l l_out) as [E _]; auto.
  rewrite (firstn_all2 key L) in E. exact E.
Qed.
Theorem C38_digest_library : forall garbage a P M H B D, choice_lib a P M H B D ->
  forall r key ops l l_out, ectx_ok (r_ctx r) -> eloc_ok l -> length l_out = D ->
  bytes_ok key -> Forall (op_ok P) ops -> M (concat (map op_bytes ops)) ->
  encoder_run (sp_case garbage a) a r key ops l l_out = Ret (Some (HMAC H B (firstn B key) (concat (map op_bytes ops)))).
Proof.
  intros garbage a P M H B D K r key ops l l_out Hr Hl Ho Hk Hops HM.
  destruct (encoder_good _ _ _ _ _ _ _ (lib_good garbage _ _ _ _ _ _ K) (M_nil _ _ _ _ _ _ K) r key ops l l_out) as [E _]; auto.
Qed.
(** digest_size() and block_size() are right unless the uninitialised algorithm field already held [a];
    then they are whatever the memory contained *)
Theorem C38_sizes : forall garbage a P M H B D, choice_lib a P M H B D ->
  forall r key, ectx_ok (r_ctx r) -> bytes_ok key ->
  encoder_sizes (sp_case garbage a) a r key = Ret (if alg_code a =? r_alg r then (r_digsz r, r_blocksz r) else (N.of_nat D, N.of_nat B)).
Proof.
  intros garbage a P M H B D K r key Hr Hk.
  pose proof (lib_good garbage _ _ _ _ _ _ K) as G. pose proof (M_nil _ _ _ _ _ _ K) as M0.
  destruct (good_run _ _ _ _ _ _ _ G M0) as (I & E & EB & ED & Kp & R). 
  revert r Hr. rewrite E. intros r Hr. cbn [ectx_ok ectx] in *. unfold encoder_sizes.
  assert (HR : forall k, bytes_ok k -> forall c, hmac_typed c -> exists c1, hmac_set_key I c k = Ret c1).
  { intros k Bk c Hc. destruct (R c k [] (mkLocals (repeat 0 (S D)) (hash_ctx c)) (repeat 0 D)) as (c1 & _ & _ & E1 & _); auto; try apply Hc; try constructor;
      cbn [l_mid l_ctx]; rewrite ?repeat_length, ?ED; eauto; apply Hc. }
  destruct (enc_new_some I a r key Kp Hr) as (c & Hc & En).
  { destruct (HR [] (Forall_nil _) (r_ctx r) Hr) as [c1 E1]. rewrite <- C36_init_is_empty_key in E1. eauto. }
  rewrite En. destruct (HR key Hk c Hc) as [c1 E1]. rewrite E1. cbn [bind omap e_digsz e_blocksz]. rewrite EB, ED. destruct (alg_code a =? r_alg r); reflexivity.
Qed.
(** reset() keeps the data added before it *)
Theorem C38_reset_ignored : forall garbage a P M H B D, choice_std a P M H B D ->
  forall r key ps qs l l_out, ectx_ok (r_ctx r) -> eloc_ok l -> length l_out = D ->
  bytes_ok key -> (length key <= B)%nat -> Forall P ps -> Forall P qs -> M (concat (ps ++ qs)) ->
  encoder_run (sp_case garbage a) a r key (map EUpdate ps ++ EReset :: map EUpdate qs) l l_out = Ret (Some (HMAC H B key (concat (ps ++ qs)))).
Proof.
  intros garbage a P M H B D K r key ps qs l l_out Hr Hl Ho Hk L Hps Hqs HM.
  assert (E : concat (map op_bytes (map EUpdate ps ++ EReset :: map EUpdate qs)) = concat (ps ++ qs)).
  { rewrite map_app, concat_app. cbn [map op_bytes concat app]. rewrite !map_map. change (fun x => op_bytes (EUpdate x)) with (fun x : list N => x). rewrite !map_id, concat_app. reflexivity. }
  assert (Q : forall zs, Forall P zs -> Forall (op_ok P) (map EUpdate zs)) by (induction 1; constructor; assumption).
  rewrite <- E in HM |- *. apply (C38_digest garbage a P M H B D K); auto. apply Forall_app. split; [|constructor; [exact Logic.I|]]; apply Q; assumption.
Qed.
(** a XOF: no context, a null pointer, and sizes that stay uninitialised *)
Theorem C38_xof_null : forall garbage a, In a [A_RawSHAKE128; A_SHAKE128; A_RawSHAKE256; A_SHAKE256] ->
  forall r key ops l l_out, Forall (op_ok (fun _ => True)) ops ->
  encoder_run (sp_case garbage a) a r key ops l l_out = Ret None /\ encoder_sizes (sp_case garbage a) a r key = Ret (r_digsz r, r_blocksz r).
Proof.
  intros garbage a Ha r key ops l l_out Hops.
  assert (N0 : sp_case garbage a = None) by (cbn [In] in Ha; repeat (destruct Ha as [<-|Ha]; [reflexivity|]); destruct Ha).
  revert r l. rewrite N0. intros r l. unfold encoder_run, encoder_sizes.
  assert (En : enc_new None a r key = Ret (mkEnc (o := None) (r_digsz r) (r_blocksz r) (r_ctx r) None)).
  { unfold enc_new, enc_select. cbn [on_ctx bind]. destruct (alg_code a =? r_alg r); reflexivity. }
  rewrite En. cbn [bind omap]. split; [|reflexivity].
  assert (X : forall e : encoder None, e_output e = None -> exists e', enc_ops None e ops = Ret e' /\ e_output e' = None).
  { clear - Hops. induction Hops as [|o ops Ho Hops IH]; intros e He; [exists e; auto|].
    destruct o as [p|m|]; cbn [enc_ops]; unfold enc_update_cstr.
    - unfold enc_update. cbn [on_ctx bind]. apply IH. exact He.
    - destruct Ho as [Hz _]. apply upto_nul_lt in Hz. destruct (Nat.eqb_spec (length (upto_nul m)) (length m)); [lia|]. unfold enc_update. cbn [on_ctx bind]. apply IH. exact He.
    - apply IH. exact He. }
  destruct (X (mkEnc (o := None) (r_digsz r) (r_blocksz r) (r_ctx r) None) eq_refl) as (e' & -> & He'). cbn [bind enc_digest omap snd]. rewrite He'. reflexivity.
Qed.

(** ** Violations, by evaluation of the model *)
Definition blank_sha (a : sha_alg) : sha_ctx := mkSha [] 0 0 0 (repeat 0 (block_bytes a)).
Definition blank_md5 : md5_ctx := mkMd5 [] 0 (repeat 0 64).
Definition blank_k : kctx := mkK (repeat 0 25) (repeat 0 192) 0 0 0 0 false 0 0 0 false.
Definition blank_hmac (I : hash_impl) (g : ictx I) : hmac_ctx I := mkHmac g (repeat 0 (iblock I)) (repeat 0 (iblock I)).
Definition blank_locals (I : hash_impl) (g : ictx I) : hmac_locals I := mkLocals (repeat 0 (S (idsz I))) g.
Definition tag (I : hash_impl) (g : ictx I) (key : list N) : outcome (list N) :=
  hmac_run I (blank_hmac I g) key [] (blank_locals I g) (repeat 0 (idsz I)).
(** the tag for the key as given, and for the hashed key, as RFC 2104 wants it *)
Definition tags (I : hash_impl) (g : ictx I) (key : list N) : outcome (N * N) :=
  t1 <- tag I g key ;; k <- encode I g key (repeat 0 (idsz I)) ;; t2 <- tag I g k ;; Ret (hd 0 t1, hd 0 t2).
Lemma skip_blank d n : length d = n -> d ++ skipn n (repeat 0 n) = d.
Proof. intros <-. rewrite skipn_all2 by (rewrite repeat_length; lia). apply app_nil_r. Qed.

Lemma tags_differ garbage a P M H B D I T (g : ictx I) : good garbage a P M H B D -> M [] -> sp_case garbage a = Some I -> streams I P T H ->
  (D <= B)%nat -> typed I g -> P (repeat 1 (S B)) -> T (repeat 1 (S B)) ->
  match tags I g (repeat 1 (S B)) with Ret (x, y) => negb (x =? y) | _ => false end = true ->
  HMAC H B (firstn B (repeat 1 (S B))) [] <> HMAC H B (repeat 1 (S B)) [].
Proof.
  intros G M0 E S HDB Hg HP HT Hv C. pose proof (g_bytes _ _ _ _ _ _ _ G) as HB. destruct (good_run _ _ _ _ _ _ _ G M0) as (I' & E' & EB & ED & _ & R).
  rewrite E in E'. injection E' as <-. set (key := repeat 1 (Datatypes.S B)) in *.
  assert (Bk : bytes_ok key) by (apply Forall_forall; intros x Hx; apply repeat_spec in Hx; subst; reflexivity).
  assert (RT : forall k, bytes_ok k -> tag I g k = Ret (HMAC H B (firstn B k) [])).
  { intros k Hk. destruct (R (blank_hmac I g) k [] (blank_locals I g) (repeat 0 (idsz I))) as (c1 & c2 & c3 & E1 & E2 & E3 & L3); auto.
    - split; [apply repeat_length|exact Hg].
    - rewrite repeat_length. lia.
    - cbn [concat] in E3, L3. subst D. rewrite skip_blank in E3 by exact L3. eapply run_of; eassumption. }
  unfold tags in Hv. rewrite RT in Hv by exact Bk. cbn [bind] in Hv.
  assert (EK : encode I g key (repeat 0 (idsz I)) = Ret (H key)).
  { rewrite (PropSha.encode_of_streams I P T H g key (repeat 0 (idsz I)) S Hg HP HT) by (rewrite repeat_length; lia). f_equal. apply skip_blank.
    destruct (S g [key] (repeat 0 (idsz I)) Hg) as (_ & _ & _ & _ & _ & L); [repeat constructor; exact HP|cbn [concat]; rewrite app_nil_r; exact HT|rewrite repeat_length; lia|].
    cbn [concat] in L. rewrite app_nil_r in L. exact L. }
  rewrite EK in Hv. cbn [bind] in Hv. rewrite RT in Hv by apply HB. cbn [bind] in Hv.
  assert (LK : length (H key) = D).
  { destruct (S g [key] (repeat 0 (idsz I)) Hg) as (_ & _ & _ & _ & _ & L); [repeat constructor; exact HP|cbn [concat]; rewrite app_nil_r; exact HT|rewrite repeat_length; lia|].
    cbn [concat] in L. rewrite app_nil_r, ED in L. exact L. }
  assert (EH : HMAC H B key [] = HMAC H B (firstn B (H key)) []).
  { rewrite firstn_all2 by lia. unfold HMAC, key_block. cbv zeta. assert (X : Nat.leb (length key) B = false) by (unfold key; rewrite repeat_length; apply Nat.leb_gt; lia).
    rewrite X. assert (Y : Nat.leb (length (H key)) B = true) by (apply Nat.leb_le; lia). rewrite Y. reflexivity. }
  rewrite <- EH, <- C, N.eqb_refl in Hv. discriminate Hv.
Qed.
(** for each of the twelve functions there is a key for which RFC 2104 asks for something else than what
    [C35_truncated_hmac] says the code computes *)
Ltac ones := split; [apply Forall_forall; intros x Hx; apply repeat_spec in Hx; subst; reflexivity|rewrite ?repeat_length; vm_compute; first [reflexivity|discriminate]].
Theorem C35_violation : forall a P M H B D, choice_std a P M H B D ->
  exists key, bytes_ok key /\ length key = S B /\ M [] /\ HMAC H B (firstn B key) [] <> HMAC H B key [].
Proof.
  intros a P M H B D K. exists (repeat 1 (S B)). split; [apply Forall_forall; intros x Hx; apply repeat_spec in Hx; subst; reflexivity|].
  split; [apply repeat_length|]. pose proof (M_nil_std _ _ _ _ _ _ K) as M0. split; [exact M0|].
  pose proof (std_good None _ _ _ _ _ _ K) as G.
  assert (RR : forall bs lb n, (n mod bs < bs - lb)%nat -> leaves_room bs lb (repeat 1 n)) by (intros; unfold leaves_room; rewrite repeat_length; assumption).
  assert (RB : forall b n, 8 * N.of_nat n < 2 ^ b -> bits_below b (repeat 1 n)) by (intros; unfold bits_below; rewrite repeat_length; assumption).
  destruct K.
  - apply (tags_differ _ _ _ _ _ _ _ (md5_impl None) _ blank_md5 G M0 eq_refl (std_streams _ _ _ _ (hs_md5 None))); [lia|reflexivity|split; [apply Forall_forall; intros x Hx; apply repeat_spec in Hx; subst; reflexivity|discriminate]|exact Logic.I|vm_compute; reflexivity].
  - apply (tags_differ _ _ _ _ _ _ _ (sha_impl alg_sha1) _ (blank_sha alg_sha1) G M0 eq_refl (std_streams _ _ _ _ hs_sha1)); [lia|reflexivity|ones|split; [apply RB; vm_compute; reflexivity|apply RR; vm_compute; lia]|vm_compute; reflexivity].
  - apply (tags_differ _ _ _ _ _ _ _ (sha_impl alg_sha224) _ (blank_sha alg_sha224) G M0 eq_refl (std_streams _ _ _ _ hs_sha224)); [lia|reflexivity|ones|split; [apply RB; vm_compute; reflexivity|apply RR; vm_compute; lia]|vm_compute; reflexivity].
  - apply (tags_differ _ _ _ _ _ _ _ (sha_impl alg_sha256) _ (blank_sha alg_sha256) G M0 eq_refl (std_streams _ _ _ _ hs_sha256)); [lia|reflexivity|ones|split; [apply RB; vm_compute; reflexivity|apply RR; vm_compute; lia]|vm_compute; reflexivity].
  - apply (tags_differ _ _ _ _ _ _ _ (sha_impl alg_sha384) _ (blank_sha alg_sha384) G M0 eq_refl (std_streams _ _ _ _ hs_sha384)); [lia|reflexivity|ones|split; [apply RB; vm_compute; reflexivity|apply RR; vm_compute; lia]|vm_compute; reflexivity].
  - apply (tags_differ _ _ _ _ _ _ _ (sha_impl alg_sha512) _ (blank_sha alg_sha512) G M0 eq_refl (std_streams _ _ _ _ hs_sha512)); [lia|reflexivity|ones|split; [apply RB; vm_compute; reflexivity|apply RR; vm_compute; lia]|vm_compute; reflexivity].
  - apply (tags_differ _ _ _ _ _ _ _ (sha_impl alg_sha512_224) _ (blank_sha alg_sha512_224) G M0 eq_refl (std_streams _ _ _ _ hs_sha512_224)); [lia|reflexivity|ones|split; [apply RB; vm_compute; reflexivity|apply RR; vm_compute; lia]|vm_compute; reflexivity].
  - apply (tags_differ _ _ _ _ _ _ _ (sha_impl alg_sha512_256) _ (blank_sha alg_sha512_256) G M0 eq_refl (std_streams _ _ _ _ hs_sha512_256)); [lia|reflexivity|ones|split; [apply RB; vm_compute; reflexivity|apply RR; vm_compute; lia]|vm_compute; reflexivity].
  - apply (tags_differ _ _ _ _ _ _ _ impl_sha3_224 _ blank_k G M0 eq_refl (std_streams _ _ _ _ (hs_keccak _ _ _ fn_sha3_224))); [lia|split; reflexivity|ones|exact Logic.I|vm_compute; reflexivity].
  - apply (tags_differ _ _ _ _ _ _ _ impl_sha3_256 _ blank_k G M0 eq_refl (std_streams _ _ _ _ (hs_keccak _ _ _ fn_sha3_256))); [lia|split; reflexivity|ones|exact Logic.I|vm_compute; reflexivity].
  - apply (tags_differ _ _ _ _ _ _ _ impl_sha3_384 _ blank_k G M0 eq_refl (std_streams _ _ _ _ (hs_keccak _ _ _ fn_sha3_384))); [lia|split; reflexivity|ones|exact Logic.I|vm_compute; reflexivity].
  - apply (tags_differ _ _ _ _ _ _ _ impl_sha3_512 _ blank_k G M0 eq_refl (std_streams _ _ _ _ (hs_keccak _ _ _ fn_sha3_512))); [lia|split; reflexivity|ones|exact Logic.I|vm_compute; reflexivity].
Qed.

(** messages whose length leaves no room: HMAC over the standard hash is not met (the inner hash is wrong) *)
Definition std_eval (a : sha_alg) (m : list N) : list N :=
  firstn (digest_bytes a) (flat_map (be_bytes (word_bytes a)) (fold_left (process a) (pieces (block_bytes a) (PropSha.std_pad a m)) (H0 a))).
Lemma sha2_std_eval a F iv m : PShaInst.instance a (sha2_compress F) iv 8 -> wbytes F = word_bytes a -> bytes_ok m -> sha2_hash F iv (digest_bytes a) m = std_eval a m.
Proof. intros Hi HF Hm. unfold std_eval, sha2_hash, PropSha.std_pad. rewrite <- (PShaInst.inst_fips _ _ _ _ Hi m Hm), HF. reflexivity. Qed.
Lemma hmac_ext (H H' : list N -> list N) B k m : (forall x, bytes_ok x -> H x = H' x) -> (forall x, bytes_ok (H' x)) -> bytes_ok k -> bytes_ok m -> (length k <= B)%nat ->
  HMAC H B k m = HMAC H' B k m.
Proof.
  intros E HB Hk Hm L. unfold HMAC, key_block. cbv zeta. assert (X : Nat.leb (length k) B = true) by (apply Nat.leb_le; exact L). rewrite X.
  assert (Z : bytes_ok (k ++ repeat 0 (B - length k))) by (apply Forall_app; split; [exact Hk|]; apply Forall_forall; intros x Hx; apply repeat_spec in Hx; subst; reflexivity).
  rewrite (E (xor_pad 0x36 _ ++ m)) by (apply Forall_app; split; [apply xor_pad_bytes; [reflexivity|exact Z]|exact Hm]).
  apply E. apply Forall_app; split; [apply xor_pad_bytes; [reflexivity|exact Z]|apply HB].
Qed.
Theorem C34_violation_sha256 : forall c l out, hmac_typed c -> locals_ok l -> (32 <= length out)%nat ->
  exists d, hmac_run (sha_impl alg_sha256) c [1] [repeat 97 56] l out = Ret d /\ firstn 32 d <> HMAC SHA256 64 [1] (repeat 97 56).
Proof.
  intros c l out Hc Hl Ho. destruct (C34_hmac_of_library_hash None _ _ _ _ _ _ cl_sha256) as (I & E & R). injection E as <-.
  assert (B1 : bytes_ok [1]) by (repeat constructor). assert (BM := PropSha.bytes97 56).
  eexists. split; [apply R; auto; [cbn; lia|constructor; [apply PropSha.piece97; lia|constructor]|vm_compute; reflexivity]|].
  cbn [concat]. rewrite app_nil_r.
  rewrite (hmac_ext _ (PShaStream.code_hash alg_sha256) 64 [1] (repeat 97 56)); auto; [|intros x Hx; symmetry; exact (PShaInst.inst_hash _ _ _ _ PShaInst.inst_sha256 x Hx)|intros; apply firstn_ok, flat_be_ok|cbn; lia].
  rewrite (hmac_ext SHA256 (std_eval alg_sha256) 64 [1] (repeat 97 56)); auto; [|intros x Hx; exact (sha2_std_eval _ _ _ x PShaInst.inst_sha256 eq_refl Hx)|intros; apply firstn_ok, flat_be_ok|cbn; lia].
  intros C. apply (f_equal (hd 0)) in C. rewrite PropSha.hd_firstn in C by lia.
  assert (A : forall (x : list N) y, length x <> 0%nat -> hd 0 (x ++ y) = hd 0 x) by (intros [|? ?] ? X; [exfalso; apply X; reflexivity|reflexivity]).
  rewrite A in C by (vm_compute; discriminate). revert C. vm_compute. discriminate.
Qed.

(** C38: the sizes can be wrong *)
Theorem C38_sizes_violation : forall garbage, exists r key, ectx_ok (r_ctx r) /\ bytes_ok key /\
  exists sizes, encoder_sizes (sp_case garbage A_SHA256) A_SHA256 r key = Ret sizes /\ sizes <> (32, 64).
Proof.
  intros garbage. exists (mkRaw (o := Some (sha_impl alg_sha256)) 3 77 0 (blank_hmac (sha_impl alg_sha256) (blank_sha alg_sha256))), [1].
  split; [split; [reflexivity|split; reflexivity]|]. split; [repeat constructor|]. eexists. split; [apply (C38_sizes garbage _ _ _ _ _ _ cl_sha256); [split; [reflexivity|split; reflexivity]|repeat constructor]|].
  cbn. discriminate.
Qed.
(** C38: data added before reset() changes the digest *)
Theorem C38_reset_violation : forall garbage r l l_out, ectx_ok (r_ctx r) -> eloc_ok l -> length l_out = 32%nat ->
  exists d d', encoder_run (sp_case garbage A_SHA256) A_SHA256 r [1] [EUpdate [97]; EReset; EUpdate [98]] l l_out = Ret (Some d) /\
    encoder_run (sp_case garbage A_SHA256) A_SHA256 r [1] [EUpdate [98]] l l_out = Ret (Some d') /\ d <> d'.
Proof.
  intros garbage r l l_out Hr Hl Ho. assert (P1 : forall x, x < 256 -> int_piece [x]) by (intros x Hx; split; [repeat constructor; exact Hx|vm_compute; reflexivity]).
  eexists. eexists. split; [apply (C38_digest_library garbage _ _ _ _ _ _ cl_sha256); auto|split; [apply (C38_digest_library garbage _ _ _ _ _ _ cl_sha256); auto|]].
  - repeat constructor.
  - constructor; [apply P1; reflexivity|]. constructor; [exact Logic.I|]. constructor; [apply P1; reflexivity|constructor].
  - vm_compute; reflexivity.
  - repeat constructor.
  - constructor; [apply P1; reflexivity|constructor].
  - vm_compute; reflexivity.
  - cbn [map op_bytes concat app].
    assert (B1 : bytes_ok [1]) by (repeat constructor). change (firstn 64 [1]) with [1].
    assert (X : forall m, bytes_ok m -> HMAC (lib_sha2_hash sha2_32 IV_256 32) 64 [1] m = HMAC (PShaStream.code_hash alg_sha256) 64 [1] m).
    { intros m Hm. apply hmac_ext; auto; [intros x Hx; symmetry; exact (PShaInst.inst_hash _ _ _ _ PShaInst.inst_sha256 x Hx)|intros; apply firstn_ok, flat_be_ok|cbn; lia]. }
    rewrite !X by (repeat constructor). intros C. apply (f_equal (hd 0)) in C. revert C. vm_compute. discriminate.
Qed.

(** ** Non-vacuity: RFC 2202 / RFC 4231 test case 2, computed by the code from uninitialised-looking memory *)
Definition rfc_msg := chars "what do ya want for nothing?".
Example hmac_sha1_kat : pgfe_hmac None A_SHA1 (blank_hmac (sha_impl alg_sha1) (blank_sha alg_sha1)) (blank_locals (sha_impl alg_sha1) (blank_sha alg_sha1))
  (chars "Jefe") rfc_msg (repeat 5 21) = Ret (be_bytes 20 0xeffcdf6ae5eb2fa2d27416d5f184df9c259a7c79 ++ [5]).
Proof. vm_compute. reflexivity. Qed.
Example hmac_md5_kat : pgfe_hmac None A_MD5 (blank_hmac (md5_impl None) blank_md5) (blank_locals (md5_impl None) blank_md5)
  (chars "Jefe") rfc_msg (repeat 5 17) = Ret (be_bytes 16 0x750c783e6ab0b503eaa86e310a5db738 ++ [5]).
Proof. vm_compute. reflexivity. Qed.
Example hmac_sha256_kat : encoder_run (Some (sha_impl alg_sha256)) A_SHA256
    (mkRaw (o := Some (sha_impl alg_sha256)) 9 1 2 (blank_hmac (sha_impl alg_sha256) (blank_sha alg_sha256)))
    (chars "Jefe") [ECstr (chars "what do ya " ++ [0; 7]); EReset; EUpdate (chars "want for nothing?")]
    (blank_locals (sha_impl alg_sha256) (blank_sha alg_sha256)) (repeat 5 32)
  = Ret (Some (be_bytes 32 0x5bdcc146bf60754e6a042426089575c75a003f089d2739839dec58b964ec3843)).
Proof. vm_compute. reflexivity. Qed.
Lemma rfc_pieces : bytes_ok rfc_msg.
Proof. unfold rfc_msg. repeat (apply Forall_cons; [vm_compute; reflexivity|]). apply Forall_nil. Qed.
Example hmac_hyps : hmac_typed (blank_hmac (sha_impl alg_sha1) (blank_sha alg_sha1)) /\ locals_ok (blank_locals (sha_impl alg_sha1) (blank_sha alg_sha1)) /\
  bytes_ok (chars "Jefe") /\ (length (chars "Jefe") <= 64)%nat /\ int_piece rfc_msg /\ with_block 64 64 rfc_msg /\ leaves_room 64 8 rfc_msg.
Proof.
  split; [split; [reflexivity|split; reflexivity]|]. split; [split; reflexivity|].
  split; [repeat (apply Forall_cons; [vm_compute; reflexivity|]); apply Forall_nil|]. split; [vm_compute; lia|].
  split; [split; [apply rfc_pieces|vm_compute; reflexivity]|]. split; [vm_compute; reflexivity|vm_compute; lia].
Qed.
Example hmac_hyps_k : hmac_typed (blank_hmac impl_sha3_256 blank_k) /\ locals_ok (blank_locals impl_sha3_256 blank_k) /\ keccak_piece rfc_msg.
Proof. split; [split; [split; reflexivity|split; reflexivity]|]. split; [split; [reflexivity|split; reflexivity]|]. split; [apply rfc_pieces|vm_compute; discriminate]. Qed.
Example history_example : match hmac_ops (sha_impl alg_sha1) (blank_hmac (sha_impl alg_sha1) (blank_sha alg_sha1))
  [HInit; HUpdate [1; 2; 3]; HKey (repeat 7 100); HUpdate [4]; HDigest (blank_locals (sha_impl alg_sha1) (blank_sha alg_sha1)) (repeat 0 20)] with Ret _ => true | _ => false end = true.
Proof. vm_compute. reflexivity. Qed.

Print Assumptions C34_hmac_of_library_hash.
Print Assumptions C34_hmac_rfc2104.
Print Assumptions C34_tables_complete.
Print Assumptions C34_md5_empty_piece.
Print Assumptions C34_violation_sha256.
Print Assumptions C35_only_first_block_matters.
Print Assumptions C35_truncated_hmac.
Print Assumptions C35_violation.
Print Assumptions C36_set_key_restarts.
Print Assumptions C36_init_is_empty_key.
Print Assumptions C37_dispatch.
Print Assumptions C37_dispatch_library.
Print Assumptions C37_xof_untouched.
Print Assumptions C38_digest.
Print Assumptions C38_digest_library.
Print Assumptions C38_sizes.
Print Assumptions C38_reset_ignored.
Print Assumptions C38_xof_null.
Print Assumptions C38_sizes_violation.
Print Assumptions C38_reset_violation.
