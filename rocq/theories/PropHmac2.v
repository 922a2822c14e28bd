(** C65 (keys that HMAC does not distinguish), C66 (an HMACEncoder yields one tag). *)
From Coq Require Import String.
From Verif Require SFips202 SMd5 PropSha PWords PMd5.
From Verif Require Import Base SHex SFips180 SShaLib MSha MFront MMd5 MKeccak SHash SKeccakFns SHashFns PShort PTyped MHmac SHmac PHmac PropFront PropHmac MHmac2 SHmac2.
Local Open Scope N_scope.

Lemma non_nil {A} (l : list A) : (0 < length l)%nat -> l <> [].
Proof. intros X ->. cbn in X. lia. Qed.

(** ** C65 *)
Lemma arrcpy_nth B k i : (i < B)%nat -> nth i (arrcpy B k) 0 = nth i k 0.
Proof.
  intros Hi. unfold arrcpy. cbv zeta. destruct (Nat.ltb_spec (length k) B) as [X|X].
  - rewrite firstn_all2 by lia. destruct (Nat.lt_ge_cases i (length k)).
    + rewrite app_nth1 by lia. reflexivity.
    + rewrite app_nth2 by lia. rewrite (nth_overflow k) by lia. rewrite nth_repeat. reflexivity.
  - rewrite Nat.sub_diag. cbn [repeat]. rewrite app_nil_r. rewrite <- (firstn_skipn B k) at 2. rewrite app_nth1; [reflexivity|]. rewrite firstn_length. lia.
Qed.
Lemma arrcpy_same B k k' : same_key B k k' <-> arrcpy B k = arrcpy B k'.
Proof.
  split.
  - intros S. apply (nth_ext _ _ 0 0); rewrite !arrcpy_length; [reflexivity|]. intros i Hi. rewrite !arrcpy_nth by exact Hi. apply S. exact Hi.
  - intros E i Hi. rewrite <- (arrcpy_nth B k i Hi), <- (arrcpy_nth B k' i Hi), E. reflexivity.
Qed.
(** setting one key or the other puts a context in the same state *)
Theorem C65_same_context : forall I c k k', same_key (iblock I) k k' -> hmac_set_key I c k = hmac_set_key I c k'.
Proof. intros I c k k' S. unfold hmac_set_key. apply arrcpy_same in S. rewrite S. reflexivity. Qed.
(** so every message has the same tag: one-shot function, and object *)
Theorem C65_same_tag : forall garbage a P M H B D, choice_lib a P M H B D -> forall k k', same_key B k k' ->
  (forall g l data out, pgfe_hmac garbage a g l k data out = pgfe_hmac garbage a g l k' data out) /\
  (forall r cs, encoder_session (sp_case garbage a) a r k cs = encoder_session (sp_case garbage a) a r k' cs).
Proof.
  intros garbage a P M H B D K k k' S.
  destruct (g_impl _ _ _ _ _ _ _ (lib_good garbage _ _ _ _ _ _ K)) as (I & T & E & EB & _). subst B.
  unfold pgfe_hmac, encoder_session, enc_new, enc_set_key. rewrite E. split.
  - intros g l data out. cbn [hmac_case]. unfold hmac_one_shot. destruct (hmac_init I g) as [c| |]; cbn [bind]; [|reflexivity|reflexivity].
    rewrite (C65_same_context I c k k' S). reflexivity.
  - intros r cs. destruct (enc_select (Some I) a r) as [e| |]; cbn [bind]; [|reflexivity|reflexivity]. cbn [on_ctx].
    rewrite (C65_same_context I _ k k' S). reflexivity.
Qed.
(** a key of at most a block and the same key with zeros appended *)
Theorem C65_trailing_zeros : forall B k n, same_key B k (k ++ repeat 0 n).
Proof.
  intros B k n i _. destruct (Nat.lt_ge_cases i (length k)).
  - rewrite app_nth1 by lia. reflexivity.
  - rewrite app_nth2, nth_repeat, nth_overflow by lia. reflexivity.
Qed.
(** RFC 2104 has the same equivalence for keys of at most a block, not for longer ones (see C35) *)
Theorem C65_rfc_same_tag : forall H B k k', same_key B k k' -> (length k <= B)%nat -> (length k' <= B)%nat -> forall m, HMAC H B k m = HMAC H B k' m.
Proof.
  intros H B k k' S L L' m. unfold HMAC. rewrite <- !(arrcpy_block H B) by assumption. apply arrcpy_same in S. rewrite S. reflexivity.
Qed.
(** keys that are not the same have different key blocks *)
Lemma distinct_blocks : forall I c k k' c1 c2, ~ same_key (iblock I) k k' ->
  hmac_set_key I c k = Ret c1 -> hmac_set_key I c k' = Ret c2 -> k_i_pad c1 <> k_i_pad c2 /\ k_o_pad c1 <> k_o_pad c2.
Proof.
  intros I c k k' c1 c2 N E1 E2. unfold hmac_set_key in E1, E2. cbv zeta in E1, E2. inv_bind E1. inv_bind E2. injection E1 as <-. injection E2 as <-.
  cbn [k_i_pad k_o_pad].
  assert (X1 : forall v l l', map (fun b => N.lxor b v) l = map (fun b => N.lxor b v) l' -> l = l').
  { intros v. induction l as [|x l IH]; intros [|y l'] E; try discriminate E; [reflexivity|]. cbn [map] in E. injection E as E E'. f_equal; [|apply IH; exact E'].
    apply (f_equal (fun z => N.lxor z v)) in E. rewrite !N.lxor_assoc, N.lxor_nilpotent, !N.lxor_0_r in E. exact E. }
  split; intros C; apply X1 in C; apply N, arrcpy_same; exact C.
Qed.

(** ** digests leave the length of the buffer alone *)
Lemma squeeze_loop_len : forall fuel c out bl i c' o, squeeze_loop fuel c out bl i = Ret (c', o) -> length o = length out.
Proof.
  induction fuel as [|fuel IH]; intros c out bl i c' o E; cbn [squeeze_loop] in E; (destruct (bl <=? i); [injection E as _ <-; reflexivity|]); [discriminate|].
  inv_bind E. cbv zeta in E. inv_bind E. inv_bind E. apply IH in E. rewrite E. eapply blit_len; eassumption.
Qed.
Definition keeps_length (I : hash_impl) : Prop := forall c out c' o, idigest I c out = Ret (c', o) -> length o = length out.
Lemma again_length I P T H H2 : again_fn I P T H H2 -> keeps_length I.
Proof.
  intros K.
  assert (S : forall a, keeps_length (sha_impl a)).
  { intros a c out c' o E. cbn [idigest sha_impl] in E. unfold sha_digest in E. inv_bind E. cbv zeta in E. apply bind_inv in E. destruct E as (o' & Eb & E). injection E as _ <-.
    eapply blit_len; exact Eb. }
  assert (S3 : forall cap out, keeps_length (sha3_impl cap out)).
  { intros cap ob c out c' o E. cbn [idigest sha3_impl] in E. unfold keccak_squeeze in E. cbv zeta in E. inv_bind E. inv_bind E. eapply squeeze_loop_len; exact E. }
  destruct K; try apply S; try apply S3.
  intros c out c' o E. cbn [idigest md5_impl] in E. unfold md5_digest in E. cbv zeta in E. inv_bind E. inv_bind E. apply bind_inv in E. destruct E as (o' & Eb & E). injection E as _ <-.
  eapply blit_len; exact Eb.
Qed.
Lemma skipn_ok n l : bytes_ok l -> bytes_ok (skipn n l).
Proof. intros H. unfold bytes_ok in *. rewrite <- (firstn_skipn n l) in H. apply Forall_app in H. tauto. Qed.
Lemma again_bytes a m : bytes_ok m -> bytes_ok (second_hash a m).
Proof.
  intros Hm. destruct a; cbn [second_hash]; try exact Hm; try apply flat_le_ok; try apply flat_be_ok; try (apply firstn_ok, flat_be_ok); apply skipn_ok, bytes_of_ok.
Qed.

(** everything needed about a choice *)
Lemma again_good garbage a P M H B D : choice_lib a P M H B D -> exists I T,
  sp_case garbage a = Some I /\ iblock I = B /\ idsz I = D /\ again_fn I P T H (second_hash a) /\
  (forall k m, length k = B -> M m -> T (k ++ m)) /\ (forall k d, length k = B -> length d = D -> T (k ++ d)).
Proof.
  intros K.
  assert (X1 : forall B D b, 8 * N.of_nat (B + D) < 2 ^ b ->
    (forall k m, length k = B -> with_block B b m -> bits_below b (k ++ m)) /\ (forall k d, length k = B -> length d = D -> bits_below b (k ++ d))).
  { intros B' D' b Hb. split; [intros k m Hk Hm; eapply below_block; eauto|intros k d Hk Hd; eapply (below_digest _ _ _ k d Hk Hd); exact Hb]. }
  destruct K.
  - do 2 eexists. split; [reflexivity|]. split; [reflexivity|]. split; [reflexivity|]. split; [exact (ag_md5 garbage)|]. split; intros; exact Logic.I.
  - do 2 eexists. split; [reflexivity|]. split; [reflexivity|]. split; [reflexivity|]. split; [exact ag_sha1|]. apply X1; vm_compute; reflexivity.
  - do 2 eexists. split; [reflexivity|]. split; [reflexivity|]. split; [reflexivity|]. split; [exact ag_sha224|]. apply X1; vm_compute; reflexivity.
  - do 2 eexists. split; [reflexivity|]. split; [reflexivity|]. split; [reflexivity|]. split; [exact ag_sha256|]. apply X1; vm_compute; reflexivity.
  - do 2 eexists. split; [reflexivity|]. split; [reflexivity|]. split; [reflexivity|]. split; [exact ag_sha384|]. apply X1; vm_compute; reflexivity.
  - do 2 eexists. split; [reflexivity|]. split; [reflexivity|]. split; [reflexivity|]. split; [exact ag_sha512|]. apply X1; vm_compute; reflexivity.
  - do 2 eexists. split; [reflexivity|]. split; [reflexivity|]. split; [reflexivity|]. split; [exact ag_sha512_224|]. apply X1; vm_compute; reflexivity.
  - do 2 eexists. split; [reflexivity|]. split; [reflexivity|]. split; [reflexivity|]. split; [exact ag_sha512_256|]. apply X1; vm_compute; reflexivity.
  - do 2 eexists. split; [reflexivity|]. split; [reflexivity|]. split; [reflexivity|]. split; [exact ag_sha3_224|]. split; intros; exact Logic.I.
  - do 2 eexists. split; [reflexivity|]. split; [reflexivity|]. split; [reflexivity|]. split; [exact ag_sha3_256|]. split; intros; exact Logic.I.
  - do 2 eexists. split; [reflexivity|]. split; [reflexivity|]. split; [reflexivity|]. split; [exact ag_sha3_384|]. split; intros; exact Logic.I.
  - do 2 eexists. split; [reflexivity|]. split; [reflexivity|]. split; [reflexivity|]. split; [exact ag_sha3_512|]. split; intros; exact Logic.I.
Qed.

(** two digests in a row *)
Lemma digest_again garbage a P M H B D : choice_lib a P M H B D -> exists I, sp_case garbage a = Some I /\ iblock I = B /\ idsz I = D /\ keeps_typed I /\
  forall c key ps l out l2 out2, typed I (hash_ctx c) -> bytes_ok key -> Forall P ps -> bytes_ok (concat ps) -> M (concat ps) -> locals_ok l -> locals_ok l2 ->
  (D <= length out)%nat -> (D <= length out2)%nat ->
  exists c1 c2 c3 c4, hmac_set_key I c key = Ret c1 /\ hmac_updates I c1 ps = Ret c2 /\
    hmac_digest I l c2 out = Ret (c3, HMAC H B (firstn B key) (concat ps) ++ skipn D out) /\ length (HMAC H B (firstn B key) (concat ps)) = D /\
    hmac_digest I l2 c3 out2 = Ret (c4, HMAC_inner H (second_hash a) B (firstn B key) (concat ps) ++ skipn D out2) /\
    length (HMAC_inner H (second_hash a) B (firstn B key) (concat ps)) = D.
Proof.
  intros K. pose proof (lib_good garbage _ _ _ _ _ _ K) as G. destruct (good_run _ _ _ _ _ _ _ G (M_nil _ _ _ _ _ _ K)) as (I & E & EB & ED & Kp & R).
  exists I. split; [exact E|]. split; [exact EB|]. split; [exact ED|]. split; [exact Kp|].
  intros c key ps l out l2 out2 Hc Hk Hps Hbs HM Hl Hl2 Ho Ho2.
  destruct (R c key ps l out Hc Hk Hps HM Hl Ho) as (c1 & c2 & c3 & E1 & E2 & E3 & L3).
  exists c1, c2, c3. destruct (again_good garbage _ _ _ _ _ _ K) as (I' & T & E' & _ & _ & A & TM & TD). rewrite E in E'. injection E' as <-.
  set (H2 := second_hash a) in *. set (kb := arrcpy B key) in *.
  pose proof (hash_streams _ _ _ _ (again_hash _ _ _ _ _ A)) as S.
  destruct (g_sizes _ _ _ _ _ _ _ G) as (D0 & B0 & B1 & D1).
  assert (Lkb : length kb = B) by apply arrcpy_length. assert (Bkb : bytes_ok kb) by (apply arrcpy_bytes; exact Hk).
  assert (Ekb : key_block H B (firstn B key) = kb) by (symmetry; unfold kb; rewrite arrcpy_firstn; apply arrcpy_block; apply firstn_short).
  assert (PP : forall v, v < 256 -> P (xor_pad v kb)).
  { intros v Hv. apply (g_piece _ _ _ _ _ _ _ G); [apply xor_pad_bytes; assumption|apply non_nil; rewrite xor_pad_length; lia|rewrite xor_pad_length; lia]. }
  (* the context after set_key and updates *)
  assert (E1' := E1). assert (E2' := E2).
  unfold hmac_set_key in E1. cbv zeta in E1. rewrite EB in E1. fold kb in E1. change (map (fun b => N.lxor b I_UNIT) kb) with (xor_pad 0x36 kb) in E1.
  change (map (fun b => N.lxor b O_UNIT) kb) with (xor_pad 0x5c kb) in E1. 
  destruct (iupdate I (iinit I (hash_ctx c)) (xor_pad 0x36 kb)) as [h1| |] eqn:U1; cbn [bind] in E1; try discriminate E1. injection E1 as <-.
  rewrite hmac_updates_eq in E2. destruct (updates I h1 ps) as [h2| |] eqn:U2; cbn [bind] in E2; try discriminate E2. injection E2 as <-.
  set (m1 := xor_pad 0x36 kb ++ concat ps) in *.
  destruct (C31_second_digest _ _ _ _ _ A (hash_ctx c) (xor_pad 0x36 kb :: ps) (l_mid l) (l_mid l2) Hc) as (h & h3 & h4 & V & V1 & V2).
  { constructor; [apply PP; reflexivity|exact Hps]. }
  { cbn [concat]. apply TM; [rewrite xor_pad_length; exact Lkb|exact HM]. }
  { destruct Hl as [X _]. lia. }
  { destruct Hl2 as [X _]. lia. }
  cbn [concat] in V1, V2. fold m1 in V1, V2. cbn [updates] in V. rewrite U1 in V. cbn [bind] in V. rewrite U2 in V. injection V as <-.
  assert (LH : length (H2 m1) = D).
  { pose proof (again_length _ _ _ _ _ A _ _ _ _ V2) as X. rewrite app_length, skipn_length in X. destruct Hl2 as [Y _]. lia. }
  assert (E3' := E3). unfold hmac_digest in E3'. cbn [hash_ctx k_i_pad k_o_pad] in E3'. rewrite V1 in E3'. cbn [bind] in E3'.
  destruct (encode_multiple _ _ _ _) as [o1| |] in E3'; cbn [bind] in E3'; try discriminate E3'. injection E3' as <- _.
  destruct Hl2 as [Lm2 Hl2].
  destruct (S (l_ctx l2) [xor_pad 0x5c kb; H2 m1] out2 Hl2) as (h5 & h6 & U & Dg & _ & LL).
  { constructor; [apply PP; reflexivity|]. constructor; [|constructor]. apply (g_piece _ _ _ _ _ _ _ G); [|apply non_nil; lia|lia].
    apply again_bytes. apply Forall_app. split; [apply xor_pad_bytes; [reflexivity|exact Bkb]|exact Hbs]. }
  { cbn [concat]. rewrite app_nil_r. apply TD; [rewrite xor_pad_length; exact Lkb|exact LH]. }
  { lia. }
  cbn [concat] in Dg, LL. rewrite app_nil_r in Dg, LL. cbn [updates] in U.
  destruct (iupdate I (iinit I (l_ctx l2)) (xor_pad 0x5c kb)) as [h7| |] eqn:U7; cbn [bind] in U; try discriminate U.
  destruct (iupdate I h7 (H2 m1)) as [h8| |] eqn:U8; cbn [bind] in U; try discriminate U. injection U as ->.
  eexists. split; [exact E1'|]. split; [exact E2'|]. split; [exact E3|]. split; [exact L3|].
  unfold HMAC_inner. rewrite Ekb. fold m1. split; [|rewrite LL; exact ED].
  unfold hmac_digest. cbn [hash_ctx k_i_pad k_o_pad]. rewrite V2. cbn [bind].
  rewrite firstn_app, ED, LH, Nat.sub_diag, firstn_O, app_nil_r, firstn_all2 by lia.
  unfold encode_multiple. cbn [multi_loop]. rewrite U7. cbn [bind]. rewrite U8. cbn [bind]. rewrite Dg, ED. cbn [bind]. reflexivity.
Qed.

(** ** C66 *)
Lemma session_data I P ops : Forall (op_ok P) ops -> forall (e : encoder (Some I)) cs,
  enc_calls (Some I) e (map data_call ops ++ cs) =
  (c <- hmac_updates I (e_ctx e) (map op_bytes (filter is_data ops)) ;; enc_calls (Some I) (mkEnc (o := Some I) (e_digsz e) (e_blocksz e) c (e_output e)) cs).
Proof.
  induction 1 as [|o ops Ho _ IH]; intros e cs.
  - destruct e. reflexivity.
  - destruct o as [p|m|]; cbn [map data_call app enc_calls filter is_data op_bytes hmac_updates].
    + unfold enc_update. cbn [on_ctx]. destruct (hmac_update I (e_ctx e) p) as [c| |]; cbn [bind]; [|reflexivity|reflexivity]. rewrite IH. reflexivity.
    + unfold enc_update_cstr. destruct Ho as [Hz _]. pose proof (upto_nul_lt m Hz) as L. destruct (Nat.eqb_spec (length (upto_nul m)) (length m)) as [X|_]; [lia|].
      unfold enc_update. cbn [on_ctx]. destruct (hmac_update I (e_ctx e) (upto_nul m)) as [c| |]; cbn [bind]; [|reflexivity|reflexivity]. rewrite IH. reflexivity.
    + unfold enc_reset. apply IH.
Qed.
Lemma firstn_D {A} D (l : list A) : length l = D -> firstn D l = l.
Proof. intros <-. apply firstn_all. Qed.

(** a second get_digest: not the tag again, but HMAC with the inner hash replaced by what the inner
    context yields the second time *)
Theorem C66_second_digest : forall garbage a P M H B D, choice_lib a P M H B D ->
  forall r key ops l l_out l' l_out', ectx_ok (r_ctx r) -> eloc_ok l -> eloc_ok l' -> length l_out = D -> length l_out' = D ->
  bytes_ok key -> Forall (op_ok P) ops -> bytes_ok (concat (map op_bytes ops)) -> M (concat (map op_bytes ops)) ->
  encoder_session (sp_case garbage a) a r key (map data_call ops ++ [CDigest l l_out; CReset; CDigest l' l_out']) =
  Ret [Some (HMAC H B (firstn B key) (concat (map op_bytes ops)));
       Some (HMAC_inner H (second_hash a) B (firstn B key) (concat (map op_bytes ops)))].
Proof.
  intros garbage a P M H B D K. destruct (digest_again garbage _ _ _ _ _ _ K) as (I & E & EB & ED & Kp & R). rewrite E. clear E.
  intros r key ops l l_out l' l_out' Hr Hl Hl' Lo Lo' Hk Hops Hb HM. cbn [ectx_ok eloc_ok ectx eloc] in *.
  unfold encoder_session.
  assert (X0 : exists c, hmac_init I (r_ctx r) = Ret c).
  { rewrite C36_init_is_empty_key. destruct (R (r_ctx r) [] [] l l_out l' l_out') as (c1 & _ & _ & _ & E1 & _); auto; try lia; try constructor.
    - destruct Hr as [X _]; exact X.
    - apply (M_nil _ _ _ _ _ _ K).
    - exists c1; exact E1. }
  destruct (enc_new_some I a r key Kp Hr X0) as (c & Hc & EN). rewrite EN. clear EN. destruct Hc as [Hc _].
  destruct (R c key (map op_bytes (filter is_data ops)) l l_out l' l_out' Hc Hk (data_ok P ops Hops)) as (c1 & c2 & c3 & c4 & E1 & E2 & E3 & L3 & E4 & L4); auto; try lia.
  - rewrite data_concat. exact Hb.
  - rewrite data_concat. exact HM.
  - rewrite E1. cbn [bind]. rewrite (session_data I P ops Hops). cbn [e_ctx]. rewrite E2. cbn [bind]. cbn [enc_calls enc_digest e_ctx].
    rewrite ED, !firstn_D by assumption. rewrite E3. cbn [bind]. unfold enc_reset. cbn [enc_calls enc_digest e_ctx]. rewrite E4. cbn [bind].
    rewrite !skipn_all2, !app_nil_r by lia. rewrite !data_concat. reflexivity.
Qed.

(** for each of the twelve functions this differs from the tag *)
Definition tag_twice (I : hash_impl) (g : ictx I) (key : list N) (p : list N) : outcome (N * N) :=
  c <- hmac_set_key I (blank_hmac I g) key ;; c <- hmac_update I c p ;;
  '(c, d) <- hmac_digest I (blank_locals I g) c (repeat 0 (idsz I)) ;;
  '(c, d') <- hmac_digest I (blank_locals I g) c (repeat 0 (idsz I)) ;; Ret (hd 0 d, hd 0 d').
Lemma twice_differs garbage a P M H B D I (g : ictx I) : choice_lib a P M H B D -> sp_case garbage a = Some I -> typed I g ->
  P [97] -> M [97] ->
  match tag_twice I g [] [97] with Ret (x, y) => negb (x =? y) | _ => false end = true ->
  HMAC_inner H (second_hash a) B [] [97] <> HMAC H B [] [97].
Proof.
  intros K E Hg HP HM Hv C. destruct (digest_again garbage _ _ _ _ _ _ K) as (I' & E' & EB & ED & Kp & R). rewrite E in E'. injection E' as <-.
  destruct (R (blank_hmac I g) [] [[97]] (blank_locals I g) (repeat 0 (idsz I)) (blank_locals I g) (repeat 0 (idsz I))) as (c1 & c2 & c3 & c4 & E1 & E2 & E3 & L3 & E4 & L4);
    auto; try (rewrite repeat_length; lia); try (split; [apply repeat_length|exact Hg]); try (repeat constructor; fail).
  cbn [hmac_updates] in E2. unfold tag_twice in Hv. rewrite E1 in Hv. cbn [bind] in Hv.
  destruct (hmac_update I c1 [97]) as [c| |]; cbn [bind] in E2; try discriminate E2. injection E2 as ->. cbn [bind] in Hv.
  rewrite E3 in Hv. cbn [bind] in Hv. rewrite E4 in Hv. cbn [bind] in Hv.
  cbn [concat app] in Hv, L3, L4. rewrite firstn_nil in Hv, L3, L4. subst D.
  rewrite !skipn_all2, !app_nil_r in Hv by (rewrite repeat_length; lia). rewrite C, N.eqb_refl in Hv. discriminate Hv.
Qed.
Theorem C66_not_idempotent_refuted : forall a P M H B D, choice_lib a P M H B D ->
  exists key m, bytes_ok key /\ (length key <= B)%nat /\ P m /\ M m /\ HMAC_inner H (second_hash a) B key m <> HMAC H B key m.
Proof.
  intros a P M H B D K. exists [], [97]. split; [constructor|]. split; [cbn; lia|].
  assert (IP : int_piece [97]) by (split; [repeat constructor|vm_compute; reflexivity]).
  assert (KP : keccak_piece [97]) by (split; [repeat constructor|vm_compute; first [reflexivity|discriminate]]).
  assert (MP : md5_piece [97]) by (split; [repeat constructor|discriminate]).
  pose proof K as K'. destruct K.
  - split; [exact MP|]. split; [exact Logic.I|]. apply (twice_differs None _ _ _ _ _ _ (md5_impl None) blank_md5 K' eq_refl); [reflexivity|exact MP|exact Logic.I|vm_compute; reflexivity].
  - split; [exact IP|]. split; [vm_compute; reflexivity|]. apply (twice_differs None _ _ _ _ _ _ (sha_impl alg_sha1) (blank_sha alg_sha1) K' eq_refl); [reflexivity|exact IP|vm_compute; reflexivity|vm_compute; reflexivity].
  - split; [exact IP|]. split; [vm_compute; reflexivity|]. apply (twice_differs None _ _ _ _ _ _ (sha_impl alg_sha224) (blank_sha alg_sha224) K' eq_refl); [reflexivity|exact IP|vm_compute; reflexivity|vm_compute; reflexivity].
  - split; [exact IP|]. split; [vm_compute; reflexivity|]. apply (twice_differs None _ _ _ _ _ _ (sha_impl alg_sha256) (blank_sha alg_sha256) K' eq_refl); [reflexivity|exact IP|vm_compute; reflexivity|vm_compute; reflexivity].
  - split; [exact IP|]. split; [vm_compute; reflexivity|]. apply (twice_differs None _ _ _ _ _ _ (sha_impl alg_sha384) (blank_sha alg_sha384) K' eq_refl); [reflexivity|exact IP|vm_compute; reflexivity|vm_compute; reflexivity].
  - split; [exact IP|]. split; [vm_compute; reflexivity|]. apply (twice_differs None _ _ _ _ _ _ (sha_impl alg_sha512) (blank_sha alg_sha512) K' eq_refl); [reflexivity|exact IP|vm_compute; reflexivity|vm_compute; reflexivity].
  - split; [exact IP|]. split; [vm_compute; reflexivity|]. apply (twice_differs None _ _ _ _ _ _ (sha_impl alg_sha512_224) (blank_sha alg_sha512_224) K' eq_refl); [reflexivity|exact IP|vm_compute; reflexivity|vm_compute; reflexivity].
  - split; [exact IP|]. split; [vm_compute; reflexivity|]. apply (twice_differs None _ _ _ _ _ _ (sha_impl alg_sha512_256) (blank_sha alg_sha512_256) K' eq_refl); [reflexivity|exact IP|vm_compute; reflexivity|vm_compute; reflexivity].
  - split; [exact KP|]. split; [exact Logic.I|]. apply (twice_differs None _ _ _ _ _ _ impl_sha3_224 blank_k K' eq_refl); [split; reflexivity|exact KP|exact Logic.I|vm_compute; reflexivity].
  - split; [exact KP|]. split; [exact Logic.I|]. apply (twice_differs None _ _ _ _ _ _ impl_sha3_256 blank_k K' eq_refl); [split; reflexivity|exact KP|exact Logic.I|vm_compute; reflexivity].
  - split; [exact KP|]. split; [exact Logic.I|]. apply (twice_differs None _ _ _ _ _ _ impl_sha3_384 blank_k K' eq_refl); [split; reflexivity|exact KP|exact Logic.I|vm_compute; reflexivity].
  - split; [exact KP|]. split; [exact Logic.I|]. apply (twice_differs None _ _ _ _ _ _ impl_sha3_512 blank_k K' eq_refl); [split; reflexivity|exact KP|exact Logic.I|vm_compute; reflexivity].
Qed.

(** with SHA-3 an object ignores all data after its first digest: any calls, any number of further digests *)
Lemma squeeze_sets : forall fuel c out bl i c' o, squeezing c = true -> squeeze_loop fuel c out bl i = Ret (c', o) -> squeezing c' = true.
Proof.
  induction fuel as [|fuel IH]; intros c out bl i c' o Hs E; cbn [squeeze_loop] in E; (destruct (bl <=? i); [injection E as <- _; exact Hs|]); [discriminate|].
  inv_bind E. cbv zeta in E. inv_bind E. inv_bind E. eapply IH; [|exact E]. cbn [squeezing].
  destruct (squeezable c =? 0) in X; [|injection X as <-; exact Hs]. cbv zeta in X. inv_bind X. injection X as <-. exact Hs.
Qed.
Lemma padding_sets c c' : k_padding c = Ret c' -> squeezing c' = true.
Proof. intros E. unfold k_padding in E. inv_bind E. inv_bind E. inv_bind E. inv_bind E. injection E as <-. reflexivity. Qed.
Lemma keccak_squeeze_sets c out c' o : keccak_squeeze c out = Ret (c', o) -> squeezing c' = true.
Proof.
  intros E. unfold keccak_squeeze in E. cbv zeta in E. inv_bind E. inv_bind E. eapply squeeze_sets; [|exact E].
  destruct (squeezing a) eqn:S; [injection X0 as <-; exact S|eapply padding_sets; exact X0].
Qed.
Lemma calls_ignored cap out cs : Forall call_ok cs -> forall e : encoder (Some (sha3_impl cap out)), squeezing (hash_ctx (e_ctx e : hmac_ctx (sha3_impl cap out))) = true ->
  enc_calls _ e cs = enc_calls _ e (filter is_digest cs).
Proof.
  set (J := sha3_impl cap out).
  assert (U : forall c : hmac_ctx J, squeezing (hash_ctx c) = true -> forall p, hmac_update J c p = Ret c).
  { intros [h ip op] Hs p. cbn [hash_ctx] in Hs. unfold hmac_update. cbn [hash_ctx k_i_pad k_o_pad]. cbn [iupdate J sha3_impl]. unfold keccak_update, keccak_absorb. rewrite Hs, orb_true_r. reflexivity. }
  assert (V : forall e : encoder (Some J), squeezing (hash_ctx (e_ctx e : hmac_ctx J)) = true -> forall p, enc_update (Some J) e p = Ret e).
  { intros [a b c d] Hs p. unfold enc_update. cbn [on_ctx e_ctx e_digsz e_blocksz e_output]. cbn [e_ctx] in Hs. rewrite (U c Hs). reflexivity. }
  induction 1 as [|x cs Hx _ IH]; intros e He; [reflexivity|]. destruct x as [p|m| |l lo]; cbn [filter is_digest enc_calls].
  - rewrite V by exact He. cbn [bind]. apply IH. exact He.
  - unfold enc_update_cstr. pose proof (upto_nul_lt m Hx) as L. destruct (Nat.eqb_spec (length (upto_nul m)) (length m)) as [X|_]; [lia|].
    rewrite V by exact He. cbn [bind]. apply IH. exact He.
  - unfold enc_reset. apply IH. exact He.
  - destruct (enc_digest (Some J) lo l e) as [[e' d]| |] eqn:Ed; cbn [bind]; [|reflexivity|reflexivity]. rewrite IH; [reflexivity|].
    cbn [enc_digest] in Ed. inv_bind Ed. destruct a as [c d']. injection Ed as <- _. cbn [e_ctx]. unfold hmac_digest in X. inv_bind X. destruct a as [h mid]. inv_bind X. injection X as <- _.
    cbn [hash_ctx]. eapply keccak_squeeze_sets. exact X0.
Qed.
Theorem C66_sha3_ignores_later_data_refuted : forall garbage a, In a [A_SHA3_224; A_SHA3_256; A_SHA3_384; A_SHA3_512] ->
  forall (e : encoder (sp_case garbage a)) l l_out e' d, enc_digest _ l_out l e = Ret (e', d) ->
  forall cs, Forall call_ok cs -> enc_calls _ e' cs = enc_calls _ e' (filter is_digest cs).
Proof.
  intros garbage a Ha. repeat (destruct Ha as [<-|Ha]; [cbn [sp_case]; intros e l lo e' d E cs Hcs; apply calls_ignored; [exact Hcs|];
    cbn [enc_digest] in E; inv_bind E; destruct a as [c d']; injection E as <- _; cbn [e_ctx]; unfold hmac_digest in X; inv_bind X; destruct a as [h mid]; inv_bind X; injection X as <- _;
    cbn [hash_ctx]; eapply keccak_squeeze_sets; exact X0|]). destruct Ha.
Qed.

(** with SHA-256, data added after a digest is authenticated neither on its own nor together with the earlier data *)
Definition sha256_object : raw_object (Some (sha_impl alg_sha256)) := mkRaw (o := Some (sha_impl alg_sha256)) 9 1 2 (blank_hmac (sha_impl alg_sha256) (blank_sha alg_sha256)).
Definition sha256_session (cs : list (enc_call (Some (sha_impl alg_sha256)))) := encoder_session (Some (sha_impl alg_sha256)) A_SHA256 sha256_object [1] cs.
Definition sha256_digest : enc_call (Some (sha_impl alg_sha256)) := CDigest (o := Some (sha_impl alg_sha256)) (blank_locals (sha_impl alg_sha256) (blank_sha alg_sha256)) (repeat 5 32).
Theorem C66_data_after_digest_refuted : exists d1 d2 db dab,
  sha256_session [CUpdate [97]; sha256_digest; CReset; CUpdate [98]; sha256_digest] = Ret [d1; d2] /\
  sha256_session [CUpdate [98]; sha256_digest] = Ret [db] /\
  sha256_session [CUpdate [97]; CUpdate [98]; sha256_digest] = Ret [dab] /\ d2 <> db /\ d2 <> dab.
Proof. do 4 eexists. split; [vm_compute; reflexivity|]. split; [vm_compute; reflexivity|]. split; [vm_compute; reflexivity|]. split; discriminate. Qed.

Example C66_nonvacuous : ectx_ok (r_ctx sha256_object) /\ eloc_ok (o := Some (sha_impl alg_sha256)) (blank_locals (sha_impl alg_sha256) (blank_sha alg_sha256)) /\
  Forall (op_ok int_piece) [EUpdate [97]; EReset; ECstr [98; 0]] /\ with_block 64 64 (concat (map op_bytes [EUpdate [97]; EReset; ECstr [98; 0]])).
Proof.
  split; [split; [reflexivity|split; reflexivity]|]. split; [split; reflexivity|]. split; [|vm_compute; reflexivity].
  repeat constructor; try (cbn; auto; fail); vm_compute; reflexivity.
Qed.
Example C65_nonvacuous : same_key 64 [1; 2] [1; 2; 0; 0] /\ same_key 64 (repeat 3 64 ++ [1]) (repeat 3 64 ++ [2; 5]) /\ ~ same_key 64 [1] [0; 1].
Proof.
  split; [apply (C65_trailing_zeros 64 [1; 2] 2)|]. split; [|intros S; specialize (S 0%nat ltac:(lia)); discriminate S].
  apply arrcpy_same. reflexivity.
Qed.

(** keys given as strings *)
Theorem C66_string_keys : forall o a r key tail,
  enc_new_string o a r key = enc_new o a r key /\
  (Forall (fun b => b <> 0) key -> enc_new_cstr o a r (key ++ 0 :: tail) = enc_new o a r key).
Proof.
  intros o a r key tail. split; [reflexivity|]. intros Hk. unfold enc_new_cstr.
  assert (E : upto_nul (key ++ 0 :: tail) = key).
  { clear -Hk. induction Hk as [|x k Hx _ IH]; [reflexivity|]. cbn [app upto_nul]. destruct (N.eqb_spec x 0); [contradiction|]. rewrite IH. reflexivity. }
  rewrite E. destruct (Nat.eqb_spec (length key) (length (key ++ 0 :: tail))) as [X|_]; [rewrite app_length in X; cbn [length] in X; lia|]. reflexivity.
Qed.
Print Assumptions C65_same_context.
Print Assumptions C65_same_tag.
Print Assumptions C65_trailing_zeros.
Print Assumptions C65_rfc_same_tag.
Print Assumptions C66_second_digest.
Print Assumptions C66_not_idempotent_refuted.
Print Assumptions C66_sha3_ignores_later_data_refuted.
Print Assumptions C66_data_after_digest_refuted.
Print Assumptions C66_string_keys.
