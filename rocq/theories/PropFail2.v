(** C78: get_digest calls that throw. *)
From Coq Require Import String.
From Verif Require SFips202 SMd5 PropKeccak.
From Verif Require Import Base SHex SFips180 SShaLib MSha MFront MMd5 MKeccak MHmac SHash SKeccakFns SHashFns PShort PTyped MHashEnc SHashEnc PHashEnc PHashEnc2 PropHashEnc MLife SLife PropPoly PropLife.
From Verif Require Import SHmac PHmac PropHmac MHmac2 SHmac2 PropHmac2 MFail2 SFail2.
Local Open Scope N_scope.

(** ** the objects of the two runs are the same but for the member [out], which no call reads *)
Definition but_out (x y : option henc) : Prop :=
  match x, y with
  | Some e, Some f => h_alg e = h_alg f /\ h_ctx e = h_ctx f /\ h_digsz e = h_digsz f /\ h_blocksz e = h_blocksz f
  | None, None => True
  | _, _ => False
  end.
Definition alike (s t : he_state) : Prop := s_heap s = s_heap t /\ Forall2 but_out (s_objs s) (s_objs t).
Lemma but_out_refl x : but_out x x. Proof. destruct x; cbn; auto. Qed.
Lemma F2_nth {A B} (R : A -> B -> Prop) l m i : Forall2 R l m -> match nth_error l i, nth_error m i with Some x, Some y => R x y | None, None => True | _, _ => False end.
Proof. intros F. revert i. induction F; intros [|i]; cbn; auto. apply IHF. Qed.
Lemma F2_put l m i x y : Forall2 but_out l m -> but_out x y -> Forall2 but_out (put l i x) (put m i y).
Proof. intros F R. unfold put. revert i. induction F as [|a b l m Ra F IH]; intros [|i]; cbn; try (constructor; auto; fail). constructor; [exact Ra|apply IH]. Qed.
Lemma alike_obj s t i : alike s t -> but_out (obj_of s i) (obj_of t i).
Proof. intros (_ & F). pose proof (F2_nth _ _ _ i F) as X. unfold obj_of. destruct (nth_error (s_objs s) i) as [[]|], (nth_error (s_objs t) i) as [[]|]; auto; try contradiction. Qed.
Lemma F2_keep l m i x : Forall2 but_out l m -> match nth_error l i with Some y => but_out y x | None => False end -> Forall2 but_out l (put m i x).
Proof.
  intros F. unfold put. revert i. induction F as [|a b l m Ra F IH]; intros [|i] H; cbn in *; try contradiction.
  - constructor; assumption.
  - constructor; [exact Ra|apply IH, H].
Qed.
Definition answers_alike (s t s' t' : he_state) : Prop := exists ds, s_res s' = ds ++ s_res s /\ s_res t' = ds ++ s_res t.
Lemma step_alike garbage s t o : alike s t ->
  match he_step garbage s o, he_step garbage t o with
  | Ret s', Ret t' => alike s' t' /\ answers_alike s t s' t'
  | UB w, UB w' => w = w' | Hang, Hang => True | _, _ => False
  end.
Proof.
  intros A. pose proof A as (Eh & F).
  assert (SAME : alike s t /\ answers_alike s t s t) by (split; [exact A|exists []; auto]).
  destruct o as [a r al|i al|i d|i m|i bl junk|i]; cbn [he_step]; try (pose proof (alike_obj _ _ i A) as O; destruct (obj_of s i) as [e|], (obj_of t i) as [f|]; cbn [but_out] in O; try contradiction; try exact SAME).
  - rewrite <- Eh. destruct (he_new (s_heap s) r a al) as [[[h e] ok]| |]; cbn [bind]; auto. split; [|exists []; auto]. split; [reflexivity|]. cbn [s_objs]. apply Forall2_app; [exact F|]. constructor; [apply but_out_refl|constructor].
  - destruct e as [a1 c1 z1 b1 o1], f as [a2 c2 z2 b2 o2]. cbn [h_alg h_ctx h_digsz h_blocksz] in O. destruct O as (<- & <- & <- & <-). unfold he_reset, destroy_context. cbn [h_ctx h_alg]. rewrite <- Eh.
    destruct (match c1 with Some p => delete (s_heap s) p a1 | None => Ret (s_heap s) end); cbn [bind]; auto. unfold load_algorithm. destruct al as [g|]; cbn [h_alg h_out]; (split; [|exists []; auto]); (split; [reflexivity|]); cbn [s_objs]; apply F2_put; cbn; auto.
  - destruct e as [a1 c1 z1 b1 o1], f as [a2 c2 z2 b2 o2]. cbn [h_alg h_ctx h_digsz h_blocksz] in O. destruct O as (<- & <- & <- & <-). unfold he_feed, he_load. cbn [h_ctx h_alg]. rewrite <- Eh. destruct c1; cbn [bind]; auto.
    destruct (load _ _ _); cbn [bind]; auto. destruct (he_update _ _ _ _); cbn [bind]; auto. split; [|exists []; auto]. split; [reflexivity|exact F].
  - destruct e as [a1 c1 z1 b1 o1], f as [a2 c2 z2 b2 o2]. cbn [h_alg h_ctx h_digsz h_blocksz] in O. destruct O as (<- & <- & <- & <-). unfold he_feed_cstr. destruct (Nat.eqb _ _); cbn [bind]; auto. unfold he_feed, he_load. cbn [h_ctx h_alg]. rewrite <- Eh. destruct c1; cbn [bind]; auto.
    destruct (load _ _ _); cbn [bind]; auto. destruct (he_update _ _ _ _); cbn [bind]; auto. split; [|exists []; auto]. split; [reflexivity|exact F].
  - destruct e as [a1 c1 z1 b1 o1], f as [a2 c2 z2 b2 o2]. cbn [h_alg h_ctx h_digsz h_blocksz] in O. destruct O as (<- & <- & <- & <-). unfold get_digest, he_load. cbn [h_ctx h_alg h_digsz h_blocksz]. rewrite <- Eh. destruct c1; cbn [bind]; auto.
    destruct (load _ _ _); cbn [bind]; auto. destruct (he_digest _ _ _ _ _) as [[c q]| |]; cbn [bind]; auto. split; [|exists [q]; auto]. split; [reflexivity|]. cbn [s_objs]. apply F2_put; cbn; auto.
  - destruct e as [a1 c1 z1 b1 o1], f as [a2 c2 z2 b2 o2]. cbn [h_alg h_ctx h_digsz h_blocksz] in O. destruct O as (<- & <- & <- & <-). unfold he_delete, destroy_context. cbn [h_ctx h_alg]. rewrite <- Eh.
    destruct (match c1 with Some p => delete (s_heap s) p a1 | None => Ret (s_heap s) end); cbn [bind]; auto. split; [|exists []; auto]. split; [reflexivity|]. cbn [s_objs]. apply F2_put; cbn; auto.
Qed.
Lemma throw_alike garbage s t i bl junk t' : alike s t -> he_step garbage t (OpDigest i bl junk) = Ret t' ->
  exists s', he_step garbage s (OpDigest i bl junk) = Ret s' /\ alike (mkHS (s_heap s') (s_objs s) (s_res s)) t'.
Proof.
  intros A E. pose proof (step_alike garbage s t (OpDigest i bl junk) A) as X. rewrite E in X. destruct (he_step garbage s (OpDigest i bl junk)) as [s'| |]; try contradiction. exists s'. split; [reflexivity|].
  destruct X as [[Eh _] _]. split; [exact Eh|]. cbn [s_objs]. destruct A as [Eh0 F]. pose proof (F2_nth _ _ _ i F) as N'. cbn [he_step] in E. unfold obj_of in E. destruct (nth_error (s_objs t) i) as [[f|]|] eqn:En; try (injection E as <-; exact F).
  unfold get_digest in E. destruct (he_load _ _) as [[p c]| |]; cbn [bind] in E; try discriminate. destruct (he_digest _ _ _ _ _) as [[c1 q]| |]; cbn [bind] in E; try discriminate. injection E as <-. cbn [s_objs].
  apply F2_keep; [exact F|]. destruct (nth_error (s_objs s) i) as [[e|]|]; try contradiction. cbn in *. exact N'.
Qed.
Lemma life_he garbage s op s' : life_step garbage s op = Ret s' -> match op with LCall o => he_step garbage (l_he s) o = Ret (l_he s') | LRead _ => l_he s' = l_he s end.
Proof.
  intros E. pose proof (C75_whole_program garbage) as _. destruct op as [o|p]; cbn [life_step] in E.
  - destruct (he_step garbage (l_he s) o) as [h| |]; [|discriminate|discriminate]. cbn [bind] in E.
    destruct o; try (injection E as <-; reflexivity).
    + destruct (obj_of (l_he s) i), (s_res h); try (injection E as <-; reflexivity). destruct (sd_free _ _); [|discriminate|discriminate]. injection E as <-; reflexivity.
    + destruct (obj_of (l_he s) i); [|injection E as <-; reflexivity]. destruct (sd_free _ _); [|discriminate|discriminate]. injection E as <-; reflexivity.
  - destruct (nth_error (l_sd s) p) as [[d|]|]; [|discriminate|]; injection E as <-; reflexivity.
Qed.
Lemma risky_alike garbage ops : forall s t s', alike (l_he s) t -> risky_run garbage s ops = Ret s' -> exists t', he_run garbage t (attempts ops) = Ret t' /\ alike (l_he s') t'.
Proof.
  induction ops as [|[[o|p]|i bl junk] ops IH]; intros s t s' A E; cbn [risky_run attempts he_run] in E |- *.
  - injection E as <-. eauto.
  - cbn [risky_step] in E. destruct (life_step garbage s (LCall o)) as [s1| |] eqn:E1; cbn [bind] in E; try discriminate. apply life_he in E1.
    pose proof (step_alike garbage _ _ o A) as X. rewrite E1 in X. destruct (he_step garbage t o) as [t1| |]; try contradiction. cbn [bind]. apply (IH s1 t1 s'); [apply X|exact E].
  - cbn [risky_step] in E. destruct (life_step garbage s (LRead p)) as [s1| |] eqn:E1; cbn [bind] in E; try discriminate. apply life_he in E1. apply (IH s1 t s'); [rewrite E1; exact A|exact E].
  - cbn [risky_step] in E. destruct (he_step garbage (l_he s) (OpDigest i bl junk)) as [h| |] eqn:E1; cbn [bind] in E; try discriminate.
    pose proof (step_alike garbage _ _ (OpDigest i bl junk) A) as X. rewrite E1 in X. destruct (he_step garbage t (OpDigest i bl junk)) as [t1| |] eqn:E2; try contradiction. cbn [bind].
    destruct (throw_alike _ _ _ _ _ _ _ A E2) as (s2 & E3 & A3). rewrite E1 in E3. injection E3 as <-. eapply IH; [|exact E]. exact A3.
Qed.
Lemma alike_refl s : alike s s. Proof. split; [reflexivity|]. induction (s_objs s); constructor; [apply but_out_refl|assumption]. Qed.

(** C78: a get_digest call that throws counts like one whose result is ignored. Whatever get_digest calls threw before, on an object that was constructed or
    reset, then fed, get_digest answers with the digest of what was fed (C53: within the array, or it leaves it). *)
Theorem C78_other_digests_right : forall garbage ops s i a ps bl junk,
  Forall op_memory_ok (attempts ops) -> risky_run garbage life_start ops = Ret s ->
  nth_error (spec_run (attempts ops)) i = Some (Feeding a ps) -> Forall (piece_ok a) ps -> message_ok a (concat ps) ->
  message_std a (concat ps) -> clean_bits a bl ->
  exists h, he_step garbage (l_he s) (OpDigest i bl junk) = Ret h /\ s_res h = std_digest a (N.to_nat (bl / 8)) (concat ps) :: s_res (l_he s).
Proof.
  intros garbage ops s i a ps bl junk M E G HP HT HS HC. destruct (risky_alike garbage ops life_start he_start s (alike_refl _) E) as (t & Et & A).
  destruct (C53_clean garbage (attempts ops) t i a ps bl junk M Et G HP HT HS HC) as (t' & E' & R).
  pose proof (step_alike garbage _ _ (OpDigest i bl junk) A) as X. rewrite E' in X. destruct (he_step garbage (l_he s) (OpDigest i bl junk)) as [h| |]; try contradiction. exists h. split; [reflexivity|].
  destruct X as [_ (ds & E1 & E2)]. rewrite R in E2. assert (ds = [std_digest a (N.to_nat (bl / 8)) (concat ps)]) as ->; [|exact E1].
  change (std_digest a (N.to_nat (bl / 8)) (concat ps) :: s_res t) with ([std_digest a (N.to_nat (bl / 8)) (concat ps)] ++ s_res t) in E2. apply app_inv_tail in E2. auto.
Qed.
Print Assumptions C78_other_digests_right.

(** C78: a program whose calls are all supported (a call of get_digest that throws being a digest taken) is not stopped by an exception: the next call of it returns. *)
Theorem C78_supported_calls_return : forall garbage ops s o, Forall op_memory_ok (attempts ops ++ [o]) -> risky_run garbage life_start ops = Ret s ->
  history_ok [] (attempts ops ++ [o]) -> exists h, he_step garbage (l_he s) o = Ret h.
Proof.
  intros garbage ops s o M E H. destruct (risky_alike garbage ops life_start he_start s (alike_refl _) E) as (t & Et & A).
  destruct (C55_total garbage (attempts ops ++ [o]) M H) as (t' & Et'). rewrite run_snoc, Et in Et'. cbn [bind] in Et'.
  pose proof (step_alike garbage _ _ o A) as X. rewrite Et' in X. destruct (he_step garbage (l_he s) o) as [h| |]; try contradiction. eauto.
Qed.
Print Assumptions C78_supported_calls_return.

(** ** the older digest *)
Lemma throw_objs garbage s i bl junk s' : risky_step garbage s (RThrow i bl junk) = Ret s' -> l_sd s' = l_sd s /\ l_out s' = l_out s /\ l_read s' = l_read s /\ s_objs (l_he s') = s_objs (l_he s).
Proof. cbn [risky_step]. destruct (he_step _ _ _); cbn [bind]; try discriminate. intros [= <-]. auto. Qed.
Lemma risky_keep garbage s op s' : own s -> risky_step garbage s op = Ret s' -> own s'.
Proof.
  intros O E. destruct op as [op|i bl junk]; [apply (step_keep _ _ _ _ O E)|]. destruct (throw_objs _ _ _ _ _ _ E) as (E1 & E2 & _ & E3). destruct O as [OL OD OV OI OO].
  split; unfold out_of, obj_of in *; rewrite ?E1, ?E2, ?E3; assumption.
Qed.
Lemma risky_run_keep garbage ops : forall s s', own s -> risky_run garbage s ops = Ret s' -> own s'.
Proof.
  induction ops as [|o ops IH]; intros s s' O E; cbn [risky_run] in E; [injection E as <-; exact O|]. destruct (risky_step garbage s o) as [s1| |] eqn:E1; cbn [bind] in E; try discriminate. eapply IH; [|exact E]. eapply risky_keep; eauto.
Qed.
Lemma risky_owned garbage ops : forall s s' i p d, own s -> risky_run garbage s ops = Ret s' -> Forall (fun op => ~ really_ends i op) ops -> out_of s i = Some p ->
  nth_error (l_sd s) p = Some (Some d) -> out_of s' i = Some p /\ nth_error (l_sd s') p = Some (Some d).
Proof.
  induction ops as [|o ops IH]; intros s s' i p d O E NE Hi Hp; cbn [risky_run] in E; [injection E as <-; split; assumption|].
  destruct (risky_step garbage s o) as [s1| |] eqn:E1; cbn [bind] in E; try discriminate. inversion_clear NE.
  assert (X : out_of s1 i = Some p /\ nth_error (l_sd s1) p = Some (Some d)).
  { destruct o as [op|j bl junk]; [apply (owned_stays _ _ _ _ _ _ _ O E1 H Hi Hp)|]. destruct (throw_objs _ _ _ _ _ _ E1) as (X1 & X2 & _). unfold out_of in *. rewrite X1, X2. auto. }
  apply (IH s1 s' i p d); auto; [eapply risky_keep; eauto|apply X|apply X].
Qed.
(** C78: get_digest calls that throw, on this and other objects, leave the digest returned before readable. *)
Theorem C78_older_digest_survives : forall garbage ops s i bl junk s1 ops2 s2,
  risky_run garbage life_start ops = Ret s -> obj_of (l_he s) i <> None ->
  risky_step garbage s (RCall (LCall (OpDigest i bl junk))) = Ret s1 ->
  risky_run garbage s1 ops2 = Ret s2 -> Forall (fun op => ~ really_ends i op) ops2 ->
  exists d s3, s_res (l_he s1) = d :: s_res (l_he s) /\
    risky_step garbage s2 (RCall (LRead (length (l_sd s)))) = Ret s3 /\ l_read s3 = d :: l_read s2.
Proof.
  intros garbage ops s i bl junk s1 ops2 s2 E No E1 E2 NE. assert (O := risky_run_keep _ _ _ _ own_start E). assert (O1 := risky_keep _ _ _ _ O E1). cbn [risky_step] in E1.
  destruct (PropLife.step_inv _ _ _ _ O E1) as [h Eh]. destruct (step_own _ _ _ _ O Eh) as (x & Ex & Eh1 & _ & _ & C). assert (x = s1) by congruence. subst x.
  destruct C as [(N' & _)|(d & C1 & _ & C3 & C4 & _)]; [contradiction|].
  destruct (risky_owned _ _ _ _ _ _ _ O1 E2 NE C3 C4) as [_ R]. exists d. eexists. split; [rewrite Eh1; exact C1|].
  cbn [risky_step life_step]. rewrite R. split; reflexivity.
Qed.
Print Assumptions C78_older_digest_survives.

Lemma Ret_inj {A} (x y : A) : Ret x = Ret y -> x = y. Proof. congruence. Qed.
(** ** asking again *)
Lemma twice_generic (garbage : option N) I P T H H2 : again_fn I P T H H2 -> forall (g : ictx I) ps c out1 out2 c1 d, typed I g -> Forall P ps -> T (concat ps) ->
  fold_left (fun o p => c <- o ;; iupdate I c p) ps (Ret (iinit I g)) = Ret c -> idigest I c out1 = Ret (c1, d) -> (idsz I <= length out1)%nat -> (idsz I <= length out2)%nat ->
  exists c2, idigest I c1 out2 = Ret (c2, H2 (concat ps) ++ skipn (idsz I) out2).
Proof.
  intros A g ps c out1 out2 c1 d Hg HP HT U D L1 L2. destruct (hash_again _ _ _ _ _ A g ps out1 out2 Hg HP HT L1 L2) as (c' & c1' & d' & c2 & E1 & E2 & E3).
  rewrite updates_fold, U in E1. injection E1 as <-. rewrite D in E2. injection E2 as <- _. eauto.
Qed.
Lemma he_twice_fixed garbage a g ps c b1 b2 out1 out2 c1 d : ~ is_xof a -> he_typed a g -> Forall (piece_ok a) ps -> message_ok a (concat ps) ->
  he_updates garbage a (he_init a g) ps = Ret c -> he_digest garbage a b1 c out1 = Ret (c1, d) -> (N.to_nat (size_digest a) <= length out1)%nat -> (N.to_nat (size_digest a) <= length out2)%nat ->
  exists c2, he_digest garbage a b2 c1 out2 = Ret (c2, second_hash a (concat ps) ++ skipn (N.to_nat (size_digest a)) out2).
Proof.
  intros NX. rewrite he_updates_fold. destruct a; try (exfalso; apply NX; cbn; auto; fail).
  - exact (twice_generic garbage _ _ _ _ _ (ag_md5 garbage) g ps c out1 out2 c1 d).
  - exact (twice_generic garbage _ _ _ _ _ ag_sha1 g ps c out1 out2 c1 d).
  - exact (twice_generic garbage _ _ _ _ _ ag_sha224 g ps c out1 out2 c1 d).
  - exact (twice_generic garbage _ _ _ _ _ ag_sha256 g ps c out1 out2 c1 d).
  - exact (twice_generic garbage _ _ _ _ _ ag_sha384 g ps c out1 out2 c1 d).
  - exact (twice_generic garbage _ _ _ _ _ ag_sha512 g ps c out1 out2 c1 d).
  - exact (twice_generic garbage _ _ _ _ _ ag_sha512_224 g ps c out1 out2 c1 d).
  - exact (twice_generic garbage _ _ _ _ _ ag_sha512_256 g ps c out1 out2 c1 d).
  - exact (twice_generic garbage _ _ _ _ _ ag_sha3_224 g ps c out1 out2 c1 d).
  - exact (twice_generic garbage _ _ _ _ _ ag_sha3_256 g ps c out1 out2 c1 d).
  - exact (twice_generic garbage _ _ _ _ _ ag_sha3_384 g ps c out1 out2 c1 d).
  - exact (twice_generic garbage _ _ _ _ _ ag_sha3_512 g ps c out1 out2 c1 d).
Qed.
Lemma xof_twice init H : xof_fn init H -> forall g ps c out1 out2 c1 d, kshape g -> Forall keccak_piece ps ->
  fold_left (fun o p => c <- o ;; keccak_update c p) ps (Ret (init g)) = Ret c -> 8 * N.of_nat (length out1) < 2 ^ 32 -> 8 * N.of_nat (length out2) < 2 ^ 32 ->
  shake_digest (8 * N.of_nat (length out1)) c out1 = Ret (c1, d) ->
  exists c2, shake_digest (8 * N.of_nat (length out2)) c1 out2 = Ret (c2, skipn (length out1) (H (concat ps) (8 * (length out1 + length out2))%nat)).
Proof.
  intros X g ps c out1 out2 c1 d Hg HP U L1 L2 D.
  pose proof (PropKeccak.C26_squeeze_sequences init H X g ps out1 [Squeeze out2] Hg HP ltac:(repeat constructor; cbn; auto)) as E.
  pose proof (PropKeccak.C26_squeeze_sequences init H X g ps out1 [] Hg HP ltac:(repeat constructor; cbn; auto)) as E0.
  assert (R : forall ps c0 rest, fold_left (fun o p => c <- o ;; keccak_update c p) ps (Ret c0) = Ret c -> xof_run c0 (map Feed ps ++ rest) = xof_run c rest).
  { clear. induction ps as [|p ps IH]; intros c0 rest E; [injection E as ->; reflexivity|]. cbn [map app xof_run fold_left bind] in *.
    destruct (keccak_update c0 p) as [c2| |] eqn:Ek; cbn [bind]; [apply IH, E| |]; (rewrite (fold_stuck keccak_update) in E by discriminate; discriminate). }
  rewrite (R ps (init g) _ U) in E. rewrite (R ps (init g) _ U) in E0. cbn [xof_run map squeezed list_sum fold_right] in E, E0. rewrite D in E. rewrite D in E0. cbn [bind] in E, E0. rewrite app_nil_r in E0. apply Ret_inj in E0.
  destruct (shake_digest (8 * N.of_nat (length out2)) c1 out2) as [[c2 o2]| |]; cbn [bind] in E; try discriminate. exists c2. rewrite app_nil_r in E. apply Ret_inj in E. do 2 f_equal.
  rewrite Nat.add_0_r in *. rewrite <- E. assert (Ld : length d = length out1).
  { rewrite E0. pose proof (xof_facts_bits init H X) as (_ & _ & _ & K). destruct (K g ps Hg HP Logic.I) as (c' & _ & _ & _ & L). specialize (L (8 * N.of_nat (length out1))).
    unfold xof_bytes in L. rewrite N.mod_small in L by exact L1. rewrite (N.mul_comm 8), N.div_mul, Nat2N.id in L by discriminate. exact L. }
  rewrite skipn_app, Ld, Nat.sub_diag, skipn_O, skipn_all2 by lia. reflexivity.
Qed.
Lemma he_twice_xof garbage a g ps c n1 n2 out1 out2 c1 d : is_xof a -> he_typed a g -> Forall (piece_ok a) ps ->
  he_updates garbage a (he_init a g) ps = Ret c -> n1 = 8 * N.of_nat (length out1) -> n2 = 8 * N.of_nat (length out2) -> n1 < 2 ^ 32 -> n2 < 2 ^ 32 -> he_digest garbage a n1 c out1 = Ret (c1, d) ->
  exists c2, he_digest garbage a n2 c1 out2 = Ret (c2, skipn (length out1) (std_digest a (length out1 + length out2) (concat ps))).
Proof.
  intros X. rewrite he_updates_fold. intros Hg HP U -> -> L1 L2 D. destruct a; try (exfalso; cbn in X; intuition discriminate).
  - exact (xof_twice _ _ xof_rawshake128 g ps c out1 out2 c1 d Hg HP U L1 L2 D).
  - exact (xof_twice _ _ xof_shake128 g ps c out1 out2 c1 d Hg HP U L1 L2 D).
  - exact (xof_twice _ _ xof_rawshake256 g ps c out1 out2 c1 d Hg HP U L1 L2 D).
  - exact (xof_twice _ _ xof_shake256 g ps c out1 out2 c1 d Hg HP U L1 L2 D).
Qed.
Lemma digest_eq garbage s i a p out c bl junk : obj_of s i = Some (mkH a (Some p) (size_digest a) (size_block a) out) -> nth_error (s_heap s) p = Some (Live a c) ->
  he_step garbage s (OpDigest i bl junk) = (x <- he_digest garbage a (fill_bits a bl) c (stack_array junk (N.to_nat (out_len a (size_digest a) bl))) ;;
    Ret (mkHS (store (s_heap s) p (Live a (fst x))) (put (s_objs s) i (Some (mkH a (Some p) (size_digest a) (size_block a) (Some (snd x))))) (snd x :: s_res s))).
Proof.
  intros O H. cbn [he_step]. rewrite O. unfold get_digest, he_load. cbn [h_ctx h_alg h_digsz h_blocksz]. rewrite (load_live _ _ _ _ H). cbn [bind]. unfold stack_array.
  destruct (he_digest _ _ _ _ _) as [[c1 q]| |]; reflexivity.
Qed.
(** a first and a second get_digest on a fed object *)
Lemma two_digests garbage ops t i a ps bl1 junk1 bl2 junk2 : Forall op_memory_ok ops -> he_run garbage he_start ops = Ret t ->
  nth_error (spec_run ops) i = Some (Feeding a ps) -> Forall (piece_ok a) ps -> message_ok a (concat ps) ->
  (~ is_xof a /\ ~ overruns a bl1 /\ ~ overruns a bl2) \/ (is_xof a /\ clean_bits a bl1 /\ clean_bits a bl2) ->
  exists t1 d t2, he_step garbage t (OpDigest i bl1 junk1) = Ret t1 /\ s_res t1 = d :: s_res t /\ he_step garbage t1 (OpDigest i bl2 junk2) = Ret t2 /\
    s_res t2 = (if shake_flag a then skipn (N.to_nat (bl1 / 8)) (std_digest a (N.to_nat (bl1 / 8) + N.to_nat (bl2 / 8)) (concat ps)) else second_hash a (concat ps)) :: s_res t1.
Proof.
  intros M R G HP HT HB. pose proof (fed_inv garbage ops t M R) as I.
  destruct (i_obj garbage _ _ I i _ G) as (p & out & c & g0 & Eo & Eh & Tg & U).
  assert (NO : ~ overruns a bl1 /\ ~ overruns a bl2).
  { destruct HB as [[_ H]|[X [C1 C2]]]; [exact H|]. split; intros [[_ Z]|[Z _]]; try contradiction; subst; [destruct C1 as [[_ [C _]]|[C _]]|destruct C2 as [[_ [C _]]|[C _]]]; try contradiction; lia. }
  destruct (he_facts garbage a) as (_ & _ & _ & K). destruct (K g0 ps Tg HP HT) as (c' & E & D & _ & LD). rewrite <- he_updates_fold, U in E. injection E as <-.
  destruct (size_fit a bl1 (proj1 NO)) as (F1 & F2 & F3). destruct (size_fit a bl2 (proj2 NO)) as (G1 & G2 & G3).
  rewrite (digest_eq garbage t i a p out c bl1 junk1 Eo Eh).
  destruct (D (fill_bits a bl1) (stack_array junk1 (N.to_nat (out_len a (size_digest a) bl1)))) as (c1 & E1); [rewrite stack_len; exact F1|].
  rewrite E1. cbn [bind fst snd]. eexists _, _. set (d1 := lib_digest a _ _ ++ _) in *. set (t1 := mkHS _ _ _).
  assert (Li : (i < length (s_objs t))%nat) by (apply (obj_lt _ _ _ Eo)).
  assert (Lp : (p < length (s_heap t))%nat) by (apply (nth_lt _ _ _ Eh)).
  assert (Eo1 : obj_of t1 i = Some (mkH a (Some p) (size_digest a) (size_block a) (Some d1))) by (unfold obj_of, t1; cbn [s_objs]; rewrite put_nth by exact Li; rewrite Nat.eqb_refl; reflexivity).
  assert (Eh1 : nth_error (s_heap t1) p = Some (Live a c1)) by (unfold t1; cbn [s_heap]; rewrite store_nth by exact Lp; rewrite Nat.eqb_refl; reflexivity).
  rewrite (digest_eq garbage t1 i a p _ c1 bl2 junk2 Eo1 Eh1).
  assert (Second : exists c2, he_digest garbage a (fill_bits a bl2) c1 (stack_array junk2 (N.to_nat (out_len a (size_digest a) bl2))) =
    Ret (c2, if shake_flag a then skipn (N.to_nat (bl1 / 8)) (std_digest a (N.to_nat (bl1 / 8) + N.to_nat (bl2 / 8)) (concat ps)) else second_hash a (concat ps))).
  { destruct HB as [[NX _]|[X [C1 C2]]].
    - pose proof (proj1 (xof_flag_no a) NX) as Fl. rewrite Fl. destruct (he_twice_fixed garbage a g0 ps c (fill_bits a bl1) (fill_bits a bl2) _ (stack_array junk2 (N.to_nat (out_len a (size_digest a) bl2))) c1 d1 NX Tg HP HT U E1) as (c2 & E2).
      + rewrite stack_len, F3 by exact Fl. lia.
      + rewrite stack_len, G3 by exact Fl. lia.
      + exists c2. rewrite E2. rewrite skipn_all2, app_nil_r by (rewrite stack_len, G3 by exact Fl; lia). reflexivity.
    - pose proof (proj1 (xof_flag a) X) as Fl. rewrite Fl. destruct (F2 Fl) as [Fo1 Fb1]. destruct (G2 Fl) as [Go2 Gb2].
      destruct C1 as [[_ [B1 B2]]|[C _]]; [|contradiction]. destruct C2 as [[_ [B3 B4]]|[C _]]; [|contradiction].
      assert (Q : forall bl, bl mod 8 = 0 -> in_len bl = bl / 8 /\ bl = 8 * (bl / 8)) by (intros bl Hb; unfold in_len; rewrite Hb; split; [lia|pose proof (N.div_mod bl 8 ltac:(discriminate)) as Q; rewrite Hb in Q; lia]).
      destruct (Q bl1 B2) as [Q1 Q2]. destruct (Q bl2 B4) as [Q3 Q4].
      destruct (he_twice_xof garbage a g0 ps c (fill_bits a bl1) (fill_bits a bl2) (stack_array junk1 (N.to_nat (out_len a (size_digest a) bl1))) (stack_array junk2 (N.to_nat (out_len a (size_digest a) bl2))) c1 d1 X Tg HP U) as (c2 & E2).
      5: exact E1. 5: { exists c2. rewrite E2. rewrite !stack_len, Fo1, Go2, Q1, Q3. reflexivity. }
      + rewrite stack_len, Fo1, Fb1, Q1, N2Nat.id. exact Q2.
      + rewrite stack_len, Go2, Gb2, Q3, N2Nat.id. exact Q4.
      + rewrite Fb1. apply B1.
      + rewrite Gb2. apply B3. }
  destruct Second as (c2 & E2). rewrite E2. cbn [bind fst snd]. eexists. split; [reflexivity|]. split; [reflexivity|]. split; [reflexivity|]. reflexivity.
Qed.
(** C78, violation: asking again after an exception does not give the digest. With the twelve functions of fixed size it gives what C31 describes;
    an extendable-output function goes on after the bytes that were lost. *)
Theorem C78_retry_refuted : forall garbage ops s i a ps bl1 junk1 bl2 junk2,
  Forall op_memory_ok (attempts ops) -> risky_run garbage life_start ops = Ret s ->
  nth_error (spec_run (attempts ops)) i = Some (Feeding a ps) -> Forall (piece_ok a) ps -> message_ok a (concat ps) ->
  (~ is_xof a -> ~ overruns a bl1 -> ~ overruns a bl2 ->
    exists s1 h, risky_step garbage s (RThrow i bl1 junk1) = Ret s1 /\ he_step garbage (l_he s1) (OpDigest i bl2 junk2) = Ret h /\
      s_res h = second_hash a (concat ps) :: s_res (l_he s)) /\
  (is_xof a -> clean_bits a bl1 -> clean_bits a bl2 ->
    exists s1 h, risky_step garbage s (RThrow i bl1 junk1) = Ret s1 /\ he_step garbage (l_he s1) (OpDigest i bl2 junk2) = Ret h /\
      s_res h = skipn (N.to_nat (bl1 / 8)) (std_digest a (N.to_nat (bl1 / 8) + N.to_nat (bl2 / 8)) (concat ps)) :: s_res (l_he s)).
Proof.
  intros garbage ops s i a ps bl1 junk1 bl2 junk2 M E G HP HT. destruct (risky_alike garbage ops life_start he_start s (alike_refl _) E) as (t & Et & A).
  assert (X : (~ is_xof a /\ ~ overruns a bl1 /\ ~ overruns a bl2) \/ (is_xof a /\ clean_bits a bl1 /\ clean_bits a bl2) ->
    exists s1 h, risky_step garbage s (RThrow i bl1 junk1) = Ret s1 /\ he_step garbage (l_he s1) (OpDigest i bl2 junk2) = Ret h /\
      s_res h = (if shake_flag a then skipn (N.to_nat (bl1 / 8)) (std_digest a (N.to_nat (bl1 / 8) + N.to_nat (bl2 / 8)) (concat ps)) else second_hash a (concat ps)) :: s_res (l_he s)).
  { intros HB. destruct (two_digests garbage _ t i a ps bl1 junk1 bl2 junk2 M Et G HP HT HB) as (t1 & d & t2 & E1 & R1 & E2 & R2).
    destruct (throw_alike garbage _ _ i bl1 junk1 t1 A E1) as (h1 & Eh & A1). cbn [risky_step]. rewrite Eh. cbn [bind]. eexists.
    pose proof (step_alike garbage _ _ (OpDigest i bl2 junk2) A1) as Y. rewrite E2 in Y. destruct (he_step garbage (mkHS _ _ _) (OpDigest i bl2 junk2)) as [h2| |] eqn:E3; try contradiction.
    exists h2. split; [reflexivity|]. cbn [l_he]. split; [exact E3|]. destruct Y as [_ (ds & Y1 & Y2)]. rewrite R2 in Y2. cbn [s_res] in Y1. rewrite Y1. clear -Y2.
    revert Y2. generalize (if shake_flag a then skipn (N.to_nat (bl1 / 8)) (std_digest a (N.to_nat (bl1 / 8) + N.to_nat (bl2 / 8)) (concat ps)) else second_hash a (concat ps)). intros x Y2.
    change (x :: s_res t1) with ([x] ++ s_res t1) in Y2. apply app_inv_tail in Y2. subst ds. reflexivity. }
  split.
  - intros NX O1 O2. pose proof (proj1 (xof_flag_no a) NX) as Fl. destruct (X (or_introl (conj NX (conj O1 O2)))) as (s1 & h & Y). rewrite Fl in Y. eauto.
  - intros XO O1 O2. pose proof (proj1 (xof_flag a) XO) as Fl. destruct (X (or_intror (conj XO (conj O1 O2)))) as (s1 & h & Y). rewrite Fl in Y. eauto.
Qed.
Print Assumptions C78_retry_refuted.
(** ... which differs from the digest, for each of the twelve functions *)
Theorem C78_retry_differs : forall a, ~ is_xof a -> exists ps, Forall (piece_ok a) ps /\ message_ok a (concat ps) /\ second_hash a (concat ps) <> lib_digest a 0 (concat ps).
Proof.
  intros a NX. destruct a; try (exfalso; apply NX; cbn; auto; fail).
  - destruct (again_differs _ _ _ _ _ (ag_md5 None)) as (ps & HP & HT & H). exists ps. auto.
  - destruct (again_differs _ _ _ _ _ ag_sha1) as (ps & HP & HT & H). exists ps. auto.
  - destruct (again_differs _ _ _ _ _ ag_sha224) as (ps & HP & HT & H). exists ps. auto.
  - destruct (again_differs _ _ _ _ _ ag_sha256) as (ps & HP & HT & H). exists ps. auto.
  - destruct (again_differs _ _ _ _ _ ag_sha384) as (ps & HP & HT & H). exists ps. auto.
  - destruct (again_differs _ _ _ _ _ ag_sha512) as (ps & HP & HT & H). exists ps. auto.
  - destruct (again_differs _ _ _ _ _ ag_sha512_224) as (ps & HP & HT & H). exists ps. auto.
  - destruct (again_differs _ _ _ _ _ ag_sha512_256) as (ps & HP & HT & H). exists ps. auto.
  - destruct (again_differs _ _ _ _ _ ag_sha3_224) as (ps & HP & HT & H). exists ps. auto.
  - destruct (again_differs _ _ _ _ _ ag_sha3_256) as (ps & HP & HT & H). exists ps. auto.
  - destruct (again_differs _ _ _ _ _ ag_sha3_384) as (ps & HP & HT & H). exists ps. auto.
  - destruct (again_differs _ _ _ _ _ ag_sha3_512) as (ps & HP & HT & H). exists ps. auto.
Qed.
Print Assumptions C78_retry_differs.

(** ** HMACEncoder *)
Lemma hmac_same I (e f : encoder (Some I)) cs : e_ctx e = e_ctx f ->
  match enc_calls_with (Some I) e cs, enc_calls (Some I) f (map fst cs) with
  | Ret ts, Ret ds => Forall2 or_threw ts ds | UB w, UB w' => w = w' | Hang, Hang => True | _, _ => False end.
Proof.
  revert e f. induction cs as [|[[p|m| |l lo] th] cs IH]; intros e f E; cbn [enc_calls_with enc_calls map fst].
  - constructor.
  - unfold enc_update, on_ctx. rewrite E. destruct (hmac_update I (e_ctx f) p); cbn [bind]; auto. apply IH. reflexivity.
  - unfold enc_update_cstr. destruct (Nat.eqb _ _); cbn [bind]; auto. unfold enc_update, on_ctx. rewrite E. destruct (hmac_update I (e_ctx f) (upto_nul m)); cbn [bind]; auto. apply IH. reflexivity.
  - unfold enc_reset. apply IH. exact E.
  - cbn [enc_digest_with enc_digest]. rewrite E. destruct (hmac_digest I l (e_ctx f) (firstn (idsz I) lo)) as [[c d]| |]; cbn [bind]; auto.
    destruct th; cbn [bind].
    + specialize (IH (mkEnc (o := Some I) (e_digsz e) (e_blocksz e) c (e_output e)) (mkEnc (o := Some I) (e_digsz f) (e_blocksz f) c (Some d)) eq_refl).
      destruct (enc_calls_with _ _ _), (enc_calls _ _ _); cbn [bind]; auto. constructor; [right; reflexivity|exact IH].
    + specialize (IH (mkEnc (o := Some I) (e_digsz e) (e_blocksz e) c (Some d)) (mkEnc (o := Some I) (e_digsz f) (e_blocksz f) c (Some d)) eq_refl).
      destruct (enc_calls_with _ _ _), (enc_calls _ _ _); cbn [bind]; auto. constructor; [left; reflexivity|exact IH].
Qed.
(** C78: on an HMACEncoder too a get_digest that throws counts like one whose result is ignored: all other results are the same. *)
Theorem C78_hmac_results : forall I (e : encoder (Some I)) cs ds, enc_calls (Some I) e (map fst cs) = Ret ds ->
  exists ts, enc_calls_with (Some I) e cs = Ret ts /\ Forall2 or_threw ts ds.
Proof.
  intros I e cs ds E. pose proof (hmac_same I e e cs eq_refl) as X. rewrite E in X. destruct (enc_calls_with (Some I) e cs); try contradiction. eauto.
Qed.
Print Assumptions C78_hmac_results.
(** C78: the extendable-output functions: there the switch of get_digest does nothing, no call allocates, and every program gets what it gets without exceptions
    (a null pointer each time). *)
Theorem C78_hmac_xof : forall garbage a, is_xof a -> forall (e : encoder (sp_case garbage a)) cs ds, enc_calls (sp_case garbage a) e (map fst cs) = Ret ds ->
  enc_calls_with (sp_case garbage a) e cs = Ret (map Tag ds) /\ Forall (fun d => d = e_output e) ds.
Proof.
  intros garbage a X. assert (E : sp_case garbage a = None) by (destruct X as [<-|[<-|[<-|[<-|[]]]]]; reflexivity). rewrite E. clear E X. intros e cs. revert e.
  induction cs as [|[[p|m| |l lo] th] cs IH]; intros e ds H; cbn [enc_calls_with enc_calls map fst] in *.
  - injection H as <-. split; [reflexivity|constructor].
  - destruct (enc_update None e p) as [e1| |] eqn:E1; cbn [bind] in *; try discriminate. destruct (IH _ _ H) as [A B]. split; [exact A|]. assert (e1 = e) as -> by (unfold enc_update, on_ctx in E1; destruct e; cbn in E1; congruence). exact B.
  - destruct (enc_update_cstr None e m) as [e1| |] eqn:E1; cbn [bind] in *; try discriminate. destruct (IH _ _ H) as [A B]. split; [exact A|]. assert (e1 = e) as -> by (unfold enc_update_cstr in E1; destruct (Nat.eqb (length (upto_nul m)) (length m)); [discriminate|]; unfold enc_update, on_ctx in E1; destruct e; cbn in E1; congruence). exact B.
  - destruct (IH _ _ H) as [A B]. split; [exact A|exact B].
  - cbn [enc_digest_with enc_digest bind] in *. destruct (enc_calls None e (map fst cs)) as [ds'| |] eqn:E1; cbn [bind] in *; try discriminate. injection H as <-. destruct (IH _ _ E1) as [A B]. rewrite A. cbn [bind map]. split; [reflexivity|]. constructor; [reflexivity|exact B].
Qed.
Print Assumptions C78_hmac_xof.
(** C78, violation: the tag asked for again after an exception is not the HMAC (C66_not_idempotent_refuted: they differ). *)
Theorem C78_hmac_retry_refuted : forall garbage a P M H B D, choice_lib a P M H B D ->
  forall r key ops l l_out l' l_out', ectx_ok (r_ctx r) -> eloc_ok l -> eloc_ok l' -> length l_out = D -> length l_out' = D ->
  bytes_ok key -> Forall (op_ok P) ops -> bytes_ok (concat (map op_bytes ops)) -> M (concat (map op_bytes ops)) ->
  exists e, enc_new (sp_case garbage a) a r key = Ret e /\
    enc_calls_with (sp_case garbage a) e (map (fun c => (c, false)) (map data_call ops) ++ [(CDigest l l_out, true); (CReset, false); (CDigest l' l_out', false)]) =
    Ret [NoTag; Tag (Some (HMAC_inner H (second_hash a) B (firstn B key) (concat (map op_bytes ops))))].
Proof.
  intros garbage a P M H B D K r key ops l l_out l' l_out' Hr Hl Hl' Lo Lo' Hk Hops Hb HM.
  pose proof (C66_second_digest garbage a P M H B D K r key ops l l_out l' l_out' Hr Hl Hl' Lo Lo' Hk Hops Hb HM) as E. unfold encoder_session in E.
  destruct (enc_new (sp_case garbage a) a r key) as [e| |]; cbn [bind] in E; try discriminate. exists e. split; [reflexivity|].
  destruct (again_good garbage _ _ _ _ _ _ K) as (I & T & E' & _). revert e E. clear Hr Hl Hl'. revert l l'. clear r. rewrite E'. intros l l' e E.
  set (cs := map (fun c => (c, false)) (map data_call ops) ++ [(CDigest l l_out, true); (CReset, false); (CDigest l' l_out', false)]).
  assert (Ecs : map fst cs = map data_call ops ++ [CDigest l l_out; CReset; CDigest l' l_out']). { unfold cs. rewrite map_app, map_map. cbn [map fst]. rewrite map_id. reflexivity. }
  rewrite <- Ecs in E. destruct (C78_hmac_results I e cs _ E) as (ts & Et & F). rewrite Et. f_equal.
  assert (Shape : forall (qs : list (enc_call (Some I))) e ts, Forall (fun c => is_digest c = false) qs ->
    enc_calls_with (Some I) e (map (fun c => (c, false)) qs ++ [(CDigest l l_out, true); (CReset, false); (CDigest l' l_out', false)]) = Ret ts -> exists d, ts = [NoTag; Tag d]).
  { clear. induction qs as [|q qs IH]; intros e ts F E; cbn [map app enc_calls_with] in E.
    - cbn [enc_digest_with] in E. destruct (hmac_digest _ _ _ _) as [[c1 d1]| |]; cbn [bind] in E; try discriminate. unfold enc_reset in E. cbn [enc_digest_with] in E.
      destruct (hmac_digest _ _ _ _) as [[c2 d2]| |]; cbn [bind] in E; try discriminate. injection E as <-. eauto.
    - inversion_clear F. destruct q; cbn [is_digest] in H; try discriminate.
      + destruct (enc_update _ _ _); cbn [bind] in E; try discriminate. eapply IH; eauto.
      + destruct (enc_update_cstr _ _ _); cbn [bind] in E; try discriminate. eapply IH; eauto.
      + eapply IH; eauto. }
  destruct (Shape (map data_call ops) e ts) as (d & ->); [|exact Et|].
  - apply Forall_forall. intros q Hq. apply in_map_iff in Hq as (x & <- & _). destruct x; reflexivity.
  - inversion F as [|? ? ? ? _ F1]; subst. inversion F1 as [|? ? ? ? Q _]; subst. destruct Q as [Q|Q]; [|discriminate]. injection Q as ->. reflexivity.
Qed.
Print Assumptions C78_hmac_retry_refuted.

(** Non-vacuity: MD5 and SHAKE128 objects; both digests throw; the program asks again *)
Definition risky_program : list risky_op :=
  [RCall (LCall (OpNew A_MD5 raw0 (Some dirty_memory))); RCall (LCall (OpNew A_SHAKE128 raw0 (Some dirty_memory))); RCall (LCall (OpUpdate 0 (chars "abc"))); RCall (LCall (OpUpdate 1 (chars "abc")));
   RThrow 0 0 (fun _ => 5); RCall (LCall (OpReset 0 (Some dirty_memory))); RCall (LCall (OpUpdate 0 (chars "a")))].
Example C78_case : omap (fun s => s_res (l_he s)) (risky_run None life_start (risky_program ++ [RThrow 0 0 (fun _ => 5); RThrow 1 32 (fun _ => 6); RCall (LCall (OpDigest 0 0 (fun _ => 6))); RCall (LCall (OpDigest 1 32 (fun _ => 6)))])) =
  (* the bytes 5-8 of SHAKE128("abc"), and MD5 of the padded "a" *)
  Ret [[216; 24; 191; 92]; [0; 151; 92; 217; 225; 180; 254; 37; 98; 118; 70; 202; 237; 154; 133; 148]].
Proof. vm_compute. reflexivity. Qed.
Example C78_hyps : exists s, risky_run None life_start risky_program = Ret s /\ spec_run (attempts risky_program) = [Feeding A_MD5 [chars "a"]; Feeding A_SHAKE128 [chars "abc"]] /\
  clean_bits A_MD5 0 /\ clean_bits A_SHAKE128 32 /\ history_ok [] (attempts risky_program ++ [OpDigest 0 0 (fun _ => 5)]).
Proof.
  destruct (risky_run None life_start risky_program) as [s| |] eqn:E; [|vm_compute in E; discriminate|vm_compute in E; discriminate]. exists s. split; [reflexivity|]. split; [reflexivity|].
  split; [right; split; [intros X; cbn in X; intuition discriminate|left; reflexivity]|]. split; [left; split; [cbn; auto|vm_compute; repeat split; discriminate]|].
  assert (NX : ~ is_xof A_MD5) by (rewrite xof_flag; discriminate).
  assert (NO : ~ overruns A_MD5 0) by (intros [[X _]|[_ X]]; [contradiction|vm_compute in X; destruct X; discriminate]).
  cbn.
  repeat match goal with |- _ /\ _ => split end; try exact Logic.I; try exact NO; try (apply small_bytes; vm_compute; reflexivity); try discriminate.
  all: split; [apply small_bytes; vm_compute; reflexivity|first [discriminate|vm_compute; first [reflexivity|discriminate]]].
Qed.
Example C78_memory : Forall op_memory_ok (attempts risky_program).
Proof. repeat constructor; try exact dirty_ok. Qed.
