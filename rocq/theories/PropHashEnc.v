(** C53-C55: class HashEncoder. Programs are lists of calls on any number of objects (MHashEnc.v: he_op); what they
    mean is in SHashEnc.v. [garbage] is the value of MD5's uninitialised local, if it is given one (MMd5.v). *)
From Coq Require Import String.
From Verif Require SFips202 SMd5.
From Verif Require Import Base SHex SFips180 SShaLib MSha MFront MMd5 MKeccak MHmac SHash SKeccakFns SHashFns PKeccak PTyped MHashEnc SHashEnc PHashEnc PHashEnc2.
Local Open Scope N_scope.

(** ** Facts *)
Lemma xof_flag a : is_xof a <-> shake_flag a = true.
Proof.
  unfold is_xof. split.
  - intros H. cbn [In] in H. destruct H as [<-|[<-|[<-|[<-|[]]]]]; reflexivity.
  - destruct a; intros H; try discriminate; cbn [In]; tauto.
Qed.
Lemma xof_flag_no a : ~ is_xof a <-> shake_flag a = false.
Proof. rewrite xof_flag. destruct (shake_flag a); split; congruence. Qed.
Lemma fed_inv garbage ops s : Forall op_memory_ok ops -> he_run garbage he_start ops = Ret s -> inv garbage (spec_run ops) s.
Proof. intros M R. apply (run_inv garbage ops [] he_start s (start_inv garbage) M R). Qed.
Lemma stack_len junk n : length (stack_array junk n) = n.
Proof. unfold stack_array. rewrite map_length, seq_length. reflexivity. Qed.
Lemma stack_skip junk n k : skipn k (stack_array junk n) = map (fun i => junk (N.of_nat i)) (seq k (n - k)).
Proof.
  unfold stack_array. rewrite skipn_map. f_equal. assert (G : forall m st j, skipn j (seq st m) = seq (st + j) (m - j)).
  { clear. induction m as [|m IH]; intros st [|j]; cbn [seq skipn]; try reflexivity; try (rewrite Nat.add_0_r; reflexivity).
    rewrite IH. f_equal. lia. }
  apply G.
Qed.
(** the sizes in get_digest *)
Lemma xof_bytes_le bl : (xof_bytes bl <= N.to_nat (in_len bl))%nat.
Proof.
  unfold xof_bytes, in_len. assert (bl mod 2 ^ 32 <= bl) by (apply N.mod_le; discriminate).
  assert (bl mod 2 ^ 32 / 8 <= bl / 8) by (apply N.div_le_mono; [discriminate|assumption]).
  set (x := bl mod 2 ^ 32 / 8) in *. clearbody x. set (y := bl / 8) in *. clearbody y. set (z := bl mod 8) in *. clearbody z. clear H. lia.
Qed.
Lemma size_pos a : 0 < size_digest a. Proof. destruct a; reflexivity. Qed.
Lemma in_len_0 bl : in_len bl = 0 <-> bl = 0.
Proof. unfold in_len. split; [|intros ->; reflexivity]. intros H. pose proof (N.div_mod bl 8 ltac:(discriminate)). lia. Qed.
Lemma fill_nz a bl : bl <> 0 -> fill_bits a bl = bl.
Proof. unfold fill_bits. intros H. destruct (N.eqb_spec bl 0); [contradiction|reflexivity]. Qed.
Lemma fill_fixed a bl : shake_flag a = false -> fill_bits a bl = bl.
Proof. unfold fill_bits. intros H. destruct (bl =? 0); [|reflexivity]. destruct a; try discriminate; reflexivity. Qed.
Lemma over_dec a bl : overruns a bl \/ ~ overruns a bl.
Proof.
  unfold overruns. rewrite xof_flag. destruct (shake_flag a); [|].
  - destruct (N.eq_dec bl 0) as [->|H]; [left; left; auto|right; intros [[_ X]|[X _]]; [contradiction|apply X; reflexivity]].
  - fold (in_len bl). destruct (N.ltb_spec 0 (in_len bl)) as [L|L]; [|right; intros [[X _]|[_ X]]; [discriminate|lia]].
    destruct (N.ltb_spec (in_len bl) (size_digest a)) as [M|M]; [left; right; split; [discriminate|lia]|right; intros [[X _]|[_ X]]; [discriminate|lia]].
Qed.
Lemma size_over a bl : overruns a bl -> fill_bits a bl mod 8 = 0 /\ (N.to_nat (out_len a (size_digest a) bl) < written a (fill_bits a bl))%nat
  \/ shake_flag a = false /\ (N.to_nat (out_len a (size_digest a) bl) < written a (fill_bits a bl))%nat.
Proof.
  unfold overruns. rewrite xof_flag. intros [[F ->]|[F H]].
  - left. unfold written, out_len. rewrite F. destruct a; try discriminate; (split; [reflexivity|]); vm_compute; lia.
  - apply not_true_is_false in F. right. split; [exact F|]. unfold written, out_len. rewrite F. fold (in_len bl) in H.
    destruct (N.ltb_spec (in_len bl) (size_digest a)) as [L|L]; [|lia]. rewrite fill_fixed by exact F.
    destruct (N.eqb_spec bl 0) as [->|Z]; [exfalso; change (in_len 0) with 0 in H; lia|]. cbn [negb andb]. lia.
Qed.
Lemma size_fit a bl : ~ overruns a bl -> (written a (fill_bits a bl) <= N.to_nat (out_len a (size_digest a) bl))%nat /\
  (shake_flag a = true -> out_len a (size_digest a) bl = in_len bl /\ fill_bits a bl = bl) /\
  (shake_flag a = false -> out_len a (size_digest a) bl = size_digest a).
Proof.
  unfold overruns. rewrite xof_flag. intros H. unfold written, out_len. destruct (shake_flag a) eqn:F.
  - assert (bl <> 0) by (intros ->; apply H; left; auto). rewrite (fill_nz a bl) by assumption. split; [apply xof_bytes_le|]. split; [auto|discriminate].
  - fold (in_len bl) in H. rewrite fill_fixed by exact F. destruct (N.ltb_spec (in_len bl) (size_digest a)) as [L|L]; cbn [andb].
    + destruct (N.eqb_spec bl 0) as [Z|Z]; cbn [negb]; [split; [lia|]; split; [discriminate|reflexivity]|].
      exfalso. apply H. right. split; [discriminate|]. split; [|exact L]. assert (in_len bl <> 0) by (rewrite in_len_0; exact Z). lia.
    + split; [lia|]. split; [discriminate|reflexivity].
Qed.
Lemma digest_short garbage a g ps c b out : he_typed a g -> Forall (piece_ok a) ps -> message_ok a (concat ps) ->
  he_updates garbage a (he_init a g) ps = Ret c -> (b mod 8 = 0 \/ shake_flag a = false) -> (length out < written a b)%nat -> he_digest garbage a b c out = UB OutOfBounds.
Proof.
  intros Hg HP HT E HB HL. destruct (he_facts garbage a) as (_ & _ & _ & K). destruct (K g ps Hg HP HT) as (c' & E' & _ & S & _).
  rewrite <- he_updates_fold, E in E'. injection E' as <-. destruct HB as [HB|HB]; [apply S; assumption|].
  replace (he_digest garbage a b c out) with (he_digest garbage a 0 c out) by (destruct a; try discriminate; reflexivity).
  apply S; [reflexivity|]. unfold written in *. rewrite HB in *. exact HL.
Qed.

(** ** C53: the buffers of get_digest *)
(** On an encoder that was constructed or reset, then fed, get_digest(bitlength) leaves its array exactly when the
    arguments are in [overruns]; otherwise it returns the digest of what was fed, followed, for a XOF, by the bytes
    that were never written. *)
Theorem C53_get_digest garbage ops s i a ps bl junk :
  Forall op_memory_ok ops -> he_run garbage he_start ops = Ret s ->
  nth_error (spec_run ops) i = Some (Feeding a ps) -> Forall (piece_ok a) ps -> message_ok a (concat ps) ->
  (overruns a bl -> he_step garbage s (OpDigest i bl junk) = UB OutOfBounds) /\
  (~ overruns a bl -> exists s' d, he_step garbage s (OpDigest i bl junk) = Ret s' /\ s_res s' = d :: s_res s /\
     digest_result a bl junk (lib_digest a (xof_bytes bl) (concat ps)) d).
Proof.
  intros M R G HP HT. pose proof (fed_inv garbage ops s M R) as I.
  destruct (live_digest garbage _ s i _ a bl junk I G eq_refl) as (p & c & objs & Tc & FD & S & _).
  destruct (FD ps eq_refl) as (g0 & T0 & U0).
  destruct (he_facts garbage a) as (_ & _ & _ & K). destruct (K g0 ps T0 HP HT) as (c' & E & D & _ & LD). rewrite <- he_updates_fold, U0 in E. injection E as <-.
  split.
  - intros O. rewrite S. assert (X : (fill_bits a bl mod 8 = 0 \/ shake_flag a = false) /\ (length (stack_array junk (N.to_nat (out_len a (size_digest a) bl))) < written a (fill_bits a bl))%nat).
    { rewrite stack_len. destruct (size_over a bl O) as [[X1 X2]|[X1 X2]]; auto. }
    rewrite (digest_short garbage a g0 ps c _ _ T0 HP HT U0 (proj1 X) (proj2 X)). reflexivity.
  - intros O. destruct (size_fit a bl O) as (F1 & F2 & F3).
    destruct (D (fill_bits a bl) (stack_array junk (N.to_nat (out_len a (size_digest a) bl)))) as (c2 & E2); [rewrite stack_len; exact F1|].
    rewrite S, E2. cbn [bind fst snd]. eexists _, _. split; [reflexivity|]. cbn [s_res]. split; [reflexivity|].
    rewrite stack_skip. unfold digest_result. rewrite xof_flag. destruct (shake_flag a) eqn:F.
    + right. destruct (F2 eq_refl) as [-> Eb]. rewrite Eb in *. split; [reflexivity|]. eexists. split; [reflexivity|].
      unfold written in *. rewrite F in *. fold (in_len bl). rewrite app_length, map_length, seq_length, LD. split; [lia|].
      f_equal. f_equal. lia.
    + left. split; [discriminate|]. rewrite F3 by reflexivity. unfold written. rewrite F, Nat.sub_diag. cbn [seq map]. rewrite app_nil_r.
      destruct a; try discriminate; reflexivity.
Qed.
(** For bit lengths that are multiples of 8 below 2^32, and lengths at least that of a fixed-size digest, the result
    is the standard's digest and no uninitialised byte. *)
Theorem C53_clean garbage ops s i a ps bl junk :
  Forall op_memory_ok ops -> he_run garbage he_start ops = Ret s ->
  nth_error (spec_run ops) i = Some (Feeding a ps) -> Forall (piece_ok a) ps -> message_ok a (concat ps) ->
  message_std a (concat ps) -> clean_bits a bl ->
  exists s', he_step garbage s (OpDigest i bl junk) = Ret s' /\ s_res s' = std_digest a (N.to_nat (bl / 8)) (concat ps) :: s_res s.
Proof.
  intros M R G HP HT HS HC. destruct (C53_get_digest garbage ops s i a ps bl junk M R G HP HT) as [_ Y].
  assert (O : ~ overruns a bl).
  { unfold overruns. destruct HC as [(X1 & X2 & X3)|(X1 & X2)]; intros [[Z1 Z2]|[Z1 Z2]]; try contradiction; [lia|]. destruct X2 as [->|X2]; [|lia].
    change (0 / 8 + 0 mod 8) with 0 in Z2. lia. }
  destruct (Y O) as (s' & d & E & F & D). exists s'. split; [exact E|]. rewrite F. f_equal. rewrite lib_std in D by exact HS.
  destruct HC as [(X1 & X2 & X3)|(X1 & X2)].
  - assert (XB : xof_bytes bl = N.to_nat (bl / 8)) by (unfold xof_bytes; rewrite N.mod_small by apply X2; reflexivity).
    destruct D as [[Z _]|[_ (rest & -> & LD & ->)]]; [contradiction|]. rewrite XB in *. rewrite X3, N.add_0_r in LD. rewrite LD, Nat.sub_diag. cbn [seq map]. apply app_nil_r.
  - destruct D as [[_ ->]|[Z _]]; [|contradiction]. rewrite xof_flag_no in X1. destruct a; try discriminate; reflexivity.
Qed.
(** Every other request for which the call returns is answered with bytes of uninitialised memory at the end. *)
Theorem C53_dirty_violation garbage ops s i a ps bl junk :
  Forall op_memory_ok ops -> he_run garbage he_start ops = Ret s ->
  nth_error (spec_run ops) i = Some (Feeding a ps) -> Forall (piece_ok a) ps -> message_ok a (concat ps) ->
  is_xof a -> bl <> 0 -> (bl mod 8 <> 0 \/ 2 ^ 32 <= bl) ->
  exists s' d rest, he_step garbage s (OpDigest i bl junk) = Ret s' /\ s_res s' = (d ++ rest) :: s_res s /\ rest <> [] /\
    rest = map (fun k => junk (N.of_nat k)) (seq (length d) (length rest)).
Proof.
  intros M R G HP HT HX HZ HB. destruct (C53_get_digest garbage ops s i a ps bl junk M R G HP HT) as [_ Y].
  assert (O : ~ overruns a bl) by (intros [[_ Z]|[Z _]]; contradiction).
  pose proof (fed_inv garbage ops s M R) as I. destruct (live_digest garbage _ s i _ a bl junk I G eq_refl) as (p & c & objs & Tc & FD & S & _).
  destruct (FD ps eq_refl) as (g0 & T0 & U0). destruct (he_facts garbage a) as (_ & _ & _ & K). destruct (K g0 ps T0 HP HT) as (_ & _ & _ & _ & LD).
  specialize (LD bl). unfold written in LD. rewrite (proj1 (xof_flag a) HX) in LD.
  destruct (Y O) as (s' & d & E & F & D). destruct D as [[Z _]|[_ (rest & -> & LR & ER)]]; [contradiction|].
  rewrite app_length, LD in LR, ER. replace (xof_bytes bl + length rest - xof_bytes bl)%nat with (length rest) in ER by lia.
  exists s', (lib_digest a (xof_bytes bl) (concat ps)), rest. split; [exact E|]. split; [exact F|]. rewrite LD. split; [|exact ER].
  intros ->. cbn [length] in LR. rewrite Nat.add_0_r in LR.
  assert (LT : N.of_nat (xof_bytes bl) < bl / 8 + bl mod 8).
  { unfold xof_bytes. rewrite N2Nat.id. destruct HB as [HB|HB].
    - assert (bl mod 2 ^ 32 / 8 <= bl / 8) by (apply N.div_le_mono; [discriminate|apply N.mod_le; discriminate]). revert HB H. generalize (bl mod 2 ^ 32 / 8) (bl / 8) (bl mod 8). lia.
    - assert (bl mod 2 ^ 32 / 8 < 2 ^ 29) by (apply N.div_lt_upper_bound; [discriminate|]; apply N.mod_lt; discriminate).
      assert (2 ^ 29 <= bl / 8) by (apply N.div_le_lower_bound; [discriminate|exact HB]). revert H H0. generalize (bl mod 2 ^ 32 / 8) (bl / 8) (bl mod 8). lia. }
  rewrite LR, N2Nat.id in LT. lia.
Qed.

(** ** C54: the contexts *)
(** no call of the history is made on an object whose last reset threw *)
Definition careful (ops : list he_op) : Prop := forall ops1 o ops2, ops = ops1 ++ o :: ops2 -> ~ on_broken (spec_run ops1) o.
(** the program is not stopped by a use of freed memory, a second delete or a null pointer *)
Definition ownership_ok (r : outcome he_state) : Prop := r <> UB DoubleFree /\ r <> UB NullDeref.
Lemma run_app garbage ops1 ops2 : forall s, he_run garbage s (ops1 ++ ops2) = (s <- he_run garbage s ops1 ;; he_run garbage s ops2).
Proof. induction ops1 as [|o ops1 IH]; intros s; [reflexivity|]. cbn [app he_run]. destruct (he_step garbage s o) as [s1| |]; cbn [bind]; [apply IH|reflexivity|reflexivity]. Qed.
Lemma run_snoc garbage ops o s : he_run garbage s (ops ++ [o]) = (s <- he_run garbage s ops ;; he_step garbage s o).
Proof. rewrite run_app. destruct (he_run garbage s ops) as [s1| |]; cbn [bind he_run]; try reflexivity. destruct (he_step garbage s1 o); reflexivity. Qed.

Theorem C54_ownership garbage ops : Forall op_memory_ok ops -> careful ops -> ownership_ok (he_run garbage he_start ops).
Proof.
  intros M. induction ops as [|o ops IH] using rev_ind; intros C; [split; discriminate|].
  apply Forall_app in M. destruct M as [M Mo]. inversion Mo as [|o' l Mo' _]. subst. rewrite run_snoc.
  assert (Q : ownership_ok (he_run garbage he_start ops)) by (apply IH; [exact M|]; intros o1 x o2 E; apply (C o1 x (o2 ++ [o])); rewrite E, <- app_assoc; reflexivity).
  destruct (he_run garbage he_start ops) as [s|u|] eqn:R; cbn [bind]; [|destruct Q as [Q1 Q2]; split; congruence|split; discriminate].
  pose proof (run_inv garbage ops [] he_start s (start_inv garbage) M R) as I. apply (proj1 (step_inv garbage _ s o I Mo')). apply (C ops o []). reflexivity.
Qed.
(** No leak and no sharing: in every state a program reaches, every context that is alive belongs to exactly one
    object, and once no object is left, every context that was ever allocated has been freed. *)
Theorem C54_no_leak garbage ops s : Forall op_memory_ok ops -> he_run garbage he_start ops = Ret s ->
  (forall p a c, nth_error (s_heap s) p = Some (Live a c) ->
     exists i e, obj_of s i = Some e /\ h_ctx e = Some p /\ h_alg e = a /\ forall j e', obj_of s j = Some e' -> h_ctx e' = Some p -> j = i) /\
  (Forall (fun o => o = None) (s_objs s) -> Forall (fun x => x = Freed) (s_heap s)).
Proof.
  intros M R. pose proof (run_inv garbage ops [] he_start s (start_inv garbage) M R) as I.
  assert (A : forall p a c, nth_error (s_heap s) p = Some (Live a c) ->
     exists i e, obj_of s i = Some e /\ h_ctx e = Some p /\ h_alg e = a /\ forall j e', obj_of s j = Some e' -> h_ctx e' = Some p -> j = i).
  { intros p a c E. destruct (i_own _ _ _ I p a c E) as (i & e & E1 & E2 & E3). exists i, e. repeat (split; [assumption|]). intros j e' E4 E5.
    apply (i_inj _ _ _ I j i e' e p E4 E1 E5 E2). }
  split; [exact A|]. intros N. apply Forall_forall. intros x Hx. apply In_nth_error in Hx. destruct Hx as [p Hp]. destruct x as [|a c]; [reflexivity|].
  destruct (A p a c Hp) as (i & e & E & _). unfold obj_of in E. destruct (nth_error (s_objs s) i) as [[e'|]|] eqn:X; try discriminate.
  apply nth_error_In in X. rewrite Forall_forall in N. specialize (N _ X). discriminate.
Qed.
(** the objects are those the calls say: an object is there, with its context alive, exactly when it is not [Absent] or [Broken] *)
Theorem C54_alive garbage ops s i g : Forall op_memory_ok ops -> he_run garbage he_start ops = Ret s -> nth_error (spec_run ops) i = Some g ->
  match g with
  | Absent => obj_of s i = None
  | Feeding a _ | Digested a => exists e p c, obj_of s i = Some e /\ h_alg e = a /\ h_ctx e = Some p /\ nth_error (s_heap s) p = Some (Live a c)
  | Broken a => exists e p, obj_of s i = Some e /\ h_alg e = a /\ h_ctx e = Some p /\ nth_error (s_heap s) p = Some Freed
  end.
Proof.
  intros M R G. pose proof (run_inv garbage ops [] he_start s (start_inv garbage) M R) as I. pose proof (i_obj _ _ _ I i g G) as O.
  destruct g as [|a ps|a|a]; cbn [obj_inv] in O.
  - exact O.
  - destruct O as (p & out & c & g0 & X & Y & _). eexists _, p, c. split; [exact X|]. cbn [h_alg h_ctx]. auto.
  - destruct O as (p & out & c & X & Y & _). eexists _, p, c. split; [exact X|]. cbn [h_alg h_ctx]. auto.
  - destruct O as (p & out & X & Y). eexists _, p. split; [exact X|]. cbn [h_alg h_ctx]. auto.
Qed.
(** The violation, in general: any call on an object whose last reset threw, be it only its destructor, uses the
    freed context (a character pointer without a NUL is read out of bounds before that). *)
Theorem C54_broken_violation garbage ops s o i a : Forall op_memory_ok ops -> he_run garbage he_start ops = Ret s ->
  target o = Some i -> nth_error (spec_run ops) i = Some (Broken a) -> (forall mem, o = OpCstr i mem -> In 0 mem) ->
  he_step garbage s o = UB DoubleFree.
Proof.
  intros M R T G Z. pose proof (run_inv garbage ops [] he_start s (start_inv garbage) M R) as I.
  destruct (step_broken garbage _ s o i a I T G) as [X|(mem & E & N)]; [exact X|]. exfalso. apply N, Z. exact E.
Qed.
(** The shortest such program, for every algorithm: construct, a reset during which the allocation fails, leave the scope. *)
Theorem C54_violation garbage a r f : he_run garbage he_start [OpNew a r (Some f); OpReset 0 None; OpDestroy 0] = UB DoubleFree.
Proof.
  cbn [he_run he_step]. unfold he_new, destroy_context, he_reset, destroy_context. cbn [h_ctx].
  replace (if alg_code a =? rh_alg r then Ret (s_heap he_start) else Ret (s_heap he_start)) with (@Ret heap []) by (destruct (_ =? _); reflexivity).
  cbn [bind load_algorithm h_alg h_out he_start s_objs s_res length app obj_of nth_error s_heap]. unfold obj_of. cbn [s_objs nth_error he_reset].
  unfold destroy_context, delete. cbn [h_ctx h_alg s_heap].
  rewrite (load_live [Live a (he_init a (f a))] 0 a (he_init a (f a)) eq_refl). cbn [bind store firstn skipn app load_algorithm s_objs s_res he_delete put nth_error h_ctx h_alg]. reflexivity.
Qed.
(** a constructor whose allocation fails leaves nothing behind *)
Theorem C54_constructor_fails garbage ops s a r : he_run garbage he_start ops = Ret s ->
  exists s', he_step garbage s (OpNew a r None) = Ret s' /\ s_heap s' = s_heap s /\ s_objs s' = s_objs s ++ [None].
Proof.
  intros _. cbn [he_step]. unfold he_new, he_reset, destroy_context. cbn [h_ctx].
  replace (if alg_code a =? rh_alg r then Ret (s_heap s) else Ret (s_heap s)) with (Ret (s_heap s)) by (destruct (_ =? _); reflexivity).
  cbn [bind load_algorithm]. eexists. split; [reflexivity|]. split; reflexivity.
Qed.

(** ** C55: the digests *)
(** Whatever else the program did with this and other objects, the digest is that of the data fed to this object
    since its construction or its last reset. *)
Theorem C55_digest garbage ops s i a ps junk :
  Forall op_memory_ok ops -> he_run garbage he_start ops = Ret s ->
  nth_error (spec_run ops) i = Some (Feeding a ps) -> Forall (piece_ok a) ps -> message_ok a (concat ps) ->
  message_std a (concat ps) ->
  exists s', he_step garbage s (OpDigest i (8 * size_digest a) junk) = Ret s' /\
    s_res s' = std_digest a (N.to_nat (size_digest a)) (concat ps) :: s_res s.
Proof.
  intros M R G HP HT HS. destruct (C53_clean garbage ops s i a ps (8 * size_digest a) junk M R G HP HT HS) as (s' & E & F).
  - unfold clean_bits. rewrite xof_flag. destruct a; cbn [shake_flag size_digest]; ((left; repeat split; vm_compute; reflexivity) || (right; split; [discriminate|right; vm_compute; discriminate])).
  - exists s'. split; [exact E|]. rewrite F. do 2 f_equal. rewrite N.mul_comm, N.div_mul by discriminate. reflexivity.
Qed.
(** the padding deviation (C20) is the only other case: on every supported message the library's digest is returned *)
Theorem C55_lib_digest garbage ops s i a ps junk :
  Forall op_memory_ok ops -> he_run garbage he_start ops = Ret s ->
  nth_error (spec_run ops) i = Some (Feeding a ps) -> Forall (piece_ok a) ps -> message_ok a (concat ps) -> ~ is_xof a ->
  exists s', he_step garbage s (OpDigest i 0 junk) = Ret s' /\ s_res s' = lib_digest a 0 (concat ps) :: s_res s.
Proof.
  intros M R G HP HT HX. destruct (C53_get_digest garbage ops s i a ps 0 junk M R G HP HT) as [_ Y].
  destruct Y as (s' & d & E & F & D).
  - intros [[Z _]|[_ Z]]; [contradiction|]. change (0 / 8 + 0 mod 8) with 0 in Z. lia.
  - exists s'. split; [exact E|]. rewrite F. f_equal. destruct D as [[_ ->]|[Z _]]; [reflexivity|contradiction].
Qed.
(** the context after feeding supported pieces exists: feeding cannot fail *)
Lemma feed_ok garbage ps a g0 p c : he_typed a g0 -> he_updates garbage a (he_init a g0) ps = Ret c ->
  Forall (piece_ok a) (ps ++ [p]) -> message_ok a (concat (ps ++ [p])) -> exists c', he_update garbage a c p = Ret c'.
Proof.
  intros T U HP HT. destruct (he_facts garbage a) as (_ & _ & _ & K). destruct (K g0 (ps ++ [p]) T HP HT) as (c' & E & _).
  rewrite <- he_updates_fold, he_updates_app, U in E. cbn [bind he_updates] in E. inv_bind E. eauto.
Qed.
(** what the history has fed to an object is within the limits *)
Definition fed_ok (gs : list spec_obj) : Prop := forall i a ps, nth_error gs i = Some (Feeding a ps) -> Forall (piece_ok a) ps /\ message_ok a (concat ps).
Lemma fed_ok_app gs g : fed_ok gs -> (forall a ps, g = Feeding a ps -> ps = []) -> fed_ok (gs ++ [g]).
Proof.
  intros F H i a ps E. destruct (Nat.lt_ge_cases i (length gs)) as [L|L].
  - rewrite nth_error_app1 in E by exact L. apply (F i). exact E.
  - rewrite nth_error_app2 in E by exact L. destruct (i - length gs)%nat as [|k]; [|destruct k; discriminate]. cbn [nth_error] in E. injection E as E.
    rewrite (H a ps E). split; [constructor|]. destruct a; cbn [message_ok concat]; try exact Logic.I; vm_compute; reflexivity.
Qed.
Lemma fed_ok_at gs i f : fed_ok gs -> (forall g a ps, nth_error gs i = Some g -> f g = Feeding a ps -> Forall (piece_ok a) ps /\ message_ok a (concat ps)) -> fed_ok (at_obj gs i f).
Proof.
  intros F H j a ps E. destruct (nth_error gs i) as [g|] eqn:G; [|unfold at_obj in E; rewrite G in E; apply (F j); exact E].
  rewrite (at_upd gs i f g G), nth_upd in E by (eapply nth_lt; exact G). destruct (Nat.eqb j i); [injection E as E; apply (H g); auto|apply (F j); exact E].
Qed.
Lemma empty_ok a : Forall (piece_ok a) [] /\ message_ok a (concat []).
Proof. split; [constructor|]. destruct a; cbn [message_ok concat]; try exact Logic.I; vm_compute; reflexivity. Qed.
Lemma call_fed gs o : fed_ok gs -> call_ok gs o -> fed_ok (spec_step gs o).
Proof.
  intros F C. destruct o as [a r al|i al|i data|i mem|i bl junk|i]; cbn [spec_step].
  - apply fed_ok_app; [exact F|]. intros b ps E. destruct (granted al); [injection E as _ <-; reflexivity|discriminate].
  - apply fed_ok_at; [exact F|]. intros g a ps _ E. assert (ps = []) by (destruct g; cbn [resets] in E; destruct (granted al); try discriminate; injection E as _ <-; reflexivity).
    subst ps. apply empty_ok.
  - apply fed_ok_at; [exact F|]. intros g a ps G E. unfold call_ok in C. cbn [target] in C. rewrite G in C.
    destruct g as [|b qs|b|b]; cbn [feeds] in E; try discriminate. injection E as -> <-. destruct (F i a qs G) as [F1 _]. destruct C as [C1 C2]. split; [|exact C2].
    apply Forall_app. split; [exact F1|]. constructor; [exact C1|constructor].
  - apply fed_ok_at; [exact F|]. intros g a ps G E. unfold call_ok in C. cbn [target] in C. rewrite G in C.
    destruct g as [|b qs|b|b]; cbn [feeds] in E; try discriminate. injection E as -> <-. destruct (F i a qs G) as [F1 _]. destruct C as (_ & C1 & C2). split; [|exact C2].
    apply Forall_app. split; [exact F1|]. constructor; [exact C1|constructor].
  - apply fed_ok_at; [exact F|]. intros g a ps G E. destruct g; discriminate.
  - apply fed_ok_at; [exact F|]. intros g a ps G E. discriminate.
Qed.
Lemma call_runs garbage gs s o : inv garbage gs s -> fed_ok gs -> op_memory_ok o -> call_ok gs o -> exists s', he_step garbage s o = Ret s'.
Proof.
  intros I F M C. destruct (target o) as [i|] eqn:T.
  2:{ destruct o; try discriminate. destruct (step_new garbage gs s a r al I M) as (s' & E & _). eauto. }
  unfold call_ok in C. rewrite T in C. destruct (nth_error gs i) as [g|] eqn:G.
  2:{ destruct (step_absent garbage gs s o i I T (or_introl G)) as [E _]. eauto. }
  destruct g as [|a ps|a|a].
  - destruct (step_absent garbage gs s o i I T (or_intror G)) as [E _]. eauto.
  - destruct (F i a ps G) as [F1 F2]. destruct o as [b r al|j al|j data|j mem|j bl junk|j]; cbn [target] in T; try discriminate; injection T as ->.
    + destruct (live_reset garbage gs s i _ a al I M G eq_refl) as (s' & E & _). eauto.
    + destruct (live_update garbage gs s i _ a data I G eq_refl) as (p & c & _ & FD & S & _). destruct (FD ps eq_refl) as (g0 & T0 & U0). destruct C as [C1 C2].
      destruct (feed_ok garbage ps a g0 data c T0 U0) as (c' & E); [apply Forall_app; auto|exact C2|]. rewrite S, E. cbn [bind]. eauto.
    + destruct C as (Z & C1 & C2). destruct (live_obj garbage gs s i _ a I G eq_refl) as (p & out & c & E & _). destruct (step_cstr garbage gs s i mem _ E Z) as [-> _].
      destruct (live_update garbage gs s i _ a (upto_nul mem) I G eq_refl) as (p' & c' & _ & FD & S & _). destruct (FD ps eq_refl) as (g0 & T0 & U0).
      destruct (feed_ok garbage ps a g0 (upto_nul mem) c' T0 U0) as (c2 & E2); [apply Forall_app; auto|exact C2|]. rewrite S, E2. cbn [bind]. eauto.
    + destruct (live_digest garbage gs s i _ a bl junk I G eq_refl) as (p & c & objs & _ & FD & S & _). destruct (FD ps eq_refl) as (g0 & T0 & U0).
      destruct (he_facts garbage a) as (_ & _ & _ & K). destruct (K g0 ps T0 F1 F2) as (c' & E & D & _). rewrite <- he_updates_fold, U0 in E. injection E as <-.
      destruct (D (fill_bits a bl) (stack_array junk (N.to_nat (out_len a (size_digest a) bl)))) as (c2 & E2); [rewrite stack_len; apply (size_fit a bl C)|].
      rewrite S, E2. cbn [bind]. eauto.
    + destruct (live_destroy garbage gs s i _ a I G eq_refl) as (s' & E & _). eauto.
  - destruct o as [b r al|j al|j data|j mem|j bl junk|j]; cbn [target] in T; try discriminate; try contradiction; injection T as ->.
    + destruct (live_reset garbage gs s i _ a al I M G eq_refl) as (s' & E & _). eauto.
    + destruct (live_destroy garbage gs s i _ a I G eq_refl) as (s' & E & _). eauto.
  - contradiction.
Qed.
(** every history of supported calls runs to its end *)
Theorem C55_total garbage ops : Forall op_memory_ok ops -> history_ok [] ops -> exists s, he_run garbage he_start ops = Ret s.
Proof.
  intros M H. assert (G : forall gs s, inv garbage gs s -> fed_ok gs -> history_ok gs ops -> exists s', he_run garbage s ops = Ret s').
  { clear H. induction M as [|o ops Mo M IH]; intros gs s I F H; [exists s; reflexivity|]. cbn [history_ok] in H. destruct H as [H1 H2].
    destruct (call_runs garbage gs s o I F Mo H1) as (s1 & E). cbn [he_run]. rewrite E. cbn [bind]. apply (IH (spec_step gs o)); [|apply call_fed; assumption|exact H2].
    apply (proj2 (step_inv garbage gs s o I Mo)). exact E. }
  apply (G [] he_start); [apply start_inv| |exact H]. intros i a ps E. destruct i; discriminate.
Qed.
(** For a whole program: all the digests it is given are the standards' digests of the data each object was fed. *)
Lemma other_res garbage s o s' : he_step garbage s o = Ret s' -> (forall i bl junk, o <> OpDigest i bl junk) -> s_res s' = s_res s.
Proof.
  intros E N. destruct o as [a r al|i al|i data|i mem|i bl junk|i]; cbn [he_step] in E; [| | | |exfalso; eapply N; reflexivity|].
  - apply bind_inv in E. destruct E as ([[h' e'] ok] & _ & E). injection E as <-. reflexivity.
  - destruct (obj_of s i); [|injection E as <-; reflexivity]. apply bind_inv in E. destruct E as ([[h' e'] ok] & _ & E). injection E as <-. reflexivity.
  - destruct (obj_of s i); [|injection E as <-; reflexivity]. inv_bind E. injection E as <-. reflexivity.
  - destruct (obj_of s i); [|injection E as <-; reflexivity]. inv_bind E. injection E as <-. reflexivity.
  - destruct (obj_of s i); [|injection E as <-; reflexivity]. inv_bind E. injection E as <-. reflexivity.
Qed.
Theorem C55_whole_program garbage ops : Forall op_memory_ok ops -> history_ok [] ops -> clean_history [] ops ->
  exists s, he_run garbage he_start ops = Ret s /\ rev (s_res s) = expected [] ops.
Proof.
  intros M H C.
  assert (G : forall post pre s, Forall op_memory_ok (pre ++ post) -> he_run garbage he_start pre = Ret s -> fed_ok (spec_run pre) ->
    history_ok (spec_run pre) post -> clean_history (spec_run pre) post ->
    exists s', he_run garbage s post = Ret s' /\ rev (s_res s') = rev (s_res s) ++ expected (spec_run pre) post).
  { clear. induction post as [|o post IH]; intros pre s M R F H C; [exists s; cbn [he_run expected]; rewrite app_nil_r; auto|].
    cbn [history_ok clean_history] in H, C. destruct H as [H1 H2]. destruct C as [C1 C2].
    assert (M' := M). apply Forall_app in M'. destruct M' as [Mp Mq]. inversion Mq as [|o' l Mo Ml]. subst.
    pose proof (fed_inv garbage pre s Mp R) as I. destruct (call_runs garbage _ s o I F Mo H1) as (s1 & E).
    assert (SR : spec_run (pre ++ [o]) = spec_step (spec_run pre) o) by (unfold spec_run; rewrite fold_left_app; reflexivity).
    destruct (IH (pre ++ [o]) s1) as (s2 & R2 & E2).
    - rewrite <- app_assoc. exact M.
    - rewrite run_snoc, R. exact E.
    - rewrite SR. apply call_fed; assumption.
    - rewrite SR. exact H2.
    - rewrite SR. exact C2.
    - exists s2. cbn [he_run]. rewrite E. cbn [bind]. split; [exact R2|]. rewrite E2, SR. cbn [expected]. rewrite app_assoc. f_equal.
      destruct o as [a r al|i al|i data|i mem|i bl junk|i]; try (rewrite app_nil_r; f_equal; apply (other_res garbage s _ s1 E); discriminate).
      unfold call_ok in H1. cbn [target] in H1. destruct (nth_error (spec_run pre) i) as [g|] eqn:Gi.
      + destruct g as [|a ps|a|a].
        * destruct (step_absent garbage _ s (OpDigest i bl junk) i I eq_refl (or_intror Gi)) as [X _]. rewrite X in E. injection E as <-. rewrite app_nil_r. reflexivity.
        * destruct C1 as [C3 C4]. destruct (F i a ps Gi) as [F1 F2]. destruct (C53_clean garbage pre s i a ps bl junk Mp R Gi F1 F2 C3 C4) as (s3 & E3 & R3).
          rewrite E in E3. injection E3 as <-. rewrite R3. reflexivity.
        * contradiction.
        * contradiction.
      + destruct (step_absent garbage _ s (OpDigest i bl junk) i I eq_refl (or_introl Gi)) as [X _]. rewrite X in E. injection E as <-. rewrite app_nil_r. reflexivity. }
  destruct (G ops [] he_start M eq_refl) as (s & R & E); auto.
  { intros i a ps E. destruct i; discriminate. }
  exists s. split; [exact R|exact E].
Qed.

(** ** Non-vacuity *)
(** memory with leftovers in it *)
Definition dirty_memory (a : alg_choice) : he_ctx a :=
  match a with
  | A_MD5 => mkMd5 [7; 7; 7; 7] 40 (repeat 7 64)
  | A_SHA384 | A_SHA512 | A_SHA512_224 | A_SHA512_256 => mkSha [1; 2; 3; 4; 5; 6; 7; 8] 7 9 11 (repeat 3 128)
  | A_SHA1 | A_SHA224 | A_SHA256 => mkSha [1; 2; 3; 4; 5; 6; 7; 8] 7 9 11 (repeat 3 64)
  | _ => mkK (repeat 5 25) (repeat 5 192) 3 3 3 3 true 3 3 3 true
  end.
Example dirty_ok : memory_ok (Some dirty_memory).
Proof. intros a. destruct a; try reflexivity; split; reflexivity. Qed.
Definition raw0 : raw_henc := mkRawH 99 1 2.
(** two objects used in turn, one reset in between, all destroyed *)
Definition program : list he_op :=
  [OpNew A_MD5 raw0 (Some dirty_memory); OpUpdate 0 (chars "xyz"); OpNew A_SHA1 raw0 (Some dirty_memory); OpReset 0 (Some dirty_memory);
   OpUpdate 0 (chars "a"); OpCstr 1 (chars "ab" ++ [0; 9]); OpUpdate 0 (chars "bc"); OpNew A_SHA256 raw0 None; OpUpdate 1 (chars "c"); OpDigest 0 0 (fun _ => 5); OpDestroy 0;
   OpDigest 1 160 (fun _ => 6); OpDestroy 1].
Lemma small_bytes (l : list N) : forallb (fun x => x <? 256) l = true -> bytes_ok l.
Proof. intros H. apply Forall_forall. intros x Hx. rewrite forallb_forall in H. apply N.ltb_lt. apply H. exact Hx. Qed.
Example program_ok : Forall op_memory_ok program /\ history_ok [] program /\ clean_history [] program /\ length (expected [] program) = 2%nat.
Proof.
  split; [|split; [|split]].
  - unfold program. repeat (apply Forall_cons; [try exact dirty_ok; exact Logic.I|]). apply Forall_nil.
  - unfold program. cbn [history_ok call_ok target spec_step app at_obj nth_error granted firstn skipn feeds resets digests upto_nul chars].
    assert (NX : ~ is_xof A_MD5 /\ ~ is_xof A_SHA1) by (split; rewrite xof_flag; discriminate). destruct NX as [NX1 NX2].
    repeat match goal with |- _ /\ _ => split end; try exact Logic.I; try (apply small_bytes; vm_compute; reflexivity); try discriminate; try (vm_compute; reflexivity); try (vm_compute; tauto).
    1,2,3,4,5: (split; [apply small_bytes; vm_compute; reflexivity|vm_compute; (discriminate || reflexivity)]).
    + intros [[X _]|[_ X]]; [contradiction|vm_compute in X; destruct X; discriminate].
    + intros [[X _]|[_ X]]; [contradiction|vm_compute in X; destruct X; discriminate].
  - unfold program. cbn [clean_history spec_step app at_obj nth_error granted firstn skipn feeds resets digests].
    assert (NX : ~ is_xof A_MD5 /\ ~ is_xof A_SHA1) by (split; rewrite xof_flag; discriminate). destruct NX as [NX1 NX2].
    repeat match goal with |- _ /\ _ => split end; try exact Logic.I.
    + right. split; [exact NX1|left; reflexivity].
    + vm_compute. lia.
    + right. split; [exact NX2|right; vm_compute; discriminate].
  - reflexivity.
Qed.
Example program_run : omap (fun s => (rev (s_res s), s_objs s)) (he_run (Some 0) he_start program) =
  Ret ([be_bytes 16 0x900150983cd24fb0d6963f7d28e17f72; be_bytes 20 0xa9993e364706816aba3e25717850c26c9cd0d89d], [None; None; None]).
Proof. vm_compute. reflexivity. Qed.
(** a careful history with a failed reset, and a careless one *)
Example careful_hyp : careful [OpNew A_MD5 raw0 (Some dirty_memory); OpReset 0 None] /\ ~ careful [OpNew A_MD5 raw0 (Some dirty_memory); OpReset 0 None; OpDestroy 0].
Proof.
  split.
  - intros ops1 o ops2 E (i & a & T & B). destruct ops1 as [|o1 [|o2 [|o3 ops1]]]; cbn [app] in E.
    + injection E as <- _. discriminate.
    + injection E as <- <- _. injection T as <-. discriminate.
    + injection E as _ _ E. discriminate.
    + injection E as _ _ E. discriminate.
  - intros C. apply (C [OpNew A_MD5 raw0 (Some dirty_memory); OpReset 0 None] (OpDestroy 0) [] eq_refl). exists 0%nat, A_MD5. split; reflexivity.
Qed.
(** the arguments that overrun, and those that leave uninitialised bytes *)
Example overrun_args : overruns A_SHAKE128 0 /\ overruns A_SHA256 8 /\ ~ overruns A_SHA256 0 /\ ~ overruns A_SHAKE128 8 /\ ~ overruns A_SHA256 256.
Proof.
  unfold overruns. rewrite !xof_flag. cbn [shake_flag]. split; [left; auto|]. split; [right; split; [discriminate|vm_compute; auto]|].
  split; [|split]; intros [[X Y]|[X Y]]; try discriminate; try (apply X; reflexivity); vm_compute in Y; destruct Y; discriminate.
Qed.
Definition shake_program : list he_op := [OpNew A_SHAKE128 raw0 (Some dirty_memory); OpUpdate 0 (chars "abc")].
Example shake_hyps : Forall op_memory_ok shake_program /\ spec_run shake_program = [Feeding A_SHAKE128 [chars "abc"]] /\
  Forall (piece_ok A_SHAKE128) [chars "abc"] /\ message_ok A_SHAKE128 (concat [chars "abc"]) /\ clean_bits A_SHAKE128 16.
Proof.
  split; [unfold shake_program; repeat (apply Forall_cons; [try exact dirty_ok; exact Logic.I|]); apply Forall_nil|]. split; [reflexivity|].
  split; [|split; [exact Logic.I|left; rewrite xof_flag; vm_compute; auto]]. apply Forall_cons; [|apply Forall_nil]. split; [apply small_bytes; reflexivity|vm_compute; discriminate].
Qed.
(** 12 bits of SHAKE128("abc") asked for: one byte of it, then four bytes of the stack *)
Example dirty_run : omap s_res (s <- he_run (Some 0) he_start shake_program ;; he_step (Some 0) s (OpDigest 0 12 (fun i => 100 + i))) = Ret [[0x58; 101; 102; 103; 104]].
Proof. vm_compute. reflexivity. Qed.

Print Assumptions C53_get_digest.
Print Assumptions C53_clean.
Print Assumptions C53_dirty_violation.
Print Assumptions C54_ownership.
Print Assumptions C54_no_leak.
Print Assumptions C54_alive.
Print Assumptions C54_broken_violation.
Print Assumptions C54_violation.
Print Assumptions C54_constructor_fails.
Print Assumptions C55_digest.
Print Assumptions C55_lib_digest.
Print Assumptions C55_total.
Print Assumptions C55_whole_program.
