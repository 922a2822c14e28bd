(** Property theorems C81: variadic calls with sizes of type int. *)
From Coq Require Import String.
From Verif Require Import Base SHex MSha MFront MMd5 MKeccak SHash SHashFns PShort PTyped PropFront MHmac SHmac PHmac PropHmac MVariadic SVariadic.
Local Open Scope N_scope.

Lemma streams_upd I P T H : hash_fn I P T H -> forall g ps, typed I g -> Forall P ps -> T (concat ps) -> exists c, updates I (iinit I g) ps = Ret c.
Proof.
  intros K g ps Hg HP HT. destruct (hash_streams _ _ _ _ K g ps (repeat 0 (idsz I)) Hg HP HT) as (c & _ & E & _); [rewrite repeat_length; lia|]. eauto.
Qed.
Lemma va_size_slot i hi : in_bounds i -> hi = 0 \/ in_how i = AsSize -> va_size (size_slot i hi) = Ret (in_size i).
Proof.
  intros [_ B] H. unfold size_slot. destruct (in_how i); cbn [va_size].
  - unfold u64. rewrite N.mod_small by exact B. reflexivity.
  - destruct H as [->|]; [|discriminate]. unfold u32. rewrite N.mod_small by lia. f_equal. lia.
Qed.
Lemma va_loop_ok I : forall is hi c n rest, Forall in_bounds is -> (forall k i, nth_error is k = Some i -> in_how i = AsInt -> hi k = 0) -> n = length is ->
  va_loop I c n (slots hi is ++ rest) = multi_loop I c (map meant is).
Proof.
  induction is as [|i is IH]; intros hi c n rest F H ->; [reflexivity|]. inversion F as [|? ? B F']; subst. cbn [length slots app va_loop map va_ptr bind multi_loop].
  rewrite va_size_slot; [|exact B|]. 2:{ destruct (in_how i) eqn:X; [auto|]. left. apply (H 0%nat i); auto. }
  cbn [bind]. assert (G : forall c, va_loop I c (length is) (slots (fun n => hi (S n)) is ++ rest) = multi_loop I c (map meant is)).
  { intros c0. apply IH; auto. intros k j Hj. apply (H (S k) j). exact Hj. }
  unfold meant at 1. destruct (in_ptr i) as [mem|] eqn:P; cbn [option_map].
  - destruct B as [B _]. rewrite P in B. unfold update_n. replace (in_size i <=? N.of_nat (length mem)) with true by (symmetry; apply N.leb_le; exact B).
    destruct (iupdate I c _); cbn [bind]; auto.
  - apply G.
Qed.

(** with sizes of type size_t, or ints whose slots have zero upper halves, the call computes the hash of the data meant; further arguments
    beyond input_c pairs are ignored *)
Theorem C81_data_meant : forall I P T H, hash_fn I P T H ->
  forall g is hi rest out, typed I g -> Forall in_bounds is -> (forall k i, nth_error is k = Some i -> in_how i = AsInt -> hi k = 0) ->
  Forall P (present (map meant is)) -> T (concat (present (map meant is))) -> (idsz I <= length out)%nat ->
  encode_multiple_va I g out (length is) (slots hi is ++ rest) = Ret (H (concat (present (map meant is))) ++ skipn (idsz I) out).
Proof.
  intros I P T H K g is hi rest out Hg B Z HP HT Ho. rewrite <- (C30_multiple_is_concatenation I P T H K g) by assumption.
  unfold encode_multiple_va, encode_multiple. rewrite (va_loop_ok I is hi) by auto. reflexivity.
Qed.
Print Assumptions C81_data_meant.

(** ** violations *)
Lemma va_loop_app I : forall is hi c n rest, Forall in_bounds is -> (forall k i, nth_error is k = Some i -> in_how i = AsInt -> hi k = 0) ->
  va_loop I c (length is + n) (slots hi is ++ rest) = (c <- multi_loop I c (map meant is) ;; va_loop I c n rest).
Proof.
  induction is as [|i is IH]; intros hi c n rest F H; [reflexivity|]. inversion F as [|? ? B F']; subst. cbn [length Nat.add slots app va_loop map va_ptr bind multi_loop].
  rewrite va_size_slot; [|exact B|]. 2:{ destruct (in_how i) eqn:X; [auto|]. left. apply (H 0%nat i); auto. }
  cbn [bind]. assert (G : forall c, va_loop I c (length is + n) (slots (fun n => hi (S n)) is ++ rest) = (c <- multi_loop I c (map meant is) ;; va_loop I c n rest)).
  { intros c0. apply IH; auto. intros k j Hj. apply (H (S k) j). exact Hj. }
  unfold meant at 1. destruct (in_ptr i) as [mem|] eqn:P; cbn [option_map].
  - destruct B as [B _]. rewrite P in B. unfold update_n. replace (in_size i <=? N.of_nat (length mem)) with true by (symmetry; apply N.leb_le; exact B).
    destruct (iupdate I c _); cbn [bind]; auto.
  - apply G.
Qed.
(** an int size with anything else in the upper half of its slot: the call reads memory that is not the caller's, whatever follows *)
Theorem C81_int_size_refuted : forall I P T H, hash_fn I P T H ->
  forall g before hi mem size h after out, typed I g -> Forall in_bounds before -> (forall k i, nth_error before k = Some i -> in_how i = AsInt -> hi k = 0) ->
  Forall P (present (map meant before)) -> T (concat (present (map meant before))) ->
  N.of_nat (length mem) < 2 ^ 32 -> 0 < h < 2 ^ 32 -> forall n, (length before < n)%nat ->
  encode_multiple_va I g out n (slots hi before ++ SPtr (Some mem) :: SInt size h :: after) = UB OutOfBounds.
Proof.
  intros I P T H K g before hi mem size h after out Hg B Z HP HT L Hh n Hn.
  replace n with (length before + S (n - length before - 1))%nat by lia. unfold encode_multiple_va. rewrite va_loop_app by assumption.
  destruct (streams_upd I P T H K g (present (map meant before)) Hg HP HT) as (c & U). rewrite multi_present, U. cbn [bind va_loop va_ptr va_size].
  unfold update_n. unfold u32 at 2. rewrite (N.mod_small h) by lia. destruct (N.leb_spec (u32 size + 2 ^ 32 * h) (N.of_nat (length mem))) as [X|X]; [|reflexivity].
  exfalso. pose proof (N.le_0_l (u32 size)). lia.
Qed.
Print Assumptions C81_int_size_refuted.
(** fewer pairs than input_c says: the call reads arguments that were not passed *)
Theorem C81_missing_refuted : forall I P T H, hash_fn I P T H ->
  forall g is hi out n, typed I g -> Forall in_bounds is -> (forall k i, nth_error is k = Some i -> in_how i = AsInt -> hi k = 0) ->
  Forall P (present (map meant is)) -> T (concat (present (map meant is))) -> (length is < n)%nat ->
  encode_multiple_va I g out n (slots hi is) = UB OutOfBounds.
Proof.
  intros I P T H K g is hi out n Hg B Z HP HT Hn.
  replace n with (length is + S (n - length is - 1))%nat by lia. rewrite <- (app_nil_r (slots hi is)). unfold encode_multiple_va. rewrite va_loop_app by assumption.
  destruct (streams_upd I P T H K g (present (map meant is)) Hg HP HT) as (c & U). rewrite multi_present, U. reflexivity.
Qed.
Print Assumptions C81_missing_refuted.
(** C81: an argument of another kind where a pointer is read (the size passed first, or left-over sizes) is undefined too *)
Theorem C81_mixed_refuted : forall I P T H, hash_fn I P T H ->
  forall g is hi out n s after, typed I g -> Forall in_bounds is -> (forall k i, nth_error is k = Some i -> in_how i = AsInt -> hi k = 0) ->
  Forall P (present (map meant is)) -> T (concat (present (map meant is))) -> (length is < n)%nat -> (exists v, s = SSize v) \/ (exists v h, s = SInt v h) ->
  encode_multiple_va I g out n (slots hi is ++ s :: after) = UB OutOfBounds.
Proof.
  intros I P T H K g is hi out n s after Hg B Z HP HT Hn Hs.
  replace n with (length is + S (n - length is - 1))%nat by lia. unfold encode_multiple_va. rewrite va_loop_app by assumption.
  destruct (streams_upd I P T H K g (present (map meant is)) Hg HP HT) as (c & U). rewrite multi_present, U. cbn [bind va_loop].
  destruct after as [|s2 after]; [reflexivity|]. destruct Hs as [(v & ->)|(v & h & ->)]; reflexivity.
Qed.
Print Assumptions C81_mixed_refuted.



(** ** pgfe_hmac_*_digest, whose two sizes are int constants *)
(** set the key, add the pieces, take the digest, with the upper halves [hi1], [hi2] *)
Definition hmac_run_va (I : hash_impl) (hi1 hi2 : N) (c : hmac_ctx I) (key : list N) (ps : list (list N)) (l : hmac_locals I) (out : list N) : outcome (list N) :=
  c <- hmac_ops I c (HKey key :: map HUpdate ps) ;; omap snd (hmac_digest_va I hi1 hi2 l c out).
Lemma run_va garbage a P M H B D : good garbage a P M H B D -> M [] -> exists I, sp_case garbage a = Some I /\
  forall c key ps l out, hmac_typed c -> bytes_ok key -> Forall P ps -> M (concat ps) -> locals_ok l -> (D <= length out)%nat ->
  hmac_run_va I 0 0 c key ps l out = hmac_run I c key ps l out /\
  (forall h1 h2, h1 < 2 ^ 32 -> h2 < 2 ^ 32 -> h1 <> 0 \/ h2 <> 0 -> hmac_run_va I h1 h2 c key ps l out = UB OutOfBounds).
Proof.
  intros [(I & T & E & <- & <- & S & Kp & TM & TD) HP HB HS] M0. exists I. split; [exact E|].
  intros c key ps l out [Hc _] Hk Hps HM Hl Ho. set (kb := arrcpy (iblock I) key).
  assert (L : length kb = iblock I) by apply arrcpy_length. assert (Bk : bytes_ok kb) by (apply arrcpy_bytes; exact Hk).
  assert (TP : forall v, T (xor_pad v kb)). { intros v. specialize (TM (xor_pad v kb) []). rewrite app_nil_r in TM. apply TM; [rewrite xor_pad_length; exact L|exact M0]. }
  destruct (set_key_keyed I P T H S HP HB HS c key Hc Hk) as (c1 & E1 & K1); [apply TP|]. fold kb in K1.
  assert (Ht : T (xor_pad 0x36 kb ++ concat ps)) by (apply TM; [rewrite xor_pad_length; exact L|exact HM]).
  destruct (updates_keyed I P T H S HP HB HS kb L Bk [] ps c1 K1 (Forall_nil _) Hps Ht) as (c2 & E2 & K2). cbn [app] in K2.
  destruct K2 as (g & Hg & U & _ & O2). destruct Hl as [Lm Hl].
  assert (PP : forall v, v < 256 -> P (xor_pad v kb)) by (intros v Hv; exact (pad_piece I P H HP HB HS v kb Hv L Bk)).
  destruct (S g (xor_pad 0x36 kb :: ps) (l_mid l) Hg) as (h & h' & U' & Dg & _ & LH); [constructor; [apply PP; reflexivity|exact Hps]|exact Ht|lia|].
  rewrite U in U'. injection U' as <-.
  destruct (one_piece I P T H S HP HB HS (l_ctx l) (xor_pad 0x5c kb) Hl) as (h1 & V1); [apply PP; reflexivity|apply TP|].
  set (mid := H (concat (xor_pad 0x36 kb :: ps)) ++ skipn (idsz I) (l_mid l)) in *.
  assert (Lmid : length mid = Datatypes.S (idsz I)) by (unfold mid; rewrite app_length, LH, skipn_length; lia).
  assert (HR : forall a b, hmac_run_va I a b c key ps l out =
     (out <- encode_multiple_va I (l_ctx l) out 2 [SPtr (Some (xor_pad 0x5c kb)); SInt (N.of_nat (iblock I)) a; SPtr (Some mid); SInt (N.of_nat (idsz I)) b] ;; Ret out)).
  { intros a0 b. unfold hmac_run_va. cbn [hmac_ops hmac_step]. rewrite E1. cbn [bind]. rewrite ops_updates, E2. cbn [bind]. unfold hmac_digest_va. rewrite Dg. cbn [bind]. rewrite O2.
    destruct (encode_multiple_va I _ _ _ _); reflexivity. }
  assert (B32 : forall n, (n <= 1024)%nat -> u32 (N.of_nat n) = N.of_nat n) by (intros n Hn; unfold u32; apply N.mod_small; lia).
  assert (F1 : firstn (N.to_nat (N.of_nat (iblock I))) (xor_pad 0x5c kb) = xor_pad 0x5c kb) by (rewrite Nat2N.id; apply firstn_all2; rewrite xor_pad_length; lia).
  split.
  - rewrite HR. unfold hmac_run. cbn [hmac_ops hmac_step]. rewrite E1. cbn [bind]. rewrite ops_updates, E2. cbn [bind]. unfold hmac_digest. rewrite Dg. cbn [bind]. rewrite O2.
    unfold encode_multiple_va, encode_multiple. cbn [va_loop va_ptr va_size bind multi_loop]. rewrite !B32 by lia. change (u32 0) with 0. rewrite !N.mul_0_r, !N.add_0_r.
    unfold update_n. rewrite xor_pad_length, L, N.leb_refl, F1, Lmid.
    replace (N.of_nat (idsz I) <=? N.of_nat (Datatypes.S (idsz I))) with true by (symmetry; apply N.leb_le; lia). rewrite Nat2N.id.
    rewrite V1. cbn [bind]. destruct (iupdate I h1 _); cbn [bind]; [|reflexivity|reflexivity]. destruct (idigest I _ out) as [[? ?]| |]; reflexivity.
  - intros a1 a2 A1 A2 Hn. rewrite HR. unfold encode_multiple_va. cbn [va_loop va_ptr va_size bind]. rewrite !B32 by lia. unfold u32. rewrite !N.mod_small by assumption.
    unfold update_n. rewrite xor_pad_length, L, Lmid. destruct (N.eq_dec a1 0) as [->|NZ].
    + rewrite N.mul_0_r, N.add_0_r, N.leb_refl, F1, V1. cbn [bind].
      replace (N.of_nat (idsz I) + 2 ^ 32 * a2 <=? N.of_nat (Datatypes.S (idsz I))) with false by (symmetry; apply N.leb_gt; lia). reflexivity.
    + replace (N.of_nat (iblock I) + 2 ^ 32 * a1 <=? N.of_nat (iblock I)) with false by (symmetry; apply N.leb_gt; lia). reflexivity.
Qed.
(** upper halves zero: HMAC, of every message and under every key, as in C34-C38 *)
Theorem C81_hmac_zero : forall garbage a P M H B D, choice_lib a P M H B D -> exists I, sp_case garbage a = Some I /\
  forall c key ps l out, hmac_typed c -> bytes_ok key -> Forall P ps -> M (concat ps) -> locals_ok l -> (D <= length out)%nat ->
  hmac_run_va I 0 0 c key ps l out = Ret (HMAC H B (firstn B key) (concat ps) ++ skipn D out).
Proof.
  intros garbage a P M H B D K. destruct (run_va _ _ _ _ _ _ _ (lib_good garbage _ _ _ _ _ _ K) (M_nil _ _ _ _ _ _ K)) as (I & E & R).
  destruct (good_run _ _ _ _ _ _ _ (lib_good garbage _ _ _ _ _ _ K) (M_nil _ _ _ _ _ _ K)) as (I' & E' & _ & _ & _ & R'). rewrite E in E'. injection E' as <-.
  exists I. split; [exact E|]. intros c key ps l out Hc Hk Hps HM Hl Ho. rewrite (proj1 (R c key ps l out Hc Hk Hps HM Hl Ho)).
  destruct (R' c key ps l out (proj1 Hc) Hk Hps HM Hl Ho) as (c1 & c2 & c3 & E1 & E2 & E3 & _). eapply run_of; eassumption.
Qed.
Print Assumptions C81_hmac_zero.
(** any other content: undefined behaviour for every algorithm, key and message *)
Theorem C81_hmac_refuted : forall garbage a P M H B D, choice_lib a P M H B D -> exists I, sp_case garbage a = Some I /\
  forall c key ps l out h1 h2, hmac_typed c -> bytes_ok key -> Forall P ps -> M (concat ps) -> locals_ok l -> (D <= length out)%nat ->
  h1 < 2 ^ 32 -> h2 < 2 ^ 32 -> h1 <> 0 \/ h2 <> 0 ->
  hmac_run_va I h1 h2 c key ps l out = UB OutOfBounds.
Proof.
  intros garbage a P M H B D K. destruct (run_va _ _ _ _ _ _ _ (lib_good garbage _ _ _ _ _ _ K) (M_nil _ _ _ _ _ _ K)) as (I & E & R).
  exists I. split; [exact E|]. intros c key ps l out h1 h2 Hc Hk Hps HM Hl Ho A1 A2 Hn. apply (proj2 (R c key ps l out Hc Hk Hps HM Hl Ho)); assumption.
Qed.
Print Assumptions C81_hmac_refuted.

(** ** Cases that meet the hypotheses *)
Definition ex_inputs : list input := [mkInput (Some (chars "abcdef")) 3 AsSize; mkInput None 7 AsInt; mkInput (Some (chars "xyz")) 3 AsInt].
Example ex_inputs_ok : Forall in_bounds ex_inputs /\ present (map meant ex_inputs) = [chars "abc"; chars "xyz"].
Proof. split; [repeat constructor; cbn; lia|reflexivity]. Qed.
Example ex_mixed : encode_multiple_va (sha_impl alg_sha1) (blank_sha alg_sha1) (repeat 0 20) 2 [SPtr (Some (chars "abc")); SSize 3; SSize 3; SPtr (Some (chars "abc"))] = UB OutOfBounds.
Proof. vm_compute. reflexivity. Qed.
Example ex_va : let I := sha_impl alg_sha1 in let g := blank_sha alg_sha1 in
  encode_multiple_va I g (repeat 0 20) 3 (slots (fun _ => 0) ex_inputs) = encode I g (chars "abcxyz") (repeat 0 20) /\
  encode_multiple_va I g (repeat 0 20) 3 (slots (fun n => if Nat.eqb n 2 then 1 else 0) ex_inputs) = UB OutOfBounds /\
  encode_multiple_va I g (repeat 0 20) 4 (slots (fun _ => 0) ex_inputs) = UB OutOfBounds.
Proof. vm_compute. auto. Qed.
