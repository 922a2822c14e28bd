(** Property theorems C71: what stays in a context after its digest was taken (SHA_DIGEST in templates.h, sha224.c .. sha512.c,
    md5.c, hmac.c). *)
From Coq Require Import String.
From Verif Require SMd5 PMd5 PropSha PropMd5 PropMerkle.
From Verif Require Import Base SHex SFips180 SShaLib MSha MFront MMd5 SHash SHashFns PWords PSha PShaStream PShaInst MHmac SWipe.
Local Open Scope N_scope.

Lemma fold_words a comp iv sw (bs : list (list N)) : instance a comp iv sw -> Forall (fun b => length b = block_bytes a) bs -> Forall bytes_ok bs ->
  words_ok (word_bits a) sw (fold_left (process a) bs (H0 a)).
Proof.
  intros Hi F B. rewrite (i_iv _ _ _ _ Hi). generalize (i_ok _ _ _ _ Hi). generalize iv at 1 2. revert F B. induction bs as [|b bs IH]; intros F B s Hs; [exact Hs|].
  inversion F; inversion B; subst. cbn [fold_left]. apply IH; auto. apply (i_step _ _ _ _ Hi); assumption.
Qed.

(** ** SHA-1 wipes *)
(** Nothing is left but the digest: block and length counter are zero, and the state words are the digest itself. *)
Theorem C71_sha1_wiped : forall g ps out, typed (sha_impl alg_sha1) g -> Forall int_piece ps -> bits_below 64 (concat ps) -> (20 <= length out)%nat ->
  exists c st, updates (sha_impl alg_sha1) (iinit (sha_impl alg_sha1) g) ps = Ret c /\
    idigest (sha_impl alg_sha1) c out = Ret (mkSha st 0 0 0 (repeat 0 64), flat_map (be_bytes 4) st ++ skipn 20 out) /\
    words_ok 32 5 st.
Proof.
  intros g ps out Hg HP HT Ho.
  destruct (PropSha.feed alg_sha1 g ps ltac:(left; reflexivity) Hg HP HT) as (c & E & F).
  pose proof (or_introl eq_refl : word_bytes alg_sha1 = 4%nat \/ word_bytes alg_sha1 = 8%nat) as W.
  destruct (padding_spec alg_sha1 W (concat ps) c F) as (c' & Ep & Es & Ei & El & _).
  exists c, (state c'). split; [exact E|].
  assert (B : bytes_ok (concat ps)).
  { clear -HP. induction HP as [|p ps [Hp _] _ IH]; cbn; [constructor|apply Forall_app; auto]. }
  assert (K : words_ok 32 5 (state c')).
  { rewrite Es. destruct (lib_padded_blocks alg_sha1 W (concat ps)) as (n & Hn). destruct (pieces_mult _ (bsz_pos alg_sha1 W) _ n Hn) as (FF & _ & _).
    apply (fold_words alg_sha1 _ _ 5%nat _ inst_sha1 FF). apply pieces_bytes; [apply (bsz_pos alg_sha1 W)|].
    apply (lib_padded_bytes alg_sha1); exact B. }
  split; [|exact K].
  change (idigest (sha_impl alg_sha1)) with (sha_digest alg_sha1). unfold sha_digest. rewrite Ep. cbn [bind wipes alg_sha1].
  rewrite Ei. cbn [state].
  assert (L5 : length (state c') = 5%nat) by apply K.
  assert (O : map (out_byte alg_sha1 (state c')) (seq 0 (digest_bytes alg_sha1)) = flat_map (be_bytes 4) (state c')).
  { rewrite (out_bytes alg_sha1 W) by (rewrite L5; cbn; lia). apply firstn_all2. rewrite (PropMerkle.flat_len 4) by apply be_bytes_length. rewrite L5. cbn. lia. }
  rewrite O. assert (L20 : length (flat_map (be_bytes 4) (state c')) = 20%nat) by (rewrite (PropMerkle.flat_len 4) by apply be_bytes_length; rewrite L5; reflexivity).
  rewrite blit_ok by (rewrite L20; exact Ho). rewrite L20. reflexivity.
Qed.
Print Assumptions C71_sha1_wiped.
(** so two runs that gave the same digest leave the same context behind *)
Theorem C71_sha1_only_digest : forall g g' ps ps' out out' c c' c1 c1' d d', typed (sha_impl alg_sha1) g -> typed (sha_impl alg_sha1) g' ->
  Forall int_piece ps -> Forall int_piece ps' -> bits_below 64 (concat ps) -> bits_below 64 (concat ps') -> (20 <= length out)%nat -> (20 <= length out')%nat ->
  updates (sha_impl alg_sha1) (iinit (sha_impl alg_sha1) g) ps = Ret c -> updates (sha_impl alg_sha1) (iinit (sha_impl alg_sha1) g') ps' = Ret c' ->
  idigest (sha_impl alg_sha1) c out = Ret (c1, d) -> idigest (sha_impl alg_sha1) c' out' = Ret (c1', d') ->
  firstn 20 d = firstn 20 d' -> c1 = c1'.
Proof.
  intros g g' ps ps' out out' c c' c1 c1' d d' Hg Hg' HP HP' HT HT' Ho Ho' E E' D D' X.
  destruct (C71_sha1_wiped g ps out Hg HP HT Ho) as (k & st & A1 & A2 & A3).
  destruct (C71_sha1_wiped g' ps' out' Hg' HP' HT' Ho') as (k' & st' & B1 & B2 & B3).
  assert (k = c) by congruence. assert (k' = c') by congruence. subst k k'. rewrite A2 in D. rewrite B2 in D'.
  assert (D1 : mkSha st 0 0 0 (repeat 0 64) = c1) by congruence. assert (D2 : flat_map (be_bytes 4) st ++ skipn 20 out = d) by congruence.
  assert (D3 : mkSha st' 0 0 0 (repeat 0 64) = c1') by congruence. assert (D4 : flat_map (be_bytes 4) st' ++ skipn 20 out' = d') by congruence.
  assert (LL : forall s, words_ok 32 5 s -> length (flat_map (be_bytes 4) s) = 20%nat).
  { intros s [L _]. rewrite (PropMerkle.flat_len 4) by apply be_bytes_length. rewrite L. reflexivity. }
  rewrite <- D2, <- D4, !firstn_app, !LL, !Nat.sub_diag, !firstn_O, !app_nil_r, !firstn_all2 in X by (try assumption; rewrite LL by assumption; lia).
  assert (st = st') as <- by (apply (PropMerkle.be_words_inj 4 32 5); [reflexivity|exact A3|exact B3|exact X]). congruence.
Qed.
Print Assumptions C71_sha1_only_digest.

(** ** SHA-2 does not *)
Definition sha2_algs : list sha_alg := [alg_sha224; alg_sha256; alg_sha384; alg_sha512; alg_sha512_224; alg_sha512_256].
Lemma sha2_in a : In a sha2_algs -> In a PropSha.sha_algs.
Proof. intros H. right. exact H. Qed.
Lemma sha2_nowipe a : In a sha2_algs -> wipes a = false.
Proof. unfold sha2_algs. cbn [In]. intros H. repeat (destruct H as [<- | H]; [reflexivity|]). destruct H. Qed.
(** where the length field starts: 56 or 112 *)
Definition length_at (a : sha_alg) : nat := (block_bytes a - 2 * word_bytes a)%nat.
(** The block buffer of the context holds the end of the message (its last partial block as far as it lies before the
    length field), followed by the padding and the message's length. *)
Theorem C71_sha2_keeps_data : forall a g ps out c c' d, In a sha2_algs -> typed (sha_impl a) g -> Forall int_piece ps ->
  bits_below (PropSha.counter_bits a) (concat ps) -> (digest_bytes a <= length out)%nat ->
  updates (sha_impl a) (iinit (sha_impl a) g) ps = Ret c -> idigest (sha_impl a) c out = Ret (c', d) ->
  let t := tail_of (block_bytes a) (concat ps) in
  firstn (length_at a) (block c') = firstn (length_at a) (t ++ [0x80] ++ repeat 0 (length_at a - 1 - length t)) /\
  skipn (length_at a) (block c') = be_bytes (2 * word_bytes a) (8 * N.of_nat (length (concat ps))).
Proof.
  intros a g ps out c c' d Ha Hg HP HT Ho E D t.
  destruct (PropSha.feed a g ps (sha2_in a Ha) Hg HP HT) as (k & E1 & F). assert (k = c) by congruence. subst k.
  pose proof (PropSha.algs_wb a (sha2_in a Ha)) as W.
  destruct (padding_spec a W (concat ps) c F) as (cp & Ep & _ & _ & El & _ & _ & pre & Eb & Epre).
  change (idigest (sha_impl a) c out) with (sha_digest a c out) in D. unfold sha_digest in D. rewrite Ep in D. cbn [bind] in D. rewrite (sha2_nowipe a Ha) in D.
  assert (c' = cp) as -> by (destruct (blit _ _ _); cbn [bind] in D; congruence).
  fold (length_at a) in Epre. unfold last_part in Epre. fold (tail_of (block_bytes a) (concat ps)) in Epre. fold t in Epre.
  assert (Lpos : (length_at a + 2 * word_bytes a = block_bytes a)%nat) by (unfold length_at, block_bytes; lia).
  assert (Lpre : length pre = length_at a).
  { rewrite Eb in El. rewrite app_length, be_bytes_length in El. lia. }
  assert (B0 : (0 < block_bytes a)%nat) by apply (bsz_pos a W).
  assert (Lt : length t = (length (concat ps) mod block_bytes a)%nat).
  { unfold t, tail_of. rewrite skipn_length, Nat.mod_eq by lia. reflexivity. }
  rewrite Eb. rewrite firstn_app, skipn_app, Lpre, Nat.sub_diag, firstn_O, app_nil_r, firstn_all2, (skipn_all2 pre) by lia. split; [|reflexivity].
  rewrite Epre. unfold fits. rewrite <- Lt. destruct (Nat.leb_spec (length t + 1 + 2 * word_bytes a) (block_bytes a)) as [X|X].
  - rewrite firstn_all2; [reflexivity|]. rewrite !app_length, repeat_length. cbn [length]. lia.
  - rewrite firstn_app. replace (length_at a - length t)%nat with 0%nat by lia. rewrite firstn_O, app_nil_r. reflexivity.
Qed.
Print Assumptions C71_sha2_keeps_data.
(** violation: every message shorter than that is left in the context as a whole *)
Theorem C71_sha2_wipe_refuted : forall a g ps out c c' d, In a sha2_algs -> typed (sha_impl a) g -> Forall int_piece ps ->
  (length (concat ps) <= length_at a)%nat -> (digest_bytes a <= length out)%nat ->
  updates (sha_impl a) (iinit (sha_impl a) g) ps = Ret c -> idigest (sha_impl a) c out = Ret (c', d) ->
  firstn (length (concat ps)) (block c') = concat ps.
Proof.
  intros a g ps out c c' d Ha Hg HP HL Ho E D.
  pose proof (PropSha.algs_wb a (sha2_in a Ha)) as W.
  assert (LB : (length_at a < block_bytes a)%nat) by (unfold length_at, block_bytes; lia).
  assert (HT : bits_below (PropSha.counter_bits a) (concat ps)).
  { unfold bits_below. assert (N.of_nat (length (concat ps)) < 128).
    { unfold length_at, block_bytes in HL. destruct W as [W|W]; rewrite W in HL; lia. }
    apply N.lt_le_trans with (2 ^ 64); [lia|]. apply N.pow_le_mono_r; [lia|]. unfold PropSha.counter_bits. destruct W as [-> | ->]; lia. }
  destruct (C71_sha2_keeps_data a g ps out c c' d Ha Hg HP HT Ho E D) as [X _].
  assert (T : tail_of (block_bytes a) (concat ps) = concat ps).
  { unfold tail_of. rewrite Nat.div_small by lia. rewrite Nat.mul_0_r. reflexivity. }
  rewrite T in X. apply (f_equal (firstn (length (concat ps)))) in X. rewrite !firstn_firstn, Nat.min_l in X by lia. rewrite X.
  rewrite firstn_app, firstn_all, Nat.sub_diag, firstn_O. apply app_nil_r.
Qed.
Print Assumptions C71_sha2_wipe_refuted.

(** ** MD5 *)
Lemma tail_concat bs r : Forall (fun b : list N => length b = 64%nat) bs -> (length r < 64)%nat -> tail_of 64 (concat bs ++ r) = r.
Proof.
  intros F R. unfold tail_of. rewrite app_length, (concat_length_k 64 ltac:(lia) bs F), Nat.div_add_l, Nat.div_small, Nat.add_0_r by lia.
  rewrite Nat.mul_comm, <- (concat_length_k 64 ltac:(lia) bs F), skipn_app, skipn_all, Nat.sub_diag. reflexivity.
Qed.
Lemma fedm_tail m c : PMd5.fedm m c -> firstn (length m mod 64) (mblock c) = tail_of 64 m /\ length (mblock c) = 64%nat /\ block_len c = N.of_nat (length m) mod 2 ^ 64.
Proof.
  intros (bs & r & Em & F & R & _ & BL & LB & FB). rewrite (PMd5.fed_rem m bs r Em F R). split; [|auto]. rewrite Em, tail_concat by assumption. exact FB.
Qed.
(** the 8 length bytes complete the block *)
Lemma md5_finish g c e : length e = 8%nat -> length (mblock c) = 64%nat -> N.to_nat (u8 (N.land (block_len c) 0x3F)) = 56%nat ->
  exists c', md5_update g c e = Ret c' /\ mblock c' = firstn 56 (mblock c) ++ e.
Proof.
  intros Le Lb Off.
  assert (G : forall f, exists s len, md5_loop (S (S f)) c e None = Ret (mkMd5 s len (firstn 56 (mblock c) ++ e), [], Some 8%nat)).
  { intros f. cbn [md5_loop]. destruct e as [|e0 e'] eqn:Ee; [discriminate|]. rewrite <- Ee in *. cbv zeta.
    rewrite Off. change (64 - 56)%nat with 8%nat. rewrite (proj2 (Nat.ltb_ge (length e) 8)) by lia.
    rewrite (firstn_all2 e) by lia. rewrite blit_ok by lia. cbn [bind]. rewrite (skipn_all2 e) by lia.
    rewrite Le, (skipn_all2 (mblock c)) by lia. rewrite app_nil_r. eauto. }
  unfold md5_update. rewrite Le. destruct (G 7%nat) as (s & len & ->). cbn [bind]. eexists. split; [reflexivity|reflexivity].
Qed.
(** The last partial block stays in the context unless the padding needed a second block. *)
Theorem C71_md5_keeps_data : forall garbage g ps out c c' d, typed (md5_impl garbage) g -> Forall (fun p => bytes_ok p /\ p <> []) ps -> (16 <= length out)%nat ->
  updates (md5_impl garbage) (iinit (md5_impl garbage) g) ps = Ret c -> idigest (md5_impl garbage) c out = Ret (c', d) ->
  let t := tail_of 64 (concat ps) in
  mblock c' = (if Nat.ltb (length t) 56 then t ++ [0x80] ++ repeat 0 (55 - length t) else repeat 0 56) ++ SMd5.le_bytes 8 (8 * N.of_nat (length (concat ps))).
Proof.
  intros garbage g ps out c c' d Hg HP Ho E D t. set (m := concat ps) in *.
  assert (Hf : PMd5.fedm m c).
  { destruct (PMd5.md5_updates_fed garbage ps [] (md5_init g)) as (k & E1 & Hf).
    - apply PMd5.fedm_init. exact Hg.
    - eapply Forall_impl; [|exact HP]. intros p [_ H]. exact H.
    - change (iinit (md5_impl garbage) g) with (md5_init g) in E. rewrite E1 in E. assert (k = c) by congruence. subst k. exact Hf. }
  clear E HP. destruct (fedm_tail m c Hf) as (FT & LB & BL).
  assert (B63 : (length m mod 64 < 64)%nat) by (apply Nat.mod_upper_bound; lia).
  assert (Lt : length t = (length m mod 64)%nat) by (unfold t; rewrite <- FT, firstn_length; lia).
  change (idigest (md5_impl garbage) c out) with (md5_digest garbage c out) in D.
  unfold md5_digest in D. cbv zeta in D. rewrite BL, PMd5.count_bytes, PMd5.land63, Nat2N.id, <- Lt in D.
  set (n := if Nat.ltb (length t) 56 then (56 - length t)%nat else (120 - length t)%nat) in *.
  assert (Hn : (1 <= n <= 64)%nat) by (unfold n; destruct (Nat.ltb_spec (length t) 56); lia).
  destruct (Nat.leb_spec n (length PADDING)) as [_|X]; [|cbn in X; lia].
  rewrite PMd5.firstn_padding in D by exact Hn.
  destruct (PMd5.md5_update_fed garbage c (0x80 :: repeat 0 (n - 1)) m Hf ltac:(discriminate)) as (c1 & E1 & Hf1). rewrite E1 in D. cbn [bind] in D.
  destruct (fedm_tail _ c1 Hf1) as (FT1 & LB1 & BL1).
  assert (L1 : (length (m ++ 0x80%N :: repeat 0%N (n - 1)) mod 64 = 56)%nat).
  { rewrite app_length. cbn [length]. rewrite repeat_length. replace (length m + S (n - 1))%nat with (n + length m)%nat by lia.
    rewrite (Nat.div_mod (length m) 64) by lia. rewrite <- Lt. generalize (length m / 64)%nat. intros q.
    replace (n + (64 * q + length t))%nat with (n + length t + q * 64)%nat by lia. rewrite Nat.mod_add by lia. unfold n.
    destruct (Nat.ltb_spec (length t) 56).
    - replace (56 - length t + length t)%nat with 56%nat by lia. reflexivity.
    - replace (120 - length t + length t)%nat with 120%nat by lia. reflexivity. }
  destruct (md5_finish garbage c1 (SMd5.le_bytes 8 (8 * N.of_nat (length m))) (PMd5.le_bytes_length 8 _) LB1) as (c2 & E2 & M2).
  { rewrite BL1, PMd5.offset_eq. exact L1. }
  rewrite E2 in D. cbn [bind] in D. assert (c' = c2) as -> by (destruct (blit _ _ _); cbn [bind] in D; congruence).
  rewrite M2. f_equal. rewrite L1 in FT1. rewrite FT1. clear D E2 M2 c2 E1.
  assert (Em : m = concat (cut (length m / 64) 64 m) ++ t /\ Forall (fun b => length b = 64%nat) (cut (length m / 64) 64 m)).
  { destruct Hf as (bs & r & Em & F & R & _). pose proof (PMd5.fed_rem m bs r Em F R) as MD.
    assert (r = t) as -> by (unfold t; rewrite Em, tail_concat; auto).
    assert (Ec : cut (length m / 64) 64 m = bs).
    { rewrite Em, app_length, (concat_length_k 64 ltac:(lia) bs F), Nat.div_add_l, Nat.div_small, Nat.add_0_r by lia. clear - F.
      induction F as [|b bs Hb F IH]; [reflexivity|]. cbn [length concat cut]. rewrite <- app_assoc.
      rewrite firstn_app, skipn_app, <- Hb, firstn_all, skipn_all, Nat.sub_diag, firstn_O, skipn_O, app_nil_r. cbn [app].
      destruct (b ++ concat bs ++ t) eqn:X; [|f_equal; rewrite ?Hb; exact IH].
      apply app_eq_nil in X. destruct X as [X _]. subst b. discriminate. }
    rewrite Ec. auto. }
  destruct Em as [Em F]. revert Em F. generalize (cut (length m / 64) 64 m). intros bs Em F. rewrite Em at 1. rewrite <- app_assoc.
  unfold n. destruct (Nat.ltb_spec (length t) 56) as [L|L].
  - rewrite tail_concat; [|exact F|].
    + cbn [app]. do 3 f_equal. lia.
    + rewrite app_length. cbn [length]. rewrite repeat_length. lia.
  - assert (Ex : t ++ 0x80 :: repeat 0 (120 - length t - 1) = (t ++ 0x80 :: repeat 0 (63 - length t)) ++ repeat 0 56).
    { rewrite <- app_assoc. cbn [app]. rewrite <- repeat_app. do 3 f_equal. lia. }
    rewrite Ex, app_assoc. replace (concat bs ++ t ++ 0x80 :: repeat 0 (63 - length t)) with (concat (bs ++ [t ++ 0x80 :: repeat 0 (63 - length t)])).
    + apply tail_concat; [|rewrite repeat_length; lia]. apply Forall_app. split; [exact F|]. constructor; [|constructor].
      rewrite app_length. cbn [length]. rewrite repeat_length. lia.
    + rewrite concat_app. cbn [concat]. rewrite app_nil_r. reflexivity.
Qed.
Print Assumptions C71_md5_keeps_data.

(** ** HMAC *)
Definition keeps_key {I} (o : hmac_op I) : Prop := match o with HInit | HKey _ => False | _ => True end.
Lemma lxor_unit x v : N.lxor (N.lxor x v) v = x.
Proof. rewrite N.lxor_assoc, N.lxor_nilpotent, N.lxor_0_r. reflexivity. Qed.
Lemma arrcpy_first_block B key : arrcpy B key = first_block B key.
Proof.
  unfold arrcpy, first_block. destruct (Nat.ltb_spec (length key) B) as [L|L].
  - rewrite firstn_all, firstn_app, firstn_all2 by lia. f_equal. 
    replace B with ((B - length key) + length key)%nat at 3 by lia. rewrite repeat_app, firstn_app, repeat_length, Nat.sub_diag, firstn_O, app_nil_r.
    symmetry. apply firstn_all2. rewrite repeat_length. lia.
  - rewrite Nat.sub_diag. cbn [repeat]. rewrite app_nil_r, firstn_app. replace (B - length key)%nat with 0%nat by lia. rewrite firstn_O, app_nil_r. reflexivity.
Qed.
(** After any number of updates and digests the key (its first block) can be read off the context, for every hash function
    and whatever was done before the key was set. *)
Theorem C71_hmac_keeps_key : forall I c0 before key after c, hmac_ops I c0 (before ++ HKey key :: after) = Ret c -> Forall keeps_key after ->
  map (fun b => N.lxor b 0x36) (k_i_pad c) = first_block (iblock I) key /\ map (fun b => N.lxor b 0x5c) (k_o_pad c) = first_block (iblock I) key.
Proof.
  intros I c0 before key after c E K.
  assert (S : exists c1, hmac_ops I c1 (HKey key :: after) = Ret c).
  { revert c0 E. induction before as [|o os IH]; intros c0 E; [eauto|]. cbn [hmac_ops app] in E. destruct (hmac_step I c0 o) as [c1| |]; cbn [bind] in E; try discriminate. apply (IH c1 E). }
  clear E. destruct S as (c1 & E). cbn [hmac_ops hmac_step] in E. unfold hmac_set_key in E.
  destruct (iupdate I (iinit I (hash_ctx c1)) _) as [h| |]; cbn [bind] in E; try discriminate.
  assert (P : k_i_pad c = map (fun b => N.lxor b I_UNIT) (arrcpy (iblock I) key) /\ k_o_pad c = map (fun b => N.lxor b O_UNIT) (arrcpy (iblock I) key)).
  { revert E. match goal with |- hmac_ops I (mkHmac h ?x ?y) after = _ -> _ => generalize x y end. intros ip op. revert h. induction K as [|o os Ho K IH]; intros h E.
    - cbn [hmac_ops] in E. assert (c = mkHmac h ip op) by congruence. subst c. auto.
    - cbn [hmac_ops] in E. destruct o as [|k|p|l out]; try contradiction; cbn [hmac_step] in E.
      + unfold hmac_update in E. cbn [hash_ctx k_i_pad k_o_pad] in E. destruct (iupdate I h p) as [h'| |]; cbn [bind] in E; try discriminate. apply (IH h' E).
      + unfold hmac_digest in E. cbn [hash_ctx k_i_pad k_o_pad] in E. destruct (idigest I h (l_mid l)) as [[h' mid]| |]; cbn [bind omap] in E; try discriminate.
        destruct (encode_multiple I _ _ out) as [o'| |]; cbn [bind omap fst] in E; try discriminate. apply (IH h' E). }
  destruct P as [-> ->]. rewrite !map_map. unfold I_UNIT, O_UNIT.
  split; (erewrite map_ext; [|intros x; apply lxor_unit]); rewrite map_id; apply arrcpy_first_block.
Qed.
Print Assumptions C71_hmac_keeps_key.

(** ** Non-vacuity *)
Definition used64 : sha_ctx := mkSha [1; 2; 3; 4; 5; 6; 7; 8] 7 9 11 (repeat 3 64).
(** after hashing "secret", SHA-256 and MD5 contexts still begin with it; the SHA-1 one is blank *)
Example C71_case :
  (exists c d, updates (sha_impl alg_sha256) (iinit (sha_impl alg_sha256) used64) [chars "sec"; chars "ret"] = Ret c /\
     omap (fun x => firstn 7 (block (fst x))) (idigest (sha_impl alg_sha256) c (repeat 0 32)) = Ret d /\ d = chars "secret" ++ [0x80]) /\
  (exists c d, updates (sha_impl alg_sha1) (iinit (sha_impl alg_sha1) used64) [chars "sec"; chars "ret"] = Ret c /\
     omap (fun x => block (fst x)) (idigest (sha_impl alg_sha1) c (repeat 0 32)) = Ret d /\ d = repeat 0 64) /\
  typed (sha_impl alg_sha256) used64 /\ typed (sha_impl alg_sha1) used64 /\ Forall int_piece [chars "sec"; chars "ret"] /\
  bits_below 64 (concat [chars "sec"; chars "ret"]) /\ In alg_sha256 sha2_algs /\ (length (chars "secret") <= length_at alg_sha256)%nat.
Proof.
  split; [eexists _, _; split; [vm_compute; reflexivity|split; vm_compute; reflexivity]|].
  split; [eexists _, _; split; [vm_compute; reflexivity|split; vm_compute; reflexivity]|].
  split; [reflexivity|]. split; [reflexivity|]. split; [repeat constructor; cbn; lia|]. split; [unfold bits_below; cbn; lia|].
  split; [right; left; reflexivity|]. cbn. lia.
Qed.
Example C71_md5_case : typed (md5_impl None) (mkMd5 [] 0 (repeat 9 64)) /\
  (exists c d, updates (md5_impl None) (iinit (md5_impl None) (mkMd5 [] 0 (repeat 9 64))) [chars "secret"] = Ret c /\
     omap (fun x => firstn 7 (mblock (fst x))) (idigest (md5_impl None) c (repeat 0 16)) = Ret d /\ d = chars "secret" ++ [0x80]).
Proof. split; [reflexivity|]. eexists _, _. split; [vm_compute; reflexivity|split; vm_compute; reflexivity]. Qed.
Example C71_hmac_case : omap (fun c => firstn 4 (map (fun b => N.lxor b 0x36) (k_i_pad c)))
  (hmac_ops (sha_impl alg_sha1) (@mkHmac (sha_impl alg_sha1) used64 [] [])
     [HInit; HKey (chars "key"); HUpdate (chars "data"); HDigest (@mkLocals (sha_impl alg_sha1) (repeat 0 21) used64) (repeat 0 20)]) = Ret (chars "key" ++ [0]).
Proof. vm_compute. reflexivity. Qed.
