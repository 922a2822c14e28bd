(** Property theorem C67: a collision of a digest contains a collision of the compression function. *)
From Coq Require Import String.
From Verif Require SMd5 PMd5 PShaInst PHmac PropSha PropMd5 PropFront.
From Verif Require Import Base SHex SFips180 SShaLib MSha MFront MMd5 SHash SHashFns PWords PSha PBase2 SMerkle PMerkle.
Local Open Scope N_scope.

(** what the table promises: the digest is a prefix of the bytes of the last chaining value, all of them if [whole] *)
Record chained (I : hash_impl) (P : list N -> Prop) (b : N) (comp : list N -> list N -> list N) (iv : list N)
    (blocks : list N -> list (list N)) (whole : bool) : Prop := mkChained {
  ch_stream : exists out, streams I P (bits_below b) (fun m => firstn (idsz I) (out (fold_left comp (blocks m) iv))) /\
    (whole = true -> forall m m', firstn (idsz I) (out (fold_left comp (blocks m) iv)) = firstn (idsz I) (out (fold_left comp (blocks m') iv)) ->
       fold_left comp (blocks m) iv = fold_left comp (blocks m') iv);
  ch_pad : forall m m', bits_below b m -> bits_below b m' -> m <> m' -> fold_left comp (blocks m) iv = fold_left comp (blocks m') iv ->
    collide comp iv (blocks m) (blocks m') }.

Lemma ret_same {A} (x y : A) : Ret x = Ret y -> x = y. Proof. intros E. injection E. auto. Qed.
Lemma fold_snoc_words w n (comp : list N -> list N -> list N) iv : length iv = n -> (forall s b, length s = n -> words_ok w n (comp s b)) ->
  forall bs, bs <> [] -> words_ok w n (fold_left comp bs iv).
Proof.
  intros L H bs D. destruct bs as [|x bs _] using rev_ind; [congruence|]. rewrite fold_left_app. cbn [fold_left]. apply H.
  clear D. induction bs as [|y bs IH] using rev_ind; [exact L|]. rewrite fold_left_app. cbn [fold_left]. apply (H _ y IH).
Qed.
Lemma fold_keeps {T} (f : list N -> T -> list N) n : (forall s t, length s = n -> length (f s t) = n) -> forall l s, length s = n -> length (fold_left f l s) = n.
Proof. intros H. induction l as [|x l IH]; intros s L; [exact L|]. cbn [fold_left]. auto. Qed.
Lemma sha1_comp_words s b : length s = 5%nat -> words_ok 32 5 (sha1_compress s b).
Proof.
  intros L. unfold sha1_compress. apply zip_add_ok; [exact L|]. apply fold_keeps; [|exact L].
  intros s' t L'. do 5 (destruct s' as [|? s']; [discriminate|]). destruct s'; [reflexivity|discriminate].
Qed.
Lemma sha2_comp_words F s b : length s = 8%nat -> words_ok (word F) 8 (sha2_compress F s b).
Proof.
  intros L. unfold sha2_compress. apply zip_add_ok; [exact L|]. apply fold_keeps; [|exact L].
  intros s' t L'. do 8 (destruct s' as [|? s']; [discriminate|]). destruct s'; [reflexivity|discriminate].
Qed.
Lemma md5_comp_words s b : length s = 4%nat -> words_ok 32 4 (SMd5.md5_compress s b).
Proof.
  intros L. unfold SMd5.md5_compress. apply zip_add_ok; [exact L|]. apply fold_keeps; [|exact L].
  intros s' t L'. do 4 (destruct s' as [|? s']; [discriminate|]). destruct s'; [reflexivity|discriminate].
Qed.
Lemma flat_len k (enc : N -> list N) s : (forall v, length (enc v) = k) -> length (flat_map enc s) = (k * length s)%nat.
Proof. intros L. induction s as [|x s IH]; [cbn; lia|]. cbn [flat_map length]. rewrite app_length, L, IH. lia. Qed.

Lemma lib_collides bs lb comp iv : (2 * lb <= bs)%nat -> (0 < lb)%nat ->
  forall m m', bits_below (8 * N.of_nat lb) m -> bits_below (8 * N.of_nat lb) m' -> m <> m' ->
  fold_left comp (pieces bs (lib_padded bs lb (be_bytes lb) m)) iv = fold_left comp (pieces bs (lib_padded bs lb (be_bytes lb) m')) iv ->
  collide comp iv (pieces bs (lib_padded bs lb (be_bytes lb) m)) (pieces bs (lib_padded bs lb (be_bytes lb) m')).
Proof.
  intros B B0. apply (pad_collides bs lb (lib_padded bs lb (be_bytes lb)) (be_bytes lb) (bits_below (8 * N.of_nat lb))).
  - lia.
  - lia.
  - apply be_bytes_length.
  - apply lib_padded_shape.
  - intros m. apply lib_padded_whole; [apply be_bytes_length|lia|lia].
  - intros m m'. apply lib_padded_len; [apply be_bytes_length|lia].
  - intros m m' H H' E. unfold bits_below in *. rewrite <- pow256 in H, H'. apply be_bytes_inj in E; [lia|assumption|assumption].
Qed.
Lemma blocks_nonempty bs lb : (2 * lb <= bs)%nat -> (0 < lb)%nat -> forall m, pieces bs (lib_padded bs lb (be_bytes lb) m) <> [].
Proof.
  intros B B0 m E. destruct (lib_padded_whole bs lb (be_bytes lb) m) as (n & Hn & L); [apply be_bytes_length|lia|lia|].
  destruct (pieces_mult bs ltac:(lia) _ n L) as (_ & _ & K). rewrite E in K. cbn in K. lia.
Qed.
Lemma be_words_inj k w n s s' : w = 8 * N.of_nat k -> words_ok w n s -> words_ok w n s' ->
  flat_map (be_bytes k) s = flat_map (be_bytes k) s' -> s = s'.
Proof.
  intros -> [L F] [L' F'] E. rewrite <- pow256 in F, F'. eapply (words_inj k (be_bytes k)); [apply be_bytes_length|intros v v' A A'; apply (be_bytes_inj k v v' A A')|exact F|exact F'|congruence|exact E].
Qed.

Lemma chained_sha2 a F iv d (whole : bool) : idsz (sha_impl a) = d -> length iv = 8%nat -> word F = 8 * N.of_nat (wbytes F) -> (0 < wbytes F)%nat ->
  streams (sha_impl a) int_piece (bits_below (16 * N.of_nat (wbytes F))) (lib_sha2_hash F iv d) ->
  (whole = true -> (8 * wbytes F <= d)%nat) ->
  chained (sha_impl a) int_piece (16 * N.of_nat (wbytes F)) (sha2_compress F) iv
    (fun m => pieces (16 * wbytes F) (lib_padded (16 * wbytes F) (2 * wbytes F) (be_bytes (2 * wbytes F)) m)) whole.
Proof.
  intros Hd L W W0 S D. constructor.
  - exists (flat_map (be_bytes (wbytes F))). split.
    + rewrite Hd. exact S.
    + intros HW m m' E. specialize (D HW).
      assert (K : forall m, words_ok (word F) 8 (fold_left (sha2_compress F) (pieces (16 * wbytes F) (lib_padded (16 * wbytes F) (2 * wbytes F) (be_bytes (2 * wbytes F)) m)) iv)).
      { intros x. apply fold_snoc_words; [exact L|apply sha2_comp_words|apply blocks_nonempty; lia]. }
      pose proof (K m) as K1. pose proof (K m') as K2. clear K.
      rewrite Hd, !firstn_all2 in E by (rewrite (flat_len (wbytes F)) by apply be_bytes_length; destruct K1 as [X1 _], K2 as [X2 _]; rewrite ?X1, ?X2; clear - D; lia).
      eapply be_words_inj; eassumption.
  - replace (16 * N.of_nat (wbytes F)) with (8 * N.of_nat (2 * wbytes F)) by lia. apply lib_collides; lia.
Qed.

Lemma table_chained I P b comp iv blocks whole : iterated I P b comp iv blocks whole -> chained I P b comp iv blocks whole.
Proof.
  intros [g| | | | | | |].
  - constructor.
    + exists (flat_map (SMd5.le_bytes 4)).
      assert (K : forall m, words_ok 32 4 (fold_left SMd5.md5_compress (pieces 64 (padded 64 8 (SMd5.le_bytes 8) m)) SMd5.md5_IV)).
      { intros x. apply fold_snoc_words; [reflexivity|apply md5_comp_words|]. intros E.
        destruct (padded_blocks 64 8 (SMd5.le_bytes 8) x (PMd5.le_bytes_length 8) ltac:(lia)) as (n & Hn & LL).
        destruct (pieces_mult 64 ltac:(lia) _ n LL) as (_ & _ & Z). rewrite E in Z. cbn in Z. lia. }
      split.
      * eapply (PropSha.streams_weaken (md5_impl g)); [|apply PropMd5.C17_md5_rfc1321]. intros m _. split; [exact Logic.I|].
        change (idsz (md5_impl g)) with 16%nat. rewrite firstn_all2; [reflexivity|].
        rewrite (flat_len 4) by apply PMd5.le_bytes_length. destruct (K m) as [-> _]. lia.
      * intros _ m m' E. change (idsz (md5_impl g)) with 16%nat in E. pose proof (K m) as K1. pose proof (K m') as K2. clear K.
        destruct K1 as [L1 F1], K2 as [L2 F2].
        rewrite !firstn_all2 in E by (rewrite (flat_len 4) by apply PMd5.le_bytes_length; lia).
        eapply (words_inj 4 (SMd5.le_bytes 4) (PMd5.le_bytes_length 4) (fun v => v < 2 ^ 32)); [|exact F1|exact F2|congruence|exact E].
        intros v v' A A'. apply le_bytes_inj; assumption.
    + apply (pad_collides 64 8 (padded 64 8 (SMd5.le_bytes 8)) (SMd5.le_bytes 8) (bits_below 64)).
      * lia.
      * lia.
      * apply PMd5.le_bytes_length.
      * apply padded_shape.
      * intros m. apply padded_blocks; [apply PMd5.le_bytes_length|lia].
      * intros m m' E. rewrite !padded_length by apply PMd5.le_bytes_length. rewrite E. reflexivity.
      * intros m m' H H' E. unfold bits_below in *. apply le_bytes_inj in E; [lia|exact H|exact H'].
  - constructor.
    + exists (flat_map (be_bytes 4)).
      assert (K : forall m, words_ok 32 5 (fold_left sha1_compress (pieces 64 (lib_padded 64 8 (be_bytes 8) m)) sha1_IV)).
      { intros x. apply fold_snoc_words; [reflexivity|apply sha1_comp_words|apply blocks_nonempty; lia]. }
      split.
      * eapply (PropSha.streams_weaken (sha_impl alg_sha1)); [|apply PropSha.C19_sha1_exact]. intros m T. split; [exact T|].
        change (idsz (sha_impl alg_sha1)) with 20%nat. rewrite firstn_all2; [reflexivity|].
        rewrite (flat_len 4) by apply be_bytes_length. destruct (K m) as [-> _]. lia.
      * intros _ m m' E. change (idsz (sha_impl alg_sha1)) with 20%nat in E. pose proof (K m) as K1. pose proof (K m') as K2. clear K.
        rewrite !firstn_all2 in E by (rewrite (flat_len 4) by apply be_bytes_length; destruct K1, K2; lia).
        eapply (be_words_inj 4); [reflexivity|exact K1|exact K2|exact E].
    + apply (lib_collides 64 8 sha1_compress sha1_IV); lia.
  - apply (chained_sha2 alg_sha224 sha2_32 IV_224 28 false); [reflexivity|vm_compute; reflexivity|reflexivity|cbn; lia|exact PropSha.C20_sha224_exact|discriminate].
  - apply (chained_sha2 alg_sha256 sha2_32 IV_256 32 true); [reflexivity|vm_compute; reflexivity|reflexivity|cbn; lia|exact PropSha.C20_sha256_exact|cbn; lia].
  - apply (chained_sha2 alg_sha384 sha2_64 IV_384 48 false); [reflexivity|vm_compute; reflexivity|reflexivity|cbn; lia|exact PropSha.C21_sha384_exact|discriminate].
  - apply (chained_sha2 alg_sha512 sha2_64 IV_512 64 true); [reflexivity|vm_compute; reflexivity|reflexivity|cbn; lia|exact PropSha.C21_sha512_exact|cbn; lia].
  - apply (chained_sha2 alg_sha512_224 sha2_64 IV_512_224 28 false); [reflexivity|vm_compute; reflexivity|reflexivity|cbn; lia|exact PropSha.C21_sha512_224_exact|discriminate].
  - apply (chained_sha2 alg_sha512_256 sha2_64 IV_512_256 32 false); [reflexivity|vm_compute; reflexivity|reflexivity|cbn; lia|exact PropSha.C21_sha512_256_exact|discriminate].
Qed.

(** C67: two different messages with the same digest: the two computations contain a collision of the compression function
    (or, for the truncated functions, end in different chaining values with the same leading bytes) *)
Theorem C67_collisions : forall I P b comp iv blocks whole, iterated I P b comp iv blocks whole ->
  forall g g' ps ps' out out' d d', typed I g -> typed I g' -> Forall P ps -> Forall P ps' ->
  bits_below b (concat ps) -> bits_below b (concat ps') -> (idsz I <= length out)%nat -> (idsz I <= length out')%nat ->
  hash_run I g ps out = Ret d -> hash_run I g' ps' out' = Ret d' ->
  concat ps <> concat ps' -> firstn (idsz I) d = firstn (idsz I) d' ->
  collide comp iv (blocks (concat ps)) (blocks (concat ps')) \/
  (whole = false /\ fold_left comp (blocks (concat ps)) iv <> fold_left comp (blocks (concat ps')) iv).
Proof.
  intros I P b comp iv blocks whole K g g' ps ps' out out' d d' Hg Hg' HP HP' HT HT' Ho Ho' R R' D E.
  destruct (table_chained _ _ _ _ _ _ _ K) as [(o & S & W) Q]. clear K.
  rewrite (PropFront.run_streams I P _ _ g ps out S Hg HP HT Ho) in R. rewrite (PropFront.run_streams I P _ _ g' ps' out' S Hg' HP' HT' Ho') in R'.
  apply ret_same in R, R'. subst d d'.
  destruct (S g ps out Hg HP HT Ho) as (_ & _ & _ & _ & _ & L). destruct (S g' ps' out' Hg' HP' HT' Ho') as (_ & _ & _ & _ & _ & L').
  cbv beta in L, L', E.
  rewrite !firstn_app, L, L', Nat.sub_diag, !firstn_O, !app_nil_r, !firstn_firstn, Nat.min_id in E.
  destruct (list_eq_dec N.eq_dec (fold_left comp (blocks (concat ps)) iv) (fold_left comp (blocks (concat ps')) iv)) as [e|e].
  - left. apply Q; assumption.
  - destruct whole; [|right; auto]. left. apply Q; auto.
Qed.
Print Assumptions C67_collisions.

(** ** Non-vacuity: the two messages of Wang, Feng, Lai and Yu (2004), which differ and have the same MD5 digest *)
Definition wang1 : list N := flat_map (be_bytes 4)
  [0xd131dd02; 0xc5e6eec4; 0x693d9a06; 0x98aff95c; 0x2fcab587; 0x12467eab; 0x4004583e; 0xb8fb7f89; 0x55ad3406; 0x09f4b302; 0x83e48883; 0x2571415a; 0x085125e8; 0xf7cdc99f; 0xd91dbdf2; 0x80373c5b; 0xd8823e31; 0x56348f5b; 0xae6dacd4; 0x36c919c6; 0xdd53e2b4; 0x87da03fd; 0x02396306; 0xd248cda0; 0xe99f3342; 0x0f577ee8; 0xce54b670; 0x80a80d1e; 0xc69821bc; 0xb6a88393; 0x96f9652b; 0x6ff72a70].
Definition wang2 : list N := flat_map (be_bytes 4)
  [0xd131dd02; 0xc5e6eec4; 0x693d9a06; 0x98aff95c; 0x2fcab507; 0x12467eab; 0x4004583e; 0xb8fb7f89; 0x55ad3406; 0x09f4b302; 0x83e48883; 0x25f1415a; 0x085125e8; 0xf7cdc99f; 0xd91dbd72; 0x80373c5b; 0xd8823e31; 0x56348f5b; 0xae6dacd4; 0x36c919c6; 0xdd53e234; 0x87da03fd; 0x02396306; 0xd248cda0; 0xe99f3342; 0x0f577ee8; 0xce54b670; 0x80280d1e; 0xc69821bc; 0xb6a88393; 0x96f965ab; 0x6ff72a70].
(** running the standard's function through the model's one (for evaluation) *)
Lemma md5_run m : bytes_ok m -> SMd5.MD5 m = md5_encode (fold_left md5_transform (pieces 64 (padded 64 8 (SMd5.le_bytes 8) m)) md5_H0).
Proof.
  intros Hm. unfold SMd5.MD5, iterate. set (pm := padded 64 8 (SMd5.le_bytes 8) m).
  assert (Bp : bytes_ok pm).
  { unfold pm, padded. repeat (apply Forall_app; split); try apply PMd5.le_bytes_ok; auto; [repeat constructor|].
    apply Forall_forall. intros x Hx. apply repeat_spec in Hx. subst. reflexivity. }
  destruct (padded_blocks 64 8 (SMd5.le_bytes 8) m (PMd5.le_bytes_length 8) ltac:(lia)) as (n & _ & Lp). fold pm in Lp.
  destruct (pieces_mult 64 ltac:(lia) _ n Lp) as (F & _ & _).
  rewrite PMd5.md5_fold, PMd5.md5_encode_le; [reflexivity|reflexivity|exact F|]. apply PShaInst.pieces_bytes; [lia|exact Bp].
Qed.
Example C67_nonvacuous : forall g g', typed (md5_impl None) g -> typed (md5_impl None) g' ->
  exists d, wang1 <> wang2 /\ hash_run (md5_impl None) g [wang1] (repeat 0 16) = Ret d /\ hash_run (md5_impl None) g' [wang2] (repeat 0 16) = Ret d /\
  Forall (fun p => bytes_ok p /\ p <> []) [wang1] /\ Forall (fun p => bytes_ok p /\ p <> []) [wang2] /\ bits_below 64 wang1 /\ bits_below 64 wang2.
Proof.
  intros g g' Hg Hg'.
  assert (P1 : Forall (fun p => bytes_ok p /\ p <> []) [wang1]).
  { constructor; [|constructor]. split; [apply PHmac.flat_be_ok|]. discriminate. }
  assert (P2 : Forall (fun p => bytes_ok p /\ p <> []) [wang2]).
  { constructor; [|constructor]. split; [apply PHmac.flat_be_ok|]. discriminate. }
  exists (SMd5.MD5 wang1).
  assert (S1 : hash_run (md5_impl None) g [wang1] (repeat 0 16) = Ret (SMd5.MD5 wang1)).
  { rewrite (PropFront.run_streams (md5_impl None) _ _ _ g [wang1] (repeat 0 16) (PropMd5.C17_md5_rfc1321 None) Hg P1 Logic.I) by (rewrite repeat_length; cbn; lia).
    cbn [concat]. rewrite app_nil_r. change (skipn (idsz (md5_impl None)) (repeat 0 16)) with (@nil N). rewrite app_nil_r. reflexivity. }
  assert (S2 : hash_run (md5_impl None) g' [wang2] (repeat 0 16) = Ret (SMd5.MD5 wang2)).
  { rewrite (PropFront.run_streams (md5_impl None) _ _ _ g' [wang2] (repeat 0 16) (PropMd5.C17_md5_rfc1321 None) Hg' P2 Logic.I) by (rewrite repeat_length; cbn; lia).
    cbn [concat]. rewrite app_nil_r. change (skipn (idsz (md5_impl None)) (repeat 0 16)) with (@nil N). rewrite app_nil_r. reflexivity. }
  assert (E : SMd5.MD5 wang2 = SMd5.MD5 wang1).
  { rewrite !md5_run by apply PHmac.flat_be_ok. vm_compute. reflexivity. }
  rewrite E in S2. repeat split; try assumption.
  - intros X. apply (f_equal (fun l => nth 19 l 0)) in X. vm_compute in X. discriminate.
Qed.
