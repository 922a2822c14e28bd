(** HMAC: proofs. *)
From Verif Require SFips202 SMd5 PropSha PWords PMd5.
From Verif Require Import Base SFips180 SShaLib MSha MFront MMd5 MKeccak SHash SKeccakFns SHashFns PShort PTyped MHmac SHmac.
Local Open Scope N_scope.

(** ** digests are bytes *)
Lemma flat_be_ok n l : bytes_ok (flat_map (be_bytes n) l).
Proof. induction l as [|x l IH]; cbn [flat_map]; [constructor|]. apply Forall_app. split; [apply PWords.be_bytes_ok|exact IH]. Qed.
Lemma flat_le_ok n l : bytes_ok (flat_map (SMd5.le_bytes n) l).
Proof. induction l as [|x l IH]; cbn [flat_map]; [constructor|]. apply Forall_app. split; [apply PMd5.le_bytes_ok|exact IH]. Qed.
Lemma firstn_ok n l : bytes_ok l -> bytes_ok (firstn n l).
Proof. intros H. apply Forall_forall. intros x Hx. apply In_nth with (d := 0) in Hx. destruct Hx as (i & Hi & <-).
  rewrite <- (firstn_skipn n l) in H. apply Forall_app in H. destruct H as [H _]. apply (proj1 (Forall_forall _ _) H). apply nth_In. exact Hi. Qed.
Lemma bits_value_lt l : SFips202.bits_value l < 2 ^ N.of_nat (length l).
Proof.
  induction l as [|b l IH]; [reflexivity|]. cbn [SFips202.bits_value length]. rewrite Nat2N.inj_succ, N.pow_succ_r'. destruct b; lia.
Qed.
Lemma bytes_of_ok : forall f l, bytes_ok (SFips202.bytes_of f l).
Proof.
  induction f as [|f IH]; intros l; [constructor|]. cbn [SFips202.bytes_of]. destruct l as [|b l]; [constructor|]. constructor; [|apply IH].
  unfold is_byte. eapply N.lt_le_trans; [apply bits_value_lt|]. change 256 with (2 ^ 8). apply N.pow_le_mono_r; [discriminate|]. rewrite firstn_length. lia.
Qed.
Lemma sha3_bytes c d m : bytes_ok (SFips202.sha3 c d m).
Proof. apply bytes_of_ok. Qed.

(** ** what is needed to know about a choice *)
Record good (garbage : option N) (a : alg_choice) (P M : list N -> Prop) (H : list N -> list N) (B D : nat) : Prop := mkGood {
  g_impl : exists I T, sp_case garbage a = Some I /\ iblock I = B /\ idsz I = D /\ streams I P T H /\ keeps_typed I /\
    (forall k m, length k = B -> M m -> T (k ++ m)) /\ (forall k d, length k = B -> length d = D -> T (k ++ d));
  g_piece : forall p, bytes_ok p -> p <> [] -> (length p <= 1024)%nat -> P p;
  g_bytes : forall m, bytes_ok (H m);
  g_sizes : (0 < D)%nat /\ (0 < B)%nat /\ (B <= 1024)%nat /\ (D <= 1024)%nat }.

Lemma room_block B lb k d : length k = B -> (0 < B)%nat -> leaves_room B lb d -> leaves_room B lb (k ++ d).
Proof. intros Hk HB Hd. unfold leaves_room in *. rewrite app_length, Hk. replace (B + length d)%nat with (length d + 1 * B)%nat by lia. rewrite Nat.mod_add by lia. exact Hd. Qed.
Lemma below_block B b k m : length k = B -> with_block B b m -> bits_below b (k ++ m).
Proof. intros Hk Hm. unfold bits_below, with_block in *. rewrite app_length, Hk. exact Hm. Qed.
Lemma below_digest B D b k d : length k = B -> length d = D -> 8 * N.of_nat (B + D) < 2 ^ b -> bits_below b (k ++ d).
Proof. intros Hk Hd Hb. unfold bits_below. rewrite app_length, Hk, Hd. exact Hb. Qed.

Ltac good_sha T0 :=
  apply mkGood;
  [ eexists; exists T0; split; [reflexivity|]; split; [reflexivity|]; split; [reflexivity|]; split; [|split; [apply sha_keeps|split]]
  | | |split; [lia|split; lia]].
Lemma lib_good garbage a P M H B D : choice_lib a P M H B D -> good garbage a P M H B D.
Proof.
  assert (X1 : forall B D b k d, length k = B -> length d = D -> 8 * N.of_nat (B + D) < 2 ^ b -> bits_below b (k ++ d)) by (intros; eapply below_digest; eauto).
  intros K. destruct K.
  - apply mkGood; [eexists; exists (fun _ => True)|apply (pieces_hash _ _ _ _ (hf_md5 garbage))|intros; apply flat_le_ok|split; [lia|split; lia]].
    split; [reflexivity|]. split; [reflexivity|]. split; [reflexivity|]. split; [apply hash_streams; constructor|]. split; [apply md5_keeps|]. split; intros; exact Logic.I.
  - good_sha (bits_below 64); [exact (hash_streams _ _ _ _ hf_sha1)|intros; eapply below_block; eauto|intros; eapply X1; eauto; vm_compute; reflexivity|apply (pieces_hash _ _ _ _ hf_sha1)|intros; apply flat_be_ok].
  - good_sha (bits_below 64); [exact (hash_streams _ _ _ _ hf_sha224)|intros; eapply below_block; eauto|intros; eapply X1; eauto; vm_compute; reflexivity|apply (pieces_hash _ _ _ _ hf_sha1)|intros; apply firstn_ok, flat_be_ok].
  - good_sha (bits_below 64); [exact (hash_streams _ _ _ _ hf_sha256)|intros; eapply below_block; eauto|intros; eapply X1; eauto; vm_compute; reflexivity|apply (pieces_hash _ _ _ _ hf_sha1)|intros; apply firstn_ok, flat_be_ok].
  - good_sha (bits_below 128); [exact (hash_streams _ _ _ _ hf_sha384)|intros; eapply below_block; eauto|intros; eapply X1; eauto; vm_compute; reflexivity|apply (pieces_hash _ _ _ _ hf_sha1)|intros; apply firstn_ok, flat_be_ok].
  - good_sha (bits_below 128); [exact (hash_streams _ _ _ _ hf_sha512)|intros; eapply below_block; eauto|intros; eapply X1; eauto; vm_compute; reflexivity|apply (pieces_hash _ _ _ _ hf_sha1)|intros; apply firstn_ok, flat_be_ok].
  - good_sha (bits_below 128); [exact (hash_streams _ _ _ _ hf_sha512_224)|intros; eapply below_block; eauto|intros; eapply X1; eauto; vm_compute; reflexivity|apply (pieces_hash _ _ _ _ hf_sha1)|intros; apply firstn_ok, flat_be_ok].
  - good_sha (bits_below 128); [exact (hash_streams _ _ _ _ hf_sha512_256)|intros; eapply below_block; eauto|intros; eapply X1; eauto; vm_compute; reflexivity|apply (pieces_hash _ _ _ _ hf_sha1)|intros; apply firstn_ok, flat_be_ok].
  - apply mkGood; [eexists; exists (fun _ => True)|apply (pieces_hash _ _ _ _ (hf_keccak _ _ _ fn_sha3_224))|intros; apply sha3_bytes|split; [lia|split; lia]].
    split; [reflexivity|]. split; [reflexivity|]. split; [reflexivity|]. split; [apply hash_streams; econstructor; constructor|]. split; [apply sha3_keeps|]. split; intros; exact Logic.I.
  - apply mkGood; [eexists; exists (fun _ => True)|apply (pieces_hash _ _ _ _ (hf_keccak _ _ _ fn_sha3_256))|intros; apply sha3_bytes|split; [lia|split; lia]].
    split; [reflexivity|]. split; [reflexivity|]. split; [reflexivity|]. split; [apply hash_streams; econstructor; constructor|]. split; [apply sha3_keeps|]. split; intros; exact Logic.I.
  - apply mkGood; [eexists; exists (fun _ => True)|apply (pieces_hash _ _ _ _ (hf_keccak _ _ _ fn_sha3_384))|intros; apply sha3_bytes|split; [lia|split; lia]].
    split; [reflexivity|]. split; [reflexivity|]. split; [reflexivity|]. split; [apply hash_streams; econstructor; constructor|]. split; [apply sha3_keeps|]. split; intros; exact Logic.I.
  - apply mkGood; [eexists; exists (fun _ => True)|apply (pieces_hash _ _ _ _ (hf_keccak _ _ _ fn_sha3_512))|intros; apply sha3_bytes|split; [lia|split; lia]].
    split; [reflexivity|]. split; [reflexivity|]. split; [reflexivity|]. split; [apply hash_streams; econstructor; constructor|]. split; [apply sha3_keeps|]. split; intros; exact Logic.I.
Qed.
Ltac std_sha T0 b hs :=
  good_sha T0; [exact (std_streams _ _ _ _ hs)
   |intros k m Hk [Hm Hr]; split; [eapply below_block; eauto|apply room_block; [exact Hk|lia|exact Hr]]
   |intros k d Hk Hd; split; [apply (below_digest _ _ b k d Hk Hd); vm_compute; reflexivity|apply room_block; [exact Hk|lia|unfold leaves_room; rewrite Hd; vm_compute; lia]]
   |apply (pieces_hash _ _ _ _ hf_sha1)|intros; try apply firstn_ok; apply flat_be_ok].
Lemma std_good garbage a P M H B D : choice_std a P M H B D -> good garbage a P M H B D.
Proof.
  intros K. destruct K.
  - apply (lib_good garbage _ _ _ _ _ _ cl_md5).
  - std_sha (fun m => bits_below 64 m /\ leaves_room 64 8 m) 64 hs_sha1.
  - std_sha (fun m => bits_below 64 m /\ leaves_room 64 8 m) 64 hs_sha224.
  - std_sha (fun m => bits_below 64 m /\ leaves_room 64 8 m) 64 hs_sha256.
  - std_sha (fun m => bits_below 128 m /\ leaves_room 128 16 m) 128 hs_sha384.
  - std_sha (fun m => bits_below 128 m /\ leaves_room 128 16 m) 128 hs_sha512.
  - std_sha (fun m => bits_below 128 m /\ leaves_room 128 16 m) 128 hs_sha512_224.
  - std_sha (fun m => bits_below 128 m /\ leaves_room 128 16 m) 128 hs_sha512_256.
  - apply (lib_good garbage _ _ _ _ _ _ cl_sha3_224).
  - apply (lib_good garbage _ _ _ _ _ _ cl_sha3_256).
  - apply (lib_good garbage _ _ _ _ _ _ cl_sha3_384).
  - apply (lib_good garbage _ _ _ _ _ _ cl_sha3_512).
Qed.

(** ** pads *)
Lemma arrcpy_length B k : length (arrcpy B k) = B.
Proof. unfold arrcpy. cbv zeta. rewrite app_length, firstn_length, repeat_length. destruct (Nat.ltb_spec (length k) B); lia. Qed.
Lemma arrcpy_block H B k : (length k <= B)%nat -> arrcpy B k = key_block H B k.
Proof.
  intros L. unfold arrcpy, key_block. cbv zeta. destruct (Nat.leb_spec (length k) B) as [_|X]; [|lia].
  destruct (Nat.ltb_spec (length k) B) as [X|X]; rewrite firstn_all2 by lia; [reflexivity|]. replace B with (length k) by lia. reflexivity.
Qed.
Lemma arrcpy_firstn B k : arrcpy B k = arrcpy B (firstn B k).
Proof.
  unfold arrcpy. cbv zeta. rewrite firstn_length. destruct (Nat.ltb_spec (length k) B) as [X|X].
  - rewrite Nat.min_r by lia. destruct (Nat.ltb_spec (length k) B); [|lia]. rewrite (firstn_all2 (n := B)) by lia. reflexivity.
  - rewrite Nat.min_l by lia. destruct (Nat.ltb_spec B B); [lia|]. rewrite firstn_firstn, Nat.min_id. reflexivity.
Qed.
Lemma arrcpy_bytes B k : bytes_ok k -> bytes_ok (arrcpy B k).
Proof.
  intros Hk. unfold arrcpy. cbv zeta. apply Forall_app. split; [apply firstn_ok; exact Hk|]. apply Forall_forall. intros x Hx. apply repeat_spec in Hx. subst. reflexivity.
Qed.
Lemma lxor_byte x v : x < 256 -> v < 256 -> N.lxor x v < 256.
Proof.
  intros Hx Hv. destruct (N.eq_dec (N.lxor x v) 0) as [->|Z]; [lia|]. change 256 with (2 ^ 8). apply N.log2_lt_pow2; [lia|].
  eapply N.le_lt_trans; [apply N.log2_lxor|]. apply N.max_lub_lt.
  - destruct (N.eq_dec x 0) as [->|]; [reflexivity|]. apply N.log2_lt_pow2; [lia|exact Hx].
  - destruct (N.eq_dec v 0) as [->|]; [reflexivity|]. apply N.log2_lt_pow2; [lia|exact Hv].
Qed.
Lemma xor_pad_bytes v k : v < 256 -> bytes_ok k -> bytes_ok (xor_pad v k).
Proof. intros Hv. induction 1 as [|x k Hx Hk IH]; [constructor|]. constructor; [apply lxor_byte; assumption|exact IH]. Qed.
Lemma xor_pad_length v k : length (xor_pad v k) = length k.
Proof. apply map_length. Qed.

(** the value computed for key block [kb] *)
Definition hmac_block (H : list N -> list N) (kb m : list N) : list N := H (xor_pad 0x5c kb ++ H (xor_pad 0x36 kb ++ m)).

Fixpoint hmac_updates (I : hash_impl) (c : hmac_ctx I) (ps : list (list N)) : outcome (hmac_ctx I) :=
  match ps with [] => Ret c | p :: ps => c <- hmac_update I c p ;; hmac_updates I c ps end.
Lemma hmac_updates_eq I ps : forall h ip op, hmac_updates I (mkHmac h ip op) ps = (h <- updates I h ps ;; Ret (mkHmac h ip op)).
Proof.
  induction ps as [|p ps IH]; intros h ip op; [reflexivity|]. cbn [hmac_updates updates]. unfold hmac_update. cbn [hash_ctx k_i_pad k_o_pad].
  destruct (iupdate I h p) as [h'| |]; cbn [bind]; [apply IH|reflexivity|reflexivity].
Qed.

Section Core.
Variables (I : hash_impl) (P T : list N -> Prop) (H : list N -> list N).
Hypothesis S : streams I P T H.
Hypothesis K : keeps_typed I.
Hypothesis HP : forall p, bytes_ok p -> p <> [] -> (length p <= 1024)%nat -> P p.
Hypothesis HB : forall m, bytes_ok (H m).
Hypothesis HS : (0 < idsz I)%nat /\ (0 < iblock I)%nat /\ (iblock I <= 1024)%nat /\ (idsz I <= 1024)%nat.

(** the context was started with key block [kb] and then fed [ps] *)
Definition keyed (kb : list N) (ps : list (list N)) (c : hmac_ctx I) : Prop :=
  exists g, typed I g /\ updates I (iinit I g) (xor_pad 0x36 kb :: ps) = Ret (hash_ctx c) /\ k_i_pad c = xor_pad 0x36 kb /\ k_o_pad c = xor_pad 0x5c kb.

Lemma nonempty {A} (l : list A) : (0 < length l)%nat -> l <> [].
Proof. intros X ->. cbn in X. lia. Qed.
Lemma pad_piece v kb : v < 256 -> length kb = iblock I -> bytes_ok kb -> P (xor_pad v kb).
Proof.
  intros Hv L Hk. apply HP; [apply xor_pad_bytes; assumption|apply nonempty; rewrite xor_pad_length; lia|rewrite xor_pad_length; lia].
Qed.
Lemma one_piece g p : typed I g -> P p -> T p -> exists h, iupdate I (iinit I g) p = Ret h.
Proof.
  intros Hg Hp Ht. destruct (S g [p] (repeat 0 (idsz I)) Hg) as (c & c' & E & _).
  - repeat constructor. exact Hp.
  - cbn [concat]. rewrite app_nil_r. exact Ht.
  - rewrite repeat_length. lia.
  - cbn [updates] in E. destruct (iupdate I (iinit I g) p) as [h| |]; [|discriminate|discriminate]. exists h. reflexivity.
Qed.
Lemma set_key_keyed c key : typed I (hash_ctx c) -> bytes_ok key -> T (xor_pad 0x36 (arrcpy (iblock I) key)) ->
  exists c', hmac_set_key I c key = Ret c' /\ keyed (arrcpy (iblock I) key) [] c'.
Proof.
  intros Hc Hk Ht. set (kb := arrcpy (iblock I) key) in *.
  assert (Hp : P (xor_pad 0x36 kb)) by (apply pad_piece; [reflexivity|apply arrcpy_length|apply arrcpy_bytes; exact Hk]).
  destruct (one_piece _ _ Hc Hp Ht) as [h E]. unfold hmac_set_key. cbv zeta. fold kb. change (map (fun b => N.lxor b I_UNIT) kb) with (xor_pad 0x36 kb).
  change (map (fun b => N.lxor b O_UNIT) kb) with (xor_pad 0x5c kb).
  rewrite E. cbn [bind]. eexists. split; [reflexivity|]. exists (hash_ctx c). split; [exact Hc|]. cbn [hash_ctx k_i_pad k_o_pad updates]. rewrite E. auto.
Qed.
Lemma init_keyed c : typed I (hash_ctx c) -> T (repeat 0x36 (iblock I)) ->
  exists c', hmac_init I c = Ret c' /\ keyed (repeat 0 (iblock I)) [] c'.
Proof.
  intros Hc Ht. assert (E1 : repeat 0x36 (iblock I) = xor_pad 0x36 (repeat 0 (iblock I))) by (unfold xor_pad; rewrite map_repeat; reflexivity).
  assert (E2 : repeat 0x5c (iblock I) = xor_pad 0x5c (repeat 0 (iblock I))) by (unfold xor_pad; rewrite map_repeat; reflexivity).
  assert (Hp : P (xor_pad 0x36 (repeat 0 (iblock I)))).
  { apply pad_piece; [reflexivity|apply repeat_length|]. apply Forall_forall. intros x Hx. apply repeat_spec in Hx. subst. reflexivity. }
  rewrite E1 in Ht. destruct (one_piece _ _ Hc Hp Ht) as [h E].
  unfold hmac_init. cbv zeta. unfold I_UNIT, O_UNIT. rewrite E1, E2, E. cbn [bind]. eexists. split; [reflexivity|]. exists (hash_ctx c). split; [exact Hc|].
  cbn [hash_ctx k_i_pad k_o_pad updates]. rewrite E. auto.
Qed.
Lemma updates_keyed kb : length kb = iblock I -> bytes_ok kb -> forall ps qs c, keyed kb ps c -> Forall P ps -> Forall P qs -> T (xor_pad 0x36 kb ++ concat (ps ++ qs)) ->
  exists c', hmac_updates I c qs = Ret c' /\ keyed kb (ps ++ qs) c'.
Proof.
  intros L Hk ps qs c (g & Hg & E & E1 & E2) Hps Hqs Ht. destruct c as [h ip op]. cbn [hash_ctx k_i_pad k_o_pad] in *. subst ip op.
  destruct (S g (xor_pad 0x36 kb :: ps ++ qs) (repeat 0 (idsz I)) Hg) as (c & c' & U & _).
  - constructor; [apply pad_piece; [reflexivity|assumption|assumption]|]. apply Forall_app. split; assumption.
  - exact Ht.
  - rewrite repeat_length. lia.
  - rewrite hmac_updates_eq. rewrite app_comm_cons, PropSha.updates_app, E in U. cbn [bind] in U. rewrite U. cbn [bind]. eexists. split; [reflexivity|].
    exists g. split; [exact Hg|]. cbn [hash_ctx k_i_pad k_o_pad]. rewrite app_comm_cons, PropSha.updates_app, E. cbn [bind]. auto.
Qed.
Lemma digest_keyed kb ps c l out : length kb = iblock I -> bytes_ok kb -> keyed kb ps c -> Forall P ps -> T (xor_pad 0x36 kb ++ concat ps) ->
  T (xor_pad 0x5c kb ++ H (xor_pad 0x36 kb ++ concat ps)) -> locals_ok l -> (idsz I <= length out)%nat ->
  length (H (xor_pad 0x36 kb ++ concat ps)) = idsz I /\
  exists c', hmac_digest I l c out = Ret (c', hmac_block H kb (concat ps) ++ skipn (idsz I) out) /\ length (hmac_block H kb (concat ps)) = idsz I.
Proof.
  intros L Hk (g & Hg & E & E1 & E2) Hps Ht Ht2 [Lm Hl] Ho. set (m1 := xor_pad 0x36 kb ++ concat ps) in *.
  destruct (S g (xor_pad 0x36 kb :: ps) (l_mid l) Hg) as (h & h' & U & D & Hh' & LH); [constructor; [apply pad_piece; [reflexivity|assumption|assumption]|assumption]|exact Ht|lia|].
  cbn [concat] in D, LH. fold m1 in D, LH.
  rewrite E in U. injection U as <-. split; [exact LH|]. unfold hmac_digest. rewrite D. cbn [bind]. rewrite firstn_app, LH, Nat.sub_diag, firstn_O, app_nil_r, firstn_all2 by lia.
  destruct (S (l_ctx l) [xor_pad 0x5c kb; H m1] out Hl) as (h2 & h3 & U2 & D2 & _ & LH2).
  - constructor; [apply pad_piece; [reflexivity|assumption|assumption]|]. constructor; [|constructor]. apply HP; [apply HB|apply nonempty; lia|lia].
  - cbn [concat]. rewrite app_nil_r. exact Ht2.
  - exact Ho.
  - unfold encode_multiple. rewrite E2. cbn [multi_loop]. cbn [updates] in U2. 
    destruct (iupdate I (iinit I (l_ctx l)) (xor_pad 0x5c kb)) as [h4| |]; cbn [bind] in U2 |- *; try discriminate U2.
    destruct (iupdate I h4 (H m1)) as [h5| |]; cbn [bind] in U2 |- *; try discriminate U2. injection U2 as ->. rewrite D2. cbn [bind].
    cbn [concat] in LH2 |- *. rewrite app_nil_r in LH2 |- *. eexists. split; [reflexivity|exact LH2].
Qed.
End Core.
