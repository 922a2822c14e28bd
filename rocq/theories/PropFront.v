(** C22, C23, C29, C30, C31, C33, C58: the interface common to all hash functions. [hash_fn] and [hash_std]
    (SHashFns.v) list the functions; [streams] is in SHash.v. *)
From Coq Require Import String.
From Verif Require SFips202 SMd5 PropSha PropMd5 PropKeccak.
From Verif Require Import Base SHex SFips180 SShaLib MSha MFront MMd5 MKeccak SHash SKeccakFns SHashFns PShort.
Local Open Scope N_scope.

Theorem C22_table_sound : forall I P T H, hash_fn I P T H -> streams I P T H.
Proof. exact hash_streams. Qed.
Theorem C22_table_std_sound : forall I P T H, hash_std I P T H -> streams I P T H.
Proof. exact std_streams. Qed.

Lemma run_streams I P T H g ps out : streams I P T H -> typed I g -> Forall P ps -> T (concat ps) -> (idsz I <= length out)%nat ->
  hash_run I g ps out = Ret (H (concat ps) ++ skipn (idsz I) out).
Proof.
  intros S Hg HP HT Ho. destruct (S g ps out Hg HP HT Ho) as (c & c' & E & D & _). unfold hash_run. rewrite E. cbn [bind]. rewrite D. reflexivity.
Qed.

(** ** C22: how the message is cut into updates does not matter *)
Theorem C22_streaming_invariance : forall I P T H, hash_fn I P T H ->
  forall g ps qs out, typed I g -> Forall P ps -> Forall P qs -> concat ps = concat qs -> T (concat ps) -> (idsz I <= length out)%nat ->
  exists d, hash_run I g ps out = Ret d /\ hash_run I g qs out = Ret d.
Proof.
  intros I P T H K g ps qs out Hg HP HQ E HT Ho. pose proof (hash_streams _ _ _ _ K) as S.
  eexists. split; [eapply run_streams; eauto|]. rewrite (run_streams I P T H g qs out S); auto; rewrite <- E; auto.
Qed.

(** ** C23: whatever the context held before init does not matter *)
Theorem C23_init_forgets : forall I P T H, hash_fn I P T H ->
  forall g g' ps out, typed I g -> typed I g' -> Forall P ps -> T (concat ps) -> (idsz I <= length out)%nat ->
  exists d, hash_run I g ps out = Ret d /\ hash_run I g' ps out = Ret d.
Proof.
  intros I P T H K g g' ps out Hg Hg' HP HT Ho. pose proof (hash_streams _ _ _ _ K) as S.
  eexists. split; eapply run_streams; eauto.
Qed.
(** in particular re-using a context that was abandoned half way or finished *)
Theorem C23_reuse : forall I P T H, hash_fn I P T H ->
  forall g ps qs out out2 c1 c2 d, typed I g -> Forall P ps -> T (concat ps) -> Forall P qs -> T (concat qs) ->
  (idsz I <= length out)%nat -> (idsz I <= length out2)%nat ->
  updates I (iinit I g) ps = Ret c1 -> idigest I c1 out = Ret (c2, d) ->
  hash_run I c2 qs out2 = hash_run I g qs out2.
Proof.
  intros I P T H K g ps qs out out2 c1 c2 d Hg HP HT HQ HTQ Ho Ho2 E D. pose proof (hash_streams _ _ _ _ K) as S.
  destruct (S g ps out Hg HP HT Ho) as (c & c' & E' & D' & Hc' & _). rewrite E in E'. injection E' as <-. rewrite D in D'. injection D' as <- _.
  rewrite !(run_streams I P T H _ qs out2 S); auto.
Qed.

(** ** C29: files *)
Lemma file_loop_pieces I : forall fuel c m, (length m < fuel)%nat -> file_loop fuel I c m = updates I c (file_pieces (length m) m).
Proof.
  assert (G : forall fuel n c m, (length m < fuel)%nat -> (length m <= n)%nat -> file_loop fuel I c m = updates I c (file_pieces n m)).
  { induction fuel as [|fuel IH]; intros n c m Hf Hn; [lia|]. cbn [file_loop].
    assert (X : (if Nat.leb 1024 (length (firstn 1024 m)) then true else false) = Nat.leb 1024 (length m)).
    { rewrite firstn_length. destruct (Nat.leb_spec 1024 (length m)), (Nat.leb_spec 1024 (Nat.min 1024 (length m))); auto; lia. }
    destruct (Nat.leb_spec 1024 (length (firstn 1024 m))) as [Y|Y].
    - destruct n as [|n]; [rewrite firstn_length in Y; lia|]. cbn [file_pieces]. rewrite <- X. cbn [updates].
      destruct (iupdate I c (firstn 1024 m)) as [c'| |]; cbn [bind]; try reflexivity. apply IH; rewrite skipn_length; rewrite firstn_length in Y; lia.
    - assert (E : file_pieces n m = [m]) by (destruct n; [reflexivity|]; cbn [file_pieces]; rewrite <- X; reflexivity). rewrite E. cbn [updates].
      rewrite firstn_length in Y. rewrite (firstn_all2 m) by lia. destruct (iupdate I c m); reflexivity. }
  intros fuel c m Hf. apply G; lia.
Qed.
Lemma file_pieces_concat : forall n m, concat (file_pieces n m) = m.
Proof.
  induction n as [|n IH]; intros m; cbn [file_pieces]; [apply app_nil_r|]. destruct (Nat.leb 1024 (length m)); cbn [concat]; [rewrite IH; apply firstn_skipn|apply app_nil_r].
Qed.
Lemma file_pieces_ok (P : list N -> Prop) : (forall p, bytes_ok p -> p <> [] -> (length p <= 1024)%nat -> P p) ->
  forall n m, (length m <= n)%nat -> bytes_ok m -> P [] \/ (length m mod 1024 <> 0)%nat -> Forall P (file_pieces n m).
Proof.
  intros HP. induction n as [|n IH]; intros m Hn Hm HE; cbn [file_pieces].
  - destruct m as [|x m]; [|cbn in Hn; lia]. destruct HE as [HE|HE]; [repeat constructor; assumption|exfalso; apply HE; reflexivity].
  - destruct (Nat.leb_spec 1024 (length m)) as [L|L].
    + rewrite <- (firstn_skipn 1024 m) in Hm. apply Forall_app in Hm. destruct Hm as [H1 H2]. constructor.
      * apply HP; [exact H1| |rewrite firstn_length; lia]. intros C. apply (f_equal (@length N)) in C. rewrite firstn_length in C. cbn [length] in C. lia.
      * apply IH; [rewrite skipn_length; lia|exact H2|]. destruct HE as [HE|HE]; [left; exact HE|right]. rewrite skipn_length.
        replace (length m) with ((length m - 1024) + 1 * 1024)%nat in HE by lia. rewrite Nat.mod_add in HE by lia. exact HE.
    + destruct m as [|x m]; [|constructor; [|constructor]; apply HP; [exact Hm|discriminate|lia]].
      destruct HE as [HE|HE]; [repeat constructor; assumption|exfalso; apply HE; reflexivity].
Qed.
Lemma encode_f_streams I P T H g content out : streams I P T H -> (forall p, bytes_ok p -> p <> [] -> (length p <= 1024)%nat -> P p) ->
  typed I g -> bytes_ok content -> T content ->
  P [] \/ (length content mod 1024 <> 0)%nat -> (idsz I <= length out)%nat ->
  encode_f I g content out = Ret (H content ++ skipn (idsz I) out).
Proof.
  intros S Q Hg Hb HT HE Ho. unfold encode_f. rewrite file_loop_pieces by lia.
  destruct (S g (file_pieces (length content) content) out Hg) as (c & c' & E & D & _); auto.
  - apply file_pieces_ok; auto.
  - rewrite file_pieces_concat. exact HT.
  - rewrite E. cbn [bind]. rewrite D. rewrite file_pieces_concat. reflexivity.
Qed.
(** [P []]: the algorithm accepts empty updates; MD5 with an undefined or zero uninitialised variable does
    not, and then the size must not be a multiple of 1024 *)
Theorem C29_file_is_message : forall I P T H, hash_fn I P T H ->
  forall g content out, typed I g -> bytes_ok content -> T content -> P [] \/ (length content mod 1024 <> 0)%nat -> (idsz I <= length out)%nat ->
  encode_f I g content out = Ret (H content ++ skipn (idsz I) out).
Proof. intros I P T H K g content out. apply encode_f_streams with (P := P) (T := T); [apply hash_streams; exact K|apply (pieces_hash _ _ _ _ K)]. Qed.
Theorem C29_empty_updates_allowed : forall I P T H, hash_fn I P T H -> P [] \/ exists garbage, I = md5_impl garbage.
Proof.
  intros I P T H K. destruct K; try (right; eexists; reflexivity); left; try (split; [constructor|]; cbn; lia); constructor.
Qed.
(** against the standards *)
Theorem C29_file_standard : forall I P T H, hash_std I P T H ->
  forall g content out, typed I g -> bytes_ok content -> T content -> P [] \/ (length content mod 1024 <> 0)%nat -> (idsz I <= length out)%nat ->
  encode_f I g content out = Ret (H content ++ skipn (idsz I) out).
Proof.
  intros I P T H K g content out. apply encode_f_streams with (P := P) (T := T); [apply std_streams; exact K|].
  destruct K.
  - exact (proj1 (pieces_hash _ _ _ _ hf_sha1)).
  - exact (proj1 (pieces_hash _ _ _ _ hf_sha224)).
  - exact (proj1 (pieces_hash _ _ _ _ hf_sha256)).
  - exact (proj1 (pieces_hash _ _ _ _ hf_sha384)).
  - exact (proj1 (pieces_hash _ _ _ _ hf_sha512)).
  - exact (proj1 (pieces_hash _ _ _ _ hf_sha512_224)).
  - exact (proj1 (pieces_hash _ _ _ _ hf_sha512_256)).
  - exact (proj1 (pieces_hash _ _ _ _ (hf_md5 garbage))).
  - exact (proj1 (pieces_hash _ _ _ _ (hf_md5_nonzero v H))).
  - exact (proj1 (pieces_hash _ _ _ _ (hf_keccak I rb H H0))).
Qed.

(** ** C30: several inputs *)
Lemma multi_present I : forall inputs c, multi_loop I c inputs = updates I c (present inputs).
Proof.
  induction inputs as [|[p|] r IH]; intros c; cbn [multi_loop present updates]; [reflexivity| |apply IH].
  destruct (iupdate I c p); cbn [bind]; [apply IH|reflexivity|reflexivity].
Qed.
Theorem C30_multiple_is_concatenation : forall I P T H, hash_fn I P T H ->
  forall g inputs out, typed I g -> Forall P (present inputs) -> T (concat (present inputs)) -> (idsz I <= length out)%nat ->
  encode_multiple I g inputs out = Ret (H (concat (present inputs)) ++ skipn (idsz I) out).
Proof.
  intros I P T H K g inputs out Hg HP HT Ho. unfold encode_multiple. rewrite multi_present.
  destruct (hash_streams _ _ _ _ K g _ out Hg HP HT Ho) as (c & c' & E & D & _). rewrite E. cbn [bind]. rewrite D. reflexivity.
Qed.
(** the same as hashing the concatenation in one call *)
Theorem C30_multiple_equals_encode : forall I P T H, hash_fn I P T H ->
  forall g inputs out, typed I g -> Forall P (present inputs) -> P (concat (present inputs)) -> T (concat (present inputs)) -> (idsz I <= length out)%nat ->
  encode_multiple I g inputs out = encode I g (concat (present inputs)) out.
Proof.
  intros I P T H K g inputs out Hg HP HC HT Ho. rewrite (C30_multiple_is_concatenation I P T H K) by assumption.
  rewrite (PropSha.encode_of_streams I P T H) by (auto; apply hash_streams; assumption). reflexivity.
Qed.
(** no inputs at all, or only NULLs: the digest of the empty message, even for MD5 *)
Theorem C30_all_null : forall I P T H, hash_fn I P T H -> forall g k out, typed I g -> T [] -> (idsz I <= length out)%nat ->
  encode_multiple I g (repeat None k) out = Ret (H [] ++ skipn (idsz I) out).
Proof.
  intros I P T H K g k out Hg HT Ho. assert (E : present (repeat None k) = []) by (induction k; [reflexivity|assumption]).
  rewrite (C30_multiple_is_concatenation I P T H K); rewrite ?E; auto.
Qed.

(** ** C31: taking the digest again without init *)
Theorem C31_second_digest : forall I P T H H2, again_fn I P T H H2 ->
  forall g ps out out2, typed I g -> Forall P ps -> T (concat ps) -> (idsz I <= length out)%nat -> (idsz I <= length out2)%nat ->
  exists c c1 c2, updates I (iinit I g) ps = Ret c /\
    idigest I c out = Ret (c1, H (concat ps) ++ skipn (idsz I) out) /\
    idigest I c1 out2 = Ret (c2, H2 (concat ps) ++ skipn (idsz I) out2).
Proof.
  intros I P T H H2 K g ps out out2 Hg HP HT Ho Ho2.
  destruct (hash_again _ _ _ _ _ K g ps out out2 Hg HP HT Ho Ho2) as (c & c1 & d & c2 & E & D & D2).
  destruct (hash_streams _ _ _ _ (again_hash _ _ _ _ _ K) g ps out Hg HP HT Ho) as (c' & c1' & E' & D' & _).
  rewrite E in E'. injection E' as <-. rewrite D in D'. injection D' as <- ->. exists c, c1, c2. auto.
Qed.
(** each of these functions has messages whose second digest is different *)
Theorem C31_not_idempotent : forall I P T H H2, again_fn I P T H H2 ->
  exists ps, Forall P ps /\ T (concat ps) /\ H2 (concat ps) <> H (concat ps).
Proof. exact again_differs. Qed.
(** after init everything is right again, whatever was done with the context before *)
Theorem C31_reinit_restores : forall I P T H, hash_fn I P T H ->
  forall c ps out, typed I c -> Forall P ps -> T (concat ps) -> (idsz I <= length out)%nat ->
  hash_run I c ps out = Ret (H (concat ps) ++ skipn (idsz I) out).
Proof. intros I P T H K c ps out Hc HP HT Ho. apply (run_streams I P T H); auto. apply hash_streams; assumption. Qed.

(** ** C33: what digest writes *)
Theorem C33_footprint : forall I P T H, hash_fn I P T H ->
  forall g ps out d, typed I g -> Forall P ps -> T (concat ps) -> (idsz I <= length out)%nat ->
  hash_run I g ps out = Ret d -> length d = length out /\ skipn (idsz I) d = skipn (idsz I) out /\
    (forall out', length out' = length out -> exists d', hash_run I g ps out' = Ret d' /\ firstn (idsz I) d' = firstn (idsz I) d).
Proof.
  intros I P T H K g ps out d Hg HP HT Ho E. pose proof (hash_streams _ _ _ _ K) as S.
  rewrite (run_streams I P T H g ps out S Hg HP HT Ho) in E. injection E as <-.
  destruct (S g ps out Hg HP HT Ho) as (_ & _ & _ & _ & _ & L). split; [|split].
  - rewrite app_length, L, skipn_length. lia.
  - rewrite skipn_app, L, Nat.sub_diag, skipn_all2 by (rewrite L; lia). reflexivity.
  - intros out' Ho'. eexists. split; [apply (run_streams I P T H g ps out' S Hg HP HT); lia|].
    rewrite !firstn_app, L, Nat.sub_diag, !firstn_O, !app_nil_r. reflexivity.
Qed.
(** a buffer that is too short is overrun *)
Theorem C33_short_buffer : forall I P T H, hash_fn I P T H ->
  forall g ps out, typed I g -> Forall P ps -> T (concat ps) -> (length out < idsz I)%nat ->
  hash_run I g ps out = UB OutOfBounds.
Proof.
  intros I P T H K g ps out Hg HP HT Ho.
  destruct (hash_streams _ _ _ _ K g ps (repeat 0 (idsz I)) Hg HP HT) as (c & c' & E & _); [rewrite repeat_length; lia|].
  unfold hash_run. rewrite E. cbn [bind]. rewrite (hash_short _ _ _ _ K g ps out c); auto.
Qed.
(** the documented digest and block sizes *)
Theorem C33_documented_sizes :
  map idsz [sha_impl alg_sha1; sha_impl alg_sha224; sha_impl alg_sha256; sha_impl alg_sha384; sha_impl alg_sha512; sha_impl alg_sha512_224; sha_impl alg_sha512_256;
            md5_impl None; impl_sha3_224; impl_sha3_256; impl_sha3_384; impl_sha3_512] = [20; 28; 32; 48; 64; 28; 32; 16; 28; 32; 48; 64]%nat /\
  map iblock [sha_impl alg_sha1; sha_impl alg_sha224; sha_impl alg_sha256; sha_impl alg_sha384; sha_impl alg_sha512; sha_impl alg_sha512_224; sha_impl alg_sha512_256;
            md5_impl None; impl_sha3_224; impl_sha3_256; impl_sha3_384; impl_sha3_512] = [64; 64; 64; 128; 128; 128; 128; 64; 144; 136; 104; 72]%nat /\
  (forall n, map idsz [impl_shake128 (8 * N.of_nat n); impl_shake256 (8 * N.of_nat n); impl_rawshake128 (8 * N.of_nat n); impl_rawshake256 (8 * N.of_nat n)] = repeat n 4).
Proof.
  split; [reflexivity|]. split; [reflexivity|]. intros n. cbn [map idsz impl_shake128 impl_shake256 impl_rawshake128 impl_rawshake256 xof_impl repeat].
  replace (N.to_nat (8 * N.of_nat n / 8)) with n; [reflexivity|]. rewrite (N.mul_comm 8), N.div_mul by discriminate. rewrite Nat2N.id. reflexivity.
Qed.

(** ** C58: the one-shot functions *)
Theorem C58_encode : forall I P T H, hash_fn I P T H ->
  forall g data out, typed I g -> P data -> T data -> (idsz I <= length out)%nat ->
  encode I g data out = Ret (H data ++ skipn (idsz I) out).
Proof. intros I P T H K g data out Hg HP HT Ho. apply (PropSha.encode_of_streams I P T H); auto. apply hash_streams; assumption. Qed.
Theorem C58_encode_standard : forall I P T H, hash_std I P T H ->
  forall g data out, typed I g -> P data -> T data -> (idsz I <= length out)%nat ->
  encode I g data out = Ret (H data ++ skipn (idsz I) out).
Proof. intros I P T H K g data out Hg HP HT Ho. apply (PropSha.encode_of_streams I P T H); auto. apply std_streams; assumption. Qed.
Lemma upto_nul_app s r : ~ In 0 s -> upto_nul (s ++ 0 :: r) = s.
Proof.
  induction s as [|x s IH]; intros Hs; [reflexivity|]. cbn [app upto_nul]. destruct (N.eqb_spec x 0) as [->|X]; [exfalso; apply Hs; left; reflexivity|].
  f_equal. apply IH. intros C. apply Hs. right. exact C.
Qed.
(** a NUL-terminated string: its bytes without the terminator; what follows it in memory is irrelevant *)
Theorem C58_encode_default : forall I P T H, hash_fn I P T H ->
  forall g s rest out, typed I g -> ~ In 0 s -> P s -> T s -> (idsz I <= length out)%nat ->
  encode_default I g (s ++ 0 :: rest) out = Ret (H s ++ skipn (idsz I) out).
Proof.
  intros I P T H K g s rest out Hg Hs HP HT Ho. unfold encode_default. rewrite upto_nul_app by exact Hs.
  destruct (Nat.eqb_spec (length s) (length (s ++ 0 :: rest))) as [X|_]; [rewrite app_length in X; cbn [length] in X; lia|].
  apply (C58_encode I P T H K); assumption.
Qed.
(** an unterminated region is overrun *)
Theorem C58_unterminated : forall I g mem out, ~ In 0 mem -> encode_default I g mem out = UB OutOfBounds.
Proof.
  intros I g mem out Hm. unfold encode_default. assert (E : upto_nul mem = mem).
  { induction mem as [|x mem IH]; [reflexivity|]. cbn [upto_nul]. destruct (N.eqb_spec x 0) as [->|X]; [exfalso; apply Hm; left; reflexivity|].
    f_equal. apply IH. intros C. apply Hm. right. exact C. }
  rewrite E, Nat.eqb_refl. reflexivity.
Qed.

(** ** Non-vacuity *)
Definition used_ctx : sha_ctx := mkSha [1; 2; 3; 4; 5; 6; 7; 8] 7 9 11 (repeat 3 64).
Lemma abc_ok : forall s, s = chars "abc" -> bytes_ok s.
Proof. intros s ->. repeat (apply Forall_cons; [vm_compute; reflexivity|]). apply Forall_nil. Qed.
Example file_example : encode_f (sha_impl alg_sha256) used_ctx (chars "abc") (repeat 1 33) =
  Ret (be_bytes 32 0xba7816bf8f01cfea414140de5dae2223b00361a396177a9cb410ff61f20015ad ++ [1]).
Proof. vm_compute. reflexivity. Qed.
Example file_hyps : typed (sha_impl alg_sha256) used_ctx /\ bits_below 64 (repeat 97 2048) /\ int_piece [] /\ bytes_ok (repeat 97 2048).
Proof.
  split; [reflexivity|]. split; [unfold bits_below; rewrite repeat_length; vm_compute; reflexivity|]. split; [split; [constructor|vm_compute; reflexivity]|].
  apply Forall_forall. intros x Hx. apply repeat_spec in Hx. subst. reflexivity.
Qed.
Example multi_example : encode_multiple (sha_impl alg_sha256) used_ctx [Some (chars "a"); None; Some (chars "bc")] (repeat 1 33) =
  Ret (be_bytes 32 0xba7816bf8f01cfea414140de5dae2223b00361a396177a9cb410ff61f20015ad ++ [1]).
Proof. vm_compute. reflexivity. Qed.
Example default_example : encode_default (sha_impl alg_sha256) used_ctx (chars "abc" ++ 0 :: [9; 9]) (repeat 1 33) =
  Ret (be_bytes 32 0xba7816bf8f01cfea414140de5dae2223b00361a396177a9cb410ff61f20015ad ++ [1]).
Proof. vm_compute. reflexivity. Qed.
Example md5_file_hyps : (length (repeat 97 1500) mod 1024 <> 0)%nat /\ (~ (fun p : list N => bytes_ok p /\ p <> []) []).
Proof. split; [rewrite repeat_length; vm_compute; discriminate|intros [_ X]; apply X; reflexivity]. Qed.
Example roomy_example : leaves_room 64 8 (repeat 97 1500) /\ bits_below 64 (repeat 97 1500).
Proof. unfold leaves_room, bits_below. rewrite repeat_length. split; vm_compute; [lia|reflexivity]. Qed.

Print Assumptions C22_streaming_invariance.
Print Assumptions C23_init_forgets.
Print Assumptions C23_reuse.
Print Assumptions C29_file_is_message.
Print Assumptions C29_file_standard.
Print Assumptions C30_multiple_is_concatenation.
Print Assumptions C30_multiple_equals_encode.
Print Assumptions C31_second_digest.
Print Assumptions C31_not_idempotent.
Print Assumptions C31_reinit_restores.
Print Assumptions C33_footprint.
Print Assumptions C33_short_buffer.
Print Assumptions C33_documented_sizes.
Print Assumptions C58_encode.
Print Assumptions C58_encode_default.
