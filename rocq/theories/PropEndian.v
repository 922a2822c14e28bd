(** Property theorems C84: what depends on the byte order of the machine. [order] and the functions ending in [_on] are in MEndian.v;
    [swap_bytes], [swap_halves] and [sha2_64_swapped] in SEndian.v. *)
From Coq Require Import String.
From Verif Require Import Base SHex SFips180 SShaLib MSha MFront SHash PWords PSha PShaStream PShaInst PropSha.
From Verif Require Import SFips202 MKeccak PropKeccak SHmac MHmac PropHmac SOtp MOtp PropOtp.
From Verif Require Import MBlowfish PBlowfish PBlowfish2 PBlowfish3 PropBlowfish MEndian SEndian PEndian.
From Verif Require SBlowfish.
Local Open Scope N_scope.

(** ** SHA-384, SHA-512, SHA-512/224, SHA-512/256 *)
Ltac small_words := repeat (constructor; [reflexivity|]); constructor.
Lemma K32_ok : Forall (fun w => w < 2 ^ 32) sha512_K32.
Proof. unfold sha512_K32. small_words. Qed.
Lemma sha512_K_be : paired BigEndian sha512_K32 = map swap_halves sha512_K.
Proof. apply paired_be, K32_ok. Qed.
Lemma sha512_K_le : paired LittleEndian sha512_K32 = sha512_K.
Proof. apply paired_le, K32_ok. Qed.

Definition process_with (K s b : list N) : list N :=
  add_back 64 s (fold_left (sha2_step 64 sha512_SIGMA0 sha512_SIGMA1 K
    (fold_left (sha2_expand 64 sha512_sigma0 sha512_sigma1) (seq 16 64) (map (load64 b) (seq 0 16)))) (seq 0 80) s).
Lemma process_with_eq K k s b : (forall t, nth t K 0 = nth t k 0) -> PSha.words_ok 64 8 s -> List.length b = 128%nat -> bytes_ok b ->
  process_with K s b = sha2_compress (with_constants k) s b /\ PSha.words_ok 64 8 (process_with K s b).
Proof.
  intros HK Hs Hl Hb. unfold process_with, sha2_compress. set (F := with_constants k) in *.
  assert (W : fold_left (sha2_expand 64 sha512_sigma0 sha512_sigma1) (seq 16 64) (map (load64 b) (seq 0 16)) = sha2_schedule F b).
  { unfold sha2_schedule. rewrite (load64_words 16) by (auto; lia).
    change (rounds F - 16)%nat with 64%nat. change (wbytes F) with 8%nat. apply fold_ext. intros ws i _.
    apply (sha2_expand_eq F); intros x; unfold F, with_constants, sha512_sigma0, sha512_sigma1, sigma0, sigma1, sha2_64, x3, shr;
      rewrite !crshift_rotr, N.shiftr_div_pow2; reflexivity. }
  rewrite W. set (ws := sha2_schedule F b).
  destruct (fold_ext_inv (PSha.words_ok 64 8) (sha2_step 64 sha512_SIGMA0 sha512_SIGMA1 K ws) (sha2_round F ws) (seq 0 80) s) as [E I].
  - intros v t _ Hv. apply (sha2_step_eq F); auto; intros x;
      unfold F, with_constants, sha512_SIGMA0, sha512_SIGMA1, Sigma0, Sigma1, sha2_64, x3; rewrite !crshift_rotr; reflexivity.
  - exact Hs.
  - rewrite E, add_back_zip. split; [reflexivity|]. apply zip_add_ok; [apply Hs|apply I].
Qed.
Lemma swapped_K_eq t : nth t (paired BigEndian sha512_K32) 0 = nth t (map swap_halves (Kt sha2_64)) 0.
Proof.
  rewrite sha512_K_be. change (nth t (map swap_halves sha512_K) (swap_halves 0) = nth t (map swap_halves (Kt sha2_64)) (swap_halves 0)).
  rewrite !map_nth. apply (f_equal swap_halves), sha512_K_eq.
Qed.
Lemma inst_be h iv d : h = map swap_halves iv -> PSha.words_ok 64 8 h -> (d <= 64)%nat ->
  instance (mkAlg 8 (sha512_process_on BigEndian) h d false) (sha2_compress sha2_64_swapped) (map swap_halves iv) 8.
Proof.
  intros <- Hh Hd. split; cbn [word_bytes H0 digest_bytes process]; auto; try (cbn; lia).
  - intros s b Hs Hl Hb. apply (process_with_eq _ _ s b swapped_K_eq Hs Hl Hb).
  - intros s b <-. unfold sha512_process_on. apply combine_len8. symmetry. apply fold_len. intros; apply sha2_step_len.
Qed.
Lemma H0_384_be : paired BigEndian sha384_H0_32 = map swap_halves IV_384.
Proof. rewrite <- IV_384_eq. apply paired_be. small_words. Qed.
Lemma H0_512_be : paired BigEndian sha512_H0_32 = map swap_halves IV_512.
Proof. rewrite <- IV_512_eq. apply paired_be. small_words. Qed.
Lemma H0_512_224_be : paired BigEndian sha512_224_H0_32 = map swap_halves IV_512_224.
Proof. rewrite <- IV_512_224_eq. apply paired_be. small_words. Qed.
Lemma H0_512_256_be : paired BigEndian sha512_256_H0_32 = map swap_halves IV_512_256.
Proof. rewrite <- IV_512_256_eq. apply paired_be. small_words. Qed.
Lemma inst_384_be : instance (alg_sha384_on BigEndian) (sha2_compress sha2_64_swapped) (map swap_halves IV_384) 8.
Proof. apply (inst_be (paired BigEndian sha384_H0_32) IV_384 48 H0_384_be); [bound|lia]. Qed.
Lemma inst_512_be : instance (alg_sha512_on BigEndian) (sha2_compress sha2_64_swapped) (map swap_halves IV_512) 8.
Proof. apply (inst_be (paired BigEndian sha512_H0_32) IV_512 64 H0_512_be); [bound|lia]. Qed.
Lemma inst_512_224_be : instance (alg_sha512_224_on BigEndian) (sha2_compress sha2_64_swapped) (map swap_halves IV_512_224) 8.
Proof. apply (inst_be (paired BigEndian sha512_224_H0_32) IV_512_224 28 H0_512_224_be); [bound|lia]. Qed.
Lemma inst_512_256_be : instance (alg_sha512_256_on BigEndian) (sha2_compress sha2_64_swapped) (map swap_halves IV_512_256) 8.
Proof. apply (inst_be (paired BigEndian sha512_256_H0_32) IV_512_256 32 H0_512_256_be); [bound|lia]. Qed.

(** on a big-endian machine: the library's variant of SHA-2, with the halves of every constant exchanged *)
Theorem C84_sha512_big_endian :
  streams (sha_impl (alg_sha384_on BigEndian)) int_piece (bits_below 128) (lib_sha2_hash sha2_64_swapped (map swap_halves IV_384) 48) /\
  streams (sha_impl (alg_sha512_on BigEndian)) int_piece (bits_below 128) (lib_sha2_hash sha2_64_swapped (map swap_halves IV_512) 64) /\
  streams (sha_impl (alg_sha512_224_on BigEndian)) int_piece (bits_below 128) (lib_sha2_hash sha2_64_swapped (map swap_halves IV_512_224) 28) /\
  streams (sha_impl (alg_sha512_256_on BigEndian)) int_piece (bits_below 128) (lib_sha2_hash sha2_64_swapped (map swap_halves IV_512_256) 32).
Proof.
  split; [|split; [|split]].
  - exact (sha2_exact _ _ _ inst_384_be eq_refl).
  - exact (sha2_exact _ _ _ inst_512_be eq_refl).
  - exact (sha2_exact _ _ _ inst_512_224_be eq_refl).
  - exact (sha2_exact _ _ _ inst_512_256_be eq_refl).
Qed.
(** which is not SHA-2: the digests of the empty message differ from the standard's (those of C21) *)
Lemma empty_first a F iv g : instance a (sha2_compress F) iv 8 -> wbytes F = word_bytes a -> (0 < digest_bytes a)%nat -> typed (sha_impl a) g ->
  exists d, encode (sha_impl a) g [] (repeat 0 (digest_bytes a)) = Ret d /\ hd 0 d = first_byte a (lib_pad a []).
Proof.
  intros Hi HF Hd Hg. exists (lib_sha2_hash F iv (digest_bytes a) []). split.
  - rewrite (encode_of_streams _ _ _ _ g [] (repeat 0 (digest_bytes a)) (sha2_exact a F iv Hi HF) Hg).
    + f_equal. change (idsz (sha_impl a)) with (digest_bytes a). rewrite skipn_all2 by (rewrite repeat_length; lia). apply app_nil_r.
    + split; [constructor|reflexivity].
    + unfold bits_below. cbn [List.length]. change (8 * N.of_nat 0) with 0. pose proof (N.pow_nonzero 2 (2 * word_bits a)). lia.
    + rewrite repeat_length. cbn. lia.
  - rewrite <- code_first by exact Hd. rewrite (inst_hash _ _ _ _ Hi [] (Forall_nil _)). unfold lib_sha2_hash. rewrite HF. reflexivity.
Qed.
Lemma std_first a F iv : instance a (sha2_compress F) iv 8 -> wbytes F = word_bytes a -> (0 < digest_bytes a)%nat ->
  hd 0 (sha2_hash F iv (digest_bytes a) []) = first_byte a (std_pad a []).
Proof.
  intros Hi HF Hd. unfold sha2_hash. rewrite HF, hd_firstn by exact Hd. unfold first_byte, std_pad. rewrite <- (inst_fips _ _ _ _ Hi [] (Forall_nil _)). reflexivity.
Qed.
Theorem C84_sha512_big_endian_refuted :
  (forall g, typed (sha_impl (alg_sha384_on BigEndian)) g -> exists d, encode (sha_impl (alg_sha384_on BigEndian)) g [] (repeat 0 48) = Ret d /\ d <> SHA384 []) /\
  (forall g, typed (sha_impl (alg_sha512_on BigEndian)) g -> exists d, encode (sha_impl (alg_sha512_on BigEndian)) g [] (repeat 0 64) = Ret d /\ d <> SHA512 []) /\
  (forall g, typed (sha_impl (alg_sha512_224_on BigEndian)) g -> exists d, encode (sha_impl (alg_sha512_224_on BigEndian)) g [] (repeat 0 28) = Ret d /\ d <> SHA512_224 []) /\
  (forall g, typed (sha_impl (alg_sha512_256_on BigEndian)) g -> exists d, encode (sha_impl (alg_sha512_256_on BigEndian)) g [] (repeat 0 32) = Ret d /\ d <> SHA512_256 []).
Proof.
  split; [|split; [|split]]; intros g Hg.
  - destruct (empty_first _ _ _ g inst_384_be eq_refl ltac:(cbn; lia) Hg) as (d & E & F). exists d. split; [exact E|]. intros ->.
    pose proof (eq_trans (eq_sym F) (std_first _ _ _ inst_sha384 eq_refl ltac:(cbn; lia))) as G. revert G. vm_compute. discriminate.
  - destruct (empty_first _ _ _ g inst_512_be eq_refl ltac:(cbn; lia) Hg) as (d & E & F). exists d. split; [exact E|]. intros ->.
    pose proof (eq_trans (eq_sym F) (std_first _ _ _ inst_sha512 eq_refl ltac:(cbn; lia))) as G. revert G. vm_compute. discriminate.
  - destruct (empty_first _ _ _ g inst_512_224_be eq_refl ltac:(cbn; lia) Hg) as (d & E & F). exists d. split; [exact E|]. intros ->.
    pose proof (eq_trans (eq_sym F) (std_first _ _ _ inst_sha512_224 eq_refl ltac:(cbn; lia))) as G. revert G. vm_compute. discriminate.
  - destruct (empty_first _ _ _ g inst_512_256_be eq_refl ltac:(cbn; lia) Hg) as (d & E & F). exists d. split; [exact E|]. intros ->.
    pose proof (eq_trans (eq_sym F) (std_first _ _ _ inst_sha512_256 eq_refl ltac:(cbn; lia))) as G. revert G. vm_compute. discriminate.
Qed.

(** ** the little-endian instances are the models of the other files *)
Theorem C84_little_endian :
  (alg_sha384_on LittleEndian, alg_sha512_on LittleEndian, alg_sha512_224_on LittleEndian, alg_sha512_256_on LittleEndian) =
    (alg_sha384, alg_sha512, alg_sha512_224, alg_sha512_256) /\
  (forall c inp, keccak_update_on LittleEndian c inp = keccak_update c inp) /\
  (forall c out, keccak_squeeze_on LittleEndian c out = keccak_squeeze c out) /\
  (forall bits c out, shake_digest_on LittleEndian bits c out = shake_digest bits c out) /\
  (forall garbage a g l out secret counter digits, hotp_generic_on LittleEndian garbage a g l out secret counter digits = hotp_generic garbage a g l out secret counter digits) /\
  (forall c mem len, blowfish_init_on LittleEndian c mem len = blowfish_init c mem len) /\
  (forall c scratch input out, bytes_ok input -> length scratch = 8%nat -> bytes_ok scratch ->
     blowfish_encrypt_on LittleEndian c scratch input out = blowfish_encrypt c scratch input out /\
     blowfish_decrypt_on LittleEndian c scratch input out = blowfish_decrypt c scratch input out).
Proof.
  split; [|split; [|split; [|split; [|split; [|split]]]]].
  - unfold alg_sha384_on, alg_sha512_on, alg_sha512_224_on, alg_sha512_256_on, sha512_process_on. rewrite sha512_K_le.
    rewrite !paired_le by small_words. reflexivity.
  - intros. apply keccak_absorb_le.
  - apply keccak_squeeze_le.
  - intros. apply keccak_squeeze_le.
  - reflexivity.
  - apply blowfish_init_le.
  - intros c u input out Hi L H. unfold blowfish_encrypt_on, blowfish_decrypt_on, blowfish_encrypt, blowfish_decrypt. rewrite !bf_generic_conj by assumption.
    split.
    + apply (bf_generic_ext (conj_on LittleEndian (encrypt_unit_on LittleEndian c)) (encrypt_unit c)). intros d. unfold conj_on. cbn [seen].
      rewrite encrypt_unit_le. destruct (encrypt_unit c d); reflexivity.
    + apply (bf_generic_ext (conj_on LittleEndian (decrypt_unit_on LittleEndian c)) (decrypt_unit c)). intros d. unfold conj_on. cbn [seen].
      rewrite decrypt_unit_le. destruct (decrypt_unit c d); reflexivity.
Qed.

(** ** HOTP *)
(** a big-endian machine takes the counter with its bytes in the opposite order *)
Theorem C84_hotp_big_endian : forall garbage a g l out secret counter digits, shifts_only a ->
  hotp_generic_on BigEndian garbage a g l out secret counter digits = hotp_generic garbage a g l out secret (swap_bytes 8 counter) digits.
Proof.
  intros. unfold hotp_generic_on, hotp_generic, int_bytes. rewrite le_swap8. reflexivity.
Qed.
(** so its passwords are those RFC 4226 prescribes for another counter (C39) *)
Theorem C84_hotp_sha1_big_endian : forall garbage g l out secret counter digits,
  @ectx_ok (Some (sha_impl alg_sha1)) g -> @eloc_ok (Some (sha_impl alg_sha1)) l -> length out = 20%nat -> bytes_ok secret -> (length secret <= 64)%nat ->
  hotp_generic_on BigEndian garbage A_SHA1 g l out secret counter digits = Ret (HOTP SHA1 64 secret (swap_bytes 8 counter) digits).
Proof.
  intros garbage g l out secret counter digits Hg Hl Ho Hs L. rewrite C84_hotp_big_endian by (right; left; reflexivity).
  apply (C39_hotp_rfc4226 garbage A_SHA1 _ _ _ _ _ cs_sha1); auto; discriminate.
Qed.
(** RFC 4226 appendix D, count 1: not 287082 *)
Theorem C84_hotp_big_endian_refuted : exists p, hotp_generic_on BigEndian None A_SHA1 (blank_hmac (sha_impl alg_sha1) (blank_sha alg_sha1))
    (blank_locals (sha_impl alg_sha1) (blank_sha alg_sha1)) (repeat 7 20) rfc_secret 1 6 = Ret p /\ p <> HOTP SHA1 64 rfc_secret 1 6.
Proof.
  rewrite C39_case. eexists. split; [vm_compute; reflexivity|discriminate].
Qed.
(** a counter whose bytes read the same both ways, such as 0, gives the same password *)
Theorem C84_hotp_palindrome : forall garbage a g l out secret counter digits, shifts_only a -> swap_bytes 8 counter = counter ->
  hotp_generic_on BigEndian garbage a g l out secret counter digits = hotp_generic_on LittleEndian garbage a g l out secret counter digits.
Proof. intros garbage a g l out secret counter digits Ha E. rewrite C84_hotp_big_endian, E by exact Ha. reflexivity. Qed.

(** ** SHA-3 and SHAKE *)
Lemma be_wrong (I J : hash_impl) H : streams J keccak_piece (fun _ => True) H -> forall (g : ictx I) (g' : ictx J), typed J g' ->
  match encode I g [] (repeat 0 (idsz I)), encode J g' [] (repeat 0 (idsz J)) with Ret d, Ret d' => negb (hd 0 d =? hd 0 d') | _, _ => false end = true ->
  exists d, encode I g [] (repeat 0 (idsz I)) = Ret d /\ d <> H [].
Proof.
  intros S g g' Hg' E.
  assert (E' : encode J g' [] (repeat 0 (idsz J)) = Ret (H [])).
  { rewrite (encode_of_streams _ _ _ _ g' [] (repeat 0 (idsz J)) S Hg'); [|split; [constructor|discriminate]|exact Logic.I|rewrite repeat_length; lia].
    rewrite skipn_all2 by (rewrite repeat_length; lia). rewrite app_nil_r. reflexivity. }
  rewrite E' in E. destruct (encode I g [] (repeat 0 (idsz I))) as [d| |]; try discriminate. exists d. split; [reflexivity|]. intros ->.
  rewrite N.eqb_refl in E. discriminate.
Qed.
(** on a big-endian machine the digests of the empty message are not the standard's (those of C25 and C26) *)
Theorem C84_sha3_big_endian_refuted : forall g : kctx,
  (exists d, encode (sha3_impl_on BigEndian 448 224) g [] (repeat 0 28) = Ret d /\ d <> SHA3_224 []) /\
  (exists d, encode (sha3_impl_on BigEndian 512 256) g [] (repeat 0 32) = Ret d /\ d <> SHA3_256 []) /\
  (exists d, encode (sha3_impl_on BigEndian 768 384) g [] (repeat 0 48) = Ret d /\ d <> SHA3_384 []) /\
  (exists d, encode (sha3_impl_on BigEndian 1024 512) g [] (repeat 0 64) = Ret d /\ d <> SHA3_512 []) /\
  (exists d, encode (xof_impl_on BigEndian 256 15 4 256) g [] (repeat 0 32) = Ret d /\ d <> SHAKE128 [] 256) /\
  (exists d, encode (xof_impl_on BigEndian 512 15 4 256) g [] (repeat 0 32) = Ret d /\ d <> SHAKE256 [] 256).
Proof.
  intros g. destruct C25_sha3_fips202 as (S1 & S2 & S3 & S4). destruct (C26_xof_fips202 32 ltac:(reflexivity)) as (S5 & S6 & _).
  assert (K : kshape blank_k) by (split; reflexivity).
  split; [|split; [|split; [|split; [|split]]]].
  - apply (be_wrong (sha3_impl_on BigEndian 448 224) _ _ S1 g blank_k K). vm_compute. reflexivity.
  - apply (be_wrong (sha3_impl_on BigEndian 512 256) _ _ S2 g blank_k K). vm_compute. reflexivity.
  - apply (be_wrong (sha3_impl_on BigEndian 768 384) _ _ S3 g blank_k K). vm_compute. reflexivity.
  - apply (be_wrong (sha3_impl_on BigEndian 1024 512) _ _ S4 g blank_k K). vm_compute. reflexivity.
  - apply (be_wrong (xof_impl_on BigEndian 256 15 4 256) _ _ S5 g blank_k K). vm_compute. reflexivity.
  - apply (be_wrong (xof_impl_on BigEndian 512 15 4 256) _ _ S6 g blank_k K). vm_compute. reflexivity.
Qed.

(** ** Blowfish *)
(** whatever the byte order, a non-empty key gives a context *)
Theorem C84_blowfish_init : forall o c key, raw c -> key <> [] -> bytes_ok key ->
  exists c', blowfish_init_on o c key (length key) = Ret c' /\ context c'.
Proof.
  intros o c key Hc Hne Hb. destruct (init_on_ok o c key Hc Hne Hb) as (c' & E & H & W). exists c'. split; [exact E|]. apply words_context; assumption.
Qed.
(** and decryption on the same machine undoes encryption *)
Theorem C84_blowfish_round_trip : forall o c input, context c -> bytes_ok input ->
  forall scratch out n enc, length scratch = 8%nat -> bytes_ok scratch -> blowfish_encrypt_on o c scratch input out = Ret (n, enc) ->
  forall scratch' out', length scratch' = 8%nat -> bytes_ok scratch' -> (n <= length out')%nat ->
  n = SBlowfish.padded_length (length input) /\
  blowfish_decrypt_on o c scratch' (firstn n enc) out' = Ret (n, (input ++ repeat 0 (n - length input)) ++ skipn n out').
Proof.
  intros o c input Hc Hin scratch out n enc Ls Bs E scratch' out' Ls' Bs' Lo. pose proof (context_words c Hc) as W. apply context_shaped in Hc.
  set (e := fun d => seen o (net (F_of o c) (bP c) (seen o d))). set (q := fun d => seen o (net (F_of o c) (rev (bP c)) (seen o d))).
  assert (He : forall d, conj_on o (encrypt_unit_on o c) d = Ret (e d)) by (intros d; unfold conj_on; rewrite encrypt_of by exact Hc; reflexivity).
  assert (Hd : forall d, conj_on o (decrypt_unit_on o c) d = Ret (q d)) by (intros d; unfold conj_on; rewrite decrypt_of by exact Hc; reflexivity).
  set (len := SBlowfish.padded_length (length input)) in *.
  unfold blowfish_encrypt_on in E. rewrite bf_generic_conj in E by assumption. destruct (Nat.lt_ge_cases (length out) len) as [L|L].
  { rewrite (generic_small _ _ He) in E by assumption. discriminate E. }
  rewrite <- (firstn_skipn len out) in E. rewrite (generic_ok _ _ He) in E by (auto; rewrite firstn_length; lia). fold len in E.
  assert (n = len /\ enc = SBlowfish.ecb e input ++ skipn len out) as [-> ->] by (split; congruence). clear E. split; [reflexivity|].
  pose proof (ecb_length e input) as LE. fold len in LE.
  rewrite firstn_app, LE, Nat.sub_diag, firstn_O, app_nil_r, (firstn_all2 (n := len)) by lia.
  unfold blowfish_decrypt_on. rewrite bf_generic_conj by (auto; apply ecb_bytes). rewrite <- (firstn_skipn len out') at 1.
  assert (PP : SBlowfish.padded_length len = len) by (destruct (padded_mult (length input)) as (k & K & _); unfold len; rewrite K; apply padded_full).
  rewrite (generic_ok _ _ Hd); [|exact Ls'|rewrite LE, PP, firstn_length; lia].
  rewrite LE, PP. f_equal. f_equal. f_equal. apply (ecb_inverse_ok e q input); [| |exact Hin].
  - intros d D. unfold e. apply seen_ok, net_words, seen_ok; assumption.
  - intros d D. unfold e, q. rewrite seen_twice by (apply net_words; auto; apply seen_ok; exact D). rewrite net_back by (apply Hc). apply seen_twice, D.
Qed.
(** but the subkeys of a big-endian machine are not Blowfish's (those of C49): for instance for the key 00 00 00 00 00 00 00 00 *)
Theorem C84_blowfish_big_endian_refuted : forall c c', raw c -> blowfish_init_on BigEndian c (repeat 0 8) 8 = Ret c' ->
  nth 0 (bP c') 0 <> nth 0 (SBlowfish.subkeys (repeat 0 8)) 0.
Proof.
  intros c c' Hc E. assert (Hne : repeat 0 8 <> []) by discriminate. assert (Hb : bytes_ok (repeat 0 8)) by (repeat constructor).
  destruct (init_on_ok BigEndian c (repeat 0 8) Hc Hne Hb) as (c1 & E1 & H1 & _). change (length (repeat 0 8)) with 8%nat in E1.
  assert (c1 = c') as -> by congruence.
  assert (X : nth 0 (bP c') 0 = nth 0 (flat c') 0) by (unfold flat; rewrite app_nth1 by (destruct H1; lia); reflexivity). rewrite X.
  rewrite (init_on_head BigEndian c (repeat 0 8) c' Hc Hne Hb E).
  destruct (init_subkeys c (repeat 0 8) Hc Hne Hb) as (c2 & E2 & _ & <-). rewrite <- blowfish_init_le in E2.
  rewrite (init_on_head LittleEndian c (repeat 0 8) c2 Hc Hne Hb E2). vm_compute. discriminate.
Qed.

(** ** concrete cases *)
(** a non-palindromic counter, an algorithm that uses shifts only, and a typed context *)
Example C84_hyps : shifts_only A_SHA1 /\ swap_bytes 8 1 = 2 ^ 56 /\ swap_bytes 8 0x0100000000000001 = 0x0100000000000001 /\
  typed (sha_impl (alg_sha512_on BigEndian)) (blank_sha (alg_sha512_on BigEndian)).
Proof. split; [right; left; reflexivity|]. split; [reflexivity|]. split; reflexivity. Qed.
(** a message of 5 bytes, encrypted and decrypted on a big-endian machine *)
Definition ctx84 : bf_ctx := mkBf (map N.of_nat (seq 1 18)) (map (fun r => map (fun i => N.of_nat (1000 * r + i)) (seq 0 256)) (seq 1 4)).
Example C84_round_trip_case : context ctx84 /\
  match blowfish_encrypt_on BigEndian ctx84 (repeat 9 8) (chars "hello") (repeat 7 9) with
  | Ret (n, enc) => n = 8%nat /\ blowfish_decrypt_on BigEndian ctx84 (repeat 3 8) (firstn 8 enc) (repeat 7 9) = Ret (8%nat, chars "hello" ++ [0; 0; 0; 7]) /\
      blowfish_encrypt ctx84 (repeat 9 8) (chars "hello") (repeat 7 9) <> Ret (n, enc)
  | _ => False
  end.
Proof.
  split.
  - split; [reflexivity|]. split; [reflexivity|]. split; [repeat constructor|]. split.
    + unfold ctx84. cbn [bP]. apply Forall_forall. intros x Hx. apply in_map_iff in Hx as (i & <- & Hi). apply in_seq in Hi. unfold is_u32. lia.
    + unfold ctx84. cbn [bS]. apply Forall_forall. intros r Hr. apply in_map_iff in Hr as (k & <- & Hk). apply in_seq in Hk.
      apply Forall_forall. intros x Hx. apply in_map_iff in Hx as (i & <- & Hi). apply in_seq in Hi. unfold is_u32. lia.
  - vm_compute. split; [reflexivity|]. split; [reflexivity|discriminate].
Qed.

Print Assumptions C84_sha512_big_endian.
Print Assumptions C84_sha512_big_endian_refuted.
Print Assumptions C84_little_endian.
Print Assumptions C84_hotp_big_endian.
Print Assumptions C84_hotp_sha1_big_endian.
Print Assumptions C84_hotp_big_endian_refuted.
Print Assumptions C84_hotp_palindrome.
Print Assumptions C84_sha3_big_endian_refuted.
Print Assumptions C84_blowfish_init.
Print Assumptions C84_blowfish_round_trip.
Print Assumptions C84_blowfish_big_endian_refuted.
