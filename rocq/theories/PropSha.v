(** Property theorems C19-C21, C24: SHA-1 and SHA-2. [streams] is defined in SHash.v, the
    standard's functions in SFips180.v, the library's deviation in SShaLib.v. *)
From Coq Require Import String.
From Verif Require Import Base SHex SFips180 SShaLib MSha MFront SHash PWords PSha PShaStream PShaInst.
Local Open Scope N_scope.

(** room for the 0x80 byte and the 8- (16-) byte length in the last block *)
Definition roomy (bs lb : nat) (m : list N) : Prop := (length m mod bs < bs - lb)%nat.

Lemma streams_weaken I P (T T' : list N -> Prop) H H' :
  (forall m, T' m -> T m /\ H m = H' m) -> streams I P T H -> streams I P T' H'.
Proof.
  intros W S g ps out Hg HP HT Ho. destruct (W _ HT) as [HT1 E]. rewrite <- E. apply S; assumption.
Qed.
Lemma roomy_unaffected bs lb m : (lb <= bs)%nat -> roomy bs lb m -> unaffected bs lb m.
Proof. unfold roomy, unaffected, fits. intros H R. left. apply Nat.leb_le. lia. Qed.

Lemma sha1_exact : streams (sha_impl alg_sha1) int_piece (bits_below 64) lib_SHA1.
Proof.
  apply (sha_streams alg_sha1 _ _ _ lib_SHA1 inst_sha1). intros m Hm.
  rewrite (inst_hash _ _ _ _ inst_sha1 m Hm). cbn [digest_bytes alg_sha1]. apply flat4_firstn.
  change (length (fold_left sha1_compress (pieces 64 (lib_padded 64 8 (be_bytes 8) m)) sha1_IV) = 5%nat).
  assert (G : forall l s, length s = 5%nat -> length (fold_left sha1_compress l s) = 5%nat).
  { induction l as [|b l IH]; intros s Hs; [exact Hs|]. cbn [fold_left]. apply IH.
    unfold sha1_compress, zip_add. rewrite map_length, combine_length.
    assert (G2 : forall W l s, length (fold_left (sha1_round W) l s) = length s).
    { intros W. induction l0 as [|t l0 IH0]; intros v; [reflexivity|]. cbn [fold_left]. rewrite IH0.
      do 6 (destruct v as [|? v]; [reflexivity|]). reflexivity. }
    rewrite G2. lia. }
  apply G. reflexivity.
Qed.
Lemma sha2_exact a F iv : instance a (sha2_compress F) iv 8 -> wbytes F = word_bytes a ->
  streams (sha_impl a) int_piece (bits_below (2 * word_bits a)) (lib_sha2_hash F iv (digest_bytes a)).
Proof.
  intros Hi HF. apply (sha_streams a _ _ _ _ Hi). intros m Hm.
  rewrite (inst_hash _ _ _ _ Hi m Hm). unfold lib_sha2_hash. rewrite HF. reflexivity.
Qed.
Lemma lib_SHA1_fips m : unaffected 64 8 m -> lib_SHA1 m = SHA1 m.
Proof. intros U. unfold lib_SHA1, SHA1. rewrite lib_iterate_fips by (auto; lia). reflexivity. Qed.
Lemma lib_sha2_fips F iv d m : (0 < wbytes F)%nat -> unaffected (16 * wbytes F) (2 * wbytes F) m -> lib_sha2_hash F iv d m = sha2_hash F iv d m.
Proof. intros H U. unfold lib_sha2_hash, sha2_hash. rewrite lib_iterate_fips by (auto; lia). reflexivity. Qed.

Lemma encode_of_streams I (P T : list N -> Prop) H g data out : streams I P T H -> typed I g -> P data -> T data -> (idsz I <= length out)%nat ->
  encode I g data out = Ret (H data ++ skipn (idsz I) out).
Proof.
  intros S Hg Hp Ht Ho. destruct (S g [data] out) as (c & c' & E1 & E2 & _ & L); auto.
  { cbn [concat]. rewrite app_nil_r. exact Ht. }
  unfold encode. cbn [updates concat] in E1, E2. rewrite app_nil_r in E2.
  destruct (iupdate I (iinit I g) data) as [c0| |]; try discriminate.
  cbn [bind] in *. injection E1 as ->. rewrite E2. reflexivity.
Qed.
Lemma bytes97 n : bytes_ok (repeat 97 n).
Proof. apply Forall_forall. intros x Hx. apply repeat_spec in Hx. subst. reflexivity. Qed.
Lemma piece97 n : (n < 1000)%nat -> int_piece (repeat 97 n).
Proof. intros H. split; [apply bytes97|]. rewrite repeat_length. lia. Qed.
Lemma bits97 b n : (n < 1000)%nat -> 64 <= b -> bits_below b (repeat 97 n).
Proof.
  intros H Hb. unfold bits_below. rewrite repeat_length. apply N.lt_le_trans with (2 ^ 64); [lia|]. apply N.pow_le_mono_r; lia.
Qed.

(** evaluation of the two digests through the model's compression function *)
Definition first_byte (a : sha_alg) (bytes : list N) : N :=
  hd 0 (flat_map (be_bytes (word_bytes a)) (fold_left (process a) (pieces (block_bytes a) bytes) (H0 a))).
Definition lib_pad (a : sha_alg) (m : list N) : list N := lib_padded (block_bytes a) (2 * word_bytes a) (be_bytes (2 * word_bytes a)) m.
Definition std_pad (a : sha_alg) (m : list N) : list N := padded (block_bytes a) (2 * word_bytes a) (be_bytes (2 * word_bytes a)) m.
Lemma hd_firstn n (l : list N) : (0 < n)%nat -> hd 0 (firstn n l) = hd 0 l.
Proof. destruct n; [lia|]. destruct l; reflexivity. Qed.
Lemma code_first a m : (0 < digest_bytes a)%nat -> hd 0 (code_hash a m) = first_byte a (lib_pad a m).
Proof. intros H. unfold code_hash, first_byte. rewrite hd_firstn by exact H. reflexivity. Qed.
Lemma sha1_differs m : bytes_ok m -> first_byte alg_sha1 (lib_pad alg_sha1 m) <> first_byte alg_sha1 (std_pad alg_sha1 m) -> lib_SHA1 m <> SHA1 m.
Proof.
  intros Hm D E. apply D. apply (f_equal (hd 0)) in E.
  rewrite <- code_first by (cbn; lia). rewrite (inst_hash _ _ _ _ inst_sha1 m Hm), hd_firstn by (cbn; lia).
  unfold first_byte, std_pad. rewrite <- (inst_fips _ _ _ _ inst_sha1 m Hm). exact E.
Qed.
Lemma sha2_differs a F iv m : instance a (sha2_compress F) iv 8 -> wbytes F = word_bytes a -> (0 < digest_bytes a)%nat -> bytes_ok m ->
  first_byte a (lib_pad a m) <> first_byte a (std_pad a m) -> lib_sha2_hash F iv (digest_bytes a) m <> sha2_hash F iv (digest_bytes a) m.
Proof.
  intros Hi HF Hd Hm D E. apply D. apply (f_equal (hd 0)) in E. unfold lib_sha2_hash, sha2_hash in E. rewrite HF in E.
  rewrite !hd_firstn in E by exact Hd.
  rewrite <- code_first by exact Hd. rewrite (inst_hash _ _ _ _ Hi m Hm), hd_firstn by exact Hd.
  unfold first_byte, std_pad. rewrite <- (inst_fips _ _ _ _ Hi m Hm). exact E.
Qed.

(** ** C19: SHA-1 *)

(** exact behaviour on every message *)
Theorem C19_sha1_exact : streams (sha_impl alg_sha1) int_piece (bits_below 64) lib_SHA1.
Proof. exact sha1_exact. Qed.
(** the standard's digest whenever the last block has room, or the bytes reused are zero *)
Theorem C19_sha1_fips : streams (sha_impl alg_sha1) int_piece
  (fun m => bits_below 64 m /\ (roomy 64 8 m \/ unaffected 64 8 m)) SHA1.
Proof.
  eapply streams_weaken; [|exact sha1_exact]. intros m [T U]. split; [exact T|]. apply lib_SHA1_fips.
  destruct U; [apply roomy_unaffected; [lia|assumption]|assumption].
Qed.
(** otherwise the standard is not met: messages of 56 to 63 bytes (any number of blocks may precede) *)
Theorem C19_sha1_violation : forall n, (56 <= n < 64)%nat -> forall g, typed (sha_impl alg_sha1) g ->
  exists d, encode (sha_impl alg_sha1) g (repeat 97 n) (repeat 0 20) = Ret d /\ d <> SHA1 (repeat 97 n).
Proof.
  intros n Hn g Hg. exists (lib_SHA1 (repeat 97 n)). split.
  - rewrite (encode_of_streams _ _ _ _ g (repeat 97 n) (repeat 0 20) sha1_exact Hg).
    + f_equal. apply app_nil_r.
    + apply piece97. lia.
    + apply bits97; lia.
    + rewrite repeat_length. cbn. lia.
  - assert (C : (n = 56 \/ n = 57 \/ n = 58 \/ n = 59 \/ n = 60 \/ n = 61 \/ n = 62 \/ n = 63)%nat) by lia.
    apply sha1_differs; [apply bytes97|].
    repeat (destruct C as [-> | C]); try subst n; vm_compute; discriminate.
Qed.

(** ** C20: SHA-224, SHA-256 *)
Theorem C20_sha224_exact : streams (sha_impl alg_sha224) int_piece (bits_below 64) (lib_sha2_hash sha2_32 IV_224 28).
Proof. exact (sha2_exact _ _ _ inst_sha224 eq_refl). Qed.
Theorem C20_sha256_exact : streams (sha_impl alg_sha256) int_piece (bits_below 64) (lib_sha2_hash sha2_32 IV_256 32).
Proof. exact (sha2_exact _ _ _ inst_sha256 eq_refl). Qed.
Ltac fips := intros m [T U]; split; [exact T|]; apply lib_sha2_fips; [cbn; lia|];
  destruct U; [apply roomy_unaffected; [cbn; lia|assumption]|assumption].
Theorem C20_sha224_fips : streams (sha_impl alg_sha224) int_piece
  (fun m => bits_below 64 m /\ (roomy 64 8 m \/ unaffected 64 8 m)) SHA224.
Proof. eapply streams_weaken; [|exact C20_sha224_exact]. fips. Qed.
Theorem C20_sha256_fips : streams (sha_impl alg_sha256) int_piece
  (fun m => bits_below 64 m /\ (roomy 64 8 m \/ unaffected 64 8 m)) SHA256.
Proof. eapply streams_weaken; [|exact C20_sha256_exact]. fips. Qed.

(** ** C21: SHA-384, SHA-512, SHA-512/224, SHA-512/256 *)
Theorem C21_sha384_exact : streams (sha_impl alg_sha384) int_piece (bits_below 128) (lib_sha2_hash sha2_64 IV_384 48).
Proof. exact (sha2_exact _ _ _ inst_sha384 eq_refl). Qed.
Theorem C21_sha512_exact : streams (sha_impl alg_sha512) int_piece (bits_below 128) (lib_sha2_hash sha2_64 IV_512 64).
Proof. exact (sha2_exact _ _ _ inst_sha512 eq_refl). Qed.
Theorem C21_sha512_224_exact : streams (sha_impl alg_sha512_224) int_piece (bits_below 128) (lib_sha2_hash sha2_64 IV_512_224 28).
Proof. exact (sha2_exact _ _ _ inst_sha512_224 eq_refl). Qed.
Theorem C21_sha512_256_exact : streams (sha_impl alg_sha512_256) int_piece (bits_below 128) (lib_sha2_hash sha2_64 IV_512_256 32).
Proof. exact (sha2_exact _ _ _ inst_sha512_256 eq_refl). Qed.
Theorem C21_sha384_fips : streams (sha_impl alg_sha384) int_piece
  (fun m => bits_below 128 m /\ (roomy 128 16 m \/ unaffected 128 16 m)) SHA384.
Proof. eapply streams_weaken; [|exact C21_sha384_exact]. fips. Qed.
Theorem C21_sha512_fips : streams (sha_impl alg_sha512) int_piece
  (fun m => bits_below 128 m /\ (roomy 128 16 m \/ unaffected 128 16 m)) SHA512.
Proof. eapply streams_weaken; [|exact C21_sha512_exact]. fips. Qed.
Theorem C21_sha512_224_fips : streams (sha_impl alg_sha512_224) int_piece
  (fun m => bits_below 128 m /\ (roomy 128 16 m \/ unaffected 128 16 m)) SHA512_224.
Proof. eapply streams_weaken; [|exact C21_sha512_224_exact]. fips. Qed.
Theorem C21_sha512_256_fips : streams (sha_impl alg_sha512_256) int_piece
  (fun m => bits_below 128 m /\ (roomy 128 16 m \/ unaffected 128 16 m)) SHA512_256.
Proof. eapply streams_weaken; [|exact C21_sha512_256_exact]. fips. Qed.

(** violations: the smallest affected length *)
Ltac viol E I n := intros g Hg; eexists; split;
  [rewrite (encode_of_streams _ _ _ _ g (repeat 97 n) _ E Hg);
     [cbn [idsz sha_impl digest_bytes alg_sha224 alg_sha256 alg_sha384 alg_sha512 alg_sha512_224 alg_sha512_256];
      rewrite skipn_all2 by (rewrite repeat_length; lia); rewrite app_nil_r; reflexivity
     |apply piece97; lia|apply bits97; lia|rewrite repeat_length; cbn; lia]|];
  apply (sha2_differs _ _ _ _ I eq_refl); [cbn; lia|apply bytes97|vm_compute; discriminate].
Theorem C20_sha224_violation : forall g, typed (sha_impl alg_sha224) g ->
  exists d, encode (sha_impl alg_sha224) g (repeat 97 56) (repeat 0 28) = Ret d /\ d <> SHA224 (repeat 97 56).
Proof. viol C20_sha224_exact inst_sha224 56%nat. Qed.
Theorem C20_sha256_violation : forall g, typed (sha_impl alg_sha256) g ->
  exists d, encode (sha_impl alg_sha256) g (repeat 97 56) (repeat 0 32) = Ret d /\ d <> SHA256 (repeat 97 56).
Proof. viol C20_sha256_exact inst_sha256 56%nat. Qed.
Theorem C21_sha384_violation : forall g, typed (sha_impl alg_sha384) g ->
  exists d, encode (sha_impl alg_sha384) g (repeat 97 112) (repeat 0 48) = Ret d /\ d <> SHA384 (repeat 97 112).
Proof. viol C21_sha384_exact inst_sha384 112%nat. Qed.
Theorem C21_sha512_violation : forall g, typed (sha_impl alg_sha512) g ->
  exists d, encode (sha_impl alg_sha512) g (repeat 97 112) (repeat 0 64) = Ret d /\ d <> SHA512 (repeat 97 112).
Proof. viol C21_sha512_exact inst_sha512 112%nat. Qed.
Theorem C21_sha512_224_violation : forall g, typed (sha_impl alg_sha512_224) g ->
  exists d, encode (sha_impl alg_sha512_224) g (repeat 97 112) (repeat 0 28) = Ret d /\ d <> SHA512_224 (repeat 97 112).
Proof. viol C21_sha512_224_exact inst_sha512_224 112%nat. Qed.
Theorem C21_sha512_256_violation : forall g, typed (sha_impl alg_sha512_256) g ->
  exists d, encode (sha_impl alg_sha512_256) g (repeat 97 112) (repeat 0 32) = Ret d /\ d <> SHA512_256 (repeat 97 112).
Proof. viol C21_sha512_256_exact inst_sha512_256 112%nat. Qed.

(** ** C24: length limits *)
Definition sha_algs : list sha_alg :=
  [alg_sha1; alg_sha224; alg_sha256; alg_sha384; alg_sha512; alg_sha512_224; alg_sha512_256].
(** bits in the message-length counter *)
Definition counter_bits (a : sha_alg) : N := 16 * N.of_nat (word_bytes a).
Lemma algs_wb a : In a sha_algs -> word_bytes a = 4%nat \/ word_bytes a = 8%nat.
Proof. unfold sha_algs. cbn [In]. intros H. repeat (destruct H as [<- | H]; [cbn; auto|]). destruct H. Qed.
Lemma counter_limit a : 2 ^ counter_bits a = limit a.
Proof. unfold counter_bits, limit, word_bits. f_equal. lia. Qed.
Lemma updates_app I c ps qs : updates I c (ps ++ qs) = (c <- updates I c ps ;; updates I c qs).
Proof. revert c. induction ps as [|p ps IH]; intros c; [reflexivity|]. cbn. destruct (iupdate I c p); cbn; auto. Qed.
Lemma feed a g ps : In a sha_algs -> typed (sha_impl a) g -> Forall int_piece ps -> bits_below (counter_bits a) (concat ps) ->
  exists c, updates (sha_impl a) (iinit (sha_impl a) g) ps = Ret c /\ fed a (concat ps) c.
Proof.
  intros Ha Hg HP HT. pose proof (algs_wb a Ha) as W.
  apply (updates_fed a ps W [] (sha_init a g)); auto; [apply fed_init; assumption|].
  unfold bits_below in HT. rewrite counter_limit in HT. exact HT.
Qed.

(** below the limits no update sequence and no digest goes outside the block or is undefined *)
Theorem C24_in_bounds : forall a g ps out, In a sha_algs -> typed (sha_impl a) g ->
  Forall int_piece ps -> bits_below (counter_bits a) (concat ps) -> (digest_bytes a <= length out)%nat ->
  exists c r, updates (sha_impl a) (iinit (sha_impl a) g) ps = Ret c /\ typed (sha_impl a) c /\ idigest (sha_impl a) c out = Ret r.
Proof.
  intros a g ps out Ha Hg HP HT Ho. destruct (feed a g ps Ha Hg HP HT) as (c & E & F).
  assert (exists comp iv sw, instance a comp iv sw) as (comp & iv & sw & Hi).
  { clear -Ha. unfold sha_algs in Ha. cbn [In] in Ha.
    destruct Ha as [<-|[<-|[<-|[<-|[<-|[<-|[<-|[]]]]]]]]; eauto using inst_sha1, inst_sha224, inst_sha256, inst_sha384, inst_sha512, inst_sha512_224, inst_sha512_256. }
  destruct (digest_spec a (algs_wb a Ha) (inst_Hst _ _ _ _ Hi) _ _ _ F Ho) as (c' & E' & _).
  exists c. eexists. split; [exact E|]. split; [|exact E']. destruct F as (bs & r & _ & _ & _ & _ & _ & L & _). exact L.
Qed.
(** one update of 2^31 bytes or more: signed overflow *)
Theorem C24_int_overflow : forall a g ps p, In a sha_algs -> typed (sha_impl a) g ->
  Forall int_piece ps -> 2 ^ 31 <= N.of_nat (length p) -> bits_below (counter_bits a) (concat ps ++ p) ->
  updates (sha_impl a) (iinit (sha_impl a) g) (ps ++ [p]) = UB SignedOverflow.
Proof.
  intros a g ps p Ha Hg HP Hp HT. unfold bits_below in HT. rewrite app_length in HT.
  destruct (feed a g ps Ha Hg HP) as (c & E & F); [unfold bits_below; lia|].
  rewrite updates_app, E. cbn [bind updates]. change (iupdate (sha_impl a)) with (sha_update a). unfold sha_update.
  rewrite (update_overflow a (algs_wb a Ha) p (concat ps) c 0 F); [reflexivity|unfold INT_MAX; lia|unfold INT_MAX; lia|].
  rewrite <- counter_limit. exact HT.
Qed.
(** the update that makes the counter wrap returns with the block full: the next non-empty update,
    and digest, write past the end of the block *)
Theorem C24_counter_wrap : forall a g ps p, In a sha_algs -> typed (sha_impl a) g ->
  Forall int_piece (ps ++ [p]) -> bits_below (counter_bits a) (concat ps) -> ~ bits_below (counter_bits a) (concat ps ++ p) ->
  exists c, updates (sha_impl a) (iinit (sha_impl a) g) (ps ++ [p]) = Ret c /\
    (forall b r, iupdate (sha_impl a) c (b :: r) = UB OutOfBounds) /\
    (forall out, idigest (sha_impl a) c out = UB OutOfBounds).
Proof.
  intros a g ps p Ha Hg HP HT HN. apply Forall_app in HP. destruct HP as [HP Hp]. inversion Hp as [|? ? [_ Hp'] _]; subst.
  destruct (feed a g ps Ha Hg HP HT) as (c & E & F).
  destruct (update_stuck a (algs_wb a Ha) p (concat ps) c 0 F) as (c' & E' & S).
  - unfold INT_MAX. lia.
  - rewrite <- counter_limit. exact HT.
  - rewrite <- counter_limit. unfold bits_below in HN. rewrite app_length in HN. lia.
  - exists c'. rewrite updates_app, E. cbn [bind updates]. change (iupdate (sha_impl a)) with (sha_update a). change (idigest (sha_impl a)) with (sha_digest a).
    unfold sha_update at 1. rewrite E'. cbn [bind]. repeat split; intros; [apply stuck_update|apply stuck_digest]; auto using algs_wb.
Qed.

(** ** Non-vacuity *)
Definition some_ctx : sha_ctx := mkSha [1; 2; 3; 4; 5] 7 9 11 (repeat 3 64).
Example typed_some : typed (sha_impl alg_sha1) some_ctx. Proof. reflexivity. Qed.
Example sha_pieces : Forall int_piece [chars "ab"; []; chars "c"] /\ bits_below 64 (chars "abc") /\ roomy 64 8 (chars "abc").
Proof.
  split; [|split; [vm_compute; reflexivity|vm_compute; lia]].
  repeat (apply Forall_cons; [split; [repeat (apply Forall_cons; [vm_compute; reflexivity|]); apply Forall_nil|vm_compute; reflexivity]|]).
  apply Forall_nil.
Qed.
Example sha1_run : (c <- updates (sha_impl alg_sha1) (iinit (sha_impl alg_sha1) some_ctx) [chars "ab"; []; chars "c"] ;; omap snd (idigest (sha_impl alg_sha1) c (repeat 1 21)))
  = Ret (be_bytes 20 0xa9993e364706816aba3e25717850c26c9cd0d89d ++ [1]).
Proof. vm_compute. reflexivity. Qed.
(** a message with a non-zero reused part, and one that is unaffected although it does not fit *)
Example not_roomy : ~ roomy 64 8 (repeat 97 60) /\ unaffected 64 8 (repeat 0 60) /\ ~ unaffected 64 8 (repeat 97 60).
Proof.
  split; [|split].
  - unfold roomy. vm_compute. lia.
  - right. vm_compute. repeat constructor.
  - intros [H|H]; [vm_compute in H; discriminate|]. inversion H. discriminate.
Qed.
(** 2^30-byte pieces: 2^31 of them make 2^61 bytes, the counter limit of the 32-bit family *)
Example wrap_hyps : exists ps p, Forall int_piece (ps ++ [p]) /\ bits_below 64 (concat ps) /\ ~ bits_below 64 (concat ps ++ p).
Proof.
  set (n := N.to_nat (2 ^ 30)). set (k := N.to_nat (2 ^ 31 - 1)).
  assert (Hn : N.of_nat n = 2 ^ 30) by (unfold n; apply N2Nat.id).
  assert (Hk : N.of_nat k = 2 ^ 31 - 1) by (unfold k; apply N2Nat.id). clearbody n k.
  set (z := repeat 0 n). assert (Lz : length z = n) by apply repeat_length.
  assert (Pz : int_piece z).
  { split; [apply Forall_forall; intros x Hx; apply repeat_spec in Hx; rewrite Hx; reflexivity|]. rewrite Lz, Hn. reflexivity. }
  exists (repeat z k), z. assert (LC : length (concat (repeat z k)) = (k * n)%nat).
  { clear -Lz. induction k as [|k IH]; [reflexivity|]. cbn [repeat concat]. rewrite app_length, IH, Lz. lia. }
  split; [|split].
  - apply Forall_app. split; [|constructor; [exact Pz|constructor]]. apply Forall_forall. intros x Hx. apply repeat_spec in Hx. rewrite Hx. exact Pz.
  - unfold bits_below. rewrite LC, Nat2N.inj_mul, Hn, Hk. vm_compute. reflexivity.
  - unfold bits_below. rewrite app_length, LC, Lz, Nat2N.inj_add, Nat2N.inj_mul, Hn, Hk. vm_compute. discriminate.
Qed.
Example overflow_hyps : exists p, 2 ^ 31 <= N.of_nat (length p) /\ bits_below 64 p.
Proof.
  exists (repeat 0 (N.to_nat (2 ^ 31))). unfold bits_below. rewrite repeat_length, N2Nat.id. split; [lia|vm_compute; reflexivity].
Qed.

Print Assumptions C19_sha1_exact.
Print Assumptions C19_sha1_fips.
Print Assumptions C19_sha1_violation.
Print Assumptions C20_sha256_fips.
Print Assumptions C20_sha224_fips.
Print Assumptions C21_sha512_fips.
Print Assumptions C21_sha512_256_fips.
Print Assumptions C21_sha384_violation.
Print Assumptions C24_in_bounds.
Print Assumptions C24_int_overflow.
Print Assumptions C24_counter_wrap.
