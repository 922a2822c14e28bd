(** The seven SHA-1/SHA-2 instances against the specification. *)
From Verif Require Import Base SHex SFips180 SShaLib MSha MFront SHash PWords PSha PShaStream.
Local Open Scope N_scope.

(** an instance computes a standard compression function *)
Record instance (a : sha_alg) (comp : list N -> list N -> list N) (iv : list N) (sw : nat) : Prop := {
  i_wb : word_bytes a = 4%nat \/ word_bytes a = 8%nat;
  i_iv : H0 a = iv;
  i_ok : words_ok (word_bits a) sw iv;
  i_dig : (digest_bytes a <= sw * word_bytes a)%nat;
  i_step : forall s b, words_ok (word_bits a) sw s -> length b = block_bytes a -> bytes_ok b ->
     process a s b = comp s b /\ words_ok (word_bits a) sw (process a s b);
  i_len : forall s b, length s = sw -> length (process a s b) = sw }.

Section Inst.
Variables (a : sha_alg) (comp : list N -> list N -> list N) (iv : list N) (sw : nat).
Hypothesis Hi : instance a comp iv sw.
Notation bsz := (block_bytes a).
Notation lb := (2 * word_bytes a)%nat.

Lemma inst_Hst : forall bs, Forall (fun b => length b = bsz) bs ->
  exists k, length (fold_left (process a) bs (H0 a)) = k /\ (digest_bytes a <= k * word_bytes a)%nat.
Proof.
  intros bs _. exists sw. split; [|apply (i_dig _ _ _ _ Hi)].
  assert (G : forall bs s, length s = sw -> length (fold_left (process a) bs s) = sw).
  { clear bs. induction bs as [|b bs IH]; intros s Hs; [exact Hs|]. cbn. apply IH, (i_len _ _ _ _ Hi), Hs. }
  apply G. rewrite (i_iv _ _ _ _ Hi). apply (i_ok _ _ _ _ Hi).
Qed.

Lemma lib_padded_bytes m : bytes_ok m -> bytes_ok (lib_padded bsz lb (be_bytes lb) m).
Proof.
  intros Hm. assert (Z : forall n, bytes_ok (repeat 0 n)).
  { intros n. apply Forall_forall. intros x Hx. apply repeat_spec in Hx. subst. unfold is_byte. lia. }
  assert (B80 : bytes_ok [0x80]) by (repeat constructor).
  unfold lib_padded, padded. destruct (fits bsz lb m).
  - repeat (apply Forall_app; split); try apply Z; try apply be_bytes_ok; auto.
  - repeat (apply Forall_app; split); try apply Z; try apply be_bytes_ok; auto.
    rewrite <- (firstn_skipn (bsz * (length m / bsz)) m) in Hm. apply Forall_app in Hm. destruct Hm as [_ Hm].
    fold (last_part bsz m) in Hm. rewrite <- (firstn_skipn (bsz - lb) (last_part bsz m)) in Hm. apply Forall_app in Hm. apply Hm.
Qed.

Lemma pieces_bytes k l : (0 < k)%nat -> bytes_ok l -> Forall bytes_ok (pieces k l).
Proof.
  intros Hk Hl. unfold pieces. generalize (length l) at 1. intros n. revert l Hl. induction n as [|n IH]; intros l Hl; [constructor|].
  destruct l as [|x l]; [constructor|].
  change (cut (S n) k (x :: l)) with (firstn k (x :: l) :: cut n k (skipn k (x :: l))).
  rewrite <- (firstn_skipn k (x :: l)) in Hl. apply Forall_app in Hl. destruct Hl. constructor; auto.
Qed.

Lemma inst_hash m : bytes_ok m ->
  code_hash a m = firstn (digest_bytes a) (flat_map (be_bytes (word_bytes a)) (lib_iterate bsz lb (be_bytes lb) comp iv m)).
Proof.
  intros Hm. unfold code_hash, lib_iterate. rewrite (i_iv _ _ _ _ Hi). do 2 f_equal.
  destruct (lib_padded_blocks a (i_wb _ _ _ _ Hi) m) as (n & Hn).
  destruct (pieces_mult bsz (bsz_pos a (i_wb _ _ _ _ Hi)) _ n Hn) as (F & _ & _).
  pose proof (pieces_bytes bsz _ (bsz_pos a (i_wb _ _ _ _ Hi)) (lib_padded_bytes m Hm)) as FB.
  rewrite Forall_forall in F, FB.
  apply (fold_ext_inv (words_ok (word_bits a) sw)); [|apply (i_ok _ _ _ _ Hi)].
  intros s b Hb Hs. destruct (i_step _ _ _ _ Hi s b Hs (F _ Hb) (FB _ Hb)) as [E I]. rewrite <- E. auto.
Qed.
(** the standard hash, run through the model's compression function *)
Lemma inst_fips m : bytes_ok m ->
  iterate bsz lb (be_bytes lb) comp iv m = fold_left (process a) (pieces bsz (padded bsz lb (be_bytes lb) m)) (H0 a).
Proof.
  intros Hm. pose proof (i_wb _ _ _ _ Hi) as Hwb. unfold iterate. rewrite (i_iv _ _ _ _ Hi).
  set (pm := padded bsz lb (be_bytes lb) m).
  assert (Bp : bytes_ok pm).
  { unfold pm, padded. repeat (apply Forall_app; split); try apply be_bytes_ok; auto.
    - repeat constructor.
    - apply Forall_forall. intros x Hx. apply repeat_spec in Hx. subst. reflexivity. }
  pose proof (bsz_pos a Hwb) as Hb0.
  assert (Lp : exists n, length pm = (n * bsz)%nat).
  { unfold pm, padded. rewrite !app_length, repeat_length, be_bytes_length. cbn [length].
    destruct (geometry a Hwb) as (_ & G & _).
    destruct (pad_zeros_least bsz lb (length m) G) as [Z _]. apply Nat.mod_divides in Z; [|lia]. destruct Z as (c & Z). exists c. lia. }
  destruct Lp as (n & Lp). destruct (pieces_mult bsz Hb0 _ n Lp) as (F & _ & _).
  pose proof (pieces_bytes bsz _ Hb0 Bp) as FB. rewrite Forall_forall in F, FB. symmetry.
  apply (fold_ext_inv (words_ok (word_bits a) sw)); [|apply (i_ok _ _ _ _ Hi)]. intros s b Hb Hs.
  destruct (i_step _ _ _ _ Hi s b Hs (F _ Hb) (FB _ Hb)) as [E I]. rewrite <- E. auto.
Qed.
End Inst.

Ltac bound := match goal with |- words_ok _ _ _ => split; [vm_compute; reflexivity|repeat (constructor; [vm_compute; reflexivity|]); constructor] end.

Lemma combine_len8 w s v : length s = length v -> length (add_back w s v) = length s.
Proof. intros H. unfold add_back. rewrite map_length, combine_length. lia. Qed.
Lemma fold_len {T} (f : list N -> T -> list N) l : (forall s t, length (f s t) = length s) -> forall s, length (fold_left f l s) = length s.
Proof. intros H. induction l as [|t l IH]; intros s; [reflexivity|]. cbn. rewrite IH. apply H. Qed.
Lemma sha2_step_len w S0 S1 K ws s t : length (sha2_step w S0 S1 K ws s t) = length s.
Proof. do 9 (destruct s as [|? s]; [reflexivity|]). reflexivity. Qed.
Lemma sha1_step_len f k ws s t : length (sha1_step f k ws s t) = length s.
Proof. do 6 (destruct s as [|? s]; [reflexivity|]). reflexivity. Qed.
Lemma sha256_process_len s b : length (sha256_process s b) = length s.
Proof. unfold sha256_process. apply combine_len8. symmetry. apply fold_len. intros; apply sha2_step_len. Qed.
Lemma sha512_process_len s b : length (sha512_process s b) = length s.
Proof. unfold sha512_process. apply combine_len8. symmetry. apply fold_len. intros; apply sha2_step_len. Qed.
Lemma sha1_process_len s b : length (sha1_process s b) = length s.
Proof.
  unfold sha1_process. apply combine_len8. symmetry. rewrite !fold_len by (intros; apply sha1_step_len). reflexivity.
Qed.

(** running a standard compression function through the model's one (for evaluation) *)
Lemma spec512_run iv m : words_ok 64 8 iv -> bytes_ok m ->
  sha2_hash sha2_64 iv 64 m = firstn 64 (flat_map (be_bytes 8) (fold_left sha512_process (pieces 128 (padded 128 16 (be_bytes 16) m)) iv)).
Proof.
  intros Hiv Hm. unfold sha2_hash, iterate. change (wbytes sha2_64) with 8%nat. do 2 f_equal.
  set (pm := padded 128 16 (be_bytes 16) m).
  assert (Bp : bytes_ok pm).
  { unfold pm, padded. repeat (apply Forall_app; split); try apply be_bytes_ok; auto.
    - repeat constructor.
    - apply Forall_forall. intros x Hx. apply repeat_spec in Hx. subst. reflexivity. }
  assert (Lp : exists n, length pm = (n * 128)%nat).
  { unfold pm, padded. rewrite !app_length, repeat_length, be_bytes_length. cbn [length].
    destruct (pad_zeros_least 128 16 (length m) ltac:(lia)) as [Z _]. apply Nat.mod_divides in Z; [|lia]. destruct Z as (c & Z). exists c. lia. }
  destruct Lp as (n & Lp). destruct (pieces_mult 128 ltac:(lia) _ n Lp) as (F & _ & _).
  pose proof (pieces_bytes 128 _ ltac:(lia) Bp) as FB. rewrite Forall_forall in F, FB. symmetry.
  change (16 * 8)%nat with 128%nat. change (2 * 8)%nat with 16%nat. fold pm.
  apply (fold_ext_inv (words_ok 64 8)); [|exact Hiv]. intros s b Hb Hs.
  destruct (sha512_process_eq s b Hs (F _ Hb) (FB _ Hb)) as [E I]. rewrite <- E. auto.
Qed.

Lemma IV_256_eq : sha256_H0 = IV_256.
Proof. apply frac_table; vm_compute; reflexivity. Qed.
Lemma IV_512_eq : sha512_H0 = IV_512.
Proof. apply frac_table; vm_compute; reflexivity. Qed.
Lemma IV_384_eq : sha384_H0 = IV_384.
Proof. apply frac_table; vm_compute; reflexivity. Qed.
Lemma IV_224_eq : sha224_H0 = IV_224.
Proof. unfold IV_224. rewrite <- IV_384_eq. vm_compute. reflexivity. Qed.
Lemma IV_512_224_eq : sha512_224_H0 = IV_512_224.
Proof.
  unfold IV_512_224, IV_512t. rewrite <- IV_512_eq, spec512_run; [vm_compute; reflexivity|bound|].
  vm_compute; repeat (constructor; [reflexivity|]); constructor.
Qed.
Lemma IV_512_256_eq : sha512_256_H0 = IV_512_256.
Proof.
  unfold IV_512_256, IV_512t. rewrite <- IV_512_eq, spec512_run; [vm_compute; reflexivity|bound|].
  vm_compute; repeat (constructor; [reflexivity|]); constructor.
Qed.
Lemma IV_sha1_eq : sha1_H0 = sha1_IV. Proof. reflexivity. Qed.

Lemma inst_sha1 : instance alg_sha1 sha1_compress sha1_IV 5.
Proof.
  split; cbn [word_bytes H0 digest_bytes process alg_sha1]; auto using IV_sha1_eq, sha1_process_eq; try (cbn; lia).
  - change (word_bits alg_sha1) with 32. bound.
  - intros s b <-. apply sha1_process_len.
Qed.
Lemma inst_sha256_gen h iv d : h = iv -> words_ok 32 8 h -> (d <= 32)%nat ->
  instance (mkAlg 4 sha256_process h d false) (sha2_compress sha2_32) iv 8.
Proof.
  intros <- Hh Hd. split; cbn [word_bytes H0 digest_bytes process]; auto using sha256_process_eq; try (cbn; lia).
  intros s b <-. apply sha256_process_len.
Qed.
Lemma inst_sha512_gen h iv d : h = iv -> words_ok 64 8 h -> (d <= 64)%nat ->
  instance (mkAlg 8 sha512_process h d false) (sha2_compress sha2_64) iv 8.
Proof.
  intros <- Hh Hd. split; cbn [word_bytes H0 digest_bytes process]; auto using sha512_process_eq; try (cbn; lia).
  intros s b <-. apply sha512_process_len.
Qed.
Lemma inst_sha224 : instance alg_sha224 (sha2_compress sha2_32) IV_224 8.
Proof. apply inst_sha256_gen; [apply IV_224_eq|bound|lia]. Qed.
Lemma inst_sha256 : instance alg_sha256 (sha2_compress sha2_32) IV_256 8.
Proof. apply inst_sha256_gen; [apply IV_256_eq|bound|lia]. Qed.
Lemma inst_sha384 : instance alg_sha384 (sha2_compress sha2_64) IV_384 8.
Proof. apply inst_sha512_gen; [apply IV_384_eq|bound|lia]. Qed.
Lemma inst_sha512 : instance alg_sha512 (sha2_compress sha2_64) IV_512 8.
Proof. apply inst_sha512_gen; [apply IV_512_eq|bound|lia]. Qed.
Lemma inst_sha512_224 : instance alg_sha512_224 (sha2_compress sha2_64) IV_512_224 8.
Proof. apply inst_sha512_gen; [apply IV_512_224_eq|bound|lia]. Qed.
Lemma inst_sha512_256 : instance alg_sha512_256 (sha2_compress sha2_64) IV_512_256 8.
Proof. apply inst_sha512_gen; [apply IV_512_256_eq|bound|lia]. Qed.

(** ** when the deviation does not show *)
Lemma lib_padded_fips bs lb enc m : (1 + lb <= bs)%nat -> unaffected bs lb m -> lib_padded bs lb enc m = padded bs lb enc m.
Proof.
  intros Hb [H|H]; unfold lib_padded; [rewrite H; reflexivity|].
  destruct (fits bs lb m) eqn:E; [reflexivity|]. unfold fits in E. apply Nat.leb_gt in E.
  unfold padded. do 2 f_equal.
  set (n := (length m mod bs)%nat) in *. assert (R : (n < bs)%nat) by (apply Nat.mod_upper_bound; lia).
  assert (PZ : pad_zeros bs lb (length m) = (bs - n - 1 + (bs - lb))%nat).
  { unfold pad_zeros. fold n. rewrite Nat.mod_small; lia. }
  rewrite PZ, repeat_app, <- app_assoc. f_equal. f_equal.
  set (u := firstn (bs - lb) (last_part bs m)) in *.
  assert (LU : length u = (bs - lb)%nat).
  { unfold u. rewrite firstn_length. unfold last_part. rewrite skipn_length.
    assert (length m = bs * (length m / bs) + n)%nat by apply Nat.div_mod_eq. lia. }
  rewrite <- LU. clear -H. induction H as [|x l -> _ IH]; [reflexivity|]. cbn. f_equal. exact IH.
Qed.
Lemma lib_iterate_fips bs lb enc comp iv m : (1 + lb <= bs)%nat -> unaffected bs lb m ->
  lib_iterate bs lb enc comp iv m = iterate bs lb enc comp iv m.
Proof. intros Hb H. unfold lib_iterate, iterate. rewrite lib_padded_fips by assumption. reflexivity. Qed.

Lemma flat4_firstn s : length s = 5%nat -> firstn 20 (flat_map (be_bytes 4) s) = flat_map (be_bytes 4) s.
Proof.
  intros H. apply firstn_all2. do 5 (destruct s as [|? s]; [discriminate|]). destruct s; [|discriminate].
  cbn [flat_map]. rewrite !app_length, !be_bytes_length. cbn. lia.
Qed.

Definition sha_total (a : sha_alg) (m : list N) : Prop := 8 * N.of_nat (length m) < limit a.

Lemma updates_fed a ps : word_bytes a = 4%nat \/ word_bytes a = 8%nat -> forall m c, fed a m c -> Forall int_piece ps ->
  sha_total a (m ++ concat ps) -> exists c', updates (sha_impl a) c ps = Ret c' /\ fed a (m ++ concat ps) c'.
Proof.
  intros Hwb. induction ps as [|p ps IH]; intros m c Hf HP HT.
  - exists c. cbn. rewrite app_nil_r. auto.
  - inversion HP as [|? ? [Hp1 Hp2] HP']; subst. cbn [concat] in *. unfold sha_total in *. rewrite !app_length in HT.
    destruct (update_fed a Hwb p m c 0 Hf) as (c' & E & Hf'); [unfold INT_MAX; lia|lia|].
    cbn [updates]. change (iupdate (sha_impl a)) with (sha_update a). unfold sha_update. rewrite E. cbn [bind].
    destruct (IH (m ++ p) c' Hf' HP') as (c'' & E' & Hf''); [rewrite !app_length; lia|].
    exists c''. rewrite app_assoc. auto.
Qed.

Lemma sha_streams a comp iv sw H : instance a comp iv sw ->
  (forall m, bytes_ok m -> code_hash a m = H m) ->
  streams (sha_impl a) int_piece (sha_total a) H.
Proof.
  intros Hi HH g ps out Hg HP HT Ho. pose proof (i_wb _ _ _ _ Hi) as Hwb.
  destruct (updates_fed a ps Hwb [] (sha_init a g)) as (c & E & Hf); auto.
  { apply fed_init; assumption. }
  cbn [app] in Hf. destruct (digest_spec a Hwb (inst_Hst _ _ _ _ Hi) (concat ps) c out Hf Ho) as (c' & Ed & Hl).
  assert (B : bytes_ok (concat ps)).
  { clear -HP. induction HP as [|p ps [Hp _] _ IH]; cbn; [constructor|apply Forall_app; auto]. }
  exists c, c'. rewrite <- HH by exact B. repeat split; auto. apply (code_hash_length a Hwb (inst_Hst _ _ _ _ Hi)).
Qed.
