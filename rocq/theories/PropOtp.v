(** Property theorems C39-C44: HOTP and TOTP functions (hotp.c, otp-generic.c, totp.c, totp-internal.c,
    abstract_otp.cpp). *)
From Coq Require Import String.
From Verif Require SFips202 SMd5.
From Verif Require Import Base SFips180 SShaLib MSha MFront MMd5 MKeccak SHash SKeccakFns SHashFns PTyped MHmac SHmac PHmac PropHmac MOtp SOtp POtp.
Local Open Scope N_scope.

Lemma size_of_choice a P M H B D : choice_std a P M H B D -> digest_size a = D. Proof. destruct 1; reflexivity. Qed.
Lemma size_of_choice_lib a P M H B D : choice_lib a P M H B D -> digest_size a = D. Proof. destruct 1; reflexivity. Qed.
Lemma M_counter_std a P M H B D : choice_std a P M H B D -> forall m, length m = 8%nat -> M m.
Proof.
  destruct 1; intros m L; cbv beta; try exact Logic.I; try exact (conj eq_refl eq_refl);
  unfold with_block, leaves_room; rewrite L; split; try (vm_compute; reflexivity); vm_compute; lia.
Qed.
Lemma M_counter_lib a P M H B D : choice_lib a P M H B D -> forall m, length m = 8%nat -> M m.
Proof. destruct 1; intros m L; cbv beta; try exact Logic.I; unfold with_block; rewrite L; vm_compute; reflexivity. Qed.
Lemma P_counter garbage a P M H B D : good garbage a P M H B D -> forall m, length m = 8%nat -> bytes_ok m -> P m.
Proof. intros G m L Hb. apply (g_piece _ _ _ _ _ _ _ G); [exact Hb|intros ->; discriminate|lia]. Qed.
Lemma tag_length garbage a P M H B D : good garbage a P M H B D -> M [] -> forall (g : ectx (sp_case garbage a)) (l : eloc (sp_case garbage a)) key m, ectx_ok g -> eloc_ok l -> bytes_ok key -> P m -> M m ->
  length (HMAC H B (firstn B key) m) = D.
Proof.
  intros G M0. destruct (good_run _ _ _ _ _ _ _ G M0) as (I & E & EB & ED & Kp & R).
  intros g l key m Hg Hl. revert g l Hg Hl. rewrite E. intros g l Hg Hl Hk HP HM. cbn [ectx_ok eloc_ok ectx eloc] in *.
  destruct (R g key [m] l (repeat 0 D)) as (_ & _ & _ & _ & _ & _ & L); auto; [apply Hg|cbn [concat]; rewrite app_nil_r; exact HM|rewrite repeat_length; lia|].
  cbn [concat] in L. rewrite app_nil_r in L. exact L.
Qed.

(** the tag that ends up in out_hash *)
Lemma hotp_hmac_std garbage a P M H B D : choice_std a P M H B D -> forall g l out secret c d, ectx_ok g -> eloc_ok l ->
  bytes_ok secret -> (length secret <= B)%nat -> length out = digest_size a ->
  exists t, t = HMAC H B secret (counter_bytes c) /\ length t = digest_size a /\ bytes_ok t /\
    hotp_generic garbage a g l out secret c d = if (digest_size a <? dt_offset t + 4)%nat then UB OutOfBounds else Ret (DT t mod 10 ^ d).
Proof.
  intros K g l out secret c d Hg Hl Hs L Ho. eexists. split; [reflexivity|].
  pose proof (std_good garbage _ _ _ _ _ _ K) as G. pose proof (size_of_choice _ _ _ _ _ _ K) as ED.
  assert (HP : P (counter_bytes c)) by (apply (P_counter _ _ _ _ _ _ _ G); [reflexivity|apply counter_ok]).
  assert (HM : M (counter_bytes c)) by (apply (M_counter_std _ _ _ _ _ _ K); reflexivity).
  assert (Lt : length (HMAC H B secret (counter_bytes c)) = digest_size a).
  { rewrite ED. pose proof (tag_length _ _ _ _ _ _ _ G (M_nil_std _ _ _ _ _ _ K) g l secret (counter_bytes c) Hg Hl Hs HP HM) as X. rewrite (firstn_all2 secret L) in X. exact X. }
  assert (Bt : bytes_ok (HMAC H B secret (counter_bytes c))) by apply (g_bytes _ _ _ _ _ _ _ G).
  split; [exact Lt|]. split; [exact Bt|]. apply hotp_of_tag; [|exact Lt|exact Bt].
  rewrite (C37_dispatch garbage a P M H B D K) by (auto; lia). rewrite skipn_all2 by lia. rewrite app_nil_r. reflexivity.
Qed.
Lemma hotp_hmac_lib garbage a P M H B D : choice_lib a P M H B D -> forall g l out secret c d, ectx_ok g -> eloc_ok l ->
  bytes_ok secret -> length out = digest_size a ->
  exists t, t = HMAC H B (firstn B secret) (counter_bytes c) /\ length t = digest_size a /\ bytes_ok t /\
    hotp_generic garbage a g l out secret c d = if (digest_size a <? dt_offset t + 4)%nat then UB OutOfBounds else Ret (DT t mod 10 ^ d).
Proof.
  intros K g l out secret c d Hg Hl Hs Ho. eexists. split; [reflexivity|].
  pose proof (lib_good garbage _ _ _ _ _ _ K) as G. pose proof (size_of_choice_lib _ _ _ _ _ _ K) as ED.
  assert (HP : P (counter_bytes c)) by (apply (P_counter _ _ _ _ _ _ _ G); [reflexivity|apply counter_ok]).
  assert (HM : M (counter_bytes c)) by (apply (M_counter_lib _ _ _ _ _ _ K); reflexivity).
  assert (Lt : length (HMAC H B (firstn B secret) (counter_bytes c)) = digest_size a).
  { rewrite ED. exact (tag_length _ _ _ _ _ _ _ G (M_nil _ _ _ _ _ _ K) g l secret (counter_bytes c) Hg Hl Hs HP HM). }
  assert (Bt : bytes_ok (HMAC H B (firstn B secret) (counter_bytes c))) by apply (g_bytes _ _ _ _ _ _ _ G).
  split; [exact Lt|]. split; [exact Bt|]. apply hotp_of_tag; [|exact Lt|exact Bt].
  rewrite (C37_dispatch_library garbage a P M H B D K) by (auto; lia). rewrite skipn_all2 by lia. rewrite app_nil_r. reflexivity.
Qed.
Lemma hotp_cut I c key k : firstn (iblock I) key = firstn (iblock I) k -> hmac_set_key I c key = hmac_set_key I c k.
Proof. intros E. unfold hmac_set_key. rewrite (arrcpy_firstn (iblock I) key), (arrcpy_firstn (iblock I) k), E. reflexivity. Qed.
Lemma hotp_first_block garbage a B I : sp_case garbage a = Some I -> iblock I = B -> forall g l out key c d,
  hotp_generic garbage a g l out key c d = hotp_generic garbage a g l out (firstn B key) c d.
Proof.
  intros E <- g l out key c d. unfold hotp_generic, pgfe_hmac. revert g l. rewrite E. intros g l. cbn [hmac_case]. unfold hmac_one_shot.
  destruct (reverse (le_bytes 8 c) 0 7) as [m| |]; try reflexivity. cbn [bind]. destruct (hmac_init I g) as [x| |]; try reflexivity. cbn [bind].
  rewrite (hotp_cut I x key (firstn (iblock I) key)); [reflexivity|]. rewrite firstn_firstn, Nat.min_id. reflexivity.
Qed.

(** ** C39 *)
(** RFC 4226 for every fixed-size hash but MD5, every secret of at most one block, every counter and
    digit count, whatever the uninitialised memory contains. *)
Theorem C39_hotp_rfc4226 : forall garbage a P M H B D, choice_std a P M H B D -> a <> A_MD5 ->
  forall g l out secret counter digits, ectx_ok g -> eloc_ok l -> length out = D ->
  bytes_ok secret -> (length secret <= B)%nat ->
  hotp_generic garbage a g l out secret counter digits = Ret (HOTP H B secret counter digits).
Proof.
  intros garbage a P M H B D K Ha g l out secret c d Hg Hl Ho Hs L. rewrite <- (size_of_choice _ _ _ _ _ _ K) in Ho.
  destruct (hotp_hmac_std garbage _ _ _ _ _ _ K g l out secret c d Hg Hl Hs L Ho) as (t & -> & _ & _ & ->).
  destruct (Nat.ltb_spec (digest_size a) (dt_offset (HMAC H B secret (counter_bytes c)) + 4)) as [X|X]; [|reflexivity].
  exfalso. pose proof (offset_le (HMAC H B secret (counter_bytes c))). assert (20 <= digest_size a)%nat by (destruct a; cbn; try lia; congruence). lia.
Qed.
Print Assumptions C39_hotp_rfc4226.
(** the fixed SHA-1 entry points *)
Theorem C39_hotp_sha1 : forall garbage g l out secret counter digits,
  @ectx_ok (Some (sha_impl alg_sha1)) g -> @eloc_ok (Some (sha_impl alg_sha1)) l -> length out = 20%nat -> bytes_ok secret -> (length secret <= 64)%nat ->
  hotp garbage g l out secret counter digits = Ret (HOTP SHA1 64 secret counter digits) /\
  hotp_4digits garbage g l out secret counter = Ret (HOTP SHA1 64 secret counter 4) /\
  hotp_6digits garbage g l out secret counter = Ret (HOTP SHA1 64 secret counter 6) /\
  hotp_8digits garbage g l out secret counter = Ret (HOTP SHA1 64 secret counter 8).
Proof.
  intros. repeat split; apply (C39_hotp_rfc4226 garbage A_SHA1 _ _ _ _ _ cs_sha1); auto; discriminate.
Qed.
Print Assumptions C39_hotp_sha1.
(** a longer secret is cut to its first block instead of being hashed (RFC 2104) *)
Theorem C39_long_secret_cut : forall garbage a P M H B D, choice_std a P M H B D -> a <> A_MD5 ->
  forall g l out secret counter digits, ectx_ok g -> eloc_ok l -> length out = D -> bytes_ok secret ->
  hotp_generic garbage a g l out secret counter digits = Ret (HOTP H B (firstn B secret) counter digits).
Proof.
  intros garbage a P M H B D K Ha g l out secret c d Hg Hl Ho Hs.
  destruct (g_impl _ _ _ _ _ _ _ (std_good garbage _ _ _ _ _ _ K)) as (I & _ & E & EB & _).
  rewrite (hotp_first_block garbage a B I E EB). apply (C39_hotp_rfc4226 garbage a P M H B D K Ha); auto.
  - apply firstn_ok. exact Hs.
  - apply firstn_short.
Qed.
Print Assumptions C39_long_secret_cut.

(** ** C40 *)
Theorem C40_hotp_md5 : forall garbage g l out secret counter digits,
  @ectx_ok (Some (md5_impl garbage)) g -> @eloc_ok (Some (md5_impl garbage)) l -> length out = 16%nat -> bytes_ok secret -> (length secret <= 64)%nat ->
  let tag := HMAC SMd5.MD5 64 secret (counter_bytes counter) in
  hotp_generic garbage A_MD5 g l out secret counter digits =
    if 12 <? last tag 0 mod 16 then UB OutOfBounds else Ret (HOTP SMd5.MD5 64 secret counter digits).
Proof.
  intros garbage g l out secret c d Hg Hl Ho Hs L tag.
  destruct (hotp_hmac_std garbage _ _ _ _ _ _ cs_md5 g l out secret c d Hg Hl Hs L Ho) as (t & Et & Lt & Bt & ->). fold tag in Et. subst t.
  change (digest_size A_MD5) with 16%nat. unfold HOTP. fold tag.
  assert (X : (16 <? dt_offset tag + 4)%nat = (12 <? last tag 0 mod 16)).
  { unfold dt_offset. generalize (last tag 0 mod 16). intros m. destruct (N.ltb_spec 12 m); destruct (Nat.ltb_spec 16 (N.to_nat m + 4)); try reflexivity; lia. }
  rewrite X. reflexivity.
Qed.
Print Assumptions C40_hotp_md5.

(** ** C41 *)
Lemma reduce_bound v d : (if d <? OTP_DIGIT_MAX_LIMIT then p <- rd DIGITS_POW (N.to_nat d) ;; Ret (v mod p) else Ret v) = Ret (v mod 10 ^ d) \/ ~ v < 2 ^ 31.
Proof. destruct (N.ltb_spec v (2 ^ 31)); [left; apply reduce_digits; assumption|right; lia]. Qed.
Lemma truncate_bound s n v : dynamically_truncate s n = Ret v -> v < 2 ^ 31.
Proof.
  unfold dynamically_truncate. intros E. do 2 (apply bind_inv in E as (? & _ & E)). injection E as <-. rewrite N.shiftr_div_pow2. change (2 ^ 1) with 2.
  apply N.div_lt_upper_bound; [lia|]. unfold u32. change (2 * 2 ^ 31) with (2 ^ 32). apply N.mod_lt. lia.
Qed.
(** every value ever returned, for every algorithm, is below 2^31 and has at most [digits] decimal digits *)
Theorem C41_otp_range : forall garbage a g l out secret counter digits v,
  hotp_generic garbage a g l out secret counter digits = Ret v -> v < 2 ^ 31 /\ v < 10 ^ digits.
Proof.
  intros garbage a g l out secret c d v E. unfold hotp_generic in E. cbv zeta in E. do 3 inv_bind E. apply truncate_bound in X1.
  rewrite reduce_digits in E by exact X1. injection E as <-. split.
  - eapply N.le_lt_trans; [|exact X1]. apply N.mod_le. apply N.pow_nonzero. lia.
  - apply N.mod_lt. apply N.pow_nonzero. lia.
Qed.
Print Assumptions C41_otp_range.
(** the value is well defined for every digest of at least 20 bytes *)
Theorem C41_truncation_total : forall s, bytes_ok s -> (20 <= length s)%nat ->
  dynamically_truncate s (length s) = Ret (DT s) /\ DT s < 2 ^ 31.
Proof. intros s Hb L. split; [|apply DT_bound]. apply truncate_ok; auto; [lia|]. pose proof (offset_le s). lia. Qed.
Print Assumptions C41_truncation_total.

(** ** C42 *)
Definition xofs : list alg_choice := [A_RawSHAKE128; A_SHAKE128; A_RawSHAKE256; A_SHAKE256].
(** the result depends on the uninitialised array only, not on secret or counter *)
Theorem C42_xof_ignores_secret : forall garbage a, In a xofs -> forall g l out digits,
  bytes_ok out -> length out = digest_size a ->
  forall secret counter, hotp_generic garbage a g l out secret counter digits = Ret (DT out mod 10 ^ digits).
Proof.
  intros garbage a Ha g l out d Hb L secret c.
  rewrite (hotp_of_tag garbage a g l out secret c d out (C37_xof_untouched garbage a Ha g l secret _ out) L Hb).
  destruct (Nat.ltb_spec (digest_size a) (dt_offset out + 4)) as [X|X]; [|reflexivity].
  exfalso. pose proof (offset_le out). assert (20 <= digest_size a)%nat by (unfold xofs in Ha; cbn [In] in Ha; repeat (destruct Ha as [<-|Ha]; [cbn; lia|]); destruct Ha). lia.
Qed.
Print Assumptions C42_xof_ignores_secret.
(** and any value at all can come out *)
Theorem C42_xof_any_value : forall garbage a, In a xofs -> forall v, v < 2 ^ 31 -> exists out, bytes_ok out /\ length out = digest_size a /\
  forall g l secret counter digits, hotp_generic garbage a g l out secret counter digits = Ret (v mod 10 ^ digits).
Proof.
  intros garbage a Ha v Hv. set (n := digest_size a). exists ([v / 2 ^ 24 mod 256; v / 2 ^ 16 mod 256; v / 2 ^ 8 mod 256; v mod 256] ++ repeat 0 (n - 4)).
  assert (Hn : (32 <= n)%nat) by (subst n; unfold xofs in Ha; cbn [In] in Ha; repeat (destruct Ha as [<-|Ha]; [cbn; lia|]); destruct Ha).
  assert (Hb : bytes_ok ([v / 2 ^ 24 mod 256; v / 2 ^ 16 mod 256; v / 2 ^ 8 mod 256; v mod 256] ++ repeat 0 (n - 4))).
  { apply Forall_app. split; [repeat constructor; apply N.mod_lt; lia|]. apply Forall_forall. intros x Hx. apply repeat_spec in Hx. subst x. reflexivity. }
  assert (L : length ([v / 2 ^ 24 mod 256; v / 2 ^ 16 mod 256; v / 2 ^ 8 mod 256; v mod 256] ++ repeat 0 (n - 4)) = n) by (rewrite app_length, repeat_length; cbn [length]; lia).
  split; [exact Hb|]. split; [exact L|]. intros g l secret c d. rewrite (C42_xof_ignores_secret garbage a Ha g l _ d Hb L). f_equal. f_equal.
  unfold DT. assert (O : dt_offset ([v / 2 ^ 24 mod 256; v / 2 ^ 16 mod 256; v / 2 ^ 8 mod 256; v mod 256] ++ repeat 0 (n - 4)) = 0%nat).
  { unfold dt_offset. rewrite last_nth, L, app_nth2 by (cbn [length]; lia). cbn [length]. rewrite nth_repeat. reflexivity. }
  rewrite O. cbn [skipn app firstn be_value fold_left]. change (2 ^ 31) with 2147483648 in *. change (2 ^ 24) with 16777216. change (2 ^ 16) with 65536. change (2 ^ 8) with 256.
  transitivity (v mod 2147483648); [|apply N.mod_small; exact Hv]. f_equal.
  assert (E1 : v = 256 * (v / 256) + v mod 256) by (apply N.div_mod; lia).
  assert (E2 : v / 256 = 256 * (v / 65536) + (v / 256) mod 256). { replace (v / 65536) with (v / 256 / 256) by (rewrite N.div_div by lia; reflexivity). apply N.div_mod; lia. }
  assert (E3 : v / 65536 = 256 * (v / 16777216) + (v / 65536) mod 256). { replace (v / 16777216) with (v / 65536 / 256) by (rewrite N.div_div by lia; reflexivity). apply N.div_mod; lia. }
  assert (E4 : (v / 16777216) mod 256 = v / 16777216) by (apply N.mod_small; apply N.div_lt_upper_bound; lia).
  rewrite E4. revert E1 E2 E3. generalize (v mod 256) (v / 256) ((v / 256) mod 256) (v / 65536) ((v / 65536) mod 256) (v / 16777216). intros; lia.
Qed.
Print Assumptions C42_xof_any_value.

(** ** C43 *)
Lemma dec_digits_ok f : forall v, v < 10 ^ N.of_nat (S f) -> Forall is_digit (dec_digits f v) /\ dec_value (dec_digits f v) = v /\
  (forall d, (0 < d)%nat -> v < 10 ^ N.of_nat d -> (length (dec_digits f v) <= d)%nat).
Proof.
  induction f as [|f IH]; intros v Hv; cbn [dec_digits].
  - change (10 ^ N.of_nat 1) with 10 in Hv. rewrite N.mod_small by exact Hv. repeat split; [constructor; [unfold is_digit; lia|constructor]|cbn; lia|cbn; lia].
  - destruct (N.ltb_spec v 10) as [L|L]; [repeat split; [constructor; [unfold is_digit; lia|constructor]|cbn; lia|cbn; lia]|].
    assert (Hq : v / 10 < 10 ^ N.of_nat (S f)). { apply N.div_lt_upper_bound; [lia|]. rewrite <- N.pow_succ_r'. replace (N.succ (N.of_nat (S f))) with (N.of_nat (S (S f))) by lia. exact Hv. }
    destruct (IH (v / 10) Hq) as (D & V & Ln). repeat split.
    + apply Forall_app. split; [exact D|]. constructor; [apply digit_mod|constructor].
    + rewrite dec_snoc, V. pose proof (N.div_mod v 10 ltac:(lia)) as E. revert E. generalize (v / 10) (v mod 10). intros; lia.
    + intros d Hd Hvd. destruct d as [|[|d]]; [lia|cbn in Hvd; lia|]. rewrite app_length. cbn [length]. specialize (Ln (S d) ltac:(lia)).
      assert (v / 10 < 10 ^ N.of_nat (S d)). { apply N.div_lt_upper_bound; [lia|]. rewrite <- N.pow_succ_r'. replace (N.succ (N.of_nat (S d))) with (N.of_nat (S (S d))) by lia. exact Hvd. }
      specialize (Ln H). lia.
Qed.
Lemma dec_zeros k s : dec_value (repeat 48 k ++ s) = dec_value s.
Proof. induction k as [|k IH]; [reflexivity|]. cbn [repeat app]. unfold dec_value in *. cbn [fold_left]. exact IH. Qed.
Lemma pad_loop_eq f : forall s d, (d - length s < f)%nat -> pad_loop f s d = Ret (repeat 48 (d - length s) ++ s).
Proof.
  induction f as [|f IH]; intros s d H; cbn [pad_loop]; [lia|].
  destruct (Nat.ltb_spec (length s) d) as [L|L].
  - rewrite IH by (cbn [length]; lia). f_equal. cbn [length]. replace (d - length s)%nat with (S (d - S (length s))) by lia.
    change (48 :: s) with ([48] ++ s). rewrite app_assoc, <- repeat_cons. reflexivity.
  - replace (d - length s)%nat with 0%nat by lia. reflexivity.
Qed.
Lemma u32_digits v : v < 2 ^ 32 -> v < 10 ^ N.of_nat 10. Proof. intros H. eapply N.lt_trans; [exact H|]. vm_compute. reflexivity. Qed.
(** generate_str: the decimal text with exactly [d] digits *)
Theorem C43_generate_str : forall v d, v < 2 ^ 32 -> 0 < d -> v < 10 ^ d ->
  exists s, otp_str v d = Ret s /\ decimal (N.to_nat d) v s.
Proof.
  intros v d Hv Hd Hvd. unfold otp_str. rewrite pad_loop_eq by lia. eexists. split; [reflexivity|].
  destruct (dec_digits_ok 9 v (u32_digits v Hv)) as (D & V & Ln). fold (std_to_string v) in D, V, Ln.
  specialize (Ln (N.to_nat d) ltac:(lia)). rewrite N2Nat.id in Ln. specialize (Ln Hvd). repeat split.
  - rewrite app_length, repeat_length. lia.
  - apply Forall_app. split; [|exact D]. apply Forall_forall. intros x Hx. apply repeat_spec in Hx. subst x. unfold is_digit. lia.
  - rewrite dec_zeros. exact V.
Qed.
Print Assumptions C43_generate_str.
(** the same for the texts of generated values; the digit count decides their length *)
Theorem C43_generated_text : forall garbage a g l out secret counter d v, 0 < d ->
  hotp_generic garbage a g l out secret counter d = Ret v ->
  exists s, otp_str v d = Ret s /\ decimal (N.to_nat d) v s.
Proof.
  intros garbage a g l out secret c d v Hd E. apply C41_otp_range in E as [E1 E2]. apply C43_generate_str; auto.
  eapply N.lt_trans; [exact E1|]. vm_compute. reflexivity.
Qed.
Print Assumptions C43_generated_text.
(** otp_to_string: the last [d] decimal digits and the terminator; for v < 10^d the decimal text of v *)
Theorem C43_otp_to_string : forall v out d, (d < length out)%nat ->
  exists s, otp_to_string v out d = Ret (s ++ 0 :: skipn (S d) out) /\ decimal d (v mod 10 ^ N.of_nat d) s.
Proof.
  intros v out d L. exists (low_digits d v). split.
  - unfold otp_to_string. rewrite to_string_loop_eq by lia. cbn [bind]. destruct (skipn d out) as [|x r] eqn:E.
    { apply (f_equal (@length N)) in E. rewrite skipn_length in E. cbn [length] in E. lia. }
    rewrite wr_app by (rewrite low_digits_length; reflexivity). f_equal. f_equal. f_equal.
    replace (S d) with (d + 1)%nat by lia. rewrite <- skipn_add, E. reflexivity.
  - repeat split; [apply low_digits_length|apply low_digits_ok|apply low_digits_value].
Qed.
Print Assumptions C43_otp_to_string.
(** both write the same text *)
Theorem C43_same_text : forall v out d, v < 2 ^ 32 -> 0 < d -> v < 10 ^ d -> (N.to_nat d < length out)%nat ->
  exists s, otp_str v d = Ret s /\ otp_to_string v out (N.to_nat d) = Ret (s ++ 0 :: skipn (S (N.to_nat d)) out).
Proof.
  intros v out d H1 H2 H3 L. destruct (C43_generate_str v d H1 H2 H3) as (s & E & D). destruct (C43_otp_to_string v out (N.to_nat d) L) as (s' & E' & D').
  exists s. split; [exact E|]. rewrite E'. rewrite N2Nat.id, N.mod_small in D' by exact H3. rewrite (decimal_unique _ _ _ _ D D'). reflexivity.
Qed.
Print Assumptions C43_same_text.
(** digit count 0 is the exception: the value is 0, the C helper writes the empty text, generate_str
    one digit *)
Theorem C43_zero_digits_refuted : otp_str 0 0 = Ret (chars "0") /\ otp_to_string 0 [1] 0 = Ret [0].
Proof. split; reflexivity. Qed.
Print Assumptions C43_zero_digits_refuted.

(** ** C44 *)
Lemma time_sub_ok t t0 : is_time (t - t0) -> time_sub t t0 = Ret (t - t0)%Z.
Proof. intros [H1 H2]. unfold time_sub. apply Z.leb_le in H1. apply Z.ltb_lt in H2. rewrite H1, H2. reflexivity. Qed.
Lemma to_i32_small x : (- 2 ^ 31 <= x < 2 ^ 31)%Z -> to_i32 x = x.
Proof. intros H. unfold to_i32. rewrite Z.mod_small by (change (2 ^ 32)%Z with (2 ^ 31 + 2 ^ 31)%Z; lia). lia. Qed.
Lemma step_facts off iv : (0 <= off)%Z -> (0 < iv)%Z -> let d := (iv - off mod iv)%Z in
  (1 <= d <= iv)%Z /\ (forall k, (0 <= k < d)%Z -> ((off + k) / iv = off / iv)%Z) /\ ((off + d) / iv = off / iv + 1)%Z.
Proof.
  intros Ho Hi d. pose proof (Z.mod_pos_bound off iv Hi) as Hm. pose proof (Z.div_mod off iv ltac:(lia)) as E. split; [lia|]. split.
  - intros k Hk. symmetry. apply (Z.div_unique_pos _ _ _ (off mod iv + k)); lia.
  - symmetry. apply (Z.div_unique_pos _ _ _ 0%Z); lia.
Qed.

Lemma calc_eq t iv t0 b : 0 < iv -> iv < 2 ^ 32 -> (t0 <= t)%Z -> is_time (t - t0) ->
  calc_periodic_counter t iv t0 b = Ret (Z.to_N (time_step t t0 iv),
    if b then Some (to_i32 (Z.of_N iv - (t - t0) mod Z.of_N iv)) else None).
Proof.
  intros Hi Hi' Ht Hr. unfold calc_periodic_counter. rewrite time_sub_ok by exact Hr. cbn [bind]. destruct (N.eqb_spec iv 0) as [->|_]; [lia|].
  assert (0 < Z.of_N iv)%Z by lia. rewrite Z.quot_div_nonneg, Z.rem_mod_nonneg by lia. unfold to_u64, time_step. destruct Hr as [_ Hr].
  rewrite (Z.mod_small _ (2 ^ 64)); [reflexivity|]. split; [apply Z.div_pos; lia|]. eapply Z.le_lt_trans; [apply Z.div_le_upper_bound with (q := (t - t0)%Z); nia|]. eapply Z.lt_trans; [exact Hr|]. vm_compute. reflexivity.
Qed.

(** counter = floor((t - t0) / interval); the remaining time is exact *)
Theorem C44_counter_and_delta : forall t iv t0, is_time t -> is_time t0 -> (t0 <= t)%Z -> is_time (t - t0) -> 0 < iv < 2 ^ 31 ->
  exists d, calc_periodic_counter t iv t0 true = Ret (Z.to_N (time_step t t0 iv), Some d) /\
    (0 <= time_step t t0 iv)%Z /\ (1 <= d <= Z.of_N iv)%Z /\
    (forall t', (t <= t' < t + d)%Z -> time_step t' t0 iv = time_step t t0 iv) /\
    (time_step (t + d) t0 iv = time_step t t0 iv + 1)%Z.
Proof.
  intros t iv t0 _ _ Ht Hr [Hi1 Hi2]. assert (Hi3 : iv < 2 ^ 32) by (eapply N.lt_trans; [exact Hi2|reflexivity]).
  rewrite calc_eq by assumption. destruct (step_facts (t - t0) (Z.of_N iv) ltac:(lia) ltac:(lia)) as (F1 & F2 & F3).
  eexists. split; [rewrite to_i32_small; [reflexivity|]|].
  { change (2 ^ 31) with 2147483648 in Hi2. change (2 ^ 31)%Z with 2147483648%Z. revert F1. generalize (Z.of_N iv - (t - t0) mod Z.of_N iv)%Z. intros d F1. lia. }
  unfold time_step. split; [apply Z.div_pos; lia|]. split; [exact F1|]. split.
  - intros t' H. replace (t' - t0)%Z with (t - t0 + (t' - t))%Z by lia. apply F2. lia.
  - revert F3. generalize (Z.of_N iv - (t - t0) mod Z.of_N iv)%Z. intros d F3. replace (t + d - t0)%Z with (t - t0 + d)%Z by lia. exact F3.
Qed.
Print Assumptions C44_counter_and_delta.
(** the counter is right for every 32-bit interval, and the null pointer is respected *)
Theorem C44_counter_all_intervals : forall t iv t0 b, (t0 <= t)%Z -> is_time (t - t0) -> 0 < iv < 2 ^ 32 ->
  exists o, calc_periodic_counter t iv t0 b = Ret (Z.to_N (time_step t t0 iv), o) /\ (o = None <-> b = false).
Proof.
  intros t iv t0 b Ht Hr [Hi1 Hi2]. rewrite calc_eq by assumption. eexists. split; [reflexivity|]. destruct b; split; congruence.
Qed.
Print Assumptions C44_counter_all_intervals.
Theorem C44_interval_zero_refuted : forall t t0 b, is_time (t - t0) -> calc_periodic_counter t 0 t0 b = UB DivByZero.
Proof. intros t t0 b H. unfold calc_periodic_counter. rewrite time_sub_ok by exact H. reflexivity. Qed.
Print Assumptions C44_interval_zero_refuted.
(** an interval of 2^31 or more is reported as a negative remaining time at the start of every step *)
Theorem C44_large_interval_refuted : forall iv t0 k, 2 ^ 31 <= iv < 2 ^ 32 -> (0 <= k)%Z -> is_time (k * Z.of_N iv) ->
  exists d, calc_periodic_counter (t0 + k * Z.of_N iv) iv t0 true = Ret (Z.to_N k, Some d) /\ (d < 0)%Z.
Proof.
  intros iv t0 k [H1 H2] Hk Hr. change (2 ^ 31) with 2147483648 in *. change (2 ^ 32) with 4294967296 in *.
  assert (E : (t0 + k * Z.of_N iv - t0 = k * Z.of_N iv)%Z) by lia.
  assert (0 <= k * Z.of_N iv)%Z by (apply Z.mul_nonneg_nonneg; lia). rewrite calc_eq; [|lia|change (2 ^ 32) with 4294967296; lia|lia|rewrite E; exact Hr]. unfold time_step. rewrite E, Z.div_mul, Z.mod_mul by lia.
  eexists. split; [reflexivity|]. unfold to_i32. change (2 ^ 31)%Z with 2147483648%Z. change (2 ^ 32)%Z with 4294967296%Z.
  replace (Z.of_N iv - 0 + 2147483648)%Z with (Z.of_N iv - 2147483648 + 1 * 4294967296)%Z by lia. rewrite Z.mod_add, Z.mod_small by lia. lia.
Qed.
Print Assumptions C44_large_interval_refuted.
(** before the initial time the division truncates towards zero: less than one interval before the start
    the counter is already that of the first step, and the reported remaining time exceeds the interval *)
Theorem C44_before_start_refuted : forall t iv t0, 0 < iv < 2 ^ 30 -> (t0 - Z.of_N iv < t < t0)%Z ->
  time_step t t0 iv = (-1)%Z /\
  calc_periodic_counter t iv t0 true = Ret (0, Some (Z.of_N iv + (t0 - t))%Z) /\ (Z.of_N iv < Z.of_N iv + (t0 - t))%Z.
Proof.
  intros t iv t0 [Hi1 Hi2] Ht. change (2 ^ 30) with 1073741824 in *. split; [|split; [|lia]].
  - unfold time_step. symmetry. apply (Z.div_unique_pos _ _ _ (Z.of_N iv - (t0 - t))%Z); lia.
  - unfold calc_periodic_counter. rewrite time_sub_ok; [|split; [change (2 ^ 63)%Z with 9223372036854775808%Z; lia|change (2 ^ 63)%Z with 9223372036854775808%Z; lia]].
    cbn [bind]. destruct (N.eqb_spec iv 0) as [->|_]; [lia|]. replace (t - t0)%Z with (- (t0 - t))%Z by lia.
    rewrite Z.quot_opp_l, Z.rem_opp_l, Z.quot_small, Z.rem_small by lia. rewrite to_i32_small by (change (2 ^ 31)%Z with 2147483648%Z; lia). f_equal. f_equal. f_equal. lia.
Qed.
Print Assumptions C44_before_start_refuted.
(** what is stored as the remaining time: nothing for a null pointer; otherwise, for intervals below 2^31, the number of
    seconds after which the time step changes for the first time *)
Definition remaining (want : bool) (now t0 : Z) (iv : N) (o : option Z) : Prop :=
  (want = false -> o = None) /\
  (want = true -> iv < 2 ^ 31 -> exists d, o = Some d /\ (1 <= d <= Z.of_N iv)%Z /\
     (forall t', (now <= t' < now + d)%Z -> time_step t' t0 iv = time_step now t0 iv) /\
     (time_step (now + d) t0 iv = time_step now t0 iv + 1)%Z).
(** RFC 6238: pgfe_totp_generic, with the remaining time; a secret longer than a block is cut (C35) *)
Theorem C44_totp_rfc6238 : forall garbage a P M H B D, choice_std a P M H B D -> a <> A_MD5 ->
  forall g l out secret digits iv t0 want now, ectx_ok g -> eloc_ok l -> length out = D -> bytes_ok secret ->
  is_time now -> is_time t0 -> (t0 <= now)%Z -> is_time (now - t0) -> 0 < iv < 2 ^ 32 ->
  exists o, totp_generic garbage a g l out secret digits iv t0 want now =
      Ret (HOTP H B (firstn B secret) (Z.to_N (time_step now t0 iv)) digits, o) /\ remaining want now t0 iv o.
Proof.
  intros garbage a P M H B D K Ha g l out secret d iv t0 want now Hg Hl Ho Hs Hn H0 Ht Hr [Hi1 Hi2]. unfold totp_generic. rewrite calc_eq by assumption. cbn [bind].
  rewrite (C39_long_secret_cut garbage a P M H B D K Ha) by assumption. cbn [bind]. eexists. split; [reflexivity|].
  split; intros Hw; subst want; [reflexivity|]. intros Hi3.
  destruct (C44_counter_and_delta now iv t0 Hn H0 Ht Hr (conj Hi1 Hi3)) as (dl & Ec & _ & H1 & H2 & H3).
  rewrite calc_eq in Ec by assumption. exists dl. split; [congruence|]. auto.
Qed.
Print Assumptions C44_totp_rfc6238.
(** the SHA-1 entry points, which start at the epoch *)
Theorem C44_totp_sha1 : forall garbage g l out secret digits iv want now,
  @ectx_ok (Some (sha_impl alg_sha1)) g -> @eloc_ok (Some (sha_impl alg_sha1)) l -> length out = 20%nat -> bytes_ok secret -> (length secret <= 64)%nat ->
  (0 <= now)%Z -> is_time now -> 0 < iv < 2 ^ 32 ->
  let value n := HOTP SHA1 64 secret (Z.to_N (now / Z.of_N iv)) n in
  exists o, remaining want now 0 iv o /\
    totp garbage g l out secret digits iv want now = Ret (value digits, o) /\
    totp_4digits garbage g l out secret iv want now = Ret (value 4, o) /\
    totp_6digits garbage g l out secret iv want now = Ret (value 6, o) /\
    totp_8digits garbage g l out secret iv want now = Ret (value 8, o).
Proof.
  intros garbage g l out secret digits iv want now Hg Hl Ho Hs L Hn Ht Hi value.
  assert (H0 : is_time 0) by (unfold is_time; lia).
  assert (Hs0 : is_time (now - 0)) by (rewrite Z.sub_0_r; exact Ht).
  assert (Q : forall n, exists o, totp garbage g l out secret n iv want now = Ret (value n, o) /\ remaining want now 0 iv o /\ calc_periodic_counter now iv 0 want = Ret (Z.to_N (now / Z.of_N iv), o)).
  { intros n. destruct (C44_totp_rfc6238 garbage A_SHA1 _ _ _ _ _ cs_sha1 ltac:(discriminate) g l out secret n iv 0%Z want now Hg Hl Ho Hs Ht H0 Hn Hs0 Hi) as (o & E & R).
    rewrite firstn_all2 in E by exact L. unfold time_step in E. rewrite Z.sub_0_r in E. exists o. split; [exact E|]. split; [exact R|].
    destruct (C44_counter_all_intervals now iv 0 want Hn Hs0 Hi) as (o' & E' & _). unfold time_step in E'. rewrite Z.sub_0_r in E'.
    unfold totp_generic in E. rewrite E' in *. cbn [bind] in E. destruct (hotp_generic _ _ _ _ _ _ _ _); cbn [bind] in E; congruence. }
  destruct (Q digits) as (o & E & R & C). exists o. split; [exact R|]. split; [exact E|].
  unfold totp_4digits, totp_6digits, totp_8digits.
  repeat split; match goal with |- totp _ _ _ _ _ ?n _ _ _ = _ => destruct (Q n) as (o' & E' & _ & C') end; congruence.
Qed.
Print Assumptions C44_totp_sha1.

(** ** Concrete cases *)
Definition rfc_secret : list N := chars "12345678901234567890".
Lemma blank1_ok : @ectx_ok (Some (sha_impl alg_sha1)) (blank_hmac (sha_impl alg_sha1) (blank_sha alg_sha1)) /\ @eloc_ok (Some (sha_impl alg_sha1)) (blank_locals (sha_impl alg_sha1) (blank_sha alg_sha1)).
Proof. repeat split; reflexivity. Qed.
(** RFC 4226 appendix D: count 1, 6 digits: 287082; and the same with 8, 9 and 10 digits *)
Example C39_rfc_vector :
  map (fun d => hotp None (blank_hmac (sha_impl alg_sha1) (blank_sha alg_sha1)) (blank_locals (sha_impl alg_sha1) (blank_sha alg_sha1)) (repeat 7 20) rfc_secret 1 d) [6; 8; 9; 10] =
  [Ret 287082; Ret 94287082; Ret 94287082; Ret 1094287082].
Proof. vm_compute. reflexivity. Qed.
Lemma Ret_inj {A} (x y : A) : Ret x = Ret y -> x = y. Proof. intros E. injection E. auto. Qed.
Lemma cons_hd {A} (x y : A) r s : x :: r = y :: s -> x = y. Proof. intros E. injection E. auto. Qed.
Example C39_case : HOTP SHA1 64 rfc_secret 1 6 = 287082.
Proof.
  destruct blank1_ok as [Hg Hl]. assert (Hs : bytes_ok rfc_secret) by (unfold rfc_secret; cbn; repeat constructor).
  assert (L : (length rfc_secret <= 64)%nat) by (cbn; lia).
  pose proof (proj1 (C39_hotp_sha1 None _ _ (repeat 7 20) rfc_secret 1 6 Hg Hl eq_refl Hs L)) as E.
  pose proof (cons_hd _ _ _ _ C39_rfc_vector) as V. cbv beta in V. exact (Ret_inj _ _ (eq_trans (eq_sym E) V)).
Qed.
Lemma blankm_ok garbage : @ectx_ok (Some (md5_impl garbage)) (blank_hmac (md5_impl garbage) blank_md5) /\ @eloc_ok (Some (md5_impl garbage)) (blank_locals (md5_impl garbage) blank_md5).
Proof. repeat split; reflexivity. Qed.
(** with MD5, secret "k": counter 2 works, counter 3 (tag ending in 0xee) reads past the digest *)
Example C40_cases :
  map (fun c => hotp_generic None A_MD5 (blank_hmac (md5_impl None) blank_md5) (blank_locals (md5_impl None) blank_md5) (repeat 0 16) (chars "k") c 6) [2; 3] =
  [Ret 355976; UB OutOfBounds].
Proof. vm_compute. reflexivity. Qed.
Example C42_case : hotp_generic None A_SHAKE128 tt tt (repeat 1 32) (chars "k") 5 6 = Ret (0x01010101 mod 10 ^ 6).
Proof. vm_compute. reflexivity. Qed.
Example C43_case : otp_str 84 6 = Ret (chars "000084") /\ otp_to_string 84 (repeat 65 8) 6 = Ret (chars "000084" ++ [0; 65]).
Proof. split; vm_compute; reflexivity. Qed.
Example C44_case : calc_periodic_counter 1111111109 30 0 true = Ret (37037036, Some 1%Z).
Proof. vm_compute. reflexivity. Qed.
(** RFC 6238 appendix B, time 59, SHA-1: 94287082; the step ends one second later *)
Example C44_rfc_vector :
  let g := blank_hmac (sha_impl alg_sha1) (blank_sha alg_sha1) in let l := blank_locals (sha_impl alg_sha1) (blank_sha alg_sha1) in
  totp_8digits None g l (repeat 7 20) rfc_secret 30 true 59 = Ret (94287082, Some 1%Z) /\
  totp_4digits None g l (repeat 7 20) rfc_secret 30 false 59 = Ret (7082, None) /\
  @ectx_ok (Some (sha_impl alg_sha1)) g /\ @eloc_ok (Some (sha_impl alg_sha1)) l.
Proof. split; [vm_compute; reflexivity|]. split; [vm_compute; reflexivity|]. exact blank1_ok. Qed.
