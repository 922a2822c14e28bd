(** Proofs about the SHA-1/SHA-2 model. *)
From Verif Require Import Base SHex SFips180 SShaLib MSha PWords.
Local Open Scope N_scope.

(** ** word functions *)
Lemma trunc_mod w x : trunc w x = x mod 2 ^ w.
Proof. apply N.land_ones. Qed.
Lemma crshift_rotr w x c : crshift w x c = rotr w c x.
Proof. unfold crshift, rotr. rewrite trunc_mod, N.shiftr_div_pow2, N.shiftl_mul_pow2. reflexivity. Qed.
Lemma clshift_rotl w x c : clshift w x c = rotl w c x.
Proof. unfold clshift, rotl. rewrite trunc_mod, N.shiftr_div_pow2, N.shiftl_mul_pow2. reflexivity. Qed.
Lemma bnot_notw w x : bnot w x = notw w x.
Proof. unfold bnot, notw. rewrite ones_eq. reflexivity. Qed.

Lemma rotr_lt w n x : n <= w -> x < 2 ^ w -> rotr w n x < 2 ^ w.
Proof.
  intros Hn Hx. unfold rotr. destruct (N.eq_dec (N.lor (x / 2 ^ n) ((x * 2 ^ (w - n)) mod 2 ^ w)) 0) as [->|Hz].
  { apply N.neq_0_lt_0, N.pow_nonzero. lia. }
  apply N.log2_lt_pow2; [lia|]. rewrite N.log2_lor.
  assert (forall y, y < 2 ^ w -> y <> 0 -> N.log2 y < w) as L by (intros; apply N.log2_lt_pow2; lia).
  assert (x / 2 ^ n < 2 ^ w) by (eapply N.le_lt_trans; [apply N.div_le_upper_bound; [apply N.pow_nonzero; lia|]|exact Hx]; assert (2 ^ n <> 0) by (apply N.pow_nonzero; lia); nia).
  assert ((x * 2 ^ (w - n)) mod 2 ^ w < 2 ^ w) by apply mod_pow_lt.
  destruct (N.eq_dec (x / 2 ^ n) 0) as [E1|E1]; destruct (N.eq_dec ((x * 2 ^ (w - n)) mod 2 ^ w) 0) as [E2|E2].
  - exfalso. apply Hz. rewrite E1, E2. reflexivity.
  - rewrite E1. cbn. apply N.max_lub_lt; [|auto]. specialize (L _ H0 E2). lia.
  - rewrite E2. apply N.max_lub_lt; [auto|]. specialize (L _ H E1). change (N.log2 0) with 0. lia.
  - apply N.max_lub_lt; auto.
Qed.

Lemma ch_eq w x y z : z < 2 ^ w -> sha_ch x y z = Ch w x y z \/ ~ (x < 2 ^ w).
Proof.
  intros Hz. destruct (N.lt_ge_cases x (2 ^ w)) as [Hx|Hx]; [left|right; lia].
  unfold sha_ch, Ch, notw. apply N.bits_inj. intros n. rewrite !N.lxor_spec, !N.land_spec, !N.lxor_spec.
  destruct (N.lt_ge_cases n w) as [L|G].
  - rewrite N.ones_spec_low by exact L. destruct (N.testbit x n), (N.testbit y n), (N.testbit z n); reflexivity.
  - rewrite (testbit_high x n w), (testbit_high z n w) by assumption. rewrite !andb_false_r. reflexivity.
Qed.
Lemma sha_ch_Ch w x y z : x < 2 ^ w -> z < 2 ^ w -> sha_ch x y z = Ch w x y z.
Proof. intros Hx Hz. destruct (ch_eq w x y z Hz); [assumption|contradiction]. Qed.
Lemma sha_maj_Maj x y z : sha_maj x y z = Maj x y z.
Proof.
  unfold sha_maj, Maj. apply N.bits_inj. intros n. rewrite !N.lor_spec, !N.lxor_spec, !N.land_spec, !N.lor_spec.
  destruct (N.testbit x n), (N.testbit y n), (N.testbit z n); reflexivity.
Qed.
Lemma sha1_f2_Maj x y z : sha1_f2 x y z = Maj x y z.
Proof.
  unfold sha1_f2, Maj. apply N.bits_inj. intros n. rewrite !N.lor_spec, !N.lxor_spec, !N.land_spec.
  destruct (N.testbit x n), (N.testbit y n), (N.testbit z n); reflexivity.
Qed.
Lemma sha1_f0_Ch x y z : x < 2 ^ 32 -> z < 2 ^ 32 -> sha1_f0 x y z = Ch 32 x y z.
Proof.
  intros Hx Hz. unfold sha1_f0, Ch. rewrite bnot_notw. unfold notw. apply N.bits_inj. intros n.
  rewrite !N.lor_spec, !N.lxor_spec, !N.land_spec, !N.lxor_spec. 
  destruct (N.lt_ge_cases n 32) as [L|G].
  - rewrite N.ones_spec_low by exact L. destruct (N.testbit x n), (N.testbit y n), (N.testbit z n); reflexivity.
  - rewrite (testbit_high x n 32), (testbit_high z n 32) by assumption. rewrite !andb_false_r. reflexivity.
Qed.

(** ** message words *)
Lemma load32_value a b c d : is_byte a -> is_byte b -> is_byte c -> is_byte d ->
  N.lor (N.lor (N.lor (trunc 32 (N.shiftl a 24)) (trunc 32 (N.shiftl b 16))) (trunc 32 (N.shiftl c 8))) d = be_value [a; b; c; d].
Proof.
  unfold is_byte. intros. rewrite !trunc_mod, !N.shiftl_mul_pow2, be_value_4.
  rewrite !N.mod_small by (apply N.lt_le_trans with (256 * 2 ^ 24); [nia|vm_compute; discriminate]).
  rewrite <- !N.lor_assoc.
  rewrite (lor_add c d) by lia. rewrite (lor_add b) by lia. rewrite (lor_add a) by lia. lia.
Qed.

Lemma load32_words k : forall b, length b = (4 * k)%nat -> bytes_ok b ->
  map (load32 b) (seq 0 k) = map be_value (pieces 4 b).
Proof.
  induction k as [|k IH]; intros b Hl Hb.
  - destruct b; [reflexivity|discriminate].
  - do 4 (destruct b as [|? b]; [cbn [length] in Hl; lia|]).
    change (n :: n0 :: n1 :: n2 :: b) with ([n; n0; n1; n2] ++ b). rewrite pieces_cons by (cbn; lia).
    cbn [map seq]. inversion Hb as [|? ? B0 Hb0]; subst. inversion Hb0 as [|? ? B1 Hb1]; subst.
    inversion Hb1 as [|? ? B2 Hb2]; subst. inversion Hb2 as [|? ? B3 Hb3]; subst. f_equal.
    + apply load32_value; assumption.
    + rewrite <- IH by (auto; cbn [length] in Hl; lia). rewrite <- seq_shift, map_map. apply map_ext. intros i.
      unfold load32. replace (4 * S i)%nat with (4 + 4 * i)%nat by lia. reflexivity.
Qed.

Lemma load64_value l : length l = 8%nat -> bytes_ok l ->
  fold_left (fun a j => N.lor a (trunc 64 (N.shiftl (nth j l 0) (56 - 8 * N.of_nat j)))) (seq 0 8) 0 = be_value l.
Proof.
  intros Hl Hb. do 8 (destruct l as [|? l]; [discriminate|]). destruct l; [|discriminate].
  repeat match goal with H : bytes_ok (_ :: _) |- _ => inversion H; clear H; subst | H : Forall _ (_ :: _) |- _ => inversion H; clear H; subst end.
  unfold is_byte in *. cbn [seq fold_left nth]. rewrite !trunc_mod, !N.shiftl_mul_pow2.
  cbn [N.of_nat]. 
  repeat match goal with |- context[56 - 8 * ?x] => let v := eval vm_compute in (56 - 8 * x) in change (56 - 8 * x) with v end.
  rewrite !N.mod_small by (apply N.lt_le_trans with (256 * 2 ^ 56); [nia|vm_compute; discriminate]).
  rewrite N.lor_0_l, <- !N.lor_assoc. cbn [be_value fold_left].
  change (2 ^ 0) with 1. rewrite N.mul_1_r.
  rewrite (lor_add n5 n6 8) by lia. rewrite (lor_add n4 _ 16) by lia. rewrite (lor_add n3 _ 24) by lia.
  rewrite (lor_add n2 _ 32) by lia. rewrite (lor_add n1 _ 40) by lia. rewrite (lor_add n0 _ 48) by lia.
  rewrite (lor_add n _ 56) by lia. unfold be_value. cbn [fold_left]. lia.
Qed.

Lemma load64_words k : forall b, length b = (8 * k)%nat -> bytes_ok b ->
  map (load64 b) (seq 0 k) = map be_value (pieces 8 b).
Proof.
  induction k as [|k IH]; intros b Hl Hb.
  - destruct b; [reflexivity|discriminate].
  - rewrite <- (firstn_skipn 8 b). set (u := firstn 8 b) in *. set (r := skipn 8 b) in *.
    assert (Lu : length u = 8%nat) by (unfold u; rewrite firstn_length; lia).
    assert (Lr : length r = (8 * k)%nat) by (unfold r; rewrite skipn_length; lia).
    assert (Bu : bytes_ok u /\ bytes_ok r) by (apply Forall_app; unfold u, r; rewrite firstn_skipn; exact Hb).
    rewrite pieces_cons by (auto; lia). cbn [map]. destruct Bu as [Bu Br].
    change (seq 0 (S k)) with (0%nat :: seq 1 k). cbn [map]. f_equal.
    + unfold load64. rewrite <- (load64_value u Lu Bu). apply fold_ext. intros s t Ht. apply in_seq in Ht.
      rewrite app_nth1 by lia. reflexivity.
    + rewrite <- (IH r Lr Br). rewrite <- seq_shift, map_map. apply map_ext. intros i.
      unfold load64. apply fold_ext. intros s t Ht. apply in_seq in Ht.
      rewrite app_nth2 by lia. do 3 f_equal. f_equal. lia.
Qed.

(** ** compression *)
Definition words_ok (w : N) (n : nat) (s : list N) : Prop := length s = n /\ Forall (fun x => x < 2 ^ w) s.

Ltac inv_list H := (* words_ok w n s with concrete n *)
  let L := fresh in let F := fresh in destruct H as [L F];
  repeat match type of L with length ?l = S _ => destruct l; [discriminate L|cbn [length] in L; apply Nat.succ_inj in L] end;
  match type of L with length ?l = O => destruct l; [clear L|discriminate L] end.
Ltac inv_forall := repeat match goal with H : Forall _ (_ :: _) |- _ => inversion H; clear H; subst end.

Lemma add_back_zip w s v : add_back w s v = zip_add w s v.
Proof. unfold add_back, zip_add. apply map_ext. intros p. apply trunc_mod. Qed.
Lemma zip_add_ok w n s v : length s = n -> length v = n -> words_ok w n (zip_add w s v).
Proof.
  intros Hs Hv. unfold zip_add. split.
  - rewrite map_length, combine_length. lia.
  - apply Forall_map, Forall_forall. intros p _. apply addw_lt.
Qed.

Lemma rotl_lt w n x : n <= w -> x < 2 ^ w -> rotl w n x < 2 ^ w.
Proof.
  intros Hn Hx. assert (E : rotl w n x = rotr w (w - n) x).
  { unfold rotl, rotr. rewrite N.lor_comm. replace (w - (w - n)) with n by lia. reflexivity. }
  rewrite E. apply rotr_lt; [lia|exact Hx].
Qed.

Section Step2.
Variables (F : sha2) (mS0 mS1 ms0 ms1 : N -> N) (K : list N).
Hypothesis E0 : forall x, mS0 x = Sigma0 F x.
Hypothesis E1 : forall x, mS1 x = Sigma1 F x.
Hypothesis e0 : forall x, ms0 x = sigma0 F x.
Hypothesis e1 : forall x, ms1 x = sigma1 F x.
Hypothesis EK : forall t, nth t K 0 = nth t (Kt F) 0.
Notation w := (word F).

Lemma sha2_expand_eq ws i : sha2_expand w ms0 ms1 ws i =
  ws ++ [sumw w [sigma1 F (nth (i - 2) ws 0); nth (i - 7) ws 0; sigma0 F (nth (i - 15) ws 0); nth (i - 16) ws 0]].
Proof. unfold sha2_expand. rewrite trunc_mod, sumw_mod, e0, e1. cbn [fold_left]. rewrite N.add_0_l. reflexivity. Qed.

Lemma sha2_step_eq ws s t : words_ok w 8 s ->
  sha2_step w mS0 mS1 K ws s t = sha2_round F ws s t /\ words_ok w 8 (sha2_round F ws s t).
Proof.
  intros H. inv_list H. inv_forall. cbn [sha2_step sha2_round].
  rewrite !trunc_mod, sumw_mod. cbn [fold_left]. rewrite N.add_0_l.
  rewrite EK, E0, E1, sha_maj_Maj, (sha_ch_Ch w) by assumption. split; [reflexivity|].
  split; [reflexivity|]. repeat (constructor; [try apply addw_lt; try assumption|]). constructor.
Qed.
End Step2.

(** the constants, by bracketing each root instead of computing it *)
Lemma root_from_spec e n r : e <> 0 -> r ^ e <= n < (r + 1) ^ e -> forall b acc, acc <= r < acc + 2 ^ N.of_nat b -> root_from b e n acc = r.
Proof.
  intros He [Hr1 Hr2]. induction b as [|b IH]; intros acc Ha.
  - cbn [root_from]. change (2 ^ N.of_nat 0) with 1 in Ha. lia.
  - cbn [root_from]. rewrite Nat2N.inj_succ, N.pow_succ_r' in Ha. cbn zeta.
    destruct (N.leb_spec ((acc + 2 ^ N.of_nat b) ^ e) n) as [L|L]; apply IH.
    + split; [|lia]. apply N.nlt_ge. intros C.
      assert ((r + 1) ^ e <= (acc + 2 ^ N.of_nat b) ^ e) by (apply N.pow_le_mono_l; lia). lia.
    + split; [lia|]. apply N.nle_gt. intros C.
      assert ((acc + 2 ^ N.of_nat b) ^ e <= r ^ e) by (apply N.pow_le_mono_l; lia). lia.
Qed.
Definition root_chk (e n r : N) : bool :=
  if r ^ e <=? n then if n <? (r + 1) ^ e then if r <? 2 ^ 140 then negb (e =? 0) else false else false else false.
Lemma root_chk_ok e n r : root_chk e n r = true -> root e n = r.
Proof.
  unfold root_chk. destruct (N.leb_spec (r ^ e) n); [|discriminate]. destruct (N.ltb_spec n ((r + 1) ^ e)); [|discriminate].
  destruct (N.ltb_spec r (2 ^ 140)); [|discriminate]. destruct (N.eqb_spec e 0); [discriminate|]. intros _.
  apply root_from_spec; auto. change (N.of_nat 140) with 140. lia.
Qed.
Definition frac_chk (e w : N) (pk : N * N) : bool :=
  let (p, k) := pk in
  let i := root_from 5 e p 0 in
  if k <? 2 ^ w then root_chk e (p * 2 ^ (e * w)) (i * 2 ^ w + k) else false.
Lemma frac_chk_ok e w p k : frac_chk e w (p, k) = true -> frac_root e w p = k.
Proof.
  unfold frac_chk, frac_root. destruct (N.ltb_spec k (2 ^ w)) as [L|]; [|discriminate]. intros H. apply root_chk_ok in H. rewrite H.
  rewrite N.add_comm, N.mod_add by (apply N.pow_nonzero; lia). apply N.mod_small. exact L.
Qed.
Lemma frac_table e w ps : forall ks, length ks = length ps -> forallb (frac_chk e w) (combine ps ks) = true -> ks = map (frac_root e w) ps.
Proof.
  induction ps as [|p ps IH]; intros [|k ks] L H; try discriminate; [reflexivity|].
  cbn [combine forallb] in H. apply andb_prop in H. destruct H as [H1 H2]. cbn [map]. f_equal.
  - symmetry. apply frac_chk_ok, H1.
  - apply IH; auto.
Qed.
Lemma sha256_K_table : sha256_K = Kt sha2_32.
Proof. cbn [Kt sha2_32]. apply frac_table; vm_compute; reflexivity. Qed.
Lemma sha512_K_table : sha512_K = Kt sha2_64.
Proof. cbn [Kt sha2_64]. apply frac_table; vm_compute; reflexivity. Qed.
Lemma sha256_K_eq t : nth t sha256_K 0 = nth t (Kt sha2_32) 0.
Proof. rewrite sha256_K_table. reflexivity. Qed.
Lemma sha512_K_eq t : nth t sha512_K 0 = nth t (Kt sha2_64) 0.
Proof. rewrite sha512_K_table. reflexivity. Qed.

Lemma sha256_process_eq s b : words_ok 32 8 s -> length b = 64%nat -> bytes_ok b ->
  sha256_process s b = sha2_compress sha2_32 s b /\ words_ok 32 8 (sha256_process s b).
Proof.
  intros Hs Hl Hb. unfold sha256_process, sha2_compress.
  assert (W : fold_left (sha2_expand 32 sha256_sigma0 sha256_sigma1) (seq 16 48) (map (load32 b) (seq 0 16)) = sha2_schedule sha2_32 b).
  { unfold sha2_schedule. rewrite (load32_words 16) by (auto; lia).
    change (rounds sha2_32 - 16)%nat with 48%nat. change (wbytes sha2_32) with 4%nat. apply fold_ext. intros ws i _.
    apply (sha2_expand_eq sha2_32); intros x; unfold sha256_sigma0, sha256_sigma1, sigma0, sigma1, sha2_32, x3, shr;
      rewrite !crshift_rotr, N.shiftr_div_pow2; reflexivity. }
  rewrite W. set (ws := sha2_schedule sha2_32 b).
  destruct (fold_ext_inv (words_ok 32 8) (sha2_step 32 sha256_SIGMA0 sha256_SIGMA1 sha256_K ws) (sha2_round sha2_32 ws) (seq 0 64) s) as [E I].
  - intros v t _ Hv. apply (sha2_step_eq sha2_32); auto using sha256_K_eq; intros x;
      unfold sha256_SIGMA0, sha256_SIGMA1, Sigma0, Sigma1, sha2_32, x3; rewrite !crshift_rotr; reflexivity.
  - exact Hs.
  - rewrite E, add_back_zip. split; [reflexivity|]. apply zip_add_ok; [apply Hs|apply I].
Qed.

Lemma sha512_process_eq s b : words_ok 64 8 s -> length b = 128%nat -> bytes_ok b ->
  sha512_process s b = sha2_compress sha2_64 s b /\ words_ok 64 8 (sha512_process s b).
Proof.
  intros Hs Hl Hb. unfold sha512_process, sha2_compress.
  assert (W : fold_left (sha2_expand 64 sha512_sigma0 sha512_sigma1) (seq 16 64) (map (load64 b) (seq 0 16)) = sha2_schedule sha2_64 b).
  { unfold sha2_schedule. rewrite (load64_words 16) by (auto; lia).
    change (rounds sha2_64 - 16)%nat with 64%nat. change (wbytes sha2_64) with 8%nat. apply fold_ext. intros ws i _.
    apply (sha2_expand_eq sha2_64); intros x; unfold sha512_sigma0, sha512_sigma1, sigma0, sigma1, sha2_64, x3, shr;
      rewrite !crshift_rotr, N.shiftr_div_pow2; reflexivity. }
  rewrite W. set (ws := sha2_schedule sha2_64 b).
  destruct (fold_ext_inv (words_ok 64 8) (sha2_step 64 sha512_SIGMA0 sha512_SIGMA1 sha512_K ws) (sha2_round sha2_64 ws) (seq 0 80) s) as [E I].
  - intros v t _ Hv. apply (sha2_step_eq sha2_64); auto using sha512_K_eq; intros x;
      unfold sha512_SIGMA0, sha512_SIGMA1, Sigma0, Sigma1, sha2_64, x3; rewrite !crshift_rotr; reflexivity.
  - exact Hs.
  - rewrite E, add_back_zip. split; [reflexivity|]. apply zip_add_ok; [apply Hs|apply I].
Qed.

(** SHA-1 *)
Lemma sha1_K_eq t : sha1_K t = nth (if Nat.ltb t 20 then 0 else if Nat.ltb t 40 then 1 else if Nat.ltb t 60 then 2 else 3)%nat sha1_k 0.
Proof.
  unfold sha1_K. apply root_chk_ok. destruct (Nat.ltb t 20); [vm_compute; reflexivity|].
  destruct (Nat.ltb t 40); [vm_compute; reflexivity|]. destruct (Nat.ltb t 60); vm_compute; reflexivity.
Qed.

Lemma sha1_step_eq f k ws s t : words_ok 32 5 s ->
  (forall x y z, x < 2 ^ 32 -> z < 2 ^ 32 -> f x y z = sha1_f t x y z) -> k = sha1_K t ->
  sha1_step f k ws s t = sha1_round ws s t /\ words_ok 32 5 (sha1_round ws s t).
Proof.
  intros H Hf ->. inv_list H. inv_forall. cbn [sha1_step sha1_round]. rewrite sumw_mod. cbn [fold_left].
  rewrite N.add_0_l, !clshift_rotl, Hf by assumption. split.
  - assert (X : forall a b c d e : N, a + b + c + d + e = a + b + c + e + d) by (intros; lia). rewrite trunc_mod, X. reflexivity.
  - split; [reflexivity|]. repeat (constructor; [try assumption|]); [apply mod_pow_lt|apply rotl_lt; [vm_compute; discriminate|assumption]|constructor].
Qed.

Lemma sha1_process_eq s b : words_ok 32 5 s -> length b = 64%nat -> bytes_ok b ->
  sha1_process s b = sha1_compress s b /\ words_ok 32 5 (sha1_process s b).
Proof.
  intros Hs Hl Hb. unfold sha1_process, sha1_compress.
  assert (W : fold_left sha1_expand (seq 16 64) (map (load32 b) (seq 0 16)) = sha1_schedule b).
  { unfold sha1_schedule. rewrite (load32_words 16) by (auto; lia). apply fold_ext. intros ws i _.
    unfold sha1_expand. rewrite clshift_rotl. reflexivity. }
  rewrite W. set (ws := sha1_schedule b).
  change (seq 0 80) with (seq 0 20 ++ seq 20 20 ++ seq 40 20 ++ seq 60 20). rewrite !fold_left_app.
  destruct (fold_ext_inv (words_ok 32 5) (sha1_step sha1_f0 (nth 0 sha1_k 0) ws) (sha1_round ws) (seq 0 20) s) as [Q1 I1]; [|exact Hs|].
  { intros v t Ht Hv. apply in_seq in Ht. apply sha1_step_eq; [exact Hv| |].
    - intros x y z Hx Hz. unfold sha1_f. destruct (Nat.ltb_spec t 20); [|lia]. apply sha1_f0_Ch; assumption.
    - rewrite sha1_K_eq. destruct (Nat.ltb_spec t 20); [|lia]. reflexivity. }
  rewrite Q1. set (v1 := fold_left (sha1_round ws) (seq 0 20) s) in *.
  destruct (fold_ext_inv (words_ok 32 5) (sha1_step sha1_f1 (nth 1 sha1_k 0) ws) (sha1_round ws) (seq 20 20) v1) as [Q2 I2]; [|exact I1|].
  { intros v t Ht Hv. apply in_seq in Ht. apply sha1_step_eq; [exact Hv| |].
    - intros x y z Hx Hz. unfold sha1_f. destruct (Nat.ltb_spec t 20); [lia|]. destruct (Nat.ltb_spec t 40); [|lia]. reflexivity.
    - rewrite sha1_K_eq. destruct (Nat.ltb_spec t 20); [lia|]. destruct (Nat.ltb_spec t 40); [|lia]. reflexivity. }
  rewrite Q2. set (v2 := fold_left (sha1_round ws) (seq 20 20) v1) in *.
  destruct (fold_ext_inv (words_ok 32 5) (sha1_step sha1_f2 (nth 2 sha1_k 0) ws) (sha1_round ws) (seq 40 20) v2) as [Q3 I3]; [|exact I2|].
  { intros v t Ht Hv. apply in_seq in Ht. apply sha1_step_eq; [exact Hv| |].
    - intros x y z Hx Hz. unfold sha1_f. destruct (Nat.ltb_spec t 20); [lia|]. destruct (Nat.ltb_spec t 40); [lia|].
      destruct (Nat.ltb_spec t 60); [|lia]. apply sha1_f2_Maj.
    - rewrite sha1_K_eq. destruct (Nat.ltb_spec t 20); [lia|]. destruct (Nat.ltb_spec t 40); [lia|]. destruct (Nat.ltb_spec t 60); [|lia]. reflexivity. }
  rewrite Q3. set (v3 := fold_left (sha1_round ws) (seq 40 20) v2) in *.
  destruct (fold_ext_inv (words_ok 32 5) (sha1_step sha1_f1 (nth 3 sha1_k 0) ws) (sha1_round ws) (seq 60 20) v3) as [Q4 I4]; [|exact I3|].
  { intros v t Ht Hv. apply in_seq in Ht. apply sha1_step_eq; [exact Hv| |].
    - intros x y z Hx Hz. unfold sha1_f. destruct (Nat.ltb_spec t 20); [lia|]. destruct (Nat.ltb_spec t 40); [lia|].
      destruct (Nat.ltb_spec t 60); [lia|]. reflexivity.
    - rewrite sha1_K_eq. destruct (Nat.ltb_spec t 20); [lia|]. destruct (Nat.ltb_spec t 40); [lia|]. destruct (Nat.ltb_spec t 60); [lia|]. reflexivity. }
  rewrite Q4, add_back_zip. split; [reflexivity|]. apply zip_add_ok; [apply Hs|apply I4].
Qed.
