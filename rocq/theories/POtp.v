(** Lemmas about the OTP model. *)
From Verif Require Import Base PTyped MFront MHmac MOtp SHmac SOtp.
Local Open Scope N_scope.

Lemma reverse8 a b c d e f g h : reverse [a;b;c;d;e;f;g;h] 0 7 = Ret [h;g;f;e;d;c;b;a].
Proof. reflexivity. Qed.
Lemma div_pow c k : c / 256 / 256 ^ k = c / 256 ^ (k + 1).
Proof. rewrite N.div_div by (try apply N.pow_nonzero; lia). f_equal. rewrite N.pow_add_r. lia. Qed.
Lemma counter_reversed c : reverse (le_bytes 8 c) 0 7 = Ret (counter_bytes c).
Proof.
  cbn [le_bytes]. rewrite reverse8. f_equal. unfold counter_bytes. cbn [map seq].
  change (N.of_nat (7 - 0)) with 7. change (N.of_nat (7 - 1)) with 6. change (N.of_nat (7 - 2)) with 5. change (N.of_nat (7 - 3)) with 4.
  change (N.of_nat (7 - 4)) with 3. change (N.of_nat (7 - 5)) with 2. change (N.of_nat (7 - 6)) with 1. change (N.of_nat (7 - 7)) with 0.
  rewrite N.pow_0_r, N.div_1_r. rewrite !N.div_div by lia.
  change (256 * 256) with (256 ^ 2). change (256 ^ 2 * 256) with (256 ^ 3). change (256 ^ 3 * 256) with (256 ^ 4). change (256 ^ 4 * 256) with (256 ^ 5).
  change (256 ^ 5 * 256) with (256 ^ 6). change (256 ^ 6 * 256) with (256 ^ 7). rewrite N.pow_1_r. reflexivity.
Qed.
Lemma counter_length c : length (counter_bytes c) = 8%nat. Proof. reflexivity. Qed.
Lemma counter_ok c : bytes_ok (counter_bytes c).
Proof. unfold counter_bytes. apply Forall_forall. intros x Hx. apply in_map_iff in Hx as (i & <- & _). apply N.mod_lt. lia. Qed.

Lemma lor_add x b : b < 256 -> N.lor (N.shiftl x 8) b = x * 256 + b.
Proof.
  intros Hb. rewrite <- N.lxor_lor, <- N.add_nocarry_lxor.
  - rewrite N.shiftl_mul_pow2. reflexivity.
  - apply N.bits_inj. intros n. rewrite N.land_spec, N.bits_0. destruct (N.ltb_spec n 8).
    + rewrite N.shiftl_spec_low by assumption. reflexivity.
    + replace b with (b mod 2 ^ 8) by (apply N.mod_small; exact Hb). rewrite N.mod_pow2_bits_high by assumption. apply andb_false_r.
  - apply N.bits_inj. intros n. rewrite N.land_spec, N.bits_0. destruct (N.ltb_spec n 8).
    + rewrite N.shiftl_spec_low by assumption. reflexivity.
    + replace b with (b mod 2 ^ 8) by (apply N.mod_small; exact Hb). rewrite N.mod_pow2_bits_high by assumption. apply andb_false_r.
Qed.
Lemma u32_shift8 x : x < 2 ^ 24 -> u32 (N.shiftl x 8) = N.shiftl x 8.
Proof. intros H. unfold u32. apply N.mod_small. rewrite N.shiftl_mul_pow2. change (2 ^ 32) with (2 ^ 24 * 2 ^ 8). apply N.mul_lt_mono_pos_r; [reflexivity|exact H]. Qed.
Lemma clear_top x : x < 2 ^ 32 -> N.shiftr (u32 (N.shiftl x 1)) 1 = x mod 2 ^ 31.
Proof.
  intros H. unfold u32. rewrite N.shiftl_mul_pow2, N.shiftr_div_pow2. change (2 ^ 1) with 2. change (2 ^ 32) with (2 ^ 31 * 2).
  rewrite N.mul_mod_distr_r by lia. apply N.div_mul. lia.
Qed.

Lemma last_nth {A} (l : list A) d : last l d = nth (length l - 1) l d.
Proof. induction l as [|a l IH]; [reflexivity|]. destruct l as [|b l]; [reflexivity|]. change (last (a :: b :: l) d) with (last (b :: l) d). rewrite IH. cbn [length]. replace (S (S (length l)) - 1)%nat with (S (S (length l) - 1)) by lia. reflexivity. Qed.
Lemma offset_eq s : N.to_nat (N.land (last s 0) 0xF) = dt_offset s.
Proof. unfold dt_offset. change 0xF with (N.ones 4). rewrite N.land_ones. reflexivity. Qed.
Lemma offset_le s : (dt_offset s <= 15)%nat.
Proof. unfold dt_offset. pose proof (N.mod_lt (last s 0) 16 ltac:(lia)) as H. revert H. generalize (last s 0 mod 16). intros m H. lia. Qed.

Lemma split4 {A} (l : list A) : (4 <= length l)%nat -> exists a b c d r, l = a :: b :: c :: d :: r.
Proof. intros H. do 4 (destruct l as [|? l]; [cbn [length] in H; lia|]). eauto 6. Qed.

Lemma trunc_code s off : bytes_ok s -> (off + 4 <= length s)%nat ->
  trunc_loop 4 0 s off 0 = Ret (be_value (firstn 4 (skipn off s))) /\ be_value (firstn 4 (skipn off s)) < 2 ^ 32.
Proof.
  intros Hb Hl. destruct (split4 (skipn off s)) as (a & b & c & d & r & E). { rewrite skipn_length. lia. }
  assert (Hr : forall k, rd s (off + k) = rd (skipn off s) k).
  { intros k. unfold rd. replace (nth_error s (off + k)) with (nth_error (skipn off s) k); [reflexivity|]. rewrite <- (firstn_skipn off s) at 2.
    rewrite nth_error_app2; rewrite firstn_length, Nat.min_l by lia; [f_equal; lia|lia]. }
  assert (B4 : bytes_ok (a :: b :: c :: d :: r)). { rewrite <- E. unfold bytes_ok in *. rewrite <- (firstn_skipn off s) in Hb. apply Forall_app in Hb. apply Hb. }
  inversion B4 as [|? ? Ha B3]; subst. inversion B3 as [|? ? Hb' B2]; subst. inversion B2 as [|? ? Hc B1]; subst. inversion B1 as [|? ? Hd B0]; subst.
  unfold is_byte in *. unfold trunc_loop. rewrite !Hr, E. cbn [rd nth_error bind firstn be_value fold_left].
  change (2 ^ 24) with 16777216 in *. rewrite (u32_shift8 0) by reflexivity. rewrite (lor_add 0 a Ha). rewrite (u32_shift8 (0 * 256 + a)) by (change (2 ^ 24) with 16777216; lia).
  rewrite (lor_add _ b Hb'). rewrite (u32_shift8 ((0 * 256 + a) * 256 + b)) by (change (2 ^ 24) with 16777216; lia).
  rewrite (lor_add _ c Hc). rewrite (u32_shift8 (((0 * 256 + a) * 256 + b) * 256 + c)) by (change (2 ^ 24) with 16777216; lia). rewrite (lor_add _ d Hd). split; [reflexivity|]. change (2 ^ 32) with 4294967296. lia.
Qed.

Lemma truncate_ok s n : length s = n -> (0 < n)%nat -> bytes_ok s -> (dt_offset s + 4 <= n)%nat -> dynamically_truncate s n = Ret (DT s).
Proof.
  intros <- Hn Hb Ho. unfold dynamically_truncate. rewrite (rd_lt s _ 0) by lia. rewrite <- last_nth. cbn [bind]. rewrite offset_eq.
  destruct (trunc_code s (dt_offset s) Hb Ho) as [E L]. rewrite E. cbn [bind]. rewrite clear_top by exact L. reflexivity.
Qed.
Lemma truncate_ub s n : length s = n -> (0 < n)%nat -> (n < dt_offset s + 4)%nat -> dynamically_truncate s n = UB OutOfBounds.
Proof.
  intros <- Hn Ho. unfold dynamically_truncate. rewrite (rd_lt s _ 0) by lia. rewrite <- last_nth. cbn [bind]. rewrite offset_eq.
  enough (E : forall k i code, (length s < dt_offset s + i + k)%nat -> (0 < k)%nat -> trunc_loop k i s (dt_offset s) code = UB OutOfBounds) by (rewrite (E 4%nat 0%nat 0); [reflexivity|lia|lia]).
  induction k as [|k IH]; intros i code H1 H2; [lia|]. cbn [trunc_loop].
  destruct (Nat.ltb_spec (dt_offset s + i) (length s)) as [L|L].
  - rewrite (rd_lt s _ 0 L). cbn [bind]. apply IH; lia.
  - rewrite rd_ge by exact L. reflexivity.
Qed.
Lemma DT_bound s : DT s < 2 ^ 31. Proof. apply N.mod_lt. lia. Qed.

Lemma pow_table d : d < 10 -> rd DIGITS_POW (N.to_nat d) = Ret (10 ^ d).
Proof. intros H. assert (C : In d (map N.of_nat (seq 0 10))). { apply in_map_iff. exists (N.to_nat d). split; [lia|]. apply in_seq. lia. } cbn [seq map In] in C. repeat (destruct C as [<-|C]; [reflexivity|]). destruct C. Qed.
Lemma reduce_digits v d : v < 2 ^ 31 ->
  (if d <? OTP_DIGIT_MAX_LIMIT then p <- rd DIGITS_POW (N.to_nat d) ;; Ret (v mod p) else Ret v) = Ret (v mod 10 ^ d).
Proof.
  intros H. unfold OTP_DIGIT_MAX_LIMIT. destruct (N.ltb_spec d 10) as [L|L]; [rewrite pow_table by exact L; reflexivity|].
  rewrite N.mod_small; [reflexivity|]. eapply N.lt_le_trans; [exact H|]. eapply N.le_trans; [|apply N.pow_le_mono_r; [lia|exact L]]. vm_compute. discriminate.
Qed.

(** what pgfe_hotp_generic does with the tag pgfe_hmac leaves in its buffer *)
Lemma hotp_of_tag garbage a g l out secret c d t : pgfe_hmac garbage a g l secret (counter_bytes c) out = Ret t ->
  length t = digest_size a -> bytes_ok t ->
  hotp_generic garbage a g l out secret c d = if (digest_size a <? dt_offset t + 4)%nat then UB OutOfBounds else Ret (DT t mod 10 ^ d).
Proof.
  intros E L Hb. unfold hotp_generic. rewrite counter_reversed. cbn [bind]. rewrite E. cbn [bind].
  assert (0 < digest_size a)%nat by (destruct a; cbn; lia).
  destruct (Nat.ltb_spec (digest_size a) (dt_offset t + 4)).
  - rewrite truncate_ub by assumption. reflexivity.
  - rewrite truncate_ok by assumption. cbn [bind]. apply reduce_digits, DT_bound.
Qed.

(** ** decimal text *)
Lemma dec_app s t : dec_value (s ++ t) = fold_left (fun v c => v * 10 + (c - 48)) t (dec_value s).
Proof. apply fold_left_app. Qed.
Lemma dec_snoc s c : dec_value (s ++ [c]) = dec_value s * 10 + (c - 48).
Proof. rewrite dec_app. reflexivity. Qed.
(** the [k] last decimal digits *)
Fixpoint low_digits (k : nat) (v : N) : list N := match k with O => [] | S k => low_digits k (v / 10) ++ [v mod 10 + 48] end.
Lemma low_digits_length k v : length (low_digits k v) = k.
Proof. revert v; induction k as [|k IH]; intros v; [reflexivity|]. cbn [low_digits]. rewrite app_length, IH. cbn; lia. Qed.
Lemma digit_mod v : is_digit (v mod 10 + 48).
Proof. pose proof (N.mod_lt v 10 ltac:(lia)). unfold is_digit. revert H. generalize (v mod 10). intros; lia. Qed.
Lemma low_digits_ok k v : Forall is_digit (low_digits k v).
Proof. revert v; induction k as [|k IH]; intros v; [constructor|]. cbn [low_digits]. apply Forall_app. split; [apply IH|]. constructor; [apply digit_mod|constructor]. Qed.
Lemma low_digits_value k v : dec_value (low_digits k v) = v mod 10 ^ N.of_nat k.
Proof.
  revert v; induction k as [|k IH]; intros v; [cbn; rewrite N.mod_1_r; reflexivity|]. cbn [low_digits]. rewrite dec_snoc, IH.
  replace (N.of_nat (S k)) with (N.succ (N.of_nat k)) by lia. rewrite N.pow_succ_r'. rewrite (N.mod_mul_r v 10 (10 ^ N.of_nat k)) by (try apply N.pow_nonzero; lia).
  generalize (v mod 10) (v / 10 mod 10 ^ N.of_nat k). intros x y. lia.
Qed.
Lemma low_digits_decimal k v : v < 10 ^ N.of_nat k -> decimal k v (low_digits k v).
Proof. intros H. repeat split; [apply low_digits_length|apply low_digits_ok|]. rewrite low_digits_value. apply N.mod_small, H. Qed.
Lemma dec_bound s : Forall is_digit s -> dec_value s < 10 ^ N.of_nat (length s).
Proof.
  induction s as [|c s IH] using rev_ind; intros H; [cbn; lia|]. apply Forall_app in H as [H1 H2]. inversion H2 as [|? ? Hc _]; subst.
  rewrite dec_snoc, app_length. cbn [length]. replace (N.of_nat (length s + 1)) with (N.succ (N.of_nat (length s))) by lia. rewrite N.pow_succ_r'. specialize (IH H1). unfold is_digit in Hc. lia.
Qed.
Lemma decimal_unique n v s t : decimal n v s -> decimal n v t -> s = t.
Proof.
  revert v s t; induction n as [|n IH]; intros v s t (L1 & D1 & V1) (L2 & D2 & V2); [destruct s; [|discriminate]; destruct t; [reflexivity|discriminate]|].
  destruct (exists_last (l := s)) as (s' & c & ->); [intros ->; discriminate|]. destruct (exists_last (l := t)) as (t' & e & ->); [intros ->; discriminate|].
  rewrite app_length in L1, L2. cbn [length] in L1, L2. apply Forall_app in D1 as [D1 C1]. apply Forall_app in D2 as [D2 C2]. inversion C1 as [|? ? C1' _]; subst. inversion C2 as [|? ? C2' _]; subst.
  rewrite !dec_snoc in *. unfold is_digit in C1', C2'.
  assert (c = e /\ dec_value s' = dec_value t') as [-> E] by lia. rewrite (IH (dec_value s') s' t'); [reflexivity| |]; repeat split; auto; lia.
Qed.
(** the C helper *)
Lemma to_string_loop_eq k : forall v out, (k <= length out)%nat -> to_string_loop k v out = Ret (low_digits k v ++ skipn k out).
Proof.
  induction k as [|k IH]; intros v out L; [reflexivity|]. cbn [to_string_loop low_digits]. unfold wr. rewrite blit_ok by (cbn [length]; lia). cbn [bind].
  rewrite IH. 2:{ rewrite !app_length, firstn_length, skipn_length. cbn [length]. lia. }
  f_equal. rewrite skipn_app, skipn_all2, firstn_length, Nat.min_l by (rewrite ?firstn_length; lia). rewrite Nat.sub_diag. cbn [skipn app length]. rewrite <- app_assoc. cbn [app]. replace (k + 1)%nat with (S k) by lia. reflexivity.
Qed.
