(** C56, C57, C59: SequentialData, names and sizes, and the calls that pass a SequentialData with its length. *)
From Coq Require Import String.
From Verif Require Import Base SHex SHexText MUtils MUtils2 PUtils PropHex PropHex2 MFront MKeccak MHmac MHashEnc SHashEnc PHashEnc PropHashEnc MCppBase MOtpObj SSeqData MSeqData.
Local Open Scope N_scope.

(** ** Facts *)
Lemma upto_nul_id s : ~ In 0 s -> upto_nul s = s.
Proof.
  induction s as [|x s IH]; intros H; [reflexivity|]. cbn [upto_nul]. destruct (N.eqb_spec x 0) as [->|X]; [exfalso; apply H; left; reflexivity|].
  f_equal. apply IH. intros C. apply H. right. exact C.
Qed.
Lemma upto_nul_cut s r : ~ In 0 s -> upto_nul (s ++ 0 :: r) = s.
Proof.
  induction s as [|x s IH]; intros H; [reflexivity|]. cbn [app upto_nul]. destruct (N.eqb_spec x 0) as [->|X]; [exfalso; apply H; left; reflexivity|].
  f_equal. apply IH. intros C. apply H. right. exact C.
Qed.
Lemma c_string_cut s r : ~ In 0 s -> c_string (s ++ 0 :: r) = Ret s.
Proof.
  intros H. unfold c_string. rewrite upto_nul_cut by exact H. destruct (Nat.eqb_spec (length s) (length (s ++ 0 :: r))) as [X|_]; [|reflexivity].
  rewrite app_length in X. cbn [length] in X. lia.
Qed.
Lemma c_string_open mem : ~ In 0 mem -> c_string mem = UB OutOfBounds.
Proof. intros H. unfold c_string. rewrite upto_nul_id, Nat.eqb_refl by exact H. reflexivity. Qed.
Lemma grab_ok (s r : list N) : grab (length s) (s ++ r) = Ret s.
Proof.
  unfold grab. destruct (Nat.ltb_spec (length (s ++ r)) (length s)) as [X|X]; [rewrite app_length in X; lia|]. rewrite firstn_app, firstn_all, Nat.sub_diag.
  cbn [firstn]. rewrite app_nil_r. reflexivity.
Qed.
Lemma prefix_inj (s u t1 t2 : list N) : length s = length u -> s ++ t1 = u ++ t2 -> s = u.
Proof.
  revert u. induction s as [|x s IH]; intros [|y u] L E; try discriminate; [reflexivity|]. injection E as -> E. f_equal. apply IH; [injection L; auto|exact E].
Qed.
Lemma hexdig_not_0 d : hexdig d <> 0.
Proof. unfold hexdig. destruct (d <? 10); lia. Qed.
Lemma lower_nz k : (k < 16)%nat -> nth k lower_digits 0 <> 0.
Proof. intros H. do 16 (destruct k as [|k]; [discriminate|]). lia. Qed.
Lemma hex_text_nz x : bytes_ok x -> ~ In 0 (hex_text x).
Proof.
  intros B H. unfold hex_text in H. apply in_flat_map in H. destruct H as (b & Hb & [H|[H|[]]]).
  - revert H. apply lower_nz. assert (b < 256) by (eapply Forall_forall in B; [exact B|exact Hb]). assert (b / 16 < 16) by (apply N.div_lt_upper_bound; [discriminate|lia]). generalize dependent (b / 16). lia.
  - revert H. apply lower_nz. assert (b mod 16 < 16) by (apply N.mod_lt; discriminate). generalize dependent (b mod 16). lia.
Qed.
Lemma hex_text_len x : length (hex_text x) = (2 * length x)%nat.
Proof. induction x as [|b x IH]; [reflexivity|]. cbn [hex_text flat_map app length] in *. fold (hex_text x). rewrite IH. lia. Qed.

(** ** C56: SequentialData *)
(** hex_str: two lower-case digits per byte, for all contents *)
Theorem C56_hex_str : forall x garbage, bytes_ok x -> (2 * length x + 1 <= length garbage)%nat -> hex_str x garbage = Ret (hex_text x).
Proof.
  intros x g B L. unfold hex_str. rewrite to_hex_spec by (try assumption; rewrite firstn_length_le; lia). cbn [bind]. apply c_string_cut, hex_text_nz, B.
Qed.
(** to_str and operator<<: the bytes, NUL bytes included *)
Theorem C56_to_str : forall x b, to_str x b = Ret x.
Proof. intros x b. apply grab_ok. Qed.
(** the constructors and to_sequential_data: exactly the bytes given; a C string up to its NUL; a std::string whole *)
Theorem C56_constructors : forall x rest,
  sd_new (x ++ rest) (N.of_nat (length x)) = Ret x /\ sd_str x = Ret x /\ (~ In 0 x -> sd_cstr (x ++ 0 :: rest) = Ret x).
Proof.
  intros x rest. unfold sd_new, sd_str, sd_new, sd_cstr, c_str. rewrite !Nat2N.id, !grab_ok. split; [reflexivity|]. split; [reflexivity|]. intros H.
  rewrite c_string_cut by exact H. cbn [bind]. unfold sd_new. rewrite Nat2N.id. apply grab_ok.
Qed.
(** from_hex_string undoes hex_str on everything but the empty sequence, on which it reads out of bounds *)
Theorem C56_hex_round_trip : forall x garbage, bytes_ok x -> x <> [] -> (length x + 1 <= length garbage)%nat ->
  from_hex_str (hex_text x) garbage = Ret x.
Proof.
  intros x g B NE L. unfold from_hex_str, from_hex_cstr, c_str. rewrite c_string_cut by (apply hex_text_nz; exact B). cbn [bind].
  pose proof (hex_text_len x) as HL. set (gg := firstn _ g). assert (LG : length gg = (length x + 1)%nat).
  { unfold gg. rewrite HL. replace (2 * length x / 2 + (2 * length x) mod 2 + 1)%nat with (length x + 1)%nat; [rewrite firstn_length_le; lia|].
    rewrite (Nat.mul_comm 2), Nat.div_mul, Nat.mod_mul by discriminate. lia. }
  unfold from_hex_string. set (tl := skipn _ _).
  pose proof (C01_hex_round_trip x (hex_text x) false false 48 120 104 tl gg B NE) as R. unfold affixed in R. cbn [app] in R. rewrite app_nil_r in R.
  rewrite R; clear R; [|clear; induction (hex_text x) as [|c l IH]; [constructor|constructor; [left; reflexivity|exact IH]]|left; reflexivity|left; reflexivity|lia]. cbn [bind].
  assert (S : length (skipn (length x) gg) = 1%nat) by (rewrite skipn_length; lia). destruct (skipn (length x) gg) as [|y [|]] eqn:K; try discriminate.
  unfold wr. rewrite blit_ok by (rewrite app_length; cbn [length]; lia). cbn [bind length]. f_equal.
  rewrite firstn_app, firstn_firstn, Nat.min_id. rewrite firstn_app, firstn_all, Nat.sub_diag. cbn [firstn]. rewrite app_nil_r.
  rewrite Nat.sub_diag. cbn [firstn]. apply app_nil_r.
Qed.
(** For every text that is not empty, whatever its characters and whatever follows the NUL, from_hex_string stays inside the array it declares;
    it returns the number the hex digits write when the separators are even in number, and that number without its last digit otherwise (C64). *)
Theorem C56_from_hex : forall s rest garbage, ~ In 0 s -> s <> [] -> (length s / 2 + length s mod 2 + 1 <= length garbage)%nat ->
  exists bs, from_hex_cstr (s ++ 0 :: rest) garbage = Ret bs /\ bytes_ok bs /\
    if Nat.even (separators s) then length bs = ((length (cleaned s) + 1) / 2)%nat /\ be_value bs = text_value (cleaned s)
    else length bs = (length (cleaned s) / 2)%nat /\ be_value bs = text_value (cleaned s) / 16.
Proof.
  intros s rest g H0 NE L. unfold from_hex_cstr. rewrite c_string_cut by exact H0. cbn [bind].
  set (gg := firstn _ g). set (tl := skipn _ _).
  assert (Hd : (length s / 2 + length s mod 2 = (length s + 1) / 2)%nat).
  { pose proof (Nat.div_mod (length s) 2 ltac:(lia)). pose proof (Nat.mod_upper_bound (length s) 2 ltac:(lia)).
    apply Nat.div_unique with (r := (1 - length s mod 2)%nat); lia. }
  assert (LG : length gg = ((length s + 1) / 2 + 1)%nat) by (unfold gg; rewrite firstn_length_le; lia).
  destruct (C02_from_hex_string s tl gg NE LG) as (bs & r & E & E2). exists bs. split; [exact E|].
  pose proof (cleaned_le s) as CL. assert (D1 : ((length (cleaned s) + 1) / 2 <= (length s + 1) / 2)%nat) by (apply Nat.div_le_mono; lia).
  assert (D2 : (length (cleaned s) / 2 <= (length s + 1) / 2)%nat) by (apply Nat.div_le_mono; lia).
  destruct (Nat.even (separators s)) eqn:EV.
  - destruct (C64_separators_even s tl gg NE EV ltac:(lia)) as (bs' & B1 & B2 & B3 & B4). rewrite B4 in E2. injection E2 as Q1 Q2.
    assert (bs' = bs) by (apply (prefix_inj _ _ _ _ Q1 Q2)). subst bs'. auto.
  - assert (OD : Nat.odd (separators s) = true) by (rewrite <- Nat.negb_even, EV; reflexivity).
    destruct (C64_separators_odd_refuted s tl gg NE OD ltac:(lia)) as (bs' & B1 & B2 & B3 & B4). rewrite B4 in E2. injection E2 as Q1 Q2.
    assert (bs' = bs) by (apply (prefix_inj _ _ _ _ Q1 Q2)). subst bs'. auto.
Qed.
Print Assumptions C56_from_hex.
Theorem C56_hex_round_trip_empty_violation : forall garbage, from_hex_str (hex_text []) garbage = UB OutOfBounds.
Proof. intros [|y g]; reflexivity. Qed.
(** trim, trim_left and trim_right return (and trim_ etc. leave) the sequence as it is: nothing is ever trimmed *)
Lemma first_empty s i : first_not_of s [] i = match s with [] => npos | _ => i end.
Proof. destruct s; reflexivity. Qed.
Lemma last_empty s : forall i f, last_not_of s [] i f = match s with [] => f | _ => i + N.of_nat (length s) - 1 end.
Proof.
  induction s as [|c s IH]; intros i f; [reflexivity|]. cbn [last_not_of existsb]. rewrite IH. destruct s as [|d s]; cbn [length]; lia.
Qed.
Lemma trim_left_id s : trim_left_ s = Some s.
Proof.
  unfold trim_left_, erase, find_first_not_of. change (upto_nul ws) with (@nil N). rewrite first_empty.
  destruct (N.ltb_spec (N.of_nat (length s)) 0) as [X|_]; [lia|]. change (N.to_nat 0) with 0%nat. cbn [firstn skipn app]. destruct s as [|c s]; [reflexivity|].
  rewrite N.min_0_l. reflexivity.
Qed.
Lemma trim_right_id s : N.of_nat (length s) < 2 ^ 63 -> trim_right_ s = Some s.
Proof.
  intros L. unfold trim_right_, find_last_not_of. change (upto_nul ws) with (@nil N). rewrite last_empty.
  assert (E : u64 (match s with [] => npos | _ :: _ => 0 + N.of_nat (length s) - 1 end + 1) = N.of_nat (length s)).
  { destruct s as [|c s]; [reflexivity|]. replace (0 + N.of_nat (length (c :: s)) - 1 + 1) with (N.of_nat (length (c :: s))) by (cbn [length]; lia).
    unfold u64. apply N.mod_small. assert (2 ^ 63 < 2 ^ 64) by reflexivity. lia. }
  rewrite E. unfold erase. destruct (N.ltb_spec (N.of_nat (length s)) (N.of_nat (length s))) as [X|_]; [lia|].
  rewrite Nat2N.id, firstn_all, skipn_all, skipn_nil, app_nil_r. reflexivity.
Qed.
Theorem C56_trim_is_identity : forall s, N.of_nat (length s) < 2 ^ 63 -> trim s = Some s /\ trim_left s = Some s /\ trim_right s = Some s.
Proof.
  intros s L. unfold trim, trim_left, trim_right, sd_copy, trim_. rewrite trim_left_id. rewrite trim_right_id by exact L. auto.
Qed.
(** so every sequence that has something to trim is a violation *)
Theorem C56_trim_violation : forall s, N.of_nat (length s) < 2 ^ 63 ->
  (hd 1 s = 0 -> trim_left s <> Some (without_leading 0 s) /\ trim s <> Some (without_trailing 0 (without_leading 0 s))) /\
  (last s 1 = 0 -> trim_right s <> Some (without_trailing 0 s) /\ trim s <> Some (without_trailing 0 (without_leading 0 s))).
Proof.
  assert (WL : forall s, (length (without_leading 0 s) <= length s)%nat /\ (hd 1 s = 0 -> (length (without_leading 0 s) < length s)%nat)).
  { induction s as [|c s IH]; [split; [reflexivity|discriminate]|]. cbn [without_leading length hd]. destruct (N.eqb_spec c 0) as [->|X]; [split; lia|]. cbn [length]. split; [lia|congruence]. }
  assert (WT : forall s, (length (without_trailing 0 s) <= length s)%nat /\ (last s 1 = 0 -> (length (without_trailing 0 s) < length s)%nat)).
  { intros s. unfold without_trailing. rewrite rev_length. pose proof (WL (rev s)) as [A B]. rewrite rev_length in A, B. split; [exact A|]. intros H. apply B.
    destruct s as [|x s] using rev_ind; [discriminate|]. rewrite last_last in H. rewrite rev_app_distr. exact H. }
  intros s L. destruct (C56_trim_is_identity s L) as (-> & -> & ->).
  pose proof (WL s) as [A1 A2]. pose proof (WT s) as [B1 B2]. pose proof (WT (without_leading 0 s)) as [D1 D2].
  split; intros H; (split; intros E; injection E as E; apply (f_equal (@length N)) in E).
  - specialize (A2 H). lia.
  - specialize (A2 H). lia.
  - specialize (B2 H). lia.
  - destruct (Nat.eq_dec (length (without_leading 0 s)) (length s)) as [EL|EL]; [|lia].
    assert (SE : without_leading 0 s = s) by (destruct s as [|c s]; [reflexivity|]; cbn [without_leading] in *; destruct (N.eqb_spec c 0) as [->|X]; [pose proof (WL s); cbn [length] in EL; lia|reflexivity]).
    rewrite SE in D2. specialize (D2 H). rewrite SE in *. lia.
Qed.

(** ** C57: names and sizes *)
Lemma same_bytes_eq x : forall y, same_bytes x y = true <-> x = y.
Proof.
  induction x as [|a x IH]; intros [|b y]; cbn [same_bytes]; try (split; congruence). rewrite andb_true_iff, N.eqb_eq, IH. split; [intros [-> ->]; reflexivity|]. intros E. injection E as -> ->. auto.
Qed.
Lemma at_in {K V} eq (t : list (K * V)) k v : (forall x y, eq x y = true <-> x = y) -> map_at eq t k = Some v -> In (k, v) t.
Proof. intros H. induction t as [|[x w] t IH]; cbn [map_at]; [discriminate|]. destruct (eq x k) eqn:E; [apply H in E; subst; intros X; injection X as ->; left; reflexivity|]. intros X. right. auto. Qed.
(** A string is accepted exactly when it is the enumerator's name or that name in lower case, and then gives that
    algorithm; everything else throws. *)
Theorem C57_names : forall s a, algstr s = Some a <-> s = name a \/ s = map downcase (name a).
Proof.
  intros s a. split.
  - intros H. apply (at_in _ _ _ _ same_bytes_eq) in H. unfold option_map_table in H. cbn [In] in H.
    repeat (destruct H as [H|H]; [injection H as <- <-; ((left; reflexivity) || (right; reflexivity))|]). destruct H.
  - intros [->| ->]; destruct a; reflexivity.
Qed.
Theorem C57_unknown_names : forall s, (forall a, s <> name a /\ s <> map downcase (name a)) -> algstr s = None.
Proof. intros s H. destruct (algstr s) as [a|] eqn:E; [|reflexivity]. apply C57_names in E. destruct (H a). destruct E; contradiction. Qed.
Theorem C57_names_distinct : forall a b, name a = name b \/ map downcase (name a) = map downcase (name b) \/ name a = map downcase (name b) -> a = b.
Proof.
  intros a b H. assert (E : algstr (name a) = Some b \/ algstr (map downcase (name a)) = Some b).
  { destruct H as [H|[H|H]]; [left; apply C57_names; left; exact H|right; apply C57_names; right; exact H|left; apply C57_names; right; exact H]. }
  assert (E1 : algstr (name a) = Some a) by (apply C57_names; left; reflexivity). assert (E2 : algstr (map downcase (name a)) = Some a) by (apply C57_names; right; reflexivity).
  destruct E as [E|E]; congruence.
Qed.
(** C strings and the literal operator use what is before the first NUL *)
Theorem C57_c_strings : forall s rest size, ~ In 0 s ->
  algstr_cstr (s ++ 0 :: rest) = Ret (algstr s) /\ pgfe_alg_literal (s ++ 0 :: rest) size = Ret (algstr s) /\ pgfe_alg_literal s size = Ret (algstr s) /\
  algstr_cstr s = UB OutOfBounds.
Proof.
  intros s rest size H. unfold pgfe_alg_literal, algstr_cstr. rewrite <- app_assoc. cbn [app]. rewrite !c_string_cut, c_string_open by exact H. auto.
Qed.
(** the maps, the switch tables and the standards agree *)
Theorem C57_sizes : forall a,
  digest_length a = Some (size_digest a) /\ block_length a = Some (size_block a) /\
  8 * size_digest a = std_digest_bits a /\ 8 * size_block a = std_block_bits a.
Proof. intros a. destruct a; repeat split. Qed.
(** and they are the sizes of what the functions compute with: digests, HMAC blocks, sponge rates *)
Theorem C57_sizes_used : forall garbage a,
  (forall J, sp_case garbage a = Some J -> idsz J = N.to_nat (size_digest a) /\ iblock J = N.to_nat (size_block a)) /\
  (forall g ps, he_typed a g -> Forall (piece_ok a) ps -> message_ok a (concat ps) -> length (lib_digest a (N.to_nat (size_digest a)) (concat ps)) = N.to_nat (size_digest a)).
Proof.
  intros garbage a. split.
  - intros J E. destruct a; cbn [sp_case] in E; try discriminate; injection E as <-; split; reflexivity.
  - intros g ps Hg HP HT. destruct (he_facts garbage a) as (_ & _ & _ & K). destruct (K g ps Hg HP HT) as (c & _ & _ & _ & L).
    specialize (L (8 * size_digest a)). unfold written in L.
    assert (X : xof_bytes (8 * size_digest a) = N.to_nat (size_digest a)) by (destruct a; reflexivity). rewrite X in L. rewrite L. destruct (shake_flag a); reflexivity.
Qed.
Definition keccak_rate (a : alg_choice) : he_ctx a -> option N :=
  match a with
  | A_SHA3_224 | A_SHA3_256 | A_SHA3_384 | A_SHA3_512 | A_RawSHAKE128 | A_SHAKE128 | A_RawSHAKE256 | A_SHAKE256 => fun c => Some (rate c)
  | _ => fun _ => None
  end.
Theorem C57_rates : forall a g r, keccak_rate a (he_init a g) = Some r -> r = std_block_bits a.
Proof. intros a g r H. destruct a; try discriminate; injection H as <-; reflexivity. Qed.

(** ** C59: passing a SequentialData with its length *)
(** evaluated left to right, the callee gets exactly the contents, NUL bytes included *)
Theorem C59_left_to_right : forall sz0 sd,
  (forall o e, enc_set_key_sd LeftToRight sz0 o e sd = enc_set_key o e sd) /\
  (forall o e, enc_update_sd LeftToRight sz0 o e sd = enc_update o e sd) /\
  (forall garbage h e, he_feed_sd LeftToRight sz0 garbage h e sd = he_feed garbage h e sd) /\
  (forall h, otp_set_secret_sd LeftToRight sz0 h sd = Ret (set_secret h sd)).
Proof.
  intros sz0 sd. unfold enc_set_key_sd, enc_update_sd, he_feed_sd, otp_set_secret_sd, pass_sd, to_pgfe_seq, c_str. rewrite Nat2N.id, grab_ok. cbn [bind]. auto.
Qed.
(** evaluated right to left: undefined, and if the variable holds some [n], the callee gets the first n bytes, or the
    whole and one zero, or reads past the end (violation) *)
Theorem C59_right_to_left_violation : forall sd,
  (forall o e, enc_set_key_sd RightToLeft None o e sd = UB Indeterminate) /\
  (forall o e, enc_update_sd RightToLeft None o e sd = UB Indeterminate) /\
  (forall garbage h e, he_feed_sd RightToLeft None garbage h e sd = UB Indeterminate) /\
  (forall h, otp_set_secret_sd RightToLeft None h sd = UB Indeterminate) /\
  (forall n o e, (N.to_nat n <= length sd)%nat -> enc_set_key_sd RightToLeft (Some n) o e sd = enc_set_key o e (firstn (N.to_nat n) sd)) /\
  (forall n o e, (N.to_nat n <= length sd)%nat -> enc_update_sd RightToLeft (Some n) o e sd = enc_update o e (firstn (N.to_nat n) sd)) /\
  (forall n garbage h e, (N.to_nat n <= length sd)%nat -> he_feed_sd RightToLeft (Some n) garbage h e sd = he_feed garbage h e (firstn (N.to_nat n) sd)) /\
  (forall n h, (N.to_nat n <= length sd)%nat -> otp_set_secret_sd RightToLeft (Some n) h sd = Ret (set_secret h (firstn (N.to_nat n) sd))) /\
  (forall n o e, (length sd + 1 < N.to_nat n)%nat -> enc_set_key_sd RightToLeft (Some n) o e sd = UB OutOfBounds) /\
  (forall n garbage h e, (length sd + 1 < N.to_nat n)%nat -> he_feed_sd RightToLeft (Some n) garbage h e sd = UB OutOfBounds).
Proof.
  intros sd.
  assert (P : forall n, (N.to_nat n <= length sd)%nat -> pass_sd RightToLeft (Some n) sd = Ret (firstn (N.to_nat n) sd)).
  { intros n L. unfold pass_sd, grab, c_str. destruct (Nat.ltb_spec (length (sd ++ [0])) (N.to_nat n)) as [X|X]; [rewrite app_length in X; lia|].
    rewrite firstn_app. replace (N.to_nat n - length sd)%nat with 0%nat by lia. cbn [firstn]. rewrite app_nil_r. reflexivity. }
  assert (Q : forall n, (length sd + 1 < N.to_nat n)%nat -> pass_sd RightToLeft (Some n) sd = UB OutOfBounds).
  { intros n L. unfold pass_sd, grab, c_str. destruct (Nat.ltb_spec (length (sd ++ [0])) (N.to_nat n)) as [X|X]; [reflexivity|]. rewrite app_length in X. cbn [length] in X. lia. }
  unfold enc_set_key_sd, enc_update_sd, he_feed_sd, otp_set_secret_sd.
  repeat split; intros; (reflexivity || (rewrite P by assumption; reflexivity) || (rewrite Q by assumption; reflexivity)).
Qed.
(** what a user sees: with a leftover 2 in the variable, the digest of "abc" is that of "ab", and "ab" and "abc" do not have the same digest *)
Theorem C59_wrong_digest_violation : forall garbage,
  exists h e h', he_new [] raw0 A_MD5 (Some dirty_memory) = Ret (h, e, true) /\ he_feed_sd RightToLeft (Some 2) garbage h e (chars "abc") = Ret h' /\
    omap snd (get_digest garbage (fun _ => 0) h' e 0) = Ret (SMd5.MD5 (chars "ab")) /\ SMd5.MD5 (chars "ab") <> SMd5.MD5 (chars "abc").
Proof.
  intros garbage. eexists _, _, _. split; [reflexivity|]. split; [destruct garbage; vm_compute; reflexivity|]. split; [destruct garbage; vm_compute; reflexivity|vm_compute; discriminate].
Qed.

(** ** Non-vacuity *)
Example C56_case : hex_str [0; 255; 16] (repeat 7 100) = Ret (chars "00ff10") /\ trim [0; 5; 0] = Some [0; 5; 0] /\
  without_trailing 0 (without_leading 0 [0; 5; 0]) = [5] /\ from_hex_str (chars "00ff10") (repeat 7 100) = Ret [0; 255; 16].
Proof. repeat split. Qed.
(** the functions do trim when the set is not empty: with {5} the byte 5 would go *)
Example find_case : find_first_not_of [5; 5; 6; 5] [5; 0; 9] = 2 /\ find_last_not_of [5; 5; 6; 5] [5; 0; 9] = 2 /\ find_last_not_of [5] [5; 0] = npos /\
  erase [1; 2; 3; 4] 1 2 = Some [1; 4] /\ erase [1] 2 0 = None.
Proof. repeat split. Qed.
Example C57_case : algstr (chars "sha512_224") = Some A_SHA512_224 /\ algstr (chars "Sha1") = None /\ algstr [] = None /\
  map downcase (name A_RawSHAKE256) = chars "rawshake256".
Proof. repeat split. Qed.

Print Assumptions C56_hex_str.
Print Assumptions C56_to_str.
Print Assumptions C56_constructors.
Print Assumptions C56_hex_round_trip.
Print Assumptions C56_hex_round_trip_empty_violation.
Print Assumptions C56_trim_is_identity.
Print Assumptions C56_trim_violation.
Print Assumptions C57_names.
Print Assumptions C57_unknown_names.
Print Assumptions C57_names_distinct.
Print Assumptions C57_c_strings.
Print Assumptions C57_sizes.
Print Assumptions C57_sizes_used.
Print Assumptions C57_rates.
Print Assumptions C59_left_to_right.
Print Assumptions C59_right_to_left_violation.
Print Assumptions C59_wrong_digest_violation.
Example C56_from_hex_case : from_hex_cstr (chars "0xabch" ++ 0 :: [1; 2]) (repeat 7 100) = Ret [0x0a; 0xbc] /\ from_hex_cstr (chars "abc" ++ [0]) (repeat 7 100) = Ret [0x0a; 0xbc] /\
  separators (chars "a:bc") = 1%nat /\ from_hex_cstr (chars "a:bc" ++ [0]) (repeat 7 100) = Ret [0xab].
Proof. vm_compute. repeat split. Qed.
