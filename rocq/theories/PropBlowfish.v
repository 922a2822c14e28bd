(** Blowfish: C47-C52, C60. The specification is SBlowfish.v (Schneier's description of the cipher). *)
From Verif Require Import Base MBlowfish PBlowfish PBlowfish2 PBlowfish3 PBfFast.
From Verif Require SBlowfish.
Local Open Scope N_scope.

(** struct pgfe_blowfish_ctx { uint32_t P[18]; uint32_t S[4][256]; } holding any values *)
Definition is_u32 (w : N) : Prop := w < 2 ^ 32.
Definition context (c : bf_ctx) : Prop :=
  length (bP c) = 18%nat /\ length (bS c) = 4%nat /\ Forall (fun r => length r = 256%nat) (bS c) /\
  Forall is_u32 (bP c) /\ Forall (Forall is_u32) (bS c).
(** a struct whose fields are not initialised yet *)
Definition raw (c : bf_ctx) : Prop := length (bP c) = 18%nat.
(** the 1042 words: P then S *)
Definition words_of (c : bf_ctx) : list N := bP c ++ concat (bS c).

Lemma context_shaped c : context c -> shaped c.
Proof. intros (A & B & C & _). repeat split; assumption. Qed.
Lemma context_words c : context c -> words_ok (flat c).
Proof.
  intros (_ & _ & _ & A & B). unfold words_ok, flat. apply Forall_app. split; [exact A|]. apply Forall_concat. exact B.
Qed.
Lemma words_context c : shaped c -> words_ok (flat c) -> context c.
Proof.
  intros (A & B & C) W. unfold words_ok, flat in W. apply Forall_app in W as [W1 W2]. repeat split; try assumption.
  clear -W2. induction (bS c) as [|r rows IH]; [constructor|]. cbn [concat] in W2. apply Forall_app in W2 as [X Y]. constructor; auto.
Qed.

(** ** C47 *)
Theorem C47_decrypt_inverts_encrypt : forall c, context c -> forall b, exists m, encrypt_unit c b = Ret m /\ decrypt_unit c m = Ret b.
Proof.
  intros c Hc b. apply context_shaped in Hc. exists (SBlowfish.encrypt (flat c) b). split; [apply encrypt_unit_flat, Hc|].
  rewrite decrypt_unit_flat by exact Hc. rewrite decrypt_encrypt; [reflexivity|]. rewrite flat_length by exact Hc. lia.
Qed.
Print Assumptions C47_decrypt_inverts_encrypt.
Theorem C47_encrypt_inverts_decrypt : forall c, context c -> forall b, exists m, decrypt_unit c b = Ret m /\ encrypt_unit c m = Ret b.
Proof.
  intros c Hc b. apply context_shaped in Hc. exists (SBlowfish.decrypt (flat c) b). split; [apply decrypt_unit_flat, Hc|].
  rewrite encrypt_unit_flat by exact Hc. rewrite encrypt_decrypt; [reflexivity|]. rewrite flat_length by exact Hc. lia.
Qed.
Print Assumptions C47_encrypt_inverts_decrypt.
(** blocks of two 32-bit halves stay so; and the functions are Schneier's, for the context's words *)
Theorem C47_units_are_blowfish : forall c, context c -> forall b, is_u32 (fst b) -> is_u32 (snd b) ->
  encrypt_unit c b = Ret (SBlowfish.encrypt (words_of c) b) /\ decrypt_unit c b = Ret (SBlowfish.decrypt (words_of c) b) /\
  is_u32 (fst (SBlowfish.encrypt (words_of c) b)) /\ is_u32 (snd (SBlowfish.encrypt (words_of c) b)) /\
  is_u32 (fst (SBlowfish.decrypt (words_of c) b)) /\ is_u32 (snd (SBlowfish.decrypt (words_of c) b)).
Proof.
  intros c Hc b H1 H2. pose proof (context_words c Hc) as W. apply context_shaped in Hc.
  pose proof (encrypt_ok (flat c) b W (conj H1 H2)) as [E1 E2]. pose proof (decrypt_ok (flat c) b W (conj H1 H2)) as [D1 D2].
  split; [apply encrypt_unit_flat, Hc|]. split; [apply decrypt_unit_flat, Hc|]. auto.
Qed.
Print Assumptions C47_units_are_blowfish.

(** ** C48 *)
(** encryption of [input] with [c]: one result, whatever the scratch word and the output buffer contained; it is written at the start of
    the buffer, the rest of which is untouched; a smaller buffer overflows *)
Theorem C48_encrypt_extent : forall c input, context c -> bytes_ok input -> exists body,
  length body = SBlowfish.padded_length (length input) /\ bytes_ok body /\
  forall scratch out, length scratch = 8%nat ->
    blowfish_encrypt c scratch input out =
      (if (length out <? SBlowfish.padded_length (length input))%nat then UB OutOfBounds
       else Ret (SBlowfish.padded_length (length input), body ++ skipn (SBlowfish.padded_length (length input)) out)).
Proof.
  intros c input Hc Hin. apply context_shaped in Hc.
  exists (SBlowfish.ecb (SBlowfish.encrypt (flat c)) input). split; [apply ecb_length|]. split; [apply ecb_bytes|].
  intros scratch out Ls. unfold blowfish_encrypt.
  assert (Hf : forall d, encrypt_unit c d = Ret (SBlowfish.encrypt (flat c) d)) by (intros; apply encrypt_unit_flat, Hc).
  destruct (Nat.ltb_spec (length out) (SBlowfish.padded_length (length input))) as [L|L].
  - apply (generic_small _ _ Hf); assumption.
  - rewrite <- (firstn_skipn (SBlowfish.padded_length (length input)) out) at 1. apply (generic_ok _ _ Hf); [exact Ls|]. rewrite firstn_length. lia.
Qed.
Print Assumptions C48_encrypt_extent.
Theorem C48_decrypt_extent : forall c input, context c -> bytes_ok input -> exists body,
  length body = SBlowfish.padded_length (length input) /\ bytes_ok body /\
  forall scratch out, length scratch = 8%nat ->
    blowfish_decrypt c scratch input out =
      (if (length out <? SBlowfish.padded_length (length input))%nat then UB OutOfBounds
       else Ret (SBlowfish.padded_length (length input), body ++ skipn (SBlowfish.padded_length (length input)) out)).
Proof.
  intros c input Hc Hin. apply context_shaped in Hc.
  exists (SBlowfish.ecb (SBlowfish.decrypt (flat c)) input). split; [apply ecb_length|]. split; [apply ecb_bytes|].
  intros scratch out Ls. unfold blowfish_decrypt.
  assert (Hf : forall d, decrypt_unit c d = Ret (SBlowfish.decrypt (flat c) d)) by (intros; apply decrypt_unit_flat, Hc).
  destruct (Nat.ltb_spec (length out) (SBlowfish.padded_length (length input))) as [L|L].
  - apply (generic_small _ _ Hf); assumption.
  - rewrite <- (firstn_skipn (SBlowfish.padded_length (length input)) out) at 1. apply (generic_ok _ _ Hf); [exact Ls|]. rewrite firstn_length. lia.
Qed.
Print Assumptions C48_decrypt_extent.
(** padded_length is the length rounded up to a multiple of 8 *)
Theorem C48_rounding : forall n, (SBlowfish.padded_length n mod 8 = 0 /\ n <= SBlowfish.padded_length n < n + 8)%nat.
Proof.
  intros n. destruct (padded_mult n) as (k & -> & H). split; [|exact H]. rewrite Nat.mul_comm. apply Nat.mod_mul. lia.
Qed.
Print Assumptions C48_rounding.
(** decrypting what encryption returned gives the input followed by zeros *)
Theorem C48_round_trip : forall c input, context c -> bytes_ok input ->
  forall scratch out n enc, length scratch = 8%nat -> blowfish_encrypt c scratch input out = Ret (n, enc) ->
  forall scratch' out', length scratch' = 8%nat -> (n <= length out')%nat ->
  blowfish_decrypt c scratch' (firstn n enc) out' = Ret (n, (input ++ repeat 0 (n - length input)) ++ skipn n out').
Proof.
  intros c input Hc Hin scratch out n enc Ls E scratch' out' Ls' Lo. pose proof (context_words c Hc) as W. apply context_shaped in Hc.
  assert (He : forall d, encrypt_unit c d = Ret (SBlowfish.encrypt (flat c) d)) by (intros; apply encrypt_unit_flat, Hc).
  assert (Hd : forall d, decrypt_unit c d = Ret (SBlowfish.decrypt (flat c) d)) by (intros; apply decrypt_unit_flat, Hc).
  set (len := SBlowfish.padded_length (length input)) in *.
  unfold blowfish_encrypt in E. destruct (Nat.lt_ge_cases (length out) len) as [L|L].
  { rewrite (generic_small _ _ He) in E by assumption. discriminate E. }
  rewrite <- (firstn_skipn len out) in E. rewrite (generic_ok _ _ He) in E by (auto; rewrite firstn_length; lia). fold len in E.
  assert (n = len /\ enc = SBlowfish.ecb (SBlowfish.encrypt (flat c)) input ++ skipn len out) as [-> ->] by (split; congruence). clear E.
  pose proof (ecb_length (SBlowfish.encrypt (flat c)) input) as LE. fold len in LE.
  rewrite firstn_app, LE, Nat.sub_diag, firstn_O, app_nil_r, (firstn_all2 (n := len)) by lia.
  unfold blowfish_decrypt. rewrite <- (firstn_skipn len out') at 1.
  assert (PP : SBlowfish.padded_length len = len) by (destruct (padded_mult (length input)) as (k & K & _); unfold len; rewrite K; apply padded_full).
  rewrite (generic_ok _ _ Hd); [|exact Ls'|rewrite LE, PP, firstn_length; lia].
  rewrite LE, PP. f_equal. f_equal. f_equal.
  rewrite (ecb_inverse _ _ input); [reflexivity| | |exact Hin].
  - intros d. apply encrypt_ok, W.
  - intros d. apply decrypt_encrypt. rewrite flat_length by exact Hc. lia.
Qed.
Print Assumptions C48_round_trip.

(** ** C49 *)
Theorem C49_schedule : forall c mem len, raw c -> (0 < len <= length mem)%nat -> bytes_ok (firstn len mem) ->
  exists c', blowfish_init c mem len = Ret c' /\ context c' /\ words_of c' = SBlowfish.subkeys (firstn len mem).
Proof.
  intros c mem len Hc Hl Hb. rewrite init_mem by exact Hl.
  assert (L : length (firstn len mem) = len) by (rewrite firstn_length; lia).
  assert (NE : firstn len mem <> []) by (intros E; rewrite E in L; cbn in L; lia).
  destruct (init_subkeys c (firstn len mem) Hc NE Hb) as (c' & E & S' & F'). rewrite L in E.
  exists c'. split; [exact E|]. split; [|exact F']. apply words_context; [exact S'|]. rewrite F'. apply subkeys_ok; assumption.
Qed.
Print Assumptions C49_schedule.
(** equal words, equal contexts: the context does not depend on what the struct contained *)
Lemma app_eq_len {A} (a b x y : list A) : length a = length b -> a ++ x = b ++ y -> a = b /\ x = y.
Proof.
  revert b. induction a as [|u a IH]; intros [|v b] L E; try discriminate; [auto|].
  injection E as -> E. destruct (IH b) as [-> ->]; auto.
Qed.
Lemma flat_inj c d : shaped c -> shaped d -> flat c = flat d -> c = d.
Proof.
  intros (A & B & C) (A' & B' & C') E. destruct c as [p s], d as [p' s']. unfold flat in E. cbn [bP bS] in *.
  apply app_eq_len in E as [-> E]; [|congruence]. f_equal. clear A A'. rewrite <- B in B'. clear B.
  revert s' B' C' E. induction C as [|r s Hr Hs IH]; intros [|r' s'] B C' E; try discriminate; [reflexivity|].
  cbn [concat] in E. pose proof (Forall_inv C') as Hr'. apply Forall_inv_tail in C'. cbn beta in *.
  apply app_eq_len in E as [-> E]; [|congruence]. f_equal. apply IH; auto.
Qed.
Lemma same_bytes_same_subkeys k1 k2 : (forall i, (i < 72)%nat -> SBlowfish.key_byte k1 i = SBlowfish.key_byte k2 i) -> SBlowfish.subkeys k1 = SBlowfish.subkeys k2.
Proof.
  intros H. unfold SBlowfish.subkeys. f_equal. unfold SBlowfish.mixed. f_equal. apply map_ext_in. intros i Hi. apply in_seq in Hi.
  f_equal. unfold SBlowfish.key_word. rewrite !H by lia. reflexivity.
Qed.
(** only the first 72 bytes of the key, repeated cyclically, matter *)
Theorem C49_same_first_72 : forall c1 c2 k1 k2, raw c1 -> raw c2 -> k1 <> [] -> k2 <> [] -> bytes_ok k1 -> bytes_ok k2 ->
  (forall i, (i < 72)%nat -> nth (i mod length k1) k1 0 = nth (i mod length k2) k2 0) ->
  blowfish_init c1 k1 (length k1) = blowfish_init c2 k2 (length k2).
Proof.
  intros c1 c2 k1 k2 R1 R2 N1 N2 B1 B2 H.
  destruct (init_subkeys c1 k1 R1 N1 B1) as (d1 & E1 & S1 & F1). destruct (init_subkeys c2 k2 R2 N2 B2) as (d2 & E2 & S2 & F2).
  rewrite E1, E2. f_equal. apply flat_inj; auto. rewrite F1, F2. apply same_bytes_same_subkeys. exact H.
Qed.
Print Assumptions C49_same_first_72.
Theorem C49_long_keys : forall c k, raw c -> bytes_ok k -> (72 <= length k)%nat ->
  blowfish_init c k (length k) = blowfish_init c (firstn 72 k) 72.
Proof.
  intros c k R B L. assert (L72 : length (firstn 72 k) = 72%nat) by (rewrite firstn_length; lia).
  rewrite <- L72 at 2. apply C49_same_first_72; auto.
  - intros ->. cbn in L. lia.
  - intros E. rewrite E in L72. discriminate.
  - unfold bytes_ok in *. rewrite <- (firstn_skipn 72 k) in B. apply Forall_app in B. apply B.
  - intros i Hi. rewrite L72. rewrite !Nat.mod_small by lia. symmetry. apply firstn_nth_lt. exact Hi.
Qed.
Print Assumptions C49_long_keys.
Theorem C49_repeated_keys : forall c k n, raw c -> k <> [] -> bytes_ok k ->
  let kk := concat (repeat k (S n)) in blowfish_init c kk (length kk) = blowfish_init c k (length k).
Proof.
  intros c k n R NE B kk. 
  assert (Lk : (0 < length k)%nat) by (destruct k; [congruence|cbn; lia]).
  assert (LL : length kk = (length k * S n)%nat).
  { subst kk. generalize (S n). intros m. induction m as [|m IH]; [cbn; lia|]. cbn [repeat concat]. rewrite app_length, IH. lia. }
  assert (NTH : forall m i, (i < length k * m)%nat -> nth i (concat (repeat k m)) 0 = nth (i mod length k) k 0).
  { induction m as [|m IH]; intros i Hi; [lia|]. cbn [repeat concat]. destruct (Nat.lt_ge_cases i (length k)) as [L|L].
    - rewrite app_nth1, Nat.mod_small by exact L. reflexivity.
    - rewrite app_nth2, IH by lia. f_equal. replace i with (i - length k + 1 * length k)%nat at 2 by lia. symmetry. apply Nat.mod_add. lia. }
  apply C49_same_first_72; auto.
  - intros E. rewrite E in LL. cbn in LL. lia.
  - subst kk. unfold bytes_ok. apply Forall_concat. apply Forall_forall. intros x Hx. apply repeat_spec in Hx. subst x. exact B.
  - intros i _. unfold kk at 2. rewrite NTH.
    + f_equal. rewrite LL, Nat.mod_mul_r by lia. rewrite Nat.add_mod, Nat.mod_mod, (Nat.mul_comm (length k)), Nat.mod_mul, Nat.add_0_r, Nat.mod_mod by lia. reflexivity.
    + rewrite LL. apply Nat.mod_upper_bound. lia.
Qed.
Print Assumptions C49_repeated_keys.
(** an empty key: the key pointer is read at index 0 and j %= 0 follows *)
Theorem C49_empty_key_violation : forall c mem, raw c ->
  blowfish_init c mem 0 = UB (match mem with [] => OutOfBounds | _ => DivByZero end).
Proof. intros c mem R. destruct mem; reflexivity. Qed.
Print Assumptions C49_empty_key_violation.

(** a published test vector (key 0000000000000000, block 0000000000000000, cipher 4EF997456198DD78), through the model *)
Example raw_zero : raw (mkBf (repeat 0 18) []). Proof. reflexivity. Qed.
Example C49_case : exists c, blowfish_init (mkBf (repeat 0 18) []) (repeat 0 8) 8 = Ret c /\ context c /\
  encrypt_unit c (0, 0) = Ret (0x4EF99745, 0x6198DD78).
Proof.
  destruct (C49_schedule (mkBf (repeat 0 18) []) (repeat 0 8) 8) as (c & E & C & F); [reflexivity|cbn; lia|repeat constructor|].
  exists c. split; [exact E|]. split; [exact C|]. rewrite encrypt_unit_flat by (apply context_shaped, C).
  unfold words_of in F. unfold flat. rewrite F. change (firstn 8 (repeat 0 8)) with (repeat 0 8).
  rewrite fast_encrypt; [|discriminate|repeat constructor|split; reflexivity].
  apply (f_equal (@Ret (N * N))). vm_compute. reflexivity.
Qed.

(** ** C50 *)
(** the bytes a data argument stands for: a pointer with a length, a std::string, a SequentialData, or a C string up to its NUL *)
Definition argument (d : data_arg) (bytes : list N) : Prop :=
  match d with
  | DataBytes s | DataStr s | DataSD s => s = bytes
  | DataCstr mem => exists rest, mem = bytes ++ 0 :: rest /\ ~ In 0 bytes
  end.
Lemma upto_nul_at s rest : ~ In 0 s -> upto_nul (s ++ 0 :: rest) = s.
Proof.
  induction s as [|x s IH]; intros H; [reflexivity|]. cbn [app upto_nul]. destruct (N.eqb_spec x 0) as [->|_]; [exfalso; apply H; left; reflexivity|].
  rewrite IH; [reflexivity|]. intros X. apply H. right. exact X.
Qed.
Lemma strlen_at s rest : ~ In 0 s -> strlen (s ++ 0 :: rest) = Ret (length s).
Proof.
  intros H. unfold strlen. rewrite upto_nul_at by exact H. rewrite app_length. cbn [length].
  destruct (Nat.eqb_spec (length s) (length s + S (length rest))); [lia|reflexivity].
Qed.
Lemma argument_bytes d bytes : argument d bytes -> data_bytes d = Ret bytes.
Proof.
  destruct d; cbn [argument data_bytes]; try (intros ->; reflexivity). intros (rest & -> & H).
  unfold upto_strlen. rewrite strlen_at by exact H. cbn [bind]. rewrite firstn_app, Nat.sub_diag, firstn_O, app_nil_r, firstn_all. reflexivity.
Qed.
Definition overflowing (n : nat) : Prop := (n mod 8 = 1 \/ n mod 8 = 2 \/ n mod 8 = 3)%nat.
Lemma overflowing_iff n : overflowing n <-> (n + n mod 8 < SBlowfish.padded_length n)%nat.
Proof.
  unfold overflowing. pose proof (Nat.div_mod n 8 ltac:(lia)) as E. pose proof (Nat.mod_upper_bound n 8 ltac:(lia)) as M.
  set (q := (n / 8)%nat) in *. set (r := (n mod 8)%nat) in *. clearbody q r. subst n. destruct r as [|r].
  - rewrite !Nat.add_0_r, padded_full. lia.
  - rewrite padded_part by lia. lia.
Qed.
Lemma object_call f g d bytes scratch : (forall x, f x = Ret (g x)) -> argument d bytes -> length scratch = 8%nat ->
  bf_object_call f scratch d = if (length bytes + length bytes mod 8 <? SBlowfish.padded_length (length bytes))%nat then UB OutOfBounds else Ret (SBlowfish.ecb g bytes).
Proof.
  intros Hf Ha Ls. unfold bf_object_call. rewrite (argument_bytes d bytes Ha). cbn [bind]. cbv zeta.
  set (sz := (length bytes + length bytes mod 8)%nat). set (len := SBlowfish.padded_length (length bytes)).
  destruct (Nat.ltb_spec sz len) as [L|L].
  - rewrite (generic_small _ _ Hf) by (auto; rewrite repeat_length; exact L). reflexivity.
  - rewrite <- (firstn_skipn len (repeat 0 sz)). rewrite (generic_ok _ _ Hf) by (auto; rewrite firstn_length, repeat_length; fold len; lia).
    cbn [bind]. fold len. pose proof (ecb_length g bytes) as LE. fold len in LE.
    rewrite app_length, LE. replace (len <=? len + _)%nat with true by (symmetry; apply Nat.leb_le; lia).
    rewrite firstn_app, LE, Nat.sub_diag, firstn_O, app_nil_r, firstn_all2 by lia. reflexivity.
Qed.
(** the heap overflow: exactly the lengths 1, 2 and 3 modulo 8; otherwise the result is that of the C function with a big enough buffer *)
Theorem C50_encrypt : forall c d bytes scratch, context c -> argument d bytes -> bytes_ok bytes -> length scratch = 8%nat ->
  (overflowing (length bytes) -> bf_object_encrypt c scratch d = UB OutOfBounds) /\
  (~ overflowing (length bytes) -> exists r, bf_object_encrypt c scratch d = Ret r /\
     forall scratch' out, length scratch' = 8%nat -> length out = SBlowfish.padded_length (length bytes) ->
     blowfish_encrypt c scratch' bytes out = Ret (length r, r)).
Proof.
  intros c d bytes scratch Hc Ha Hb Ls. apply context_shaped in Hc.
  assert (Hf : forall x, encrypt_unit c x = Ret (SBlowfish.encrypt (flat c) x)) by (intros; apply encrypt_unit_flat, Hc).
  unfold bf_object_encrypt. rewrite (object_call _ _ d bytes scratch Hf Ha Ls). rewrite overflowing_iff.
  destruct (Nat.ltb_spec (length bytes + length bytes mod 8) (SBlowfish.padded_length (length bytes))) as [L|L]; split; intros H; try lia; [reflexivity|].
  eexists. split; [reflexivity|]. intros s' out Ls' Lo. rewrite ecb_length. unfold blowfish_encrypt. rewrite <- (app_nil_r out).
  rewrite (generic_ok _ _ Hf) by auto. rewrite app_nil_r. reflexivity.
Qed.
Print Assumptions C50_encrypt.
Theorem C50_decrypt : forall c d bytes scratch, context c -> argument d bytes -> bytes_ok bytes -> length scratch = 8%nat ->
  (overflowing (length bytes) -> bf_object_decrypt c scratch d = UB OutOfBounds) /\
  (~ overflowing (length bytes) -> exists r, bf_object_decrypt c scratch d = Ret r /\
     forall scratch' out, length scratch' = 8%nat -> length out = SBlowfish.padded_length (length bytes) ->
     blowfish_decrypt c scratch' bytes out = Ret (length r, r)).
Proof.
  intros c d bytes scratch Hc Ha Hb Ls. apply context_shaped in Hc.
  assert (Hf : forall x, decrypt_unit c x = Ret (SBlowfish.decrypt (flat c) x)) by (intros; apply decrypt_unit_flat, Hc).
  unfold bf_object_decrypt. rewrite (object_call _ _ d bytes scratch Hf Ha Ls). rewrite overflowing_iff.
  destruct (Nat.ltb_spec (length bytes + length bytes mod 8) (SBlowfish.padded_length (length bytes))) as [L|L]; split; intros H; try lia; [reflexivity|].
  eexists. split; [reflexivity|]. intros s' out Ls' Lo. rewrite ecb_length. unfold blowfish_decrypt. rewrite <- (app_nil_r out).
  rewrite (generic_ok _ _ Hf) by auto. rewrite app_nil_r. reflexivity.
Qed.
Print Assumptions C50_decrypt.
(** a one-byte message is enough *)
Theorem C50_overflow_violation : forall c scratch x, context c -> is_byte x -> length scratch = 8%nat -> bf_object_encrypt c scratch (DataBytes [x]) = UB OutOfBounds.
Proof.
  intros c scratch x Hc Hx Ls. apply (C50_encrypt c (DataBytes [x]) [x] scratch Hc eq_refl); [repeat constructor; exact Hx|exact Ls|]. left. reflexivity.
Qed.
Print Assumptions C50_overflow_violation.
(** decrypting with the object what it encrypted gives the message and its zero padding *)
Theorem C50_round_trip : forall c d bytes scratch scratch' r, context c -> argument d bytes -> bytes_ok bytes -> length scratch = 8%nat -> length scratch' = 8%nat ->
  bf_object_encrypt c scratch d = Ret r ->
  bf_object_decrypt c scratch' (DataSD r) = Ret (bytes ++ repeat 0 (SBlowfish.padded_length (length bytes) - length bytes)).
Proof.
  intros c d bytes scratch scratch' r Hc Ha Hb Ls Ls' E. pose proof (context_words c Hc) as W. apply context_shaped in Hc.
  assert (He : forall x, encrypt_unit c x = Ret (SBlowfish.encrypt (flat c) x)) by (intros; apply encrypt_unit_flat, Hc).
  assert (Hd : forall x, decrypt_unit c x = Ret (SBlowfish.decrypt (flat c) x)) by (intros; apply decrypt_unit_flat, Hc).
  unfold bf_object_encrypt in E. rewrite (object_call _ _ d bytes scratch He Ha Ls) in E.
  destruct (_ <? _)%nat; [discriminate E|]. assert (r = SBlowfish.ecb (SBlowfish.encrypt (flat c)) bytes) as -> by congruence.
  unfold bf_object_decrypt. rewrite (object_call _ _ (DataSD _) _ scratch' Hd eq_refl Ls').
  rewrite ecb_length. destruct (padded_mult (length bytes)) as (k & K & _). rewrite K, padded_full.
  replace (8 * k + (8 * k) mod 8 <? 8 * k)%nat with false by (symmetry; apply Nat.ltb_ge, Nat.le_add_r).
  rewrite (ecb_inverse _ _ bytes); [unfold SBlowfish.pad8; rewrite K; reflexivity| | |exact Hb].
  - intros x. apply encrypt_ok, W.
  - intros x. apply decrypt_encrypt. rewrite flat_length by exact Hc. lia.
Qed.
Print Assumptions C50_round_trip.

(** ** C51 *)
Theorem C51_string_key : forall c s, ~ In 0 s -> bf_new c (KeyStr s) = bf_new c (KeySD s).
Proof. intros c s H. unfold bf_new. rewrite strlen_at by exact H. reflexivity. Qed.
Print Assumptions C51_string_key.
(** a NUL inside: the key ends there (and nothing before it means an empty key) *)
Theorem C51_string_key_cut : forall c s rest, raw c -> bytes_ok s -> ~ In 0 s ->
  bf_new c (KeyStr (s ++ 0 :: rest)) = match s with [] => UB DivByZero | _ => bf_new c (KeySD s) end.
Proof.
  intros c s rest R B H. unfold bf_new. rewrite <- app_assoc. cbn [app]. rewrite strlen_at by exact H. cbn [bind].
  destruct s as [|x s]; [reflexivity|]. set (t := x :: s) in *.
  assert (0 < length t)%nat by (cbn; lia).
  rewrite (init_mem c (t ++ 0 :: rest ++ [0])), (init_mem c (t ++ [0])) by (rewrite app_length; cbn [length]; lia).
  rewrite !firstn_app, Nat.sub_diag, !firstn_O. reflexivity.
Qed.
Print Assumptions C51_string_key_cut.
(** the same goes for C strings *)
Theorem C51_c_string_key : forall c s rest, raw c -> s <> [] -> ~ In 0 s -> bf_new c (KeyCstr (s ++ 0 :: rest)) = bf_new c (KeySD s).
Proof.
  intros c s rest R NE H. unfold bf_new. rewrite strlen_at by exact H. cbn [bind].
  assert (0 < length s)%nat by (destruct s; [congruence|cbn; lia]).
  rewrite (init_mem c (s ++ 0 :: rest)), (init_mem c (s ++ [0])) by (rewrite app_length; cbn [length]; lia).
  rewrite !firstn_app, Nat.sub_diag, !firstn_O. reflexivity.
Qed.
Print Assumptions C51_c_string_key.
Lemma key_sd c s : raw c -> s <> [] -> bytes_ok s -> exists c', bf_new c (KeySD s) = Ret c' /\ context c' /\ words_of c' = SBlowfish.subkeys s.
Proof.
  intros R NE B. destruct (C49_schedule c (s ++ [0]) (length s) R) as (c' & E & X & F).
  - rewrite app_length. destruct s; [congruence|cbn; lia].
  - rewrite firstn_app, Nat.sub_diag, firstn_O, app_nil_r, firstn_all. exact B.
  - rewrite firstn_app, Nat.sub_diag, firstn_O, app_nil_r, firstn_all in F. exists c'. auto.
Qed.
(** "a\0b" as a std::string and as a SequentialData: two ciphers that differ on the all-zero block *)
Theorem C51_string_key_violation : forall c, raw c -> exists c1 c2, bf_new c (KeyStr [97; 0; 98]) = Ret c1 /\ bf_new c (KeySD [97; 0; 98]) = Ret c2 /\
  context c1 /\ context c2 /\ encrypt_unit c1 (0, 0) <> encrypt_unit c2 (0, 0).
Proof.
  intros c R. change [97; 0; 98] with ([97] ++ 0 :: [98]) at 1. rewrite C51_string_key_cut; [|exact R|repeat constructor|cbn; intros [H|H]; [discriminate|exact H]].
  destruct (key_sd c [97] R) as (c1 & E1 & X1 & F1); [discriminate|repeat constructor|].
  destruct (key_sd c [97; 0; 98] R) as (c2 & E2 & X2 & F2); [discriminate|repeat constructor|].
  exists c1, c2. split; [exact E1|]. split; [exact E2|]. split; [exact X1|]. split; [exact X2|].
  rewrite !encrypt_unit_flat by (apply context_shaped; assumption). unfold words_of in F1, F2. unfold flat. rewrite F1, F2.
  rewrite !fast_encrypt; [|discriminate|repeat constructor|split; reflexivity|discriminate|repeat constructor|split; reflexivity].
  assert (D : N.eqb (fst (fencrypt (fsubkeys [97]) (0, 0))) (fst (fencrypt (fsubkeys [97; 0; 98]) (0, 0))) = false) by (vm_compute; reflexivity).
  intros E. apply N.eqb_neq in D. apply D. congruence.
Qed.
Print Assumptions C51_string_key_violation.

(** ** C52 *)
Theorem C52_encrypt_blocks : forall c a b, context c -> bytes_ok a -> bytes_ok b -> (length a mod 8 = 0)%nat -> exists ea eb,
  (forall s out, length s = 8%nat -> length out = length a -> blowfish_encrypt c s a out = Ret (length ea, ea)) /\
  (forall s out, length s = 8%nat -> length out = SBlowfish.padded_length (length b) -> blowfish_encrypt c s b out = Ret (length eb, eb)) /\
  (forall s out, length s = 8%nat -> length out = (length ea + length eb)%nat -> blowfish_encrypt c s (a ++ b) out = Ret (length (ea ++ eb), ea ++ eb)).
Proof.
  intros c a b Hc Ha Hb M. apply context_shaped in Hc.
  assert (Hf : forall x, encrypt_unit c x = Ret (SBlowfish.encrypt (flat c) x)) by (intros; apply encrypt_unit_flat, Hc).
  apply Nat.mod_divides in M as (n & L); [|lia].
  exists (SBlowfish.ecb (SBlowfish.encrypt (flat c)) a), (SBlowfish.ecb (SBlowfish.encrypt (flat c)) b).
  assert (X : forall l s out, length s = 8%nat -> length out = SBlowfish.padded_length (length l) ->
    blowfish_encrypt c s l out = Ret (length (SBlowfish.ecb (SBlowfish.encrypt (flat c)) l), SBlowfish.ecb (SBlowfish.encrypt (flat c)) l)).
  { intros l s out Ls Lo. unfold blowfish_encrypt. rewrite <- (app_nil_r out). rewrite (generic_ok _ _ Hf) by auto. rewrite app_nil_r, ecb_length. reflexivity. }
  split; [|split; [intros; apply X; auto|]]; intros s out Ls Lo.
  - apply X; [exact Ls|]. rewrite L, padded_full in *. congruence.
  - rewrite <- (ecb_app _ a b n L). apply X; [exact Ls|]. rewrite <- (ecb_length (SBlowfish.encrypt (flat c))), (ecb_app _ a b n L), app_length. exact Lo.
Qed.
Print Assumptions C52_encrypt_blocks.
Theorem C52_decrypt_blocks : forall c a b, context c -> bytes_ok a -> bytes_ok b -> (length a mod 8 = 0)%nat -> exists ea eb,
  (forall s out, length s = 8%nat -> length out = length a -> blowfish_decrypt c s a out = Ret (length ea, ea)) /\
  (forall s out, length s = 8%nat -> length out = SBlowfish.padded_length (length b) -> blowfish_decrypt c s b out = Ret (length eb, eb)) /\
  (forall s out, length s = 8%nat -> length out = (length ea + length eb)%nat -> blowfish_decrypt c s (a ++ b) out = Ret (length (ea ++ eb), ea ++ eb)).
Proof.
  intros c a b Hc Ha Hb M. apply context_shaped in Hc.
  assert (Hf : forall x, decrypt_unit c x = Ret (SBlowfish.decrypt (flat c) x)) by (intros; apply decrypt_unit_flat, Hc).
  apply Nat.mod_divides in M as (n & L); [|lia].
  exists (SBlowfish.ecb (SBlowfish.decrypt (flat c)) a), (SBlowfish.ecb (SBlowfish.decrypt (flat c)) b).
  assert (X : forall l s out, length s = 8%nat -> length out = SBlowfish.padded_length (length l) ->
    blowfish_decrypt c s l out = Ret (length (SBlowfish.ecb (SBlowfish.decrypt (flat c)) l), SBlowfish.ecb (SBlowfish.decrypt (flat c)) l)).
  { intros l s out Ls Lo. unfold blowfish_decrypt. rewrite <- (app_nil_r out). rewrite (generic_ok _ _ Hf) by auto. rewrite app_nil_r, ecb_length. reflexivity. }
  split; [|split; [intros; apply X; auto|]]; intros s out Ls Lo.
  - apply X; [exact Ls|]. rewrite L, padded_full in *. congruence.
  - rewrite <- (ecb_app _ a b n L). apply X; [exact Ls|]. rewrite <- (ecb_length (SBlowfish.decrypt (flat c))), (ecb_app _ a b n L), app_length. exact Lo.
Qed.
Print Assumptions C52_decrypt_blocks.
(** one block: each half most significant byte first *)
Theorem C52_one_block : forall c s, context c -> length s = 8%nat -> bytes_ok s -> forall scratch out, length scratch = 8%nat -> length out = 8%nat ->
  exists m, encrypt_unit c (SBlowfish.be_word (firstn 4 s), SBlowfish.be_word (skipn 4 s)) = Ret m /\
    blowfish_encrypt c scratch s out = Ret (8%nat, SBlowfish.be_word_bytes (fst m) ++ SBlowfish.be_word_bytes (snd m)).
Proof.
  intros c s Hc L Hb scratch out Ls Lo. apply context_shaped in Hc.
  assert (Hf : forall x, encrypt_unit c x = Ret (SBlowfish.encrypt (flat c) x)) by (intros; apply encrypt_unit_flat, Hc).
  eexists. split; [apply Hf|]. unfold blowfish_encrypt. rewrite <- (app_nil_r out).
  pose proof (generic_ok _ _ Hf scratch s out [] Ls) as E. rewrite L in E. change (SBlowfish.padded_length 8) with 8%nat in E. rewrite E by exact Lo.
  rewrite app_nil_r. f_equal. f_equal. rewrite (ecb_full _ s 1 L). unfold crypted. cbn [SBlowfish.blocks map concat]. rewrite app_nil_r.
  rewrite (firstn_all2 (n := 8)) by lia. unfold SBlowfish.block_of, SBlowfish.block_bytes.
  rewrite (firstn_all2 (n := 4) (skipn 4 s)) by (rewrite skipn_length; lia). reflexivity.
Qed.
Print Assumptions C52_one_block.

(** ** C60: in place *)
Theorem C60_encrypt_in_place : forall c input rest scratch, context c -> bytes_ok input -> length scratch = 8%nat ->
  bf_in_place (encrypt_unit c) scratch (length input) (input ++ rest) = blowfish_encrypt c scratch input (input ++ rest) /\
  forall n body, (length (input ++ rest) >= SBlowfish.padded_length (length input))%nat ->
    (forall scratch' out, length scratch' = 8%nat -> length out = SBlowfish.padded_length (length input) -> blowfish_encrypt c scratch' input out = Ret (n, body)) ->
    bf_in_place (encrypt_unit c) scratch (length input) (input ++ rest) = Ret (n, body ++ skipn n (input ++ rest)).
Proof.
  intros c input rest scratch Hc Hb Ls. apply context_shaped in Hc. split; [apply in_place_generic|].
  assert (Hf : forall x, encrypt_unit c x = Ret (SBlowfish.encrypt (flat c) x)) by (intros; apply encrypt_unit_flat, Hc).
  intros n body L H. set (len := SBlowfish.padded_length (length input)) in *.
  specialize (H scratch (repeat 0 len) Ls (repeat_length 0 len)). unfold blowfish_encrypt in H. rewrite <- (app_nil_r (repeat 0 len)) in H.
  rewrite (generic_ok _ _ Hf) in H by (auto; apply repeat_length). rewrite app_nil_r in H. fold len in H.
  assert (n = len /\ body = SBlowfish.ecb (SBlowfish.encrypt (flat c)) input) as [-> ->] by (split; congruence).
  rewrite in_place_generic. rewrite <- (firstn_skipn len (input ++ rest)) at 1.
  rewrite (generic_ok _ _ Hf) by (auto; rewrite firstn_length; fold len; lia). reflexivity.
Qed.
Print Assumptions C60_encrypt_in_place.
Theorem C60_decrypt_in_place : forall c input rest scratch, context c -> bytes_ok input -> length scratch = 8%nat ->
  bf_in_place (decrypt_unit c) scratch (length input) (input ++ rest) = blowfish_decrypt c scratch input (input ++ rest).
Proof. intros. apply in_place_generic. Qed.
Print Assumptions C60_decrypt_in_place.
(** encrypting a buffer in place and decrypting it in place restores it, up to the zero padding *)
Theorem C60_in_place_round_trip : forall c input rest s s', context c -> bytes_ok input -> length s = 8%nat -> length s' = 8%nat ->
  (SBlowfish.padded_length (length input) <= length (input ++ rest))%nat ->
  exists mem, let n := SBlowfish.padded_length (length input) in
  bf_in_place (encrypt_unit c) s (length input) (input ++ rest) = Ret (n, mem) /\
  bf_in_place (decrypt_unit c) s' n mem = Ret (n, input ++ repeat 0 (n - length input) ++ skipn n (input ++ rest)).
Proof.
  intros c input rest s s' Hc Hb Ls Ls' L. cbv zeta. set (n := SBlowfish.padded_length (length input)) in *.
  assert (E : exists mem, blowfish_encrypt c s input (input ++ rest) = Ret (n, mem) /\ skipn n mem = skipn n (input ++ rest) /\ (n <= length mem)%nat).
  { destruct (C48_encrypt_extent c input Hc Hb) as (body & Lb & _ & H). fold n in Lb, H. rewrite (H s _ Ls).
    destruct (Nat.ltb_spec (length (input ++ rest)) n) as [X|X]; [lia|]. eexists. split; [reflexivity|].
    rewrite skipn_app, Lb, Nat.sub_diag, skipn_all2 by lia. rewrite app_length. split; [reflexivity|lia]. }
  destruct E as (mem & E & Es & Lm). exists mem. split; [rewrite in_place_generic; exact E|].
  pose proof (C48_round_trip c input Hc Hb s _ n mem Ls E s' mem Ls' Lm) as D. rewrite Es in D.
  assert (Lf : length (firstn n mem) = n) by (rewrite firstn_length; lia).
  rewrite <- (firstn_skipn n mem). rewrite <- Lf at 1. rewrite in_place_generic. rewrite firstn_skipn.
  unfold blowfish_decrypt in D. rewrite D, <- app_assoc. reflexivity.
Qed.
Print Assumptions C60_in_place_round_trip.

(** a concrete context (C49_case) meets the hypotheses; messages of 5 and of 1 bytes *)
Example C48_case : exists c, context c /\ ~ overflowing 5 /\ overflowing 1 /\ argument (DataCstr [104; 105; 0; 7]) [104; 105] /\ bytes_ok [104; 105].
Proof.
  destruct C49_case as (c & _ & H & _). exists c. split; [exact H|]. split; [intros [X|[X|X]]; discriminate X|]. split; [left; reflexivity|].
  split; [exists [7]; split; [reflexivity|]; cbn; intros [X|[X|X]]; try discriminate; exact X|repeat constructor].
Qed.
