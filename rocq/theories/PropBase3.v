(** Property theorems C68, C69: base encodings in chunks, and the sort order of texts
    (base-encoding-internal.c, base16.c, base32.c, base64.c). *)
From Coq Require Import String.
From Verif Require Import Base MBase SRfc4648 SHex SBaseText SOrder PUtils PBase PBase2 PropBase PropBase2.

(** ** C68: chunks *)
Lemma lib_text_app a x y : length x mod octets (coding a) = 0 -> lib_text (coding a) (x ++ y) = lib_text (coding a) x ++ lib_text (coding a) y.
Proof.
  intros M. assert (O0 : octets (coding a) <> 0) by (destruct a; discriminate). apply Nat.mod_divides in M; [|exact O0]. destruct M as (k & K).
  rewrite octets_eq in *. revert x K. induction k as [|k IH]; intros x K.
  - rewrite Nat.mul_0_r in K. destruct x; [|discriminate]. cbn [app]. rewrite (lib_text_nil _ _ _ (api_compat a)). reflexivity.
  - set (u := unit_size (params a)) in *.
    assert (L1 : length (firstn u x) = u) by (rewrite firstn_length, K; nia).
    rewrite <- (firstn_skipn u x), <- app_assoc.
    rewrite !(lib_text_step _ _ _ (api_compat a) (firstn u x)) by exact L1. rewrite <- app_assoc. f_equal. apply IH. rewrite skipn_length, K. nia.
Qed.
(** encoding piece by piece, all pieces but the last being whole units, and concatenating the texts *)
Theorem C68_encode_chunks : forall a st st1 st2 x y out out1 out2 n n1 n2 o o1 o2,
  slack a st -> slack a st1 -> slack a st2 -> bytes_ok x -> bytes_ok y -> length x mod octets (coding a) = 0 ->
  length (rfc_encode (coding a) (x ++ y)) < length out -> length (rfc_encode (coding a) x) < length out1 -> length (rfc_encode (coding a) y) < length out2 ->
  encode a st (x ++ y) out = Ret (n, o) -> encode a st1 x out1 = Ret (n1, o1) -> encode a st2 y out2 = Ret (n2, o2) ->
  n = n1 + n2 /\ firstn n o = firstn n1 o1 ++ firstn n2 o2.
Proof.
  intros a st st1 st2 x y out out1 out2 n n1 n2 o o1 o2 S S1 S2 Bx By M L L1 L2 E E1 E2.
  rewrite <- (text_length_eq _ _ _ _ (api_compat a)) in L. rewrite <- (text_length_eq _ _ _ _ (api_compat a)) in L1. rewrite <- (text_length_eq _ _ _ _ (api_compat a)) in L2.
  rewrite C06_encode_text in E by (auto; apply Forall_app; auto). rewrite C06_encode_text in E1 by auto. rewrite C06_encode_text in E2 by auto.
  injection E as <- <-. injection E1 as <- <-. injection E2 as <- <-.
  rewrite !firstn_app, !firstn_all, !Nat.sub_diag, !firstn_O, !app_nil_r, lib_text_app, app_length by exact M. auto.
Qed.
Print Assumptions C68_encode_chunks.

(** the number of characters of a text that have a value *)
Definition digit_count (a : api) (t : list N) : nat := length (digits_in (value_of a) t).
(** a text of whole groups: the digits are a multiple of the quantum and the last character is one *)
Definition whole_groups (a : api) (t : list N) : Prop :=
  t <> [] /\ digit_count a t mod quantum (coding a) = 0 /\ value_of a (last t 0%N) <> None.

Lemma last_app_ne {A} (l r : list A) d : r <> [] -> last (l ++ r) d = last r d.
Proof. intros H. induction l as [|x l IH]; [reflexivity|]. cbn [app]. rewrite <- IH. destruct (l ++ r) eqn:E; [|reflexivity]. apply app_eq_nil in E. tauto. Qed.
Lemma digits_in_app v s t : digits_in v (s ++ t) = digits_in v s ++ digits_in v t.
Proof. unfold digits_in. apply flat_map_app. Qed.
Lemma whole_units a t1 t2 : whole_groups a t1 -> t2 <> [] ->
  text_units (coding a) (value_of a) (t1 ++ t2) = text_units (coding a) (value_of a) t1 ++ text_units (coding a) (value_of a) t2.
Proof.
  intros (N1 & M & V) N2. unfold text_units. cbv zeta. rewrite digits_in_app, last_app_ne by exact N2.
  assert (Q : 0 < quantum (coding a)) by (destruct a; cbn; lia).
  unfold digit_count in M. set (d1 := digits_in (value_of a) t1) in *. set (d2 := digits_in (value_of a) t2).
  assert (K : exists k, length d1 = k * quantum (coding a)).
  { apply Nat.mod_divides in M; [|lia]. destruct M as (k & K). exists k. rewrite K. apply Nat.mul_comm. }
  destruct K as (k & K). rewrite (pieces_app _ Q k d1 d2 K), map_app.
  replace (length (d1 ++ d2) mod quantum (coding a)) with (length d2 mod quantum (coding a)).
  2:{ rewrite app_length, K, Nat.add_comm, Nat.mod_add by lia. reflexivity. }
  assert (X : (match value_of a (last t1 0%N) with Some _ => false | None => true end) = false) by (destruct (value_of a (last t1 0%N)); [reflexivity|congruence]).
  rewrite X, Bool.andb_false_r, app_nil_r, app_assoc. reflexivity.
Qed.
Lemma unit_of_length c ds : length (unit_of c ds) = octets c.
Proof. unfold unit_of, octets_of. rewrite map_length, seq_length. reflexivity. Qed.
Lemma units_concat_length c (l : list (list N)) : length (concat (map (unit_of c) l)) = octets c * length l.
Proof. induction l as [|d l IH]; [cbn; lia|]. cbn [map concat length]. rewrite app_length, unit_of_length, IH. lia. Qed.
Lemma pieces_count n : 0 < n -> forall k (l : list N), length l = k * n -> length (SBaseText.pieces (length l) n l) = k.
Proof.
  intros Hn. induction k as [|k IH]; intros l L.
  - destruct l; [reflexivity|discriminate].
  - assert (L1 : length (firstn n l) = 1 * n) by (rewrite firstn_length, L; nia). assert (L2 : length (skipn n l) = k * n) by (rewrite skipn_length, L; nia).
    rewrite <- (firstn_skipn n l), (pieces_app n Hn 1) by exact L1. rewrite app_length, (IH (skipn n l) L2).
    rewrite pieces_one by (rewrite L1; lia). reflexivity.
Qed.
Lemma units_nonempty c v t : t <> [] -> 0 < quantum c -> text_units c v t <> [].
Proof.
  intros Ht Q E. unfold text_units in E. cbv zeta in E. apply app_eq_nil in E. destruct E as [E1 E2].
  destruct (digits_in v t) as [|d ds] eqn:D.
  - cbn [length] in E2. rewrite Nat.mod_0_l in E2 by lia. cbn in E2.
    assert (X : v (last t 0%N) = None).
    { destruct t as [|ch t _] using rev_ind; [congruence|]. rewrite digits_in_app in D. apply app_eq_nil in D. destruct D as [_ D].
      rewrite last_app_ne by discriminate. cbn [last]. unfold digits_in in D. cbn [flat_map] in D. destruct (v ch); [discriminate|reflexivity]. }
    rewrite X in E2. discriminate.
  - cbn [length SBaseText.pieces map] in E1. discriminate.
Qed.
Lemma firstn_exact {A} (x y : list A) : firstn (length x) (x ++ y) = x.
Proof. rewrite firstn_app, firstn_all, Nat.sub_diag, firstn_O, app_nil_r. reflexivity. Qed.
Lemma upto_nul_short l : length (upto_nul l) = length l -> upto_nul l = l.
Proof. induction l as [|b l IH]; [reflexivity|]. cbn [upto_nul]. destruct (b =? 0)%N; [discriminate|]. cbn [length]. intros E. f_equal. apply IH. lia. Qed.

(** Decoding two texts that follow each other, the first one of whole groups, is the bytes of all its groups followed by
    what the second decodes to. That is the concatenation of the two results exactly when the first result is not cut
    short at a zero byte. *)
Theorem C68_decode_chunks : forall a s t out out1 out2 n n1 n2 o o1 o2,
  whole_groups a s -> t <> [] ->
  unit_space a (length (s ++ t)) + 1 <= length out -> unit_space a (length s) + 1 <= length out1 -> unit_space a (length t) + 1 <= length out2 ->
  decode a (s ++ t) out = Ret (n, o) -> decode a s out1 = Ret (n1, o1) -> decode a t out2 = Ret (n2, o2) ->
  let full := octets (coding a) * (digit_count a s / quantum (coding a)) in
  n = full + n2 /\ skipn full (firstn n o) = firstn n2 o2 /\ firstn n1 o = firstn n1 o1 /\
  (firstn n o = firstn n1 o1 ++ firstn n2 o2 <-> n1 = full).
Proof.
  intros a s t out out1 out2 n n1 n2 o o1 o2 W Ht L L1 L2 E E1 E2 full.
  assert (Hs : s <> []) by apply W. assert (Q : 0 < quantum (coding a)) by (destruct a; cbn; lia).
  destruct (C63_any_text a (s ++ t) out ltac:(intros X; apply app_eq_nil in X; tauto) L) as (tl & D).
  destruct (C63_any_text a s out1 Hs L1) as (tl1 & D1). destruct (C63_any_text a t out2 Ht L2) as (tl2 & D2).
  rewrite D in E. rewrite D1 in E1. rewrite D2 in E2. clear D D1 D2 L L1 L2.
  injection E as <- <-. injection E1 as <- <-. injection E2 as <- <-.
  rewrite !firstn_exact.
  assert (F : text_bytes (coding a) (value_of a) (s ++ t) = concat (text_units (coding a) (value_of a) s) ++ text_bytes (coding a) (value_of a) t).
  { unfold text_bytes. cbv zeta. rewrite (whole_units a s t W Ht). pose proof (units_nonempty (coding a) (value_of a) t Ht Q) as U.
    rewrite removelast_app, last_app_ne by exact U. rewrite concat_app, <- app_assoc. reflexivity. }
  assert (FL : length (concat (text_units (coding a) (value_of a) s)) = full).
  { destruct W as (_ & M & V). unfold text_units. cbv zeta.
    assert (X : (match value_of a (last s 0%N) with Some _ => false | None => true end) = false) by (destruct (value_of a (last s 0%N)); [reflexivity|congruence]).
    rewrite X, Bool.andb_false_r, app_nil_r, units_concat_length. unfold full. f_equal. unfold digit_count in *.
    apply pieces_count; [exact Q|]. pose proof (Nat.div_mod_eq (length (digits_in (value_of a) s)) (quantum (coding a))) as DM. rewrite M, Nat.add_0_r in DM. rewrite DM at 1. apply Nat.mul_comm. }
  assert (G : concat (text_units (coding a) (value_of a) s) = concat (removelast (text_units (coding a) (value_of a) s)) ++ last (text_units (coding a) (value_of a) s) []).
  { pose proof (units_nonempty (coding a) (value_of a) s Hs Q) as U. rewrite (app_removelast_last [] U) at 1. rewrite concat_app. cbn [concat]. rewrite app_nil_r. reflexivity. }
  set (us := text_units (coding a) (value_of a) s) in *.
  assert (P : text_bytes (coding a) (value_of a) s = concat (removelast us) ++ upto_nul (last us [])) by reflexivity.
  assert (PX : exists r, concat us = text_bytes (coding a) (value_of a) s ++ r /\ (r = [] <-> length (text_bytes (coding a) (value_of a) s) = full)).
  { assert (UP : exists r, last us [] = upto_nul (last us []) ++ r).
    { generalize (last us []). induction l as [|b l IH]; [exists []; reflexivity|]. cbn [upto_nul]. destruct (b =? 0)%N; [exists (b :: l); reflexivity|].
      destruct IH as (r & R). exists r. cbn [app]. congruence. }
    destruct UP as (r & UP). exists r. rewrite G, P. split; [rewrite <- app_assoc, <- UP; reflexivity|].
    rewrite G in FL. rewrite UP in FL. rewrite <- FL, !app_length. split; [intros ->; cbn; lia|]. intros X. destruct r; [reflexivity|cbn [length] in X; lia]. }
  destruct PX as (r & PX & RX). rewrite F. repeat split.
  - rewrite app_length, FL. reflexivity.
  - rewrite <- FL, skipn_app, skipn_all, Nat.sub_diag. reflexivity.
  - rewrite PX, <- !app_assoc. apply firstn_exact.
  - intros X. rewrite PX in X. apply RX. rewrite <- app_assoc in X. apply app_inv_head in X. destruct r as [|b r]; [reflexivity|].
    apply (f_equal (@length N)) in X. rewrite app_length in X. cbn [length] in X. lia.
  - intros X. apply RX in X. rewrite PX, X, app_nil_r. reflexivity.
Qed.
Print Assumptions C68_decode_chunks.
(** violation: base64 text decoded in pieces of whole groups does not give the data back *)
Theorem C68_decode_chunks_refuted : exists s t, whole_groups B64 s /\ t <> [] /\
  exists o o1 o2, decode_base64 (s ++ t) (repeat 0%N 7) = Ret (6, o) /\ decode_base64 s (repeat 0%N 7) = Ret (1, o1) /\ decode_base64 t (repeat 0%N 7) = Ret (3, o2) /\
  firstn 6 o = [1; 0; 2; 3; 4; 5]%N /\ firstn 1 o1 ++ firstn 3 o2 = [1; 3; 4; 5]%N.
Proof.
  exists (chars "AQAC"), (chars "AwQF"). split; [|split; [discriminate|]].
  - split; [discriminate|]. split; [reflexivity|]. vm_compute. discriminate.
  - do 3 eexists. repeat split; vm_compute; reflexivity.
Qed.
Print Assumptions C68_decode_chunks_refuted.
Example C68_nonvacuous :
  whole_groups B64 (chars "Zm9v" ++ [10%N] ++ chars "YmFy") /\ chars "foo" ++ chars "ba" = chars "fooba" /\ length (chars "foo") mod octets Base64 = 0 /\
  (exists o, encode_base64 wide (chars "fooba") (repeat 7%N 10) = Ret (8, o)) /\
  decode_base64 (chars "Zm9v" ++ chars "YmE=") (repeat 7%N 8) = Ret (5, chars "fooba" ++ [0; 7; 7]%N).
Proof.
  repeat split; try (vm_compute; reflexivity); try (vm_compute; discriminate). eexists. vm_compute. reflexivity.
Qed.

(** ** C69: sort order *)
Lemma num_cons w d l : digits_value w (d :: l) = (d * 2 ^ N.of_nat (length l * w) + digits_value w l)%N.
Proof.
  unfold digits_value. cbn [fold_left]. rewrite N.mul_0_l, N.add_0_l. revert d. induction l as [|e l IH] using rev_ind; intros d.
  - cbn. lia.
  - rewrite !fold_left_app. cbn [fold_left]. rewrite (IH d), app_length. cbn [length].
    replace (N.of_nat ((length l + 1) * w)) with (N.of_nat (length l * w) + N.of_nat w)%N by lia. rewrite N.pow_add_r. lia.
Qed.
Lemma num_lt w l : Forall (fun v => (v < 2 ^ N.of_nat w)%N) l -> (digits_value w l < 2 ^ N.of_nat (length l * w))%N.
Proof.
  induction 1 as [|d l Hd Hl IH]; [cbn; lia|]. rewrite num_cons. cbn [length].
  replace (N.of_nat (S (length l) * w)) with (N.of_nat w + N.of_nat (length l * w))%N by lia. rewrite N.pow_add_r. nia.
Qed.
Lemma before_num w : forall x y, length x = length y -> Forall (fun v => (v < 2 ^ N.of_nat w)%N) x -> Forall (fun v => (v < 2 ^ N.of_nat w)%N) y ->
  (before x y <-> (digits_value w x < digits_value w y)%N).
Proof.
  induction x as [|a x IH]; intros [|b y] L Fx Fy; try discriminate.
  - cbn. split; [tauto|lia].
  - inversion Fx as [|? ? Ha Fx']; inversion Fy as [|? ? Hb Fy']; subst. cbn [before]. cbn [length] in L. apply Nat.succ_inj in L.
    rewrite !num_cons, (IH y L Fx' Fy'), <- L. pose proof (num_lt w x Fx') as Bx. pose proof (num_lt w y Fy') as By. rewrite <- L in By.
    set (P := (2 ^ N.of_nat (length x * w))%N) in *. clearbody P. set (u := digits_value w x) in *. set (v := digits_value w y) in *. clearbody u v. clear - Bx By.
    split; [intros [A|[-> A]]; nia|]. intros A. destruct (N.lt_trichotomy a b) as [B|[B|B]]; [auto| |exfalso; nia]. right. subst. split; [reflexivity|nia].
Qed.
Lemma be_num x : be_value x = digits_value 8 x.
Proof. unfold be_value, digits_value. change (2 ^ N.of_nat 8)%N with 256%N. generalize 0%N. induction x as [|b x IH]; intros v; [reflexivity|]. cbn [fold_left]. rewrite IH. f_equal. lia. Qed.

Lemma before_app x y : forall x1 y1, length x1 = length y1 -> (before (x1 ++ x) (y1 ++ y) <-> before x1 y1 \/ (x1 = y1 /\ before x y)).
Proof.
  induction x1 as [|a x1 IH]; intros [|b y1] L; try discriminate.
  - cbn. tauto.
  - cbn [app before]. cbn [length] in L. rewrite IH by lia. split; [intros [A|[-> [A|[-> A]]]]; auto|intros [[A|[-> A]]|[A B]]; auto].
    injection A as -> ->. auto.
Qed.
Lemma before_map (f : N -> N) (D : N -> Prop) : (forall a b, D a -> D b -> ((a < b)%N <-> (f a < f b)%N)) ->
  forall x y, Forall D x -> Forall D y -> (before (map f x) (map f y) <-> before x y).
Proof.
  intros H. assert (E : forall a b, D a -> D b -> (f a = f b <-> a = b)).
  { intros a b Da Db. split; [|congruence]. intros X. pose proof (H a b Da Db). pose proof (H b a Db Da). lia. }
  induction x as [|a x IH]; intros [|b y] Fx Fy; cbn [map before]; try tauto.
  inversion Fx; inversion Fy; subst. rewrite (IH y), <- (H a b), (E a b) by assumption. tauto.
Qed.

(** the alphabets of base16 and base32hex are in ascending order *)
Definition ordered_alphabet (a : api) : bool := match a with B16 | B32hex => true | _ => false end.
Lemma alphabet_mono a : ordered_alphabet a = true -> forall u v, (u < 2 ^ N.of_nat (bit_size (params a)))%N -> (v < 2 ^ N.of_nat (bit_size (params a)))%N ->
  ((u < v)%N <-> (sym_of (coding a) u < sym_of (coding a) v)%N).
Proof.
  intros O u v Hu Hv.
  assert (X : (u <? v)%N = (sym_of (coding a) u <? sym_of (coding a) v)%N).
  { assert (Z : Forall (fun i => Forall (fun j => (N.of_nat i <? N.of_nat j)%N = (sym_of (coding a) (N.of_nat i) <? sym_of (coding a) (N.of_nat j))%N) (seq 0 (2 ^ bit_size (params a)))) (seq 0 (2 ^ bit_size (params a)))).
    { assert (Z : forallb (fun i => forallb (fun j => Bool.eqb (N.of_nat i <? N.of_nat j)%N (sym_of (coding a) (N.of_nat i) <? sym_of (coding a) (N.of_nat j))%N) (seq 0 (2 ^ bit_size (params a)))) (seq 0 (2 ^ bit_size (params a))) = true).
      { destruct a; try discriminate; vm_compute; reflexivity. }
      rewrite forallb_forall in Z. apply Forall_forall. intros i Hi. specialize (Z i Hi). rewrite forallb_forall in Z. apply Forall_forall. intros j Hj. apply Bool.eqb_prop, Z, Hj. }
    assert (P : N.of_nat (2 ^ bit_size (params a)) = (2 ^ N.of_nat (bit_size (params a)))%N) by (rewrite Nat2N.inj_pow; reflexivity).
    rewrite Forall_forall in Z. specialize (Z (N.to_nat u) ltac:(apply in_seq; lia)). rewrite Forall_forall in Z. specialize (Z (N.to_nat v) ltac:(apply in_seq; lia)).
    rewrite !N2Nat.id in Z. exact Z. }
  pose proof (N.ltb_spec u v). pose proof (N.ltb_spec (sym_of (coding a) u) (sym_of (coding a) v)) as K. rewrite <- X in K.
  destruct (u <? v)%N; inversion H; inversion K; lia.
Qed.

Lemma vals_order_same a x y : length x = length y -> length x mod octets (coding a) = 0 -> bytes_ok x -> bytes_ok y ->
  (before (vals (bit_size (params a)) x) (vals (bit_size (params a)) y) <-> before x y).
Proof.
  intros L M Bx By. params_facts a. set (w := bit_size (params a)) in *.
  assert (Hw : 0 < w) by lia.
  assert (K : exists k, 8 * length x = k * w).
  { rewrite octets_eq in M. apply Nat.mod_divides in M; [|lia]. destruct M as (k & K). exists (k * chunk_count (params a)). rewrite K. nia. }
  destruct K as (k & K).
  rewrite (before_num w) by (rewrite ?vals_length by exact Hw; auto using vals_lt). rewrite (before_num 8 x y L) by (eapply Forall_impl; [|eassumption]; intros b Hb; exact Hb).
  assert (V : forall z, 8 * length z = k * w -> bytes_ok z -> digits_value w (vals w z) = digits_value 8 z).
  { intros z Kz Bz. unfold vals, bit_groups. cbv zeta. rewrite (digits_value_groups w Hw k) by (rewrite ?flat_bits_length; lia). rewrite bits_value_bytes by exact Bz. apply be_num. }
  rewrite !V by (try assumption; lia). reflexivity.
Qed.
Lemma before_irrefl x : ~ before x x.
Proof. induction x as [|a x IH]; cbn; [tauto|]. intros [A|[_ A]]; [lia|tauto]. Qed.
Lemma before_nil_iff x : before [] x <-> x <> [].
Proof. destruct x; cbn; split; congruence || tauto. Qed.
Lemma before_nil_r x : ~ before x []. Proof. destruct x; cbn; tauto. Qed.
Lemma vals_nil w x : 0 < w -> vals w x = [] <-> x = [].
Proof.
  intros Hw. split; [|intros ->; reflexivity]. intros E. apply (f_equal (@length N)) in E. rewrite vals_length in E by exact Hw.
  destruct x as [|b x]; [reflexivity|]. cbn [length] in E. exfalso. assert (1 <= (8 * S (length x) + w - 1) / w) by (apply Nat.div_le_lower_bound; lia). lia.
Qed.
Lemma vals_order a x y : length x mod octets (coding a) = 0 -> length y mod octets (coding a) = 0 -> bytes_ok x -> bytes_ok y ->
  (before (vals (bit_size (params a)) x) (vals (bit_size (params a)) y) <-> before x y).
Proof.
  intros Mx My Bx By. params_facts a. set (w := bit_size (params a)) in *. assert (Hw : 0 < w) by lia.
  assert (O0 : octets (coding a) <> 0) by (rewrite octets_eq; lia).
  assert (S : forall F z, length F mod octets (coding a) = 0 -> vals w (F ++ z) = vals w F ++ vals w z).
  { intros F z M. apply Nat.mod_divides in M; [|exact O0]. destruct M as (k & M). apply (vals_app_full _ _ _ _ (api_codec a) F z k). rewrite M, octets_eq. apply Nat.mul_comm. }
  assert (VI : forall F G, length F = length G -> length F mod octets (coding a) = 0 -> bytes_ok F -> bytes_ok G -> vals w F = vals w G -> F = G).
  { intros F G LFG M BF BG E. destruct (vals_order_same a F G LFG M BF BG) as [_ A]. destruct (vals_order_same a G F ltac:(lia) ltac:(congruence) BG BF) as [_ B].
    fold w in A, B. rewrite E in A, B.
    assert (T : digits_value 8 F = digits_value 8 G).
    { destruct (N.lt_trichotomy (digits_value 8 F) (digits_value 8 G)) as [X|[X|X]]; [|exact X|]; exfalso.
      - apply (before_irrefl (vals w G)), A. apply (before_num 8); auto; (eapply Forall_impl; [|eassumption]; intros b Hb; exact Hb).
      - apply (before_irrefl (vals w G)), B. apply (before_num 8); auto; (eapply Forall_impl; [|eassumption]; intros b Hb; exact Hb). }
    clear - T LFG BF BG. revert G LFG BG T. induction F as [|f F IH]; intros [|g G] L BG T; try discriminate; [reflexivity|].
    inversion BF as [|? ? Hf BF']; inversion BG as [|? ? Hg BG']; subst. rewrite !num_cons in T. cbn [length] in L. apply Nat.succ_inj in L. rewrite <- L in T.
    pose proof (num_lt 8 F BF') as X. pose proof (num_lt 8 G BG') as Y. rewrite <- L in Y.
    assert (f = g /\ digits_value 8 F = digits_value 8 G) as [-> T'].
    { revert T X Y. generalize (2 ^ N.of_nat (length F * 8))%N. intros P T X Y.
      assert (f = g) as <- by (destruct (N.lt_trichotomy f g) as [C|[C|C]]; [exfalso; nia|exact C|exfalso; nia]). split; [reflexivity|lia]. }
    f_equal. apply IH; assumption. }
  assert (LEN : forall u v, length u mod octets (coding a) = 0 -> length v mod octets (coding a) = 0 -> length u <= length v -> bytes_ok u -> bytes_ok v ->
     exists v1 v2, v = v1 ++ v2 /\ length v1 = length u /\ bytes_ok v1 /\ (v2 = [] <-> length u = length v)).
  { intros u v Mu Mv L Bu Bv. exists (firstn (length u) v), (skipn (length u) v). rewrite firstn_skipn. repeat split.
    - rewrite firstn_length. lia.
    - rewrite <- (firstn_skipn (length u) v) in Bv. apply Forall_app in Bv. exact (proj1 Bv).
    - intros E. apply (f_equal (@length N)) in E. rewrite skipn_length in E. cbn in E. lia.
    - intros E. apply skipn_all2. lia. }
  destruct (Nat.le_ge_cases (length x) (length y)) as [L|L].
  - destruct (LEN x y Mx My L Bx By) as (y1 & y2 & -> & L1 & B1 & E2).
    rewrite S by congruence. rewrite <- (app_nil_r x) at 2. rewrite <- (app_nil_r (vals w x)).
    rewrite (before_app [] y2 x y1) by congruence. rewrite before_app by (rewrite !vals_length by exact Hw; congruence).
    assert (Q : before (vals w x) (vals w y1) <-> before x y1) by (apply vals_order_same; congruence || assumption). rewrite Q. rewrite !before_nil_iff. rewrite (vals_nil w y2 Hw).
    split; [intros [A|[A B]]; [auto|right; split; [apply VI; congruence || assumption|exact B]]|intros [A|[A B]]; [auto|right; split; [congruence|exact B]]].
  - destruct (LEN y x My Mx L By Bx) as (x1 & x2 & -> & L1 & B1 & E2).
    rewrite S by congruence. rewrite <- (app_nil_r y) at 2. rewrite <- (app_nil_r (vals w y)).
    rewrite (before_app x2 [] x1 y) by congruence. rewrite before_app by (rewrite !vals_length by exact Hw; congruence).
    assert (Q : before (vals w x1) (vals w y) <-> before x1 y) by (apply vals_order_same; congruence || assumption). rewrite Q.
    pose proof (before_nil_r x2). pose proof (before_nil_r (vals w x2)). tauto.
Qed.

(** C69: base16 texts, and base32hex texts of whole units, sort like the data *)
Theorem C69_sort_order : forall a st st' x y out out2 n o n2 o2, ordered_alphabet a = true ->
  slack a st -> slack a st' -> bytes_ok x -> bytes_ok y -> length x mod octets (coding a) = 0 -> length y mod octets (coding a) = 0 ->
  length (rfc_encode (coding a) x) < length out -> length (rfc_encode (coding a) y) < length out2 ->
  encode a st x out = Ret (n, o) -> encode a st' y out2 = Ret (n2, o2) ->
  (before (firstn n o) (firstn n2 o2) <-> before x y).
Proof.
  intros a st st' x y out out2 n o n2 o2 O S S' Bx By Mx My L L2 E E2.
  rewrite <- (text_length_eq _ _ _ _ (api_compat a)) in L. rewrite <- (text_length_eq _ _ _ _ (api_compat a)) in L2.
  rewrite C06_encode_text in E by auto. rewrite C06_encode_text in E2 by auto. injection E as <- <-. injection E2 as <- <-.
  rewrite !firstn_exact.
  assert (T : forall z, length z mod octets (coding a) = 0 -> lib_text (coding a) z = map (sym_of (coding a)) (vals (bit_size (params a)) z)).
  { intros z M. rewrite (proj2 (conform_iff _ _ _ (api_compat a) z)) by (left; rewrite <- octets_eq; exact M).
    unfold rfc_encode. rewrite rfc_data_vals. rewrite (cw _ _ _ (api_compat a)). rewrite <- (app_nil_r (map _ _)) at 2. f_equal.
    unfold rfc_padding. cbv zeta. assert (O0 : octets (coding a) <> 0) by (destruct a; discriminate). apply Nat.mod_divides in M; [|exact O0]. destruct M as (k & M).
    rewrite (rfc_data_length_full _ _ _ (api_compat a) z k) by (rewrite M, octets_eq; apply Nat.mul_comm).
    rewrite quantum_eq. params_facts a. rewrite Nat.mod_mul, Nat.sub_0_r, Nat.mod_same by lia. reflexivity. }
  rewrite !T by assumption. params_facts a. rewrite (before_map _ (fun v => (v < 2 ^ N.of_nat (bit_size (params a)))%N)); [apply vals_order; assumption| | |].
  - intros u v. apply alphabet_mono. exact O.
  - apply vals_lt. lia.
  - apply vals_lt. lia.
Qed.
Print Assumptions C69_sort_order.
(** violation: base32hex texts of partial units, even of equal length, do not; the RFC texts of the same data do *)
Theorem C69_sort_order_refuted : forall st, slack B32hex st -> exists o o2,
  encode_base32hex st [1; 0]%N (repeat 0%N 9) = Ret (8, o) /\ encode_base32hex st [1; 1]%N (repeat 0%N 9) = Ret (8, o2) /\
  before [1; 0]%N [1; 1]%N /\ ~ before (firstn 8 o) (firstn 8 o2) /\ before (rfc_encode Base32hex [1; 0]%N) (rfc_encode Base32hex [1; 1]%N).
Proof.
  intros st S. do 2 eexists.
  assert (B : forall v, (v < 256)%N -> bytes_ok [1; v]%N) by (intros v Hv; repeat constructor; exact Hv).
  split; [apply (C06_encode_text B32hex st [1; 0]%N); [exact S|apply B; reflexivity|vm_compute; lia]|].
  split; [apply (C06_encode_text B32hex st [1; 1]%N); [exact S|apply B; reflexivity|vm_compute; lia]|].
  split; [cbn; right; split; [reflexivity|left; reflexivity]|]. split.
  - vm_compute. intros [A|[_ [A|[_ [A|[A _]]]]]]; discriminate.
  - vm_compute. right. split; [reflexivity|]. right. split; [reflexivity|]. right. split; [reflexivity|]. left. reflexivity.
Qed.
Print Assumptions C69_sort_order_refuted.
Example C69_nonvacuous :
  before (chars "foo") (chars "fop") /\ before (chars "ab") (chars "abc") /\ ~ before (chars "abc") (chars "abc") /\
  length (chars "fooba") mod octets Base32hex = 0 /\ before (rfc_encode Base32hex (chars "fooba")) (rfc_encode Base32hex (chars "foobz")).
Proof.
  repeat split; try (vm_compute; reflexivity).
  - vm_compute. auto 10.
  - vm_compute. auto 10.
  - apply before_irrefl.
  - vm_compute. repeat (first [left; reflexivity | right; split; [reflexivity|]]).
Qed.
