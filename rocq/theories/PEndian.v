(** Lemmas for C84: numbers and their bytes, and the order-dependent parts of Keccak and Blowfish. *)
From Verif Require Import Base MSha MFront MKeccak MHmac MOtp MBlowfish PBlowfish PBlowfish2 PBlowfish3 MEndian SEndian.
From Verif Require SBlowfish.
Local Open Scope N_scope.

(** ** bytes of numbers *)
Lemma le_bytes_4 v : le_bytes 4 v = [v mod 256; v / 2 ^ 8 mod 256; v / 2 ^ 16 mod 256; v / 2 ^ 24 mod 256].
Proof. cbn [le_bytes]. rewrite !N.div_div by lia. reflexivity. Qed.
Lemma le_bytes_8 v : le_bytes 8 v = [v mod 256; v / 2 ^ 8 mod 256; v / 2 ^ 16 mod 256; v / 2 ^ 24 mod 256;
  v / 2 ^ 32 mod 256; v / 2 ^ 40 mod 256; v / 2 ^ 48 mod 256; v / 2 ^ 56 mod 256].
Proof. cbn [le_bytes]. rewrite !N.div_div by lia. reflexivity. Qed.
Lemma le_bytes_length n : forall v, length (le_bytes n v) = n.
Proof. induction n as [|n IH]; intros v; cbn; [reflexivity|]. rewrite IH. reflexivity. Qed.
Lemma le_bytes_ok n : forall v, bytes_ok (le_bytes n v).
Proof. induction n as [|n IH]; intros v; cbn; constructor; [apply N.mod_lt; lia|apply IH]. Qed.
Lemma lane_of_le n : forall v, v < 256 ^ N.of_nat n -> lane_of (le_bytes n v) = v.
Proof.
  induction n as [|n IH]; intros v H; [cbn in *; lia|]. cbn [le_bytes lane_of fold_right].
  change (fold_right _ 0 (le_bytes n (v / 256))) with (lane_of (le_bytes n (v / 256))). rewrite IH.
  - pose proof (N.div_mod v 256 ltac:(lia)). lia.
  - apply N.div_lt_upper_bound; [lia|]. rewrite <- N.pow_succ_r'. rewrite Nat2N.inj_succ in H. exact H.
Qed.
Lemma le_of_lane l : bytes_ok l -> le_bytes (length l) (lane_of l) = l.
Proof.
  induction 1 as [|b l Hb Hl IH]; [reflexivity|]. cbn [length le_bytes lane_of fold_right].
  change (fold_right _ 0 l) with (lane_of l). unfold is_byte in Hb. rewrite (N.mul_comm 256).
  rewrite N.mod_add, N.mod_small by lia. rewrite N.div_add, (N.div_small b), N.add_0_l, IH by lia. reflexivity.
Qed.
Lemma lane_of_lt l : bytes_ok l -> lane_of l < 256 ^ N.of_nat (length l).
Proof.
  induction 1 as [|b l Hb Hl IH]; [cbn; lia|]. cbn [length lane_of fold_right]. change (fold_right _ 0 l) with (lane_of l).
  rewrite Nat2N.inj_succ, N.pow_succ_r'. unfold is_byte in Hb. lia.
Qed.
Lemma int_bytes_length o n v : length (int_bytes o n v) = n.
Proof. destruct o; unfold int_bytes; rewrite ?rev_length; apply le_bytes_length. Qed.
Lemma int_bytes_ok o n v : bytes_ok (int_bytes o n v).
Proof. destruct o; unfold int_bytes, bytes_ok; [|apply Forall_rev]; apply le_bytes_ok. Qed.
Lemma int_value_bytes o n v : v < 256 ^ N.of_nat n -> int_value o (int_bytes o n v) = v.
Proof. intros H. destruct o; unfold int_value, int_bytes; rewrite ?rev_involutive; apply lane_of_le, H. Qed.
Lemma int_bytes_value o l : bytes_ok l -> int_bytes o (length l) (int_value o l) = l.
Proof.
  intros H. destruct o; unfold int_value, int_bytes; [apply le_of_lane, H|]. rewrite <- rev_length at 1. rewrite le_of_lane by (apply Forall_rev, H). apply rev_involutive.
Qed.

(** swapping is reversal *)
Lemma pow256 k : 256 ^ N.of_nat k = 2 ^ (8 * N.of_nat k).
Proof. change 256 with (2 ^ 8). rewrite <- N.pow_mul_r. reflexivity. Qed.
Lemma swap4_lane v : swap_bytes 4 v = lane_of (rev (le_bytes 4 v)).
Proof.
  rewrite le_bytes_4. unfold swap_bytes. cbn [seq map fold_right rev app lane_of].
  change (256 ^ N.of_nat 0) with 1. change (256 ^ N.of_nat 1) with (2 ^ 8). change (256 ^ N.of_nat 2) with (2 ^ 16). change (256 ^ N.of_nat 3) with (2 ^ 24).
  change (256 ^ N.of_nat (4 - 1 - 0)) with (2 ^ 24). change (256 ^ N.of_nat (4 - 1 - 1)) with (2 ^ 16). change (256 ^ N.of_nat (4 - 1 - 2)) with (2 ^ 8).
  change (256 ^ N.of_nat (4 - 1 - 3)) with 1. rewrite N.div_1_r. change (2 ^ 8) with 256. change (2 ^ 16) with 65536. change (2 ^ 24) with 16777216. lia.
Qed.
Lemma swap8_lane v : swap_bytes 8 v = lane_of (rev (le_bytes 8 v)).
Proof.
  rewrite le_bytes_8. unfold swap_bytes. cbn [seq map fold_right rev app lane_of].
  change (256 ^ N.of_nat 0) with 1. change (256 ^ N.of_nat 1) with (2 ^ 8). change (256 ^ N.of_nat 2) with (2 ^ 16). change (256 ^ N.of_nat 3) with (2 ^ 24).
  change (256 ^ N.of_nat 4) with (2 ^ 32). change (256 ^ N.of_nat 5) with (2 ^ 40). change (256 ^ N.of_nat 6) with (2 ^ 48). change (256 ^ N.of_nat 7) with (2 ^ 56).
  change (256 ^ N.of_nat (8 - 1 - 0)) with (2 ^ 56). change (256 ^ N.of_nat (8 - 1 - 1)) with (2 ^ 48). change (256 ^ N.of_nat (8 - 1 - 2)) with (2 ^ 40).
  change (256 ^ N.of_nat (8 - 1 - 3)) with (2 ^ 32). change (256 ^ N.of_nat (8 - 1 - 4)) with (2 ^ 24). change (256 ^ N.of_nat (8 - 1 - 5)) with (2 ^ 16).
  change (256 ^ N.of_nat (8 - 1 - 6)) with (2 ^ 8). change (256 ^ N.of_nat (8 - 1 - 7)) with 1. rewrite N.div_1_r.
  change (2 ^ 8) with 256. change (2 ^ 16) with 65536. change (2 ^ 24) with 16777216. change (2 ^ 32) with 4294967296.
  change (2 ^ 40) with 1099511627776. change (2 ^ 48) with 281474976710656. change (2 ^ 56) with 72057594037927936. lia.
Qed.
Lemma le_swap4 v : le_bytes 4 (swap_bytes 4 v) = rev (le_bytes 4 v).
Proof. rewrite swap4_lane. rewrite <- (le_bytes_length 4 v) at 1. rewrite <- rev_length. apply le_of_lane, Forall_rev, le_bytes_ok. Qed.
Lemma le_swap8 v : le_bytes 8 (swap_bytes 8 v) = rev (le_bytes 8 v).
Proof. rewrite swap8_lane. rewrite <- (le_bytes_length 8 v) at 1. rewrite <- rev_length. apply le_of_lane, Forall_rev, le_bytes_ok. Qed.
Lemma swap4_lt v : swap_bytes 4 v < 2 ^ 32.
Proof. rewrite swap4_lane. pose proof (lane_of_lt (rev (le_bytes 4 v)) (Forall_rev (le_bytes_ok 4 v))) as H. rewrite rev_length, le_bytes_length in H. exact H. Qed.
Lemma swap4_twice v : v < 2 ^ 32 -> swap_bytes 4 (swap_bytes 4 v) = v.
Proof. intros H. rewrite swap4_lane, le_swap4, rev_involutive. apply lane_of_le. exact H. Qed.
Lemma swap8_twice v : v < 2 ^ 64 -> swap_bytes 8 (swap_bytes 8 v) = v.
Proof. intros H. rewrite swap8_lane, le_swap8, rev_involutive. apply lane_of_le. exact H. Qed.

(** ** pairs of 32-bit words *)
Lemma lane_of_app a : forall b, lane_of (a ++ b) = lane_of a + 256 ^ N.of_nat (length a) * lane_of b.
Proof.
  induction a as [|x a IH]; intros b; [change (N.of_nat (length (@nil N))) with 0; rewrite N.pow_0_r; change (lane_of []) with 0; cbn [app]; lia|]. cbn [app lane_of fold_right length].
  change (fold_right _ 0 (a ++ b)) with (lane_of (a ++ b)). change (fold_right _ 0 a) with (lane_of a). rewrite IH, Nat2N.inj_succ, N.pow_succ_r'. ring.
Qed.
Lemma pair_le a b : a < 2 ^ 32 -> b < 2 ^ 32 -> int_value LittleEndian (int_bytes LittleEndian 4 a ++ int_bytes LittleEndian 4 b) = a + 2 ^ 32 * b.
Proof. intros Ha Hb. unfold int_value, int_bytes. rewrite lane_of_app, le_bytes_length, !lane_of_le by assumption. reflexivity. Qed.
Lemma pair_be a b : a < 2 ^ 32 -> b < 2 ^ 32 -> int_value BigEndian (int_bytes BigEndian 4 a ++ int_bytes BigEndian 4 b) = b + 2 ^ 32 * a.
Proof. intros Ha Hb. unfold int_value, int_bytes. rewrite rev_app_distr, !rev_involutive, lane_of_app, le_bytes_length, !lane_of_le by assumption. reflexivity. Qed.
Definition two_at {A} (P : list A -> Prop) (H0 : P []) (H1 : forall a, P [a]) (H2 : forall a b l, P l -> P (a :: b :: l)) : forall l, P l :=
  fix f l := match l with [] => H0 | [a] => H1 a | a :: b :: l => H2 a b l (f l) end.
Lemma paired_le l : Forall (fun w => w < 2 ^ 32) l -> paired LittleEndian l = pair_words l.
Proof.
  induction l as [| |a b l IH] using two_at; intros H; [reflexivity..|]. inversion H as [|? ? Ha H']; subst. inversion H' as [|? ? Hb H'']; subst.
  cbn [paired pair_words]. rewrite pair_le, IH by assumption. reflexivity.
Qed.
Lemma paired_be l : Forall (fun w => w < 2 ^ 32) l -> paired BigEndian l = map swap_halves (pair_words l).
Proof.
  induction l as [| |a b l IH] using two_at; intros H; [reflexivity..|]. inversion H as [|? ? Ha H']; subst. inversion H' as [|? ? Hb H'']; subst.
  cbn [paired pair_words map]. rewrite pair_be, IH by assumption. f_equal. unfold swap_halves.
  rewrite (N.mul_comm _ b), N.mod_add, N.div_add, N.mod_small, N.div_small by (assumption || discriminate). lia.
Qed.

(** ** Keccak, little-endian *)
Lemma bytes_of_lane_le v : bytes_of_lane v = le_bytes 8 v.
Proof.
  rewrite le_bytes_8. unfold bytes_of_lane, u8. cbn [seq map]. rewrite !N.shiftr_div_pow2.
  change (8 * N.of_nat 0) with 0. change (8 * N.of_nat 1) with 8. change (8 * N.of_nat 2) with 16. change (8 * N.of_nat 3) with 24.
  change (8 * N.of_nat 4) with 32. change (8 * N.of_nat 5) with 40. change (8 * N.of_nat 6) with 48. change (8 * N.of_nat 7) with 56.
  rewrite N.div_1_r. reflexivity.
Qed.
Lemma state_to_seq_le A n : state_to_seq_on LittleEndian A n = state_to_seq A n.
Proof. unfold state_to_seq_on, state_to_seq. rewrite !flat_map_concat_map. f_equal. apply map_ext. intros v. symmetry. apply bytes_of_lane_le. Qed.
Lemma k_absorb_le st i n nr : k_absorb_on LittleEndian st i n nr = k_absorb st i n nr.
Proof. reflexivity. Qed.
Lemma absorb_queue_le c : absorb_queue_on LittleEndian c = absorb_queue c.
Proof. reflexivity. Qed.
Lemma bind_ext {A B} (m : outcome A) (k k' : A -> outcome B) : (forall a, k a = k' a) -> bind m k = bind m k'.
Proof. intros H. destruct m; cbn; auto. Qed.
Lemma k_padding_le c : k_padding_on LittleEndian c = k_padding c.
Proof.
  unfold k_padding_on, k_padding. apply bind_ext. intros c1. apply bind_ext. intros q. apply bind_ext. intros c2. rewrite state_to_seq_le. reflexivity.
Qed.
Lemma absorb_blocks_le n : forall st d r nr, absorb_blocks_on LittleEndian n st d r nr = absorb_blocks n st d r nr.
Proof. induction n as [|n IH]; intros; [reflexivity|]. cbn [absorb_blocks absorb_blocks_on]. apply bind_ext. intros s. apply IH. Qed.
Lemma absorb_loop_le n : forall c inp bl i, absorb_loop_on LittleEndian n c inp bl i = absorb_loop n c inp bl i.
Proof.
  induction n as [|n IH]; intros; [reflexivity|]. cbn [absorb_loop absorb_loop_on]. destruct (bl <=? i); [reflexivity|].
  destruct ((inq c =? 0) && (rate c <=? bl) && (i <=? bl - rate c)).
  - cbv zeta. rewrite absorb_blocks_le. apply bind_ext. intros s. apply IH.
  - cbv zeta. apply bind_ext. intros s. apply bind_ext. intros q. apply bind_ext. intros c'.
    destruct (_ =? 0); [apply IH|]. apply bind_ext. intros b. apply bind_ext. intros q'. apply IH.
Qed.
Lemma keccak_absorb_le c inp bl : keccak_absorb_on LittleEndian c inp bl = keccak_absorb c inp bl.
Proof. unfold keccak_absorb_on, keccak_absorb. rewrite absorb_loop_le. reflexivity. Qed.
Lemma squeeze_loop_le n : forall c out bl i, squeeze_loop_on LittleEndian n c out bl i = squeeze_loop n c out bl i.
Proof.
  induction n as [|n IH]; intros; [reflexivity|]. cbn [squeeze_loop squeeze_loop_on]. destruct (bl <=? i); [reflexivity|].
  cbv zeta. rewrite state_to_seq_le. apply bind_ext. intros c'. apply bind_ext. intros s. apply bind_ext. intros o'. apply IH.
Qed.
Lemma keccak_squeeze_le c out : keccak_squeeze_on LittleEndian c out = keccak_squeeze c out.
Proof.
  unfold keccak_squeeze_on, keccak_squeeze. rewrite keccak_absorb_le. cbv zeta. apply bind_ext. intros c1. rewrite k_padding_le. apply bind_ext. intros c2. apply squeeze_loop_le.
Qed.

(** ** Blowfish *)
Lemma F_le c x : F_on LittleEndian c x = F c x.
Proof. unfold F_on, F, int_bytes. rewrite le_bytes_4. cbv zeta. reflexivity. Qed.
Lemma F_be c x : F_on BigEndian c x = F c (swap_bytes 4 x).
Proof.
  rewrite <- F_le. unfold F_on, int_bytes. rewrite le_swap4. reflexivity.
Qed.
Lemma bf_round_le c i d : bf_round_on LittleEndian c i d = bf_round c i d.
Proof. destruct d as [l r]. unfold bf_round_on, bf_round. apply bind_ext. intros p. cbv zeta. rewrite F_le. reflexivity. Qed.
Lemma enc_rounds_le c k : forall i d, enc_rounds_on LittleEndian c k i d = enc_rounds c k i d.
Proof. induction k as [|k IH]; intros; [reflexivity|]. cbn [enc_rounds_on enc_rounds]. rewrite bf_round_le. apply bind_ext. intros d'. apply IH. Qed.
Lemma dec_rounds_le c k : forall d, dec_rounds_on LittleEndian c k d = dec_rounds c k d.
Proof. induction k as [|k IH]; intros; [reflexivity|]. cbn [dec_rounds_on dec_rounds]. rewrite bf_round_le. apply bind_ext. intros d'. apply IH. Qed.
Lemma encrypt_unit_le c d : encrypt_unit_on LittleEndian c d = encrypt_unit c d.
Proof. unfold encrypt_unit_on, encrypt_unit. rewrite enc_rounds_le. reflexivity. Qed.
Lemma decrypt_unit_le c d : decrypt_unit_on LittleEndian c d = decrypt_unit c d.
Proof. unfold decrypt_unit_on, decrypt_unit. rewrite dec_rounds_le. reflexivity. Qed.
Lemma p_loop_le n : forall i c d, p_loop_on LittleEndian n i c d = p_loop n i c d.
Proof.
  induction n as [|n IH]; intros; [reflexivity|]. cbn [p_loop_on p_loop]. rewrite encrypt_unit_le. apply bind_ext. intros d'. apply bind_ext. intros c1.
  apply bind_ext. intros c2. apply IH.
Qed.
Lemma s_inner_le n : forall i j c d, s_inner_on LittleEndian n i j c d = s_inner n i j c d.
Proof.
  induction n as [|n IH]; intros; [reflexivity|]. cbn [s_inner_on s_inner]. rewrite encrypt_unit_le. apply bind_ext. intros d'. apply bind_ext. intros c1.
  apply bind_ext. intros c2. apply IH.
Qed.
Lemma s_outer_le n : forall i c d, s_outer_on LittleEndian n i c d = s_outer n i c d.
Proof. induction n as [|n IH]; intros; [reflexivity|]. cbn [s_outer_on s_outer]. rewrite s_inner_le. apply bind_ext. intros [c' d']. apply IH. Qed.
Lemma blowfish_init_le c mem len : blowfish_init_on LittleEndian c mem len = blowfish_init c mem len.
Proof.
  unfold blowfish_init_on, blowfish_init. cbv zeta. apply bind_ext. intros c1. rewrite p_loop_le. apply bind_ext. intros [c2 d]. rewrite s_outer_le. reflexivity.
Qed.

(** the unit function seen by code that stores the words in little-endian order *)
Definition swapped (d : dword) : dword := (swap_bytes 4 (fst d), swap_bytes 4 (snd d)).
Definition seen (o : order) (d : dword) : dword := match o with LittleEndian => d | BigEndian => swapped d end.
Definition conj_on (o : order) (f : dword -> outcome dword) (d : dword) : outcome dword := d' <- f (seen o d) ;; Ret (seen o d').
Lemma le4_le v : le4 v = le_bytes 4 v.
Proof. rewrite le_bytes_4. reflexivity. Qed.
Lemma unle4_lane a b c d r : unle4 (a :: b :: c :: d :: r) = Ret (lane_of [a; b; c; d]).
Proof.
  unfold unle4, rd. cbn [nth_error bind lane_of fold_right]. f_equal. change (2 ^ 8) with 256. change (2 ^ 16) with 65536. change (2 ^ 24) with 16777216. lia.
Qed.
Lemma value_be4 a b c d : bytes_ok [a; b; c; d] -> lane_of [d; c; b; a] = swap_bytes 4 (lane_of [a; b; c; d]).
Proof. intros H. rewrite swap4_lane. change 4%nat with (length [a; b; c; d]) at 1. rewrite le_of_lane by exact H. reflexivity. Qed.
Lemma unit_call_conj o f u : length u = 8%nat -> bytes_ok u -> unit_call_on o f u = unit_call (conj_on o f) u.
Proof.
  intros L H. destruct u as [|a0 [|a1 [|a2 [|a3 [|a4 [|a5 [|a6 [|a7 [|]]]]]]]]]; try discriminate L. clear L.
  unfold unit_call_on, unit_call. rewrite unle4_lane. change (skipn 4 [a0; a1; a2; a3; a4; a5; a6; a7]) with [a4; a5; a6; a7]. rewrite unle4_lane.
  unfold grab. change (Nat.ltb (length [a0; a1; a2; a3; a4; a5; a6; a7]) 4) with false. change (Nat.ltb (length [a4; a5; a6; a7]) 4) with false. cbn [firstn bind].
  unfold conj_on. assert (Hlo : bytes_ok [a0; a1; a2; a3] /\ bytes_ok [a4; a5; a6; a7]) by (unfold bytes_ok in *; apply (Forall_app _ [a0; a1; a2; a3] [a4; a5; a6; a7]); exact H).
  destruct Hlo as [H1 H2].
  destruct o; cbn [seen int_value swapped fst snd rev app].
  - destruct (f _) as [[l r]| |]; cbn [bind]; try reflexivity. rewrite !le4_le. reflexivity.
  - rewrite (value_be4 a0 a1 a2 a3 H1), (value_be4 a4 a5 a6 a7 H2). destruct (f _) as [[l r]| |]; cbn [bind fst snd]; try reflexivity.
    cbn [seen swapped fst snd]. rewrite !le4_le, !le_swap4. reflexivity.
Qed.
Lemma unit_call_shape f u v : unit_call f u = Ret v -> length v = 8%nat /\ bytes_ok v.
Proof.
  unfold unit_call. destruct (unle4 u) as [r| |]; cbn [bind]; try discriminate. destruct (unle4 (skipn 4 u)) as [l| |]; cbn [bind]; try discriminate.
  destruct (f (l, r)) as [[l' r']| |]; cbn [bind]; try discriminate. intros E. assert (v = le4 r' ++ le4 l') as -> by congruence. split; [reflexivity|]. rewrite !le4_le.
  apply Forall_app. split; apply le_bytes_ok.
Qed.
Lemma wr_shape (l : list N) i b l' : wr l i b = Ret l' -> length l' = length l /\ (bytes_ok l -> is_byte b -> bytes_ok l').
Proof.
  intros E. destruct (Nat.lt_ge_cases i (length l)) as [H|H]; [|rewrite wr_ub in E by lia; discriminate].
  destruct (app_split_at l i H) as (p & x & q & -> & L). rewrite wr_app in E by auto. injection E as <-. split; [rewrite !app_length; reflexivity|].
  intros Hl Hb. unfold bytes_ok in *. apply Forall_app in Hl as [H1 H2]. apply Forall_app. split; [exact H1|]. inversion H2; subst. constructor; assumption.
Qed.
Lemma bf_loop_conj o f input : bytes_ok input -> forall k i u out, length u = 8%nat -> bytes_ok u ->
  bf_loop_on o f input k i u out = bf_loop (conj_on o f) input k i u out /\
  forall u' out', bf_loop (conj_on o f) input k i u out = Ret (u', out') -> length u' = 8%nat /\ bytes_ok u'.
Proof.
  intros Hi. induction k as [|k IH]; intros i u out L H; [split; [reflexivity|]; cbn [bf_loop]; intros u' out' E; injection E as <- <-; auto|].
  cbn [bf_loop bf_loop_on]. destruct (Nat.lt_ge_cases i (length input)) as [Hl|Hg]; [|rewrite rd_ge by lia; cbn [bind]; split; [reflexivity|discriminate]].
  rewrite (rd_lt _ _ 0) by exact Hl. cbn [bind]. assert (Hb : is_byte (nth i input 0)) by (unfold bytes_ok in Hi; rewrite Forall_forall in Hi; apply Hi, nth_In, Hl).
  destruct (wr u (7 - i mod 8) (nth i input 0)) as [u1| |] eqn:E1; cbn [bind]; [|split; [reflexivity|discriminate]..].
  destruct (wr_shape _ _ _ _ E1) as [L1 H1]. specialize (H1 H Hb). rewrite L in L1.
  destruct (Nat.eqb (i mod 8) 7).
  - rewrite (unit_call_conj o f u1 L1 H1). destruct (unit_call (conj_on o f) u1) as [u2| |] eqn:E2; cbn [bind]; [|split; [reflexivity|discriminate]..].
    destruct (unit_call_shape _ _ _ E2) as [L2 H2]. destruct (store_loop 8 (i - 7) u2 out) as [out2| |]; cbn [bind]; [|split; [reflexivity|discriminate]..].
    apply IH; assumption.
  - apply IH; assumption.
Qed.
Lemma bf_generic_conj o f u input out : bytes_ok input -> length u = 8%nat -> bytes_ok u -> bf_generic_on o f u input out = bf_generic (conj_on o f) u input out.
Proof.
  intros Hi L H. unfold bf_generic_on, bf_generic. cbv zeta. destruct (bf_loop_conj o f input Hi (length input) 0 u out L H) as [E S]. rewrite E.
  destruct (bf_loop (conj_on o f) input (length input) 0 u out) as [[u1 out1]| |]; cbn [bind]; [|reflexivity..]. destruct (S u1 out1 eq_refl) as [L1 H1].
  destruct (Nat.eqb _ 0); [reflexivity|].
  destruct (blit u1 0 (repeat 0 (8 - length input mod 8))) as [u2| |] eqn:E2; cbn [bind]; [|reflexivity..].
  assert (Lr : (0 + length (repeat 0%N (8 - length input mod 8)) <= length u1)%nat) by (rewrite repeat_length; lia).
  rewrite (blit_ok u1 _ 0 Lr) in E2. match type of E2 with Ret ?x = Ret _ => assert (u2 = x) as -> by congruence end. clear E2. rewrite unit_call_conj; [reflexivity| |].
  - cbn [firstn app]. rewrite app_length, skipn_length, L1, repeat_length. lia.
  - unfold bytes_ok in *. cbn [firstn app]. apply Forall_app. split; [apply Forall_forall; intros x Hx; apply repeat_spec in Hx; subst; reflexivity|].
    rewrite <- (firstn_skipn (0 + length (repeat 0%N (8 - length input mod 8))) u1) in H1. apply Forall_app in H1. apply H1.
Qed.

(** *** the Feistel network with any round function *)
Section feistel.
  Variable f : N -> N.
  Definition rnd (b : N * N) (p : N) : N * N := let xL := N.lxor (fst b) p in (N.lxor (snd b) (f xL), xL).
  Definition net (K : list N) (b : N * N) : N * N :=
    let '(x, y) := fold_left rnd (firstn 16 K) b in (N.lxor y (nth 17 K 0), N.lxor x (nth 16 K 0)).
  Lemma rnd_back b p q s : rnd (N.lxor (snd (rnd b p)) q, N.lxor (fst (rnd b p)) s) q = (N.lxor (snd b) s, N.lxor (fst b) p).
  Proof.
    destruct b as [l r]. unfold rnd. cbn [fst snd]. cbv zeta. replace (N.lxor (N.lxor (N.lxor l p) q) q) with (N.lxor l p)
      by (rewrite (N.lxor_assoc _ q q), N.lxor_nilpotent, N.lxor_0_r; reflexivity). f_equal.
    rewrite (N.lxor_assoc r), (N.lxor_comm (f (N.lxor l p)) s), <- N.lxor_assoc, N.lxor_assoc, N.lxor_nilpotent, N.lxor_0_r. reflexivity.
  Qed.
  Lemma rnds_back rest : forall k1 k2 b, let K := k1 :: k2 :: rest in let n := length rest in let st := fold_left rnd (firstn n K) b in
    fold_left rnd (rev rest) (N.lxor (snd st) (nth (S n) K 0), N.lxor (fst st) (nth n K 0)) = (N.lxor (snd b) k2, N.lxor (fst b) k1).
  Proof.
    induction rest as [|k3 rest IH]; intros k1 k2 b K n st; [reflexivity|]. specialize (IH k2 k3 (rnd b k1)). cbv zeta in IH.
    cbn [rev]. rewrite fold_left_app. subst K n st. cbn [length firstn fold_left nth] in *. rewrite IH. apply rnd_back.
  Qed.
  Lemma net_back K b : length K = 18%nat -> net (rev K) (net K b) = b.
  Proof.
    intros HK. destruct (list18 K HK) as (k1 & k2 & rest & -> & Hr). pose proof (rnds_back rest k1 k2 b) as E. cbv zeta in E. rewrite Hr in E.
    unfold net. destruct (fold_left rnd (firstn 16 (k1 :: k2 :: rest)) b) as [x y]. cbn [fst snd] in E.
    assert (R : rev (k1 :: k2 :: rest) = rev rest ++ [k2; k1]) by (cbn [rev]; rewrite <- app_assoc; reflexivity).
    rewrite R. rewrite firstn_app, rev_length, Hr, Nat.sub_diag, firstn_O, app_nil_r, (firstn_all2 (n := 16)) by (rewrite rev_length; lia).
    rewrite !app_nth2 by (rewrite rev_length; lia). rewrite rev_length, Hr. change (nth (16 - 16) [k2; k1] 0) with k2. change (nth (17 - 16) [k2; k1] 0) with k1.
    rewrite E. destruct b as [l r]. cbn [fst snd]. f_equal; rewrite N.lxor_assoc, N.lxor_nilpotent, N.lxor_0_r; reflexivity.
  Qed.
  Lemma rnd_ok b p : (forall x, f x < 2 ^ 32) -> dword_ok b -> p < 2 ^ 32 -> dword_ok (rnd b p).
  Proof. intros Hf [H1 H2] Hp. unfold rnd. split; cbn [fst snd]; apply lxor_lt32; auto. Qed.
  Lemma net_ok K b : (forall x, f x < 2 ^ 32) -> words_ok K -> dword_ok b -> dword_ok (net K b).
  Proof.
    intros Hf HK Hb. assert (R : forall ps, words_ok ps -> forall b, dword_ok b -> dword_ok (fold_left rnd ps b)).
    { induction 1 as [|p ps Hp Hps IH]; intros b' Hb'; [exact Hb'|]. cbn [fold_left]. apply IH, rnd_ok; assumption. }
    unfold net. pose proof (R _ (words_firstn 16 K HK) b Hb) as [H1 H2]. destruct (fold_left rnd _ b) as [x y]. cbn [fst snd] in *.
    split; cbn [fst snd]; apply lxor_lt32; auto; apply (word_lt K); exact HK.
  Qed.
End feistel.

(** what F computes in the order [o] *)
Definition F_of (o : order) (c : bf_ctx) (x : N) : N := SBlowfish.F (flat c) (match o with LittleEndian => x | BigEndian => swap_bytes 4 x end).
Lemma F_on_of o c x : shaped c -> F_on o c x = Ret (F_of o c x).
Proof. intros H. destruct o; [rewrite F_le|rewrite F_be]; apply F_flat, H. Qed.
Lemma F_of_lt o c x : F_of o c x < 2 ^ 32.
Proof. unfold F_of, SBlowfish.F. apply N.mod_lt. discriminate. Qed.
Lemma round_of o c i d : shaped c -> (i < 18)%nat -> bf_round_on o c i d = Ret (rnd (F_of o c) d (nth i (bP c) 0)).
Proof.
  intros H Hi. destruct d as [l r]. unfold bf_round_on, rnd. rewrite (rd_lt _ _ 0) by (destruct H; lia). cbn [bind fst snd]. rewrite (F_on_of o c _ H). reflexivity.
Qed.
Lemma enc_rounds_of o c k : shaped c -> forall i d, (i + k <= 18)%nat -> enc_rounds_on o c k i d = Ret (fold_left (rnd (F_of o c)) (firstn k (skipn i (bP c))) d).
Proof.
  intros H. induction k as [|k IH]; intros i d Hk; [reflexivity|]. cbn [enc_rounds_on]. rewrite round_of by (auto; lia). cbn [bind]. rewrite IH by lia.
  rewrite (skipn_nth_cons _ i 0) by (destruct H; lia). reflexivity.
Qed.
Lemma dec_rounds_of o c k : shaped c -> forall d, (k <= 16)%nat -> dec_rounds_on o c k d = Ret (fold_left (rnd (F_of o c)) (rev (firstn k (skipn 2 (bP c)))) d).
Proof.
  intros H. induction k as [|k IH]; intros d Hk; [reflexivity|]. cbn [dec_rounds_on]. rewrite round_of by (auto; lia). cbn [bind]. rewrite IH by lia.
  rewrite (firstn_S_nth _ k 0) by (rewrite skipn_length; destruct H; lia). rewrite rev_app_distr. cbn [rev app fold_left].
  do 3 f_equal. rewrite <- (firstn_skipn 2 (bP c)) at 1. rewrite app_nth2; rewrite firstn_length; destruct H as (-> & _); f_equal; cbn; lia.
Qed.
Lemma encrypt_of o c d : shaped c -> encrypt_unit_on o c d = Ret (net (F_of o c) (bP c) d).
Proof.
  intros H. unfold encrypt_unit_on. rewrite enc_rounds_of by (auto; lia). cbn [bind skipn]. rewrite !(rd_lt _ _ 0) by (destruct H; lia).
  unfold net. destruct (fold_left (rnd (F_of o c)) _ d) as [x y]. reflexivity.
Qed.
Lemma decrypt_of o c d : shaped c -> decrypt_unit_on o c d = Ret (net (F_of o c) (rev (bP c)) d).
Proof.
  intros H. unfold decrypt_unit_on. rewrite dec_rounds_of by (auto; lia). cbn [bind]. rewrite !(rd_lt _ _ 0) by (destruct H; lia).
  unfold net. rewrite rev_firstn_skipn by (apply H). rewrite !rev_nth by (destruct H; lia). destruct H as (-> & _).
  change (18 - 17)%nat with 1%nat. change (18 - 18)%nat with 0%nat. destruct (fold_left (rnd (F_of o c)) _ d) as [x y]. reflexivity.
Qed.
Lemma seen_twice o d : dword_ok d -> seen o (seen o d) = d.
Proof. intros [H1 H2]. destruct o; [reflexivity|]. destruct d as [l r]. unfold seen, swapped. cbn [fst snd] in *. rewrite !swap4_twice by assumption. reflexivity. Qed.
Lemma seen_ok o d : dword_ok d -> dword_ok (seen o d).
Proof. intros H. destruct o; [exact H|]. split; apply swap4_lt. Qed.
Lemma ecb_inverse_ok g h l : (forall d, dword_ok d -> dword_ok (g d)) -> (forall d, dword_ok d -> h (g d) = d) -> bytes_ok l ->
  SBlowfish.ecb h (SBlowfish.ecb g l) = SBlowfish.pad8 l.
Proof.
  intros Hg Hh Hl. destruct (padded_mult (length l)) as (k & E & _).
  pose proof (ecb_length g l) as L. rewrite E in L. rewrite (ecb_full h _ k L). rewrite (ecb_crypted g l k E).
  assert (LP : length (SBlowfish.pad8 l) = (8 * k)%nat) by (rewrite pad8_length; exact E).
  set (bs := SBlowfish.blocks k (SBlowfish.pad8 l)).
  assert (Lk : length (map (fun b => SBlowfish.block_bytes (g (SBlowfish.block_of b))) bs) = k) by (rewrite map_length; apply blocks_length).
  unfold crypted at 2. rewrite <- Lk at 1. rewrite blocks_concat.
  2: { apply Forall_forall. intros b Hb. apply in_map_iff in Hb as (c & <- & _). reflexivity. }
  unfold crypted. rewrite map_map.
  rewrite (map_ext_in _ (fun b => b)).
  - rewrite map_id. apply concat_blocks, LP.
  - intros b Hb.
    pose proof (blocks_each k _ LP) as X1. pose proof (blocks_bytes k _ (pad8_bytes l Hl)) as X2.
    rewrite Forall_forall in X1, X2. specialize (X1 b Hb). specialize (X2 b Hb). pose proof (block_of_ok b X2) as Hok.
    pose proof (Hg _ Hok) as [G1 G2]. rewrite block_of_bytes by assumption. rewrite Hh by exact Hok. apply block_bytes_of; assumption.
Qed.

(** *** the key schedule *)
Lemma net_words o c d : shaped c -> words_ok (flat c) -> dword_ok d -> dword_ok (net (F_of o c) (bP c) d).
Proof. intros H W Hd. apply net_ok; [apply F_of_lt| |exact Hd]. rewrite <- (flat_firstn c H). apply words_firstn, W. Qed.
Lemma p_loop_ok o n : forall k c d, shaped c -> words_ok (flat c) -> dword_ok d -> (k + n <= 9)%nat ->
  exists c' d', p_loop_on o n (2 * k) c d = Ret (c', d') /\ shaped c' /\ words_ok (flat c') /\ dword_ok d'.
Proof.
  induction n as [|n IH]; intros k c d H W Hd Hk; [exists c, d; auto|]. cbn [p_loop_on]. rewrite encrypt_of by exact H. cbn [bind].
  pose proof (net_words o c d H W Hd) as Hd'. destruct (wrP_pair c k (net (F_of o c) (bP c) d) H ltac:(lia)) as (c2 & H2 & F2 & c1 & E1 & E2).
  rewrite E1. cbn [bind]. rewrite E2. cbn [bind]. replace (2 * k + 2)%nat with (2 * S k)%nat by lia.
  apply IH; [exact H2|rewrite F2; apply replace_ok; assumption|exact Hd'|lia].
Qed.
Lemma s_inner_ok o r : (r < 4)%nat -> forall n j c d, shaped c -> words_ok (flat c) -> dword_ok d -> (j + n <= 128)%nat ->
  exists c' d', s_inner_on o n r (2 * j) c d = Ret (c', d') /\ shaped c' /\ words_ok (flat c') /\ dword_ok d'.
Proof.
  intros Hr. induction n as [|n IH]; intros j c d H W Hd Hj; [exists c, d; auto|]. cbn [s_inner_on]. rewrite encrypt_of by exact H. cbn [bind].
  pose proof (net_words o c d H W Hd) as Hd'. destruct (wrS_pair c r j (net (F_of o c) (bP c) d) H Hr ltac:(lia)) as (c2 & H2 & F2 & c1 & E1 & E2).
  rewrite E1. cbn [bind]. rewrite E2. cbn [bind]. replace (2 * j + 2)%nat with (2 * S j)%nat by lia.
  apply IH; [exact H2|rewrite F2; apply replace_ok; assumption|exact Hd'|lia].
Qed.
Lemma s_outer_ok o n : forall r c d, shaped c -> words_ok (flat c) -> dword_ok d -> (r + n <= 4)%nat ->
  exists c' d', s_outer_on o n r c d = Ret (c', d') /\ shaped c' /\ words_ok (flat c') /\ dword_ok d'.
Proof.
  induction n as [|n IH]; intros r c d H W Hd Hr; [exists c, d; auto|]. cbn [s_outer_on].
  destruct (s_inner_ok o r ltac:(lia) 128 0 c d H W Hd ltac:(lia)) as (c1 & d1 & E1 & H1 & W1 & Hd1). change (2 * 0)%nat with 0%nat in E1. rewrite E1. cbn [bind].
  apply IH; auto. lia.
Qed.
Lemma init_on_ok o c key : length (bP c) = 18%nat -> key <> [] -> bytes_ok key ->
  exists c', blowfish_init_on o c key (length key) = Ret c' /\ shaped c' /\ words_ok (flat c').
Proof.
  intros Hc Hne Hb. unfold blowfish_init_on.
  assert (J : 0 = N.of_nat ((4 * 0) mod length key)%nat).
  { rewrite Nat.mul_0_r, Nat.mod_0_l; [reflexivity|destruct key; [congruence|discriminate]]. }
  cbv zeta. pose proof (mix_loop_words key S0 Hne Hb 18 0 [] (bP c) ltac:(lia) ltac:(reflexivity) Hc) as X0. rewrite <- J in X0.
  change ([] ++ bP c) with (bP c) in X0. rewrite X0. cbn [bind].
  change ([] ++ map (fun i => N.lxor (SBlowfish.word SBlowfish.pi_words i) (SBlowfish.key_word key i)) (seq 0 18))
    with (map (fun i => N.lxor (SBlowfish.word SBlowfish.pi_words i) (SBlowfish.key_word key i)) (seq 0 18)).
  set (M := map _ (seq 0 18)).
  assert (H0 : shaped (mkBf M S0)) by (split; [subst M; cbn [bP]; rewrite map_length, seq_length; reflexivity|exact S0_shape]).
  assert (W0 : words_ok (flat (mkBf M S0))).
  { unfold flat. cbn [bP bS]. apply Forall_app. split.
    - apply Forall_forall. intros w Hw. apply in_map_iff in Hw as (i & <- & _). apply lxor_lt32; [apply word_lt, pi_words_ok|apply key_word_lt; assumption].
    - pose proof pi_words_ok as P. rewrite <- tables_eq in P. apply Forall_app in P. apply P. }
  destruct (p_loop_ok o 9 0 _ (0, 0) H0 W0 ltac:(split; reflexivity) ltac:(lia)) as (c1 & d1 & E1 & H1 & W1 & D1). change (2 * 0)%nat with 0%nat in E1.
  rewrite E1. cbn [bind]. destruct (s_outer_ok o 4 0 c1 d1 H1 W1 D1 ltac:(lia)) as (c2 & d2 & E2 & H2 & W2 & D2). rewrite E2. cbn [bind].
  exists c2. auto.
Qed.

(** the mode of operation with equal unit functions *)
Lemma unit_call_ext f g u : (forall d, f d = g d) -> unit_call f u = unit_call g u.
Proof. intros H. unfold unit_call. apply bind_ext. intros r. apply bind_ext. intros l. rewrite H. reflexivity. Qed.
Lemma bf_loop_ext f g input : (forall d, f d = g d) -> forall k i u out, bf_loop f input k i u out = bf_loop g input k i u out.
Proof.
  intros H. induction k as [|k IH]; intros i u out; [reflexivity|]. cbn [bf_loop]. apply bind_ext. intros b. apply bind_ext. intros u1.
  destruct (Nat.eqb _ 7); [|apply IH]. rewrite (unit_call_ext f g) by exact H. apply bind_ext. intros u2. apply bind_ext. intros o2. apply IH.
Qed.
Lemma bf_generic_ext f g u input out : (forall d, f d = g d) -> bf_generic f u input out = bf_generic g u input out.
Proof.
  intros H. unfold bf_generic. cbv zeta. rewrite (bf_loop_ext f g) by exact H. apply bind_ext. intros [u1 o1]. destruct (Nat.eqb _ 0); [reflexivity|].
  apply bind_ext. intros u2. rewrite (unit_call_ext f g) by exact H. reflexivity.
Qed.

(** the key schedule writes the first word once *)
Lemma replace_head W k b : (1 <= k)%nat -> (0 < length W)%nat -> nth 0 (SBlowfish.replace W k b) 0 = nth 0 W 0.
Proof. intros Hk HW. unfold SBlowfish.replace. destruct k as [|k]; [lia|]. destruct W; [cbn in HW; lia|reflexivity]. Qed.
Lemma flat_pos c : shaped c -> (0 < length (flat c))%nat.
Proof. intros H. rewrite flat_length by exact H. lia. Qed.
Lemma p_loop_head o n : forall k c d c' d', shaped c -> (1 <= k)%nat -> (k + n <= 9)%nat -> p_loop_on o n (2 * k) c d = Ret (c', d') ->
  nth 0 (flat c') 0 = nth 0 (flat c) 0 /\ shaped c'.
Proof.
  induction n as [|n IH]; intros k c d c' d' H Hk Hn E; [cbn [p_loop_on] in E; assert (c' = c) as -> by congruence; auto|].
  cbn [p_loop_on] in E. rewrite encrypt_of in E by exact H. cbn [bind] in E.
  destruct (wrP_pair c k (net (F_of o c) (bP c) d) H ltac:(lia)) as (c2 & H2 & F2 & c1 & E1 & E2).
  rewrite E1 in E. cbn [bind] in E. rewrite E2 in E. cbn [bind] in E. replace (2 * k + 2)%nat with (2 * S k)%nat in E by lia.
  apply IH in E; [|exact H2|lia|lia]. rewrite F2, replace_head in E by (auto using flat_pos). exact E.
Qed.
Lemma s_inner_head o r : (r < 4)%nat -> forall n j c d c' d', shaped c -> (j + n <= 128)%nat -> s_inner_on o n r (2 * j) c d = Ret (c', d') ->
  nth 0 (flat c') 0 = nth 0 (flat c) 0 /\ shaped c'.
Proof.
  intros Hr. induction n as [|n IH]; intros j c d c' d' H Hn E; [cbn [s_inner_on] in E; assert (c' = c) as -> by congruence; auto|].
  cbn [s_inner_on] in E. rewrite encrypt_of in E by exact H. cbn [bind] in E.
  destruct (wrS_pair c r j (net (F_of o c) (bP c) d) H Hr ltac:(lia)) as (c2 & H2 & F2 & c1 & E1 & E2).
  rewrite E1 in E. cbn [bind] in E. rewrite E2 in E. cbn [bind] in E. replace (2 * j + 2)%nat with (2 * S j)%nat in E by lia.
  apply IH in E; [|exact H2|lia]. rewrite F2, replace_head in E by (auto using flat_pos; lia). exact E.
Qed.
Lemma s_outer_head o n : forall r c d c' d', shaped c -> (r + n <= 4)%nat -> s_outer_on o n r c d = Ret (c', d') ->
  nth 0 (flat c') 0 = nth 0 (flat c) 0 /\ shaped c'.
Proof.
  induction n as [|n IH]; intros r c d c' d' H Hn E; [cbn [s_outer_on] in E; assert (c' = c) as -> by congruence; auto|].
  cbn [s_outer_on] in E. destruct (s_inner_on o 128 r 0 c d) as [[c1 d1]| |] eqn:E1; cbn [bind] in E; try discriminate.
  change 0%nat with (2 * 0)%nat in E1. destruct (s_inner_head o r ltac:(lia) 128 0 c d c1 d1 H ltac:(lia) E1) as [X1 H1].
  apply IH in E; [|exact H1|lia]. rewrite X1 in E. exact E.
Qed.
Lemma p_loop_S o n i c dp : p_loop_on o (S n) i c dp =
  (dp <- encrypt_unit_on o c dp ;; c <- wrP c i (fst dp) ;; c <- wrP c (i + 1) (snd dp) ;; p_loop_on o n (i + 2) c dp).
Proof. reflexivity. Qed.
Lemma init_on_head o c key c' : length (bP c) = 18%nat -> key <> [] -> bytes_ok key -> blowfish_init_on o c key (length key) = Ret c' ->
  nth 0 (flat c') 0 = let c0 := mkBf (map (fun i => N.lxor (SBlowfish.word SBlowfish.pi_words i) (SBlowfish.key_word key i)) (seq 0 18)) S0 in
    fst (net (F_of o c0) (bP c0) (0, 0)).
Proof.
  intros Hc Hne Hb. unfold blowfish_init_on.
  assert (J : 0 = N.of_nat ((4 * 0) mod length key)%nat).
  { rewrite Nat.mul_0_r, Nat.mod_0_l; [reflexivity|destruct key; [congruence|discriminate]]. }
  cbv zeta. pose proof (mix_loop_words key S0 Hne Hb 18 0 [] (bP c) ltac:(lia) ltac:(reflexivity) Hc) as X0. rewrite <- J in X0.
  change ([] ++ bP c) with (bP c) in X0. rewrite X0. cbn [bind]. clear X0.
  change ([] ++ map (fun i => N.lxor (SBlowfish.word SBlowfish.pi_words i) (SBlowfish.key_word key i)) (seq 0 18))
    with (map (fun i => N.lxor (SBlowfish.word SBlowfish.pi_words i) (SBlowfish.key_word key i)) (seq 0 18)).
  set (M := map _ (seq 0 18)).
  assert (H0 : shaped (mkBf M S0)) by (split; [subst M; cbn [bP]; rewrite map_length, seq_length; reflexivity|exact S0_shape]).
  clearbody M. set (c0 := mkBf M S0) in *. clearbody c0. rewrite (p_loop_S o 8). rewrite encrypt_of by exact H0. cbn [bind].
  set (d := net (F_of o c0) (bP c0) (0, 0)). clearbody d.
  destruct (wrP_pair c0 0 d H0 ltac:(lia)) as (c2 & H2 & F2 & c1 & E1 & E2). change (2 * 0)%nat with 0%nat in E1, E2. rewrite E1. cbn [bind]. rewrite E2. cbn [bind].
  change (0 + 2)%nat with (2 * 1)%nat.
  destruct (p_loop_on o 8 (2 * 1) c2 d) as [[c3 d3]| |] eqn:E3; cbn [bind]; try discriminate.
  apply p_loop_head in E3 as [X3 H3]; [|exact H2|lia|lia].
  destruct (s_outer_on o 4 0 c3 d3) as [[c4 d4]| |] eqn:E4; cbn [bind]; try discriminate.
  apply s_outer_head in E4 as [X4 H4]; [|exact H3|lia]. intros E. assert (c' = c4) as -> by congruence. rewrite X4, X3, F2. reflexivity.
Qed.
