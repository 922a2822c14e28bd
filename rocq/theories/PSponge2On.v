(** Keccak on a machine of either byte order: what the code computes, and the swapped sponge of SEndian.v. *)
From Verif Require Import Base MSha MFront MKeccak MOtp MEndian SFips202 SEndian SHash PWords PSha PKeccak PSponge PSponge2 PEndian PSpongeOn.
From Verif Require SFips180.
Local Open Scope N_scope.
Local Notation pieces := SFips180.pieces.

Section Fips.
Variable ord : order.
Variable lanes : nat.
Hypothesis Hlanes : (1 <= lanes <= 24)%nat.
Notation rb := (8 * lanes)%nat.
Variables (P L : N).
Hypothesis HPL : (P = 2 /\ L = 2) \/ (P = 15 /\ L = 4) \/ (P = 3 /\ L = 2).

Definition final_on (m : list N) : list N := fold_left (absorb1_on ord lanes) (pieces rb (kpad lanes P L m)) (repeat 0 25).
Lemma final_split_on bs r : Forall (fun b => length b = rb) bs -> (length r < rb)%nat ->
  final_on (concat bs ++ r) = absorb1_on ord lanes (fold_left (absorb1_on ord lanes) bs (repeat 0 25)) (r ++ padtail_on P L (rb - length r)).
Proof.
  intros F Hr. destruct (kpad_split lanes Hlanes P L HPL bs r F Hr) as [E F']. unfold final_on. rewrite E, (pieces_full rb) by (auto; lia). rewrite fold_left_app. reflexivity.
Qed.
Lemma final_ok_on m : bytes_ok m -> lanes_ok (final_on m).
Proof.
  intros Hm. assert (Hk : (0 < rb)%nat) by lia. destruct (split_pieces rb Hk m) as (bs & r & -> & F & Hr & _).
  unfold bytes_ok in Hm. rewrite Forall_app in Hm. destruct Hm as [Hb Hb']. apply bytes_concat in Hb.
  rewrite final_split_on by assumption. apply absorb1_ok_on; [apply absorbs_ok_on; [apply zero_ok|exact Hb]|].
  apply Forall_app. split; [exact Hb'|]. apply padtail_bytes_on; auto.
Qed.
Lemma first_squeeze_on m c out n : kfed_on ord lanes (8 * N.of_nat n) P L m c -> bytes_ok m -> (n <= length out)%nat -> 8 * N.of_nat n < 2 ^ 32 ->
  exists c', (keccak_squeeze_on ord) c out = Ret (c', sbytes_on ord lanes (final_on m) 0 n ++ skipn n out) /\ sq_on ord lanes (8 * N.of_nat n) P L (final_on m) n c'.
Proof.
  intros (bs & r & q & -> & F & Hr & Eq & Lq & ->) Hm Hn Hb.
  assert (HL : 0 < L) by (destruct HPL as [[? ->]|[[? ->]|[? ->]]]; lia).
  pose proof (final_ok_on _ Hm) as Hok. rewrite final_split_on in * by assumption.
  set (st := fold_left (absorb1_on ord lanes) bs (repeat 0 25)) in *. set (st' := absorb1_on ord lanes st _) in *.
  unfold keccak_squeeze_on. cbn [outlen aplen apadded kc_on]. destruct (N.eqb_spec L 0); [lia|]. cbn [negb andb].
  (* split the queue *)
  assert (D : exists x z v, q = r ++ x :: z ++ v /\ (length r + 1 + length z = rb)%nat).
  { destruct (skipn (length r) q) as [|x w] eqn:E; [apply (f_equal (@length N)) in E; rewrite skipn_length in E; cbn in E; lia|].
    exists x, (firstn (rb - length r - 1) w), (skipn (rb - length r - 1) w). rewrite firstn_skipn, <- E. split.
    - rewrite <- Eq at 1. symmetry. apply firstn_skipn.
    - apply (f_equal (@length N)) in E. rewrite skipn_length in E. cbn [length] in E. rewrite firstn_length. lia. }
  destruct D as (x & z & v & -> & Lz). cbn [ap kc_on].
  rewrite suffix_absorb_on by auto. cbn [bind kst queue rate inq outlen nr squeezing squeezable ap aplen apadded kc_on].
  fold (kd_on lanes (8 * N.of_nat n) P L st (r ++ P :: z ++ v) (8 * N.of_nat (length r) + L)).
  assert (Lq2 : length (r ++ P :: z ++ v) = 192%nat) by (rewrite app_length in Lq |- *; cbn [length] in Lq |- *; exact Lq).
  rewrite padding_eq_on by auto. cbn [bind]. fold st'.
  assert (S0 : sq_on ord lanes (8 * N.of_nat n) P L st' 0 (ks_on lanes (8 * N.of_nat n) P L st' ((state_to_seq_on ord) st' lanes ++ v) (N.of_nat (64 * lanes)))).
  { exists 0%nat, ((state_to_seq_on ord) st' lanes ++ v), v. split; [lia|]. split; [reflexivity|]. split.
    - rewrite app_length, state_to_seq_on_len by (destruct Hok as [-> _]; lia). rewrite app_length in Lq2. cbn [length] in Lq2. rewrite app_length in Lq2. lia.
    - rewrite N.sub_0_r. reflexivity. }
  destruct (squeeze_loop_eq_on ord lanes Hlanes (8 * N.of_nat n) P L HPL st' Hok (N.to_nat (8 * N.of_nat n / 64) + 2) 0 _ out n 0 S0) as (c' & E & Sq); auto; try lia.
  { intros _. cbn [squeezable ks_on]. rewrite N.eqb_refl, orb_true_r. lia. }
  change (8 * N.of_nat 0) with 0 in E. rewrite Nat.sub_0_r in *. rewrite E. cbn [firstn app]. exists c'. auto.
Qed.
Lemma next_squeeze_on st c out p n : sq_on ord lanes (8 * N.of_nat n) P L st p c -> lanes_ok st -> (n <= length out)%nat -> 8 * N.of_nat n < 2 ^ 32 ->
  exists c', (keccak_squeeze_on ord) c out = Ret (c', sbytes_on ord lanes st p n ++ skipn n out) /\ sq_on ord lanes (8 * N.of_nat n) P L st (p + n) c'.
Proof.
  intros Sq Hok Hn Hb. unfold keccak_squeeze_on.
  destruct (squeeze_loop_eq_on ord lanes Hlanes (8 * N.of_nat n) P L HPL st Hok (N.to_nat (8 * N.of_nat n / 64) + 2) p c out n 0 Sq) as (c' & E & S'); auto; try lia.
  { intros _. destruct (_ || _); lia. }
  destruct Sq as (k & q & v & Hk & Eq & Lq & ->). cbn [outlen aplen apadded squeezing ks_on]. rewrite andb_false_r. cbn [bind squeezing ks_on].
  change (8 * N.of_nat 0) with 0 in E. rewrite Nat.sub_0_r in *. rewrite E. cbn [firstn app]. exists c'. auto.
Qed.

Lemma fed_init_on O c : kshape c -> forall capacity, capacity = N.of_nat (1600 - 64 * lanes) ->
  kfed_on ord lanes O P L [] (keccak_init capacity O P L c).
Proof.
  intros _ capacity ->. unfold keccak_init. set (r := u32 _).
  assert (Er : r = N.of_nat (64 * lanes)).
  { unfold r, u32. replace (1600 + 2 ^ 32 - N.of_nat (1600 - 64 * lanes)) with (N.of_nat (64 * lanes) + 1 * 2 ^ 32) by lia.
    rewrite N.mod_add, N.mod_small by lia. reflexivity. }
  rewrite Er. replace ((1600 <=? N.of_nat (64 * lanes)) || negb (N.of_nat (64 * lanes) mod 64 =? 0)) with false by lia.
  exists [], [], (repeat 0 192). cbn [concat app length]. split; [reflexivity|]. split; [constructor|]. split; [lia|]. split; [reflexivity|].
  split; [apply repeat_length|reflexivity].
Qed.
Lemma fed_inq_on O m c : kfed_on ord lanes O P L m c -> inq c = 8 * N.of_nat (length m mod rb).
Proof.
  intros (bs & r & q & -> & F & Hr & _ & _ & ->). assert (Hk : (0 < rb)%nat) by lia. destruct (last_part_concat rb bs r Hk F Hr) as [_ E].
  rewrite E. reflexivity.
Qed.
Lemma keccak_piece_fine_on O m c p : kfed_on ord lanes O P L m c -> keccak_piece p -> 8 * N.of_nat (length p) < 2 ^ 64 /\ fine_on lanes (inq c) (8 * N.of_nat (length p)).
Proof.
  intros H [_ Hp]. rewrite (fed_inq_on _ _ _ H). pose proof (Nat.mod_upper_bound (length m) rb ltac:(lia)). split; [lia|]. right.
  rewrite N.mod_small by lia. lia.
Qed.
Fixpoint kupdates_on (c : kctx) (ps : list (list N)) : outcome kctx :=
  match ps with [] => Ret c | p :: ps => c <- (keccak_update_on ord) c p ;; kupdates_on c ps end.
Lemma updates_kfed_on O ps : forall m c, kfed_on ord lanes O P L m c -> Forall keccak_piece ps ->
  exists c', kupdates_on c ps = Ret c' /\ kfed_on ord lanes O P L (m ++ concat ps) c'.
Proof.
  induction ps as [|p ps IH]; intros m c H F; [exists c; rewrite app_nil_r; auto|]. inversion F as [|? ? Hp Hps]; subst.
  destruct (keccak_piece_fine_on _ _ _ _ H Hp) as [X Y]. destruct (update_fed_on ord lanes Hlanes O P L m c p H X Y) as (c1 & E1 & H1). cbn [kupdates_on]. rewrite E1. cbn [bind].
  destruct (IH _ _ H1 Hps) as (c2 & E2 & H2). exists c2. split; [exact E2|]. cbn [concat]. rewrite app_assoc. exact H2.
Qed.
Lemma sq_shape_on O st p c : lanes_ok st -> sq_on ord lanes O P L st p c -> kshape c.
Proof. intros Hs (k & q & v & _ & _ & Lq & ->). split; [apply permk_ok_on, Hs|exact Lq]. Qed.

End Fips.

(** ** big-endian: every 8 bytes reversed *)
Lemma pieces_8 bs : Forall (fun b : list N => length b = 8%nat) bs -> pieces 8 (concat bs) = bs.
Proof. intros H. apply (pieces_full 8); [lia|exact H]. Qed.
Lemma swap_concat bs : Forall (fun b : list N => length b = 8%nat) bs -> swap_lanes (concat bs) = concat (map (@rev N) bs).
Proof. intros H. unfold swap_lanes. rewrite pieces_8 by exact H. reflexivity. Qed.
Lemma lanes_split n (l : list N) : length l = (8 * n)%nat -> exists bs, l = concat bs /\ Forall (fun b : list N => length b = 8%nat) bs /\ length bs = n.
Proof.
  revert l. induction n as [|n IH]; intros l H.
  - exists []. destruct l; [auto|discriminate].
  - destruct (IH (skipn 8 l)) as (bs & E & F & Ln). { rewrite skipn_length. lia. }
    exists (firstn 8 l :: bs). cbn [concat length]. rewrite <- E, firstn_skipn, Ln. split; [reflexivity|]. split; [|reflexivity].
    constructor; [rewrite firstn_length; lia|exact F].
Qed.
Lemma rev_8 bs : Forall (fun b : list N => length b = 8%nat) bs -> Forall (fun b : list N => length b = 8%nat) (map (@rev N) bs).
Proof. intros H. apply Forall_map. revert H. apply Forall_impl. intros b E. rewrite rev_length. exact E. Qed.
Lemma swap_len n l : length l = (8 * n)%nat -> length (swap_lanes l) = (8 * n)%nat.
Proof.
  intros H. destruct (lanes_split n l H) as (bs & -> & F & Ln). rewrite swap_concat by exact F.
  rewrite (concat_length_k 8) by (try lia; apply rev_8, F). rewrite map_length. lia.
Qed.
Lemma swap_app n a b : length a = (8 * n)%nat -> forall k, length b = (8 * k)%nat -> swap_lanes (a ++ b) = swap_lanes a ++ swap_lanes b.
Proof.
  intros Ha k Hb. destruct (lanes_split n a Ha) as (x & -> & Fx & _). destruct (lanes_split k b Hb) as (y & -> & Fy & _).
  rewrite <- concat_app, !swap_concat by (auto; apply Forall_app; auto). rewrite map_app. apply concat_app.
Qed.
Lemma swap_bytes_ok l : bytes_ok l -> forall n, length l = (8 * n)%nat -> bytes_ok (swap_lanes l).
Proof.
  intros H n Ln. destruct (lanes_split n l Ln) as (bs & -> & F & _). rewrite swap_concat by exact F. apply bytes_concat in H. apply bytes_concat.
  apply Forall_map. revert H. apply Forall_impl. intros b. apply rev_bytes.
Qed.
Lemma swap_block bs : Forall (fun b : list N => length b = 8%nat) bs -> forall i, (i < length bs)%nat ->
  firstn 8 (skipn (8 * i) (concat bs)) = nth i bs [].
Proof.
  induction 1 as [|b bs Hb _ IH]; intros i Hi; [cbn in Hi; lia|]. cbn [concat]. destruct i as [|i].
  - rewrite Nat.mul_0_r, skipn_O, firstn_app, Hb, Nat.sub_diag, firstn_O, app_nil_r. cbn [nth]. apply firstn_all2. lia.
  - rewrite skipn_app, (skipn_all2 (n := 8 * S i) b) by lia. replace (8 * S i - length b)%nat with (8 * i)%nat by lia. cbn [app nth].
    apply IH. cbn in Hi. lia.
Qed.
Lemma xor_lanes_be st b lanes : length b = (8 * lanes)%nat -> xor_lanes_on BigEndian st b lanes = xor_lanes st (swap_lanes b) lanes.
Proof.
  intros H. destruct (lanes_split lanes b H) as (bs & -> & F & Ln). unfold xor_lanes_on, xor_lanes. apply map_ext. intros i.
  destruct (Nat.ltb_spec i lanes) as [Q|Q]; [|reflexivity]. f_equal. cbn [int_value]. f_equal. rewrite swap_concat by exact F.
  rewrite (swap_block bs F) by lia.
  rewrite (swap_block _ (rev_8 bs F)) by (rewrite map_length; lia). symmetry. apply (map_nth (@rev N) bs [] i).
Qed.
Lemma absorb1_be lanes st b : length b = (8 * lanes)%nat -> absorb1_on BigEndian lanes st b = absorb1 lanes st (swap_lanes b).
Proof. intros H. unfold absorb1_on, absorb1. rewrite xor_lanes_be by exact H. reflexivity. Qed.
Lemma state_to_seq_be A n : state_to_seq_on BigEndian A n = swap_lanes (state_to_seq A n).
Proof.
  unfold state_to_seq_on, state_to_seq. rewrite !flat_map_concat_map.
  rewrite swap_concat by (apply Forall_map, Forall_forall; intros; reflexivity). rewrite map_map. f_equal. apply map_ext. intros v.
  cbn [int_bytes]. rewrite bytes_of_lane_le. reflexivity.
Qed.

Section Be.
Variable lanes : nat.
Hypothesis Hlanes : (1 <= lanes <= 24)%nat.
Notation rb := (8 * lanes)%nat.
Variables (P L : N).
Hypothesis HPL : (P = 2 /\ L = 2) \/ (P = 15 /\ L = 4) \/ (P = 3 /\ L = 2).

Lemma absorbs_be bs : Forall (fun b => length b = rb) bs -> forall st,
  fold_left (absorb1_on BigEndian lanes) bs st = fold_left (absorb1 lanes) (map swap_lanes bs) st.
Proof. induction 1 as [|b bs Hb _ IH]; intros st; [reflexivity|]. cbn [fold_left map]. rewrite absorb1_be by exact Hb. apply IH. Qed.
Lemma swap_blocks bs : Forall (fun b => length b = rb) bs -> swap_lanes (concat bs) = concat (map swap_lanes bs).
Proof.
  induction 1 as [|b bs Hb F IH]; [reflexivity|]. cbn [concat map]. rewrite <- IH.
  apply (swap_app lanes b (concat bs) Hb (length bs * lanes)). rewrite (concat_length_k rb) by (auto; lia). lia.
Qed.
Lemma blocks_len bs : Forall (fun b => length b = rb) bs -> Forall (fun b => length b = rb) (map swap_lanes bs).
Proof. intros H. apply Forall_map. revert H. apply Forall_impl. intros b. apply swap_len. Qed.
Lemma kpad_blocks m : bytes_ok m -> exists bl, kpad lanes P L m = concat bl /\ Forall (fun b => length b = rb) bl /\ Forall bytes_ok bl.
Proof.
  intros Hm. assert (Hk : (0 < rb)%nat) by lia. destruct (split_pieces rb Hk m) as (bs & r & E & F & Hr & _).
  destruct (kpad_split lanes Hlanes P L HPL bs r F Hr) as [EK F']. rewrite <- E in EK. eexists. split; [exact EK|]. split; [exact F'|].
  apply bytes_concat. rewrite <- EK. unfold kpad. apply Forall_app. split; [exact Hm|]. apply padtail_bytes; auto.
Qed.
Lemma absorb_final_be m : bytes_ok m -> absorb (64 * lanes) (bits_of_bytes (swap_lanes (kpad lanes P L m))) = bits_of (final_on BigEndian lanes P L m).
Proof.
  intros Hm. assert (Hk : (0 < rb)%nat) by lia. destruct (kpad_blocks m Hm) as (bl & EK & F & B). unfold absorb, final_on.
  rewrite EK, swap_blocks, (pieces_full rb Hk bl F), absorbs_be by exact F. pose proof (blocks_len bl F) as F'.
  rewrite (split_bits_blocks lanes Hlanes P L HPL); [|exact F'|]. 2:{ rewrite bb_len, (concat_length_k rb Hk _ F'). nia. }
  rewrite absorbs_bits; auto using zero_ok. rewrite Forall_map. apply Forall_forall. intros b Hb. rewrite Forall_forall in B, F.
  apply (swap_bytes_ok b (B b Hb) lanes (F b Hb)).
Qed.
Lemma sbytes_be st k : lanes_ok st -> sbytes_on BigEndian lanes st 0 (k * rb) = swap_lanes (sbytes lanes st 0 (k * rb)).
Proof.
  intros Hs. induction k as [|k IH]; [reflexivity|]. rewrite Nat.mul_succ_l.
  rewrite sbytes_app_on, sbytes_app, IH. assert (LA : length (sbytes lanes st 0 (k * rb)) = (8 * (k * lanes))%nat) by (rewrite sbytes_len; lia).
  rewrite (swap_app (k * lanes) _ (sbytes lanes st (0 + k * rb) rb) LA lanes) by apply sbytes_len. f_equal.
  pose proof (sbytes_block_on BigEndian lanes Hlanes P L HPL st k 0 rb Hs ltac:(lia)) as E1.
  pose proof (sbytes_block lanes Hlanes P L HPL st k 0 rb Hs ltac:(lia)) as E2. rewrite Nat.add_0_r in E1, E2. rewrite Nat.add_0_l, E1, E2, !skipn_O.
  assert (LS : (lanes <= length (permk k st))%nat) by (destruct (permk_ok k st Hs) as [-> _]; lia).
  rewrite !firstn_all2; [apply state_to_seq_be| |].
  - rewrite state_to_seq_len by exact LS. lia.
  - rewrite state_to_seq_on_len by exact LS. lia.
Qed.
Lemma swap_bits_bytes l : bytes_ok l -> swap_lane_bits (bits_of_bytes l) = bits_of_bytes (swap_lanes l).
Proof. intros H. unfold swap_lane_bits. rewrite bytes_of_bits_bytes by exact H. reflexivity. Qed.
Lemma kpad_bytes m : bytes_ok m -> bytes_ok (kpad lanes P L m).
Proof. intros H. unfold kpad. apply Forall_app. split; [exact H|]. apply padtail_bytes; auto. Qed.
Lemma sponge_bytes_be m n : bytes_ok m ->
  bytes_of_bits (sponge_swapped (64 * lanes) (bits_of_bytes m ++ suffix P L) (8 * n)) = sbytes_on BigEndian lanes (final_on BigEndian lanes P L m) 0 n.
Proof.
  intros Hm. assert (Hf : lanes_ok (final_on BigEndian lanes P L m)) by (apply final_ok_on; auto).
  unfold sponge_swapped. rewrite <- pad_bits, swap_bits_bytes, absorb_final_be by auto using kpad_bytes.
  rewrite (squeeze_bytes lanes Hlanes P L HPL), swap_bits_bytes, <- sbytes_be by (auto; apply sbytes_bytes).
  rewrite (firstn_bb lanes Hlanes P L HPL), bytes_of_bits_bytes by (apply bytes_firstn, sbytes_bytes_on).
  assert (Hn : (n <= (8 * n / (64 * lanes) + 1) * rb)%nat) by (pose proof (Nat.div_mod (8 * n) (64 * lanes) ltac:(lia)); pose proof (Nat.mod_upper_bound (8 * n) (64 * lanes) ltac:(lia)); nia).
  replace ((8 * n / (64 * lanes) + 1) * rb)%nat with (n + ((8 * n / (64 * lanes) + 1) * rb - n))%nat by lia.
  rewrite sbytes_app_on, firstn_app, sbytes_len_on, Nat.sub_diag, firstn_O, app_nil_r. apply firstn_all2. rewrite sbytes_len_on. lia.
Qed.
End Be.
