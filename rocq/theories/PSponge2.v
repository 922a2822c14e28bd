(** Keccak: the sponge of the code computes the FIPS 202 functions. *)
From Verif Require Import Base MSha MFront MKeccak SFips202 SHash PWords PSha PKeccak PSponge.
From Verif Require SFips180.
Local Open Scope N_scope.
Local Notation pieces := SFips180.pieces.

Lemma seq_plus k n : forall a, map (fun p => p + k)%nat (seq a n) = seq (a + k) n.
Proof. induction n as [|n IH]; intros a; [reflexivity|]. cbn [seq map]. f_equal. apply IH. Qed.

Section Fips.
Variable lanes : nat.
Hypothesis Hlanes : (1 <= lanes <= 24)%nat.
Notation rb := (8 * lanes)%nat.
Variables (P L : N).
Hypothesis HPL : (P = 2 /\ L = 2) \/ (P = 15 /\ L = 4) \/ (P = 3 /\ L = 2).

Definition kpad (m : list N) : list N := m ++ padtail P L (rb - length m mod rb).
Definition final (m : list N) : list N := fold_left (absorb1 lanes) (pieces rb (kpad m)) (repeat 0 25).

Lemma zero_ok : lanes_ok (repeat 0 25).
Proof. split; [reflexivity|]. apply Forall_forall. intros x Hx. apply repeat_spec in Hx. subst. reflexivity. Qed.

Lemma kpad_split bs r : Forall (fun b => length b = rb) bs -> (length r < rb)%nat ->
  kpad (concat bs ++ r) = concat (bs ++ [r ++ padtail P L (rb - length r)]) /\
  Forall (fun b => length b = rb) (bs ++ [r ++ padtail P L (rb - length r)]).
Proof.
  intros F Hr. assert (Hk : (0 < rb)%nat) by lia. destruct (last_part_concat rb bs r Hk F Hr) as [_ E]. unfold kpad. rewrite E. split.
  - rewrite concat_app. cbn [concat]. rewrite app_nil_r, <- app_assoc. reflexivity.
  - apply Forall_app. split; [exact F|]. constructor; [|constructor]. rewrite app_length, (padtail_len lanes Hlanes P L HPL); lia.
Qed.
Lemma bytes_concat (bs : list (list N)) : bytes_ok (concat bs) <-> Forall bytes_ok bs.
Proof.
  induction bs as [|b bs IH]; [split; constructor|]. cbn [concat]. unfold bytes_ok in *. rewrite Forall_app, IH. split.
  - intros [A B]; constructor; assumption.
  - intros H. inversion H; auto.
Qed.

Lemma final_split bs r : Forall (fun b => length b = rb) bs -> (length r < rb)%nat ->
  final (concat bs ++ r) = absorb1 lanes (fold_left (absorb1 lanes) bs (repeat 0 25)) (r ++ padtail P L (rb - length r)).
Proof.
  intros F Hr. destruct (kpad_split bs r F Hr) as [E F']. unfold final. rewrite E, (pieces_full rb) by (auto; lia). rewrite fold_left_app. reflexivity.
Qed.
Lemma final_ok m : bytes_ok m -> lanes_ok (final m).
Proof.
  intros Hm. assert (Hk : (0 < rb)%nat) by lia. destruct (split_pieces rb Hk m) as (bs & r & -> & F & Hr & _).
  unfold bytes_ok in Hm. rewrite Forall_app in Hm. destruct Hm as [Hb Hb']. apply bytes_concat in Hb.
  rewrite final_split by assumption. apply absorb1_ok; [apply absorbs_ok; [apply zero_ok|exact Hb]|].
  apply Forall_app. split; [exact Hb'|]. apply padtail_bytes; auto.
Qed.

(** ** the code *)
Lemma first_squeeze m c out n : kfed lanes (8 * N.of_nat n) P L m c -> bytes_ok m -> (n <= length out)%nat -> 8 * N.of_nat n < 2 ^ 32 ->
  exists c', keccak_squeeze c out = Ret (c', sbytes lanes (final m) 0 n ++ skipn n out) /\ sq lanes (8 * N.of_nat n) P L (final m) n c'.
Proof.
  intros (bs & r & q & -> & F & Hr & Eq & Lq & ->) Hm Hn Hb.
  assert (HL : 0 < L) by (destruct HPL as [[? ->]|[[? ->]|[? ->]]]; lia).
  pose proof (final_ok _ Hm) as Hok. rewrite final_split in * by assumption.
  set (st := fold_left (absorb1 lanes) bs (repeat 0 25)) in *. set (st' := absorb1 lanes st _) in *.
  unfold keccak_squeeze. cbn [outlen aplen apadded kc]. destruct (N.eqb_spec L 0); [lia|]. cbn [negb andb].
  (* split the queue *)
  assert (D : exists x z v, q = r ++ x :: z ++ v /\ (length r + 1 + length z = rb)%nat).
  { destruct (skipn (length r) q) as [|x w] eqn:E; [apply (f_equal (@length N)) in E; rewrite skipn_length in E; cbn in E; lia|].
    exists x, (firstn (rb - length r - 1) w), (skipn (rb - length r - 1) w). rewrite firstn_skipn, <- E. split.
    - rewrite <- Eq at 1. symmetry. apply firstn_skipn.
    - apply (f_equal (@length N)) in E. rewrite skipn_length in E. cbn [length] in E. rewrite firstn_length. lia. }
  destruct D as (x & z & v & -> & Lz). cbn [ap kc].
  rewrite suffix_absorb by auto. cbn [bind kst queue rate inq outlen nr squeezing squeezable ap aplen apadded kc].
  fold (kd lanes (8 * N.of_nat n) P L st (r ++ P :: z ++ v) (8 * N.of_nat (length r) + L)).
  assert (Lq2 : length (r ++ P :: z ++ v) = 192%nat) by (rewrite app_length in Lq |- *; cbn [length] in Lq |- *; exact Lq).
  rewrite padding_eq by auto. cbn [bind]. fold st'.
  assert (S0 : sq lanes (8 * N.of_nat n) P L st' 0 (ks lanes (8 * N.of_nat n) P L st' (state_to_seq st' lanes ++ v) (N.of_nat (64 * lanes)))).
  { exists 0%nat, (state_to_seq st' lanes ++ v), v. split; [lia|]. split; [reflexivity|]. split.
    - rewrite app_length, state_to_seq_len by (destruct Hok as [-> _]; lia). rewrite app_length in Lq2. cbn [length] in Lq2. rewrite app_length in Lq2. lia.
    - rewrite N.sub_0_r. reflexivity. }
  destruct (squeeze_loop_eq lanes Hlanes (8 * N.of_nat n) P L HPL st' Hok (N.to_nat (8 * N.of_nat n / 64) + 2) 0 _ out n 0 S0) as (c' & E & Sq); auto; try lia.
  { intros _. cbn [squeezable ks]. rewrite N.eqb_refl, orb_true_r. lia. }
  change (8 * N.of_nat 0) with 0 in E. rewrite Nat.sub_0_r in *. rewrite E. cbn [firstn app]. exists c'. auto.
Qed.
Lemma next_squeeze st c out p n : sq lanes (8 * N.of_nat n) P L st p c -> lanes_ok st -> (n <= length out)%nat -> 8 * N.of_nat n < 2 ^ 32 ->
  exists c', keccak_squeeze c out = Ret (c', sbytes lanes st p n ++ skipn n out) /\ sq lanes (8 * N.of_nat n) P L st (p + n) c'.
Proof.
  intros Sq Hok Hn Hb. unfold keccak_squeeze.
  destruct (squeeze_loop_eq lanes Hlanes (8 * N.of_nat n) P L HPL st Hok (N.to_nat (8 * N.of_nat n / 64) + 2) p c out n 0 Sq) as (c' & E & S'); auto; try lia.
  { intros _. destruct (_ || _); lia. }
  destruct Sq as (k & q & v & Hk & Eq & Lq & ->). cbn [outlen aplen apadded squeezing ks]. rewrite andb_false_r. cbn [bind squeezing ks].
  change (8 * N.of_nat 0) with 0 in E. rewrite Nat.sub_0_r in *. rewrite E. cbn [firstn app]. exists c'. auto.
Qed.

(** ** the specification *)
Definition suffix : bits := wordbits (N.to_nat L) P.
Lemma bb_zeros n : bits_of_bytes (repeat 0 n) = repeat false (8 * n).
Proof.
  induction n as [|n IH]; [reflexivity|]. cbn [repeat]. change (bits_of_bytes (0 :: repeat 0 n)) with (byte_bits 0 ++ bits_of_bytes (repeat 0 n)). rewrite IH.
  replace (8 * S n)%nat with (8 + 8 * n)%nat by lia. rewrite repeat_app. reflexivity.
Qed.
Lemma pad_bits m : bits_of_bytes (kpad m) =
  (bits_of_bytes m ++ suffix) ++ pad10star1 (64 * lanes) (length (bits_of_bytes m ++ suffix)).
Proof.
  unfold kpad. rewrite bb_app, <- app_assoc. f_equal. rewrite app_length, bb_len. unfold suffix. rewrite wordbits_len.
  set (k := (length m mod rb)%nat). assert (Hk : (k < rb)%nat) by (apply Nat.mod_upper_bound; lia).
  assert (HL : (N.to_nat L <= 4)%nat) by (destruct HPL as [[? ->]|[[? ->]|[? ->]]]; cbn; lia).
  assert (EM : ((8 * length m + N.to_nat L) mod (64 * lanes) = 8 * k + N.to_nat L)%nat).
  { symmetry. apply (Nat.mod_unique _ _ (length m / rb)); [lia|]. pose proof (Nat.div_mod (length m) rb ltac:(lia)) as D. fold k in D. lia. }
  unfold pad10star1. rewrite EM.
  assert (EZ : ((2 * (64 * lanes) - (8 * k + N.to_nat L) - 2) mod (64 * lanes) = 8 * (rb - k) - N.to_nat L - 2)%nat).
  { assert (HK8 : (8 * k + 8 <= 64 * lanes)%nat) by lia. clear - HK8 HL.
    symmetry. apply (Nat.mod_unique _ _ 1); lia. }
  rewrite EZ. clear EM EZ. unfold padtail. destruct (Nat.eqb_spec (rb - k) 1) as [E1|E1].
  - rewrite E1. destruct HPL as [[-> ->]|[[-> ->]|[-> ->]]]; vm_compute; reflexivity.
  - assert (HJ : exists j, (rb - k = j + 2)%nat) by (exists (rb - k - 2)%nat; lia). destruct HJ as [j EJ]. rewrite EJ, Nat.add_sub.
    change (bits_of_bytes (P + 2 ^ L :: repeat 0 j ++ [128])) with (byte_bits (P + 2 ^ L) ++ bits_of_bytes (repeat 0 j ++ [128])).
    rewrite bb_app, bb_zeros. change (bits_of_bytes [128]) with (repeat false 7 ++ [true]).
    replace (8 * (j + 2) - N.to_nat L - 2)%nat with ((7 - N.to_nat L) + (8 * j + 7))%nat by lia. rewrite !repeat_app.
    destruct HPL as [[-> ->]|[[-> ->]|[-> ->]]]; cbn [app repeat]; rewrite <- ?app_assoc; reflexivity.
Qed.
Lemma split_bits_blocks bs : Forall (fun b => length b = rb) bs ->
  forall fuel, (length bs <= fuel)%nat -> split_bits fuel (64 * lanes) (bits_of_bytes (concat bs)) = map bits_of_bytes bs.
Proof.
  induction 1 as [|b bs Hb _ IH]; intros fuel Hf; [destruct fuel; reflexivity|]. destruct fuel as [|fuel]; [cbn in Hf; lia|].
  cbn [concat map]. rewrite bb_app. assert (LB : length (bits_of_bytes b) = (64 * lanes)%nat) by (rewrite bb_len; lia).
  destruct (bits_of_bytes b) as [|x y] eqn:EB; [cbn in LB; lia|]. cbn [app split_bits].
  change (x :: y ++ bits_of_bytes (concat bs)) with ((x :: y) ++ bits_of_bytes (concat bs)).
  rewrite firstn_app, skipn_app, LB, Nat.sub_diag, firstn_O, app_nil_r, skipn_O. rewrite firstn_all2, skipn_all2 by lia. cbn [app].
  f_equal. apply IH. cbn in Hf. lia.
Qed.
Lemma absorb_final m : bytes_ok m -> absorb (64 * lanes) (bits_of_bytes (kpad m)) = bits_of (final m).
Proof.
  intros Hm. assert (Hk : (0 < rb)%nat) by lia. destruct (split_pieces rb Hk m) as (bs & r & E & F & Hr & _).
  destruct (kpad_split bs r F Hr) as [EK F']. rewrite E in *. set (bl := bs ++ [r ++ padtail P L (rb - length r)]) in *.
  assert (B : Forall bytes_ok bl).
  { apply bytes_concat. rewrite <- EK. unfold kpad. apply Forall_app. split; [exact Hm|]. apply padtail_bytes; auto. }
  unfold absorb, final. rewrite EK, (pieces_full rb Hk bl F').
  rewrite split_bits_blocks; [|exact F'|]. 2:{ rewrite bb_len, (concat_length_k rb Hk bl F'). nia. }
  rewrite absorbs_bits; auto using zero_ok.
Qed.
Lemma sbyte_perm st p : sbyte lanes (k_permutation st 24) p = sbyte lanes st (p + rb).
Proof.
  unfold sbyte. replace (p + rb)%nat with (p + 1 * rb)%nat by lia. rewrite Nat.mod_add, Nat.div_add by lia.
  f_equal. f_equal. unfold permk. replace (p / rb + 1)%nat with (S (p / rb)) by lia. generalize (p / rb)%nat. intros n.
  assert (G : forall (f : list N -> list N) n x, Nat.iter n f (f x) = Nat.iter (S n) f x) by (intros f n0 x; induction n0 as [|n0 IH]; [reflexivity|]; cbn [Nat.iter] in *; unfold Nat.iter in *; cbn in *; rewrite IH; reflexivity).
  apply (G (fun A => k_permutation A 24)).
Qed.
Lemma squeeze_bytes k : forall st, lanes_ok st -> squeeze k (64 * lanes) (bits_of st) = bits_of_bytes (sbytes lanes st 0 (k * rb)).
Proof.
  induction k as [|k IH]; intros st Hs; [reflexivity|]. cbn [squeeze]. rewrite perm_eq, IH by auto using perm_ok.
  replace (S k * rb)%nat with (rb + k * rb)%nat by lia. rewrite sbytes_app, bb_app. f_equal.
  - rewrite <- state_to_seq_bits by exact Hs. f_equal. pose proof (sbytes_block lanes Hlanes P L HPL st 0 0 rb Hs ltac:(lia)) as E. change (0 * rb + 0)%nat with 0%nat in E.
    rewrite E, skipn_O. symmetry. apply firstn_all2. cbn [permk Nat.iter]. rewrite state_to_seq_len by (destruct Hs as [-> _]; lia). lia.
  - f_equal. unfold sbytes. rewrite (map_ext _ _ (sbyte_perm st)). generalize (k * rb)%nat. intros n.
    rewrite <- seq_plus, map_map. reflexivity.
Qed.
Lemma firstn_bb n l : firstn (8 * n) (bits_of_bytes l) = bits_of_bytes (firstn n l).
Proof.
  revert n. induction l as [|b l IH]; intros n; [rewrite !firstn_nil; reflexivity|]. destruct n; [reflexivity|].
  cbn [firstn]. change (bits_of_bytes (b :: l)) with (byte_bits b ++ bits_of_bytes l). rewrite firstn_app. change (length (byte_bits b)) with 8%nat.
  rewrite firstn_all2 by (cbn; lia). replace (8 * S n - 8)%nat with (8 * n)%nat by lia. rewrite IH. reflexivity.
Qed.
Lemma sponge_bytes m n : bytes_ok m ->
  bytes_of_bits (sponge (64 * lanes) (bits_of_bytes m ++ suffix) (8 * n)) = sbytes lanes (final m) 0 n.
Proof.
  intros Hm. unfold sponge. rewrite <- pad_bits, absorb_final, squeeze_bytes by auto using final_ok.
  rewrite firstn_bb, bytes_of_bits_bytes by (apply bytes_firstn, sbytes_bytes).
  assert (Hn : (n <= (8 * n / (64 * lanes) + 1) * rb)%nat) by (pose proof (Nat.div_mod (8 * n) (64 * lanes) ltac:(lia)); pose proof (Nat.mod_upper_bound (8 * n) (64 * lanes) ltac:(lia)); nia).
  replace ((8 * n / (64 * lanes) + 1) * rb)%nat with (n + ((8 * n / (64 * lanes) + 1) * rb - n))%nat by lia.
  rewrite sbytes_app, firstn_app, sbytes_len, Nat.sub_diag, firstn_O, app_nil_r. apply firstn_all2. rewrite sbytes_len. lia.
Qed.

(** ** streams *)
Lemma fed_init O c : kshape c -> forall capacity, capacity = N.of_nat (1600 - 64 * lanes) ->
  kfed lanes O P L [] (keccak_init capacity O P L c).
Proof.
  intros _ capacity ->. unfold keccak_init. set (r := u32 _).
  assert (Er : r = N.of_nat (64 * lanes)).
  { unfold r, u32. replace (1600 + 2 ^ 32 - N.of_nat (1600 - 64 * lanes)) with (N.of_nat (64 * lanes) + 1 * 2 ^ 32) by lia.
    rewrite N.mod_add, N.mod_small by lia. reflexivity. }
  rewrite Er. replace ((1600 <=? N.of_nat (64 * lanes)) || negb (N.of_nat (64 * lanes) mod 64 =? 0)) with false by lia.
  exists [], [], (repeat 0 192). cbn [concat app length]. split; [reflexivity|]. split; [constructor|]. split; [lia|]. split; [reflexivity|].
  split; [apply repeat_length|reflexivity].
Qed.
Lemma fed_inq O m c : kfed lanes O P L m c -> inq c = 8 * N.of_nat (length m mod rb).
Proof.
  intros (bs & r & q & -> & F & Hr & _ & _ & ->). assert (Hk : (0 < rb)%nat) by lia. destruct (last_part_concat rb bs r Hk F Hr) as [_ E].
  rewrite E. reflexivity.
Qed.
Lemma keccak_piece_fine O m c p : kfed lanes O P L m c -> keccak_piece p -> 8 * N.of_nat (length p) < 2 ^ 64 /\ fine lanes (inq c) (8 * N.of_nat (length p)).
Proof.
  intros H [_ Hp]. rewrite (fed_inq _ _ _ H). pose proof (Nat.mod_upper_bound (length m) rb ltac:(lia)). split; [lia|]. right.
  rewrite N.mod_small by lia. lia.
Qed.
Fixpoint kupdates (c : kctx) (ps : list (list N)) : outcome kctx :=
  match ps with [] => Ret c | p :: ps => c <- keccak_update c p ;; kupdates c ps end.
Lemma updates_kfed O ps : forall m c, kfed lanes O P L m c -> Forall keccak_piece ps ->
  exists c', kupdates c ps = Ret c' /\ kfed lanes O P L (m ++ concat ps) c'.
Proof.
  induction ps as [|p ps IH]; intros m c H F; [exists c; rewrite app_nil_r; auto|]. inversion F as [|? ? Hp Hps]; subst.
  destruct (keccak_piece_fine _ _ _ _ H Hp) as [X Y]. destruct (update_fed lanes Hlanes O P L m c p H X Y) as (c1 & E1 & H1). cbn [kupdates]. rewrite E1. cbn [bind].
  destruct (IH _ _ H1 Hps) as (c2 & E2 & H2). exists c2. split; [exact E2|]. cbn [concat]. rewrite app_assoc. exact H2.
Qed.
Lemma updates_ret O ps : forall m c c', kfed lanes O P L m c -> Forall (fun p => 8 * N.of_nat (length p) < 2 ^ 64) ps ->
  kupdates c ps = Ret c' -> kfed lanes O P L (m ++ concat ps) c'.
Proof.
  induction ps as [|p ps IH]; intros m c c' H F E; [injection E as <-; rewrite app_nil_r; exact H|]. inversion F as [|? ? Hp Hps]; subst. cbn [kupdates] in E.
  destruct (keccak_update c p) as [c1| |] eqn:E1; [|discriminate|discriminate]. cbn [bind] in E. cbn [concat]. rewrite app_assoc. apply (IH _ c1); auto.
  assert (D : fine lanes (inq c) (8 * N.of_nat (length p)) \/
    (0 < inq c /\ (2 ^ 32 <= (8 * N.of_nat (length p)) mod 2 ^ 32 + inq c \/
      (2 ^ 32 <= 8 * N.of_nat (length p) /\ (8 * N.of_nat (length p)) mod 2 ^ 32 + inq c < N.of_nat (64 * lanes))))).
  { unfold fine. set (b := 8 * N.of_nat (length p)). set (x := b mod 2 ^ 32). clearbody x. lia. }
  destruct D as [D|[D1 [D2|[D2 D3]]]].
  - destruct (update_fed lanes Hlanes O P L m c p H Hp D) as (c2 & E2 & H2). congruence.
  - rewrite (update_overflow lanes Hlanes O P L m c p H Hp D1 D2) in E1. discriminate.
  - pose proof (update_hang lanes Hlanes O P L m c p H Hp D1 D2 D3) as X. destruct H as (bs & r & q & _ & _ & _ & _ & _ & ->).
    unfold keccak_update in E1. replace (u64 (8 * N.of_nat (length p))) with (8 * N.of_nat (length p)) in E1 by (unfold u64; rewrite N.mod_small; auto).
    unfold keccak_absorb in E1. cbn [inq squeezing kc] in E1. replace ((8 * N.of_nat (length r)) mod 8 =? 0) with true in E1 by (clear; lia). cbn [negb orb] in E1.
    rewrite X in E1. discriminate.
Qed.
Lemma pieces_concat_bytes ps : Forall keccak_piece ps -> bytes_ok (concat ps).
Proof. intros H. apply bytes_concat. revert H. apply Forall_impl. intros p [B _]. exact B. Qed.
Lemma sq_shape O st p c : lanes_ok st -> sq lanes O P L st p c -> kshape c.
Proof. intros Hs (k & q & v & _ & _ & Lq & ->). split; [apply permk_ok, Hs|exact Lq]. Qed.

End Fips.
