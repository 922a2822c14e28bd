(** Keccak on a machine of either byte order: absorbing, padding and squeezing of the code (the proofs of PSponge.v, with the byte order
    as a parameter). *)
From Verif Require Import Base MSha MFront MKeccak MOtp MEndian SFips202 PWords PSha PKeccak PEndian.
Local Open Scope N_scope.

Definition xor_lanes_on (o : order) (A b : list N) (lanes : nat) : list N :=
  map (fun i => if Nat.ltb i lanes then N.lxor (nth i A 0) (int_value o (firstn 8 (skipn (8 * i) b))) else nth i A 0) (seq 0 25).
Lemma rev_bytes l : bytes_ok l -> bytes_ok (rev l).
Proof. intros H. apply Forall_rev, H. Qed.
Lemma int_value_lt o l : bytes_ok l -> (length l <= 8)%nat -> int_value o l < 2 ^ 64.
Proof. intros H L. destruct o; cbn [int_value]; apply PKeccak.lane_of_lt; auto using rev_bytes. rewrite rev_length. exact L. Qed.
Lemma xor_lanes_on_ok o A b lanes : lanes_ok A -> bytes_ok b -> lanes_ok (xor_lanes_on o A b lanes).
Proof.
  intros [L F] Hb. split; [unfold xor_lanes_on; rewrite map_length; apply seq_length|].
  apply Forall_map, Forall_forall. intros i _. destruct (Nat.ltb i lanes); [|apply nth_lt, F].
  apply lxor_lt; [apply nth_lt, F|]. apply int_value_lt; [auto using bytes_firstn, bytes_skipn|]. rewrite firstn_length. lia.
Qed.
Lemma k_absorb_on_eq o st input lanes : (8 * lanes <= length input)%nat ->
  k_absorb_on o st input lanes 24 = Ret (k_permutation (xor_lanes_on o st (firstn (8 * lanes) input) lanes) 24).
Proof.
  intros H. unfold k_absorb_on, seq_to_state_on. destruct (Nat.ltb_spec (length input) (8 * lanes)) as [L|L]; [lia|].
  cbn [bind]. f_equal. f_equal. unfold xor_lanes_on. apply map_ext_in. intros i Hi. destruct (Nat.ltb_spec i lanes) as [Q|Q]; [|reflexivity].
  f_equal. f_equal. rewrite skipn_firstn_comm, firstn_firstn. f_equal. lia.
Qed.
Lemma int_bytes_8 o v : length (int_bytes o 8 v) = 8%nat /\ bytes_ok (int_bytes o 8 v).
Proof.
  assert (B : bytes_ok (le_bytes 8 v)).
  { rewrite <- bytes_of_lane_le. unfold bytes_of_lane. apply Forall_map, Forall_forall. intros i _. unfold is_byte, u8. apply N.mod_lt. discriminate. }
  destruct o; cbn [int_bytes]; (split; [|auto using rev_bytes]); rewrite ?rev_length; rewrite <- bytes_of_lane_le; reflexivity.
Qed.
Lemma state_to_seq_on_len o A lanes : (lanes <= length A)%nat -> length (state_to_seq_on o A lanes) = (8 * lanes)%nat.
Proof.
  intros H. unfold state_to_seq_on. transitivity (8 * length (firstn lanes A))%nat; [|rewrite firstn_length; lia].
  induction (firstn lanes A) as [|v l IH]; [reflexivity|]. cbn [flat_map]. rewrite app_length, IH. cbn [length]. destruct (int_bytes_8 o v) as [-> _]. lia.
Qed.
Lemma state_to_seq_on_bytes o A lanes : bytes_ok (state_to_seq_on o A lanes).
Proof. unfold state_to_seq_on. apply Forall_flat_map, Forall_forall. intros v _. apply int_bytes_8. Qed.

Section Sponge.
Variable ord : order.
Variable lanes : nat.
Hypothesis Hlanes : (1 <= lanes <= 24)%nat.
Notation rb := (8 * lanes)%nat.
Notation R := (N.of_nat (64 * lanes)).

Definition absorb1_on (st b : list N) : list N := k_permutation ((xor_lanes_on ord) st b lanes) 24.
Lemma absorb1_ok_on st b : lanes_ok st -> bytes_ok b -> lanes_ok (absorb1_on st b).
Proof. intros. apply perm_ok, xor_lanes_on_ok; assumption. Qed.
Lemma absorbs_ok_on bs : forall st, lanes_ok st -> Forall bytes_ok bs -> lanes_ok (fold_left absorb1_on bs st).
Proof.
  induction bs as [|b bs IH]; intros st Hs Hb; [exact Hs|]. inversion Hb; subst. cbn [fold_left]. apply IH; [apply absorb1_ok_on|]; assumption.
Qed.

(** ** the code's absorb loop *)
Variables (O P L : N).
Definition kc_on (st q : list N) (i : N) : kctx := mkK st q R i O 24 false 0 P L false.

Lemma R64_on : N.to_nat (R / 64) = lanes. Proof. lia. Qed.
Lemma R8_on : N.to_nat (R / 8) = rb. Proof. lia. Qed.

Lemma absorb_queue_eq_on st q i : length q = 192%nat -> (absorb_queue_on ord) (kc_on st q i) = Ret (kc_on (absorb1_on st (firstn rb q)) q 0).
Proof.
  intros Hq. unfold absorb_queue_on. cbn [kst queue rate nr kc_on]. rewrite R64_on, k_absorb_on_eq by lia. reflexivity.
Qed.
Lemma absorb_blocks_eq_on bs : forall st r, Forall (fun b => length b = rb) bs ->
  (absorb_blocks_on ord) (length bs) st (concat bs ++ r) R 24 = Ret (fold_left absorb1_on bs st).
Proof.
  induction bs as [|b bs IH]; intros st r H; [reflexivity|]. inversion H as [|? ? Hb Hbs]; subst. cbn [absorb_blocks_on length concat].
  rewrite R64_on, R8_on, <- app_assoc, k_absorb_on_eq by (rewrite app_length; lia). cbn [bind].
  rewrite firstn_app, Hb, Nat.sub_diag, firstn_O, app_nil_r, firstn_all2 by lia.
  rewrite skipn_app, Hb, Nat.sub_diag, skipn_O, skipn_all2 by lia. apply IH, Hbs.
Qed.
Lemma kset_kc_on st q i st' q' i' : kset (kc_on st q i) st' q' i' = kc_on st' q' i'. Proof. reflexivity. Qed.

(** nothing queued: any length *)
Lemma loop_tail_on fuel st q inp j : (j <= length inp)%nat -> (length inp - j < rb)%nat -> (length inp - j <= fuel)%nat ->
  8 * N.of_nat (length inp) < 2 ^ 64 -> length q = 192%nat ->
  exists q', (absorb_loop_on ord) fuel (kc_on st q 0) inp (8 * N.of_nat (length inp)) (8 * N.of_nat j) =
    Ret (kc_on st q' (8 * N.of_nat (length inp - j))) /\ firstn (length inp - j) q' = skipn j inp /\ length q' = 192%nat.
Proof.
  intros Hj Ht Hf Hb Hq. destruct (Nat.eq_dec j (length inp)) as [->|Nj].
  - exists q. rewrite Nat.sub_diag, skipn_all, firstn_O. split; [|auto].
    destruct fuel; cbn [absorb_loop_on]; rewrite N.leb_refl; reflexivity.
  - destruct fuel as [|fuel]; [lia|]. cbn [absorb_loop_on]. destruct (N.leb_spec (8 * N.of_nat (length inp)) (8 * N.of_nat j)); [lia|].
    cbn [inq rate kc_on]. replace ((0 =? 0) && (R <=? 8 * N.of_nat (length inp)) && (8 * N.of_nat j <=? 8 * N.of_nat (length inp) - R)) with false by lia.
    set (n := (length inp - j)%nat) in *. replace (8 * N.of_nat (length inp) - 8 * N.of_nat j) with (8 * N.of_nat n) by lia.
    assert (E : u32 (8 * N.of_nat n) = 8 * N.of_nat n) by (unfold u32; apply N.mod_small; lia).
    cbv zeta. rewrite E, N.add_0_r, E. destruct (N.ltb_spec R (8 * N.of_nat n)); [lia|].
    replace ((8 * N.of_nat n) mod 8) with 0 by lia. rewrite N.sub_0_r, N.add_0_l, E.
    replace (N.to_nat (8 * N.of_nat n / 8)) with n by lia. replace (N.to_nat (8 * N.of_nat j / 8)) with j by lia.
    change (N.to_nat (0 / 8)) with 0%nat.
    unfold grab. rewrite skipn_length. destruct (Nat.ltb_spec (length inp - j) n); [lia|]. cbn [bind queue kc_on].
    rewrite firstn_all2 by (rewrite skipn_length; lia).
    rewrite blit_ok by (rewrite skipn_length; lia). cbn [bind firstn app]. rewrite skipn_length. fold n. rewrite kset_kc_on. cbn [inq rate kc_on].
    destruct (N.eqb_spec (8 * N.of_nat n) R); [lia|]. cbn [bind]. rewrite N.eqb_refl.
    exists (skipn j inp ++ skipn (0 + n) q). split; [|split].
    + destruct fuel; cbn [absorb_loop_on]; destruct (N.leb_spec (8 * N.of_nat (length inp)) (8 * N.of_nat j + 8 * N.of_nat n)); try lia; reflexivity.
    + rewrite firstn_app, skipn_length. fold n. rewrite Nat.sub_diag, firstn_O, app_nil_r. apply firstn_all2. rewrite skipn_length. lia.
    + rewrite app_length, !skipn_length. lia.
Qed.

Lemma loop_empty_on fuel st q inp j : (j <= length inp)%nat -> (length inp - j <= fuel)%nat ->
  8 * N.of_nat (length inp) < 2 ^ 64 -> length q = 192%nat ->
  exists bs r q', (absorb_loop_on ord) fuel (kc_on st q 0) inp (8 * N.of_nat (length inp)) (8 * N.of_nat j) =
    Ret (kc_on (fold_left absorb1_on bs st) q' (8 * N.of_nat (length r))) /\ skipn j inp = concat bs ++ r /\
    Forall (fun b => length b = rb) bs /\ (length r < rb)%nat /\ firstn (length r) q' = r /\ length q' = 192%nat.
Proof.
  intros Hj Hf Hb Hq. destruct (Nat.lt_ge_cases (length inp - j) rb) as [Ht|Ht].
  - destruct (loop_tail_on fuel st q inp j) as (q' & E1 & E2 & E3); auto.
    exists [], (skipn j inp), q'. rewrite skipn_length. repeat split; auto.
  - destruct fuel as [|fuel]; [lia|]. cbn [absorb_loop_on]. destruct (N.leb_spec (8 * N.of_nat (length inp)) (8 * N.of_nat j)); [lia|].
    cbn [inq rate kc_on kst nr queue]. replace ((0 =? 0) && (R <=? 8 * N.of_nat (length inp)) && (8 * N.of_nat j <=? 8 * N.of_nat (length inp) - R)) with true by lia.
    cbv zeta. assert (Hk : (0 < rb)%nat) by lia. destruct (split_pieces rb Hk (skipn j inp)) as (bs & r & E & F & Hr & Lb).
    assert (EL : (length inp - j = length bs * rb + length r)%nat).
    { rewrite <- skipn_length, E, app_length, (concat_length_k rb Hk bs F). reflexivity. }
    assert (EW : (8 * N.of_nat (length inp) - 8 * N.of_nat j) / R = N.of_nat (length bs)).
    { symmetry. apply (N.div_unique _ _ _ (8 * N.of_nat (length r))); nia. }
    rewrite EW, Nat2N.id. replace (N.to_nat (8 * N.of_nat j / 8)) with j by lia. rewrite E, absorb_blocks_eq_on by exact F. cbn [bind].
    rewrite kset_kc_on.
    assert (EI : u64 (8 * N.of_nat j + N.of_nat (length bs) * R) = 8 * N.of_nat (j + length bs * rb)).
    { unfold u64. rewrite N.mod_small; nia. }
    rewrite EI. assert (Lb1 : (1 <= length bs)%nat) by nia. assert (Lb2 : (1 <= length bs * rb)%nat) by nia.
    remember (length bs * rb)%nat as nb eqn:Enb.
    destruct (loop_tail_on fuel (fold_left absorb1_on bs st) q inp (j + nb)) as (q' & E1 & E2 & E3); auto; try lia.
    assert (Er : (length inp - (j + nb) = length r)%nat) by lia. rewrite Er in *.
    exists bs, r, q'. rewrite E1. repeat split; auto. rewrite E2, <- skipn_add, E, skipn_app, (concat_length_k rb Hk bs F), <- Enb, Nat.sub_diag.
    rewrite skipn_all2 by (rewrite (concat_length_k rb Hk bs F); lia). reflexivity.
Qed.

(** the context after absorbing the message m *)
Definition kfed_on (m : list N) (c : kctx) : Prop :=
  exists bs r q, m = concat bs ++ r /\ Forall (fun b => length b = rb) bs /\ (length r < rb)%nat /\
    firstn (length r) q = r /\ length q = 192%nat /\
    c = kc_on (fold_left absorb1_on bs (repeat 0 25)) q (8 * N.of_nat (length r)).

(** which calls are safe: [q] bits queued, a piece of [b] bits *)
Definition fine_on (q b : N) : Prop :=
  q = 0 \/ (b mod 2 ^ 32 + q < 2 ^ 32 /\ (b < 2 ^ 32 \/ R <= b mod 2 ^ 32 + q)).

Lemma update_fed_on m c p : kfed_on m c -> 8 * N.of_nat (length p) < 2 ^ 64 -> fine_on (inq c) (8 * N.of_nat (length p)) ->
  exists c', (keccak_update_on ord) c p = Ret c' /\ kfed_on (m ++ p) c'.
Proof.
  intros (bs & r & q & -> & F & Hr & Eq & Lq & ->) Hb Hfine. unfold keccak_update_on.
  assert (Eu : u64 (8 * N.of_nat (length p)) = 8 * N.of_nat (length p)) by (unfold u64; apply N.mod_small; exact Hb).
  rewrite Eu. unfold keccak_absorb_on. cbn [inq squeezing kc_on] in *.
  replace ((8 * N.of_nat (length r)) mod 8 =? 0) with true by lia. cbn [negb orb].
  set (st := fold_left absorb1_on bs (repeat 0 25)).
  destruct (Nat.eq_dec (length r) 0) as [Er|Er].
  - destruct r; [|discriminate]. rewrite app_nil_r. change (8 * N.of_nat (length [])) with 0.
    destruct (loop_empty_on (S (length p)) st q p 0) as (bs' & r' & q' & E & Es & F' & Hr' & Eq' & Lq'); auto; try lia.
    change (8 * N.of_nat 0) with 0 in E. rewrite E. eexists; split; [reflexivity|].
    exists (bs ++ bs'), r', q'. rewrite skipn_O in Es. rewrite Es, concat_app, <- app_assoc. repeat split; auto.
    + apply Forall_app; auto.
    + unfold st. rewrite fold_left_app. reflexivity.
  - destruct Hfine as [?|(Hw & Hl)]; [lia|].
    destruct (Nat.eq_dec (length p) 0) as [Ep|Ep].
    { destruct p; [|discriminate]. rewrite app_nil_r. cbn [absorb_loop_on length]. change (8 * N.of_nat 0 <=? 0) with true. cbn iota.
      eexists; split; [reflexivity|]. exists bs, r, q. repeat split; auto. }
    cbn [absorb_loop_on]. destruct (N.leb_spec (8 * N.of_nat (length p)) 0); [lia|]. cbn [inq rate kc_on queue kst].
    replace (8 * N.of_nat (length r) =? 0) with false by lia. cbn [andb]. rewrite N.sub_0_r. cbv zeta. change (N.to_nat (0 / 8)) with 0%nat. rewrite skipn_O.
    set (b := 8 * N.of_nat (length p)) in *. set (i0 := 8 * N.of_nat (length r)) in *.
    assert (E32 : u32 (u32 b + i0) = u32 b + i0) by (unfold u32 at 1; apply N.mod_small; exact Hw). rewrite E32.
    (* the number of bytes copied *)
    assert (HP : exists n : nat, (if R <? u32 b + i0 then u32 (R + 2 ^ 32 - i0) else u32 b) = 8 * N.of_nat n /\ (n <= length p)%nat /\
      (n + length r <= rb)%nat /\ (1 <= n)%nat /\ ((n + length r < rb)%nat -> n = length p)).
    { destruct (N.ltb_spec R (u32 b + i0)) as [X|X].
      - exists (rb - length r)%nat. unfold u32 in *. replace (R + 2 ^ 32 - i0) with ((R - i0) + 1 * 2 ^ 32) by lia. rewrite N.mod_add by lia.
        rewrite N.mod_small by lia. assert (b mod 2 ^ 32 <= b) by (apply N.mod_le; lia). repeat split; lia.
      - destruct Hl as [Hl|Hl].
        + exists (length p). unfold u32 in *. rewrite N.mod_small in * by exact Hl. repeat split; lia.
        + exists (rb - length r)%nat. assert (b mod 2 ^ 32 <= b) by (apply N.mod_le; lia). unfold u32 in *. repeat split; lia. }
    destruct HP as (n & En & Hn1 & Hn2 & Hn3 & Hn4). rewrite En. replace ((8 * N.of_nat n) mod 8) with 0 by lia. rewrite N.sub_0_r.
    replace (N.to_nat (8 * N.of_nat n / 8)) with n by lia. unfold grab. destruct (Nat.ltb_spec (length p) n); [lia|]. cbn [bind].
    replace (N.to_nat (i0 / 8)) with (length r) by lia.
    rewrite blit_ok by (rewrite firstn_length; lia). cbn [bind]. rewrite Eq, firstn_length, Nat.min_l by lia. rewrite kset_kc_on.
    assert (EI : u32 (i0 + 8 * N.of_nat n) = 8 * N.of_nat (length r + n)) by (unfold u32; rewrite N.mod_small; lia). rewrite EI.
    set (q' := r ++ firstn n p ++ skipn (length r + n) q).
    assert (Lq' : length q' = 192%nat) by (unfold q'; rewrite !app_length, firstn_length, skipn_length; lia).
    cbn [inq rate kc_on]. destruct (N.eqb_spec (8 * N.of_nat (length r + n)) R) as [X|X].
    + rewrite absorb_queue_eq_on by exact Lq'. cbn [bind]. rewrite N.eqb_refl, N.add_0_l.
      assert (Efull : firstn rb q' = r ++ firstn n p).
      { unfold q'. rewrite app_assoc, firstn_app. replace (rb - length (r ++ firstn n p))%nat with 0%nat by (rewrite app_length, firstn_length; lia).
        rewrite firstn_O, app_nil_r. apply firstn_all2. rewrite app_length, firstn_length. lia. }
      rewrite Efull. destruct (loop_empty_on (length p) (absorb1_on st (r ++ firstn n p)) q' p n) as (bs' & r' & q'' & E & Es & F' & Hr' & Eq' & Lq''); auto; try lia.
      unfold b. rewrite E. eexists; split; [reflexivity|]. exists (bs ++ [r ++ firstn n p] ++ bs'), r', q''.
      split; [|split; [|split; [|split; [|split]]]]; auto.
      * rewrite !concat_app. cbn [concat]. rewrite app_nil_r, <- !app_assoc. f_equal. f_equal. rewrite <- Es. symmetry. apply firstn_skipn.
      * apply Forall_app; split; [exact F|]. constructor; [rewrite app_length, firstn_length; lia|exact F'].
      * unfold st. rewrite !fold_left_app. reflexivity.
    + cbn [bind]. rewrite N.eqb_refl, N.add_0_l. assert (Enp : n = length p) by (apply Hn4; lia). rewrite Enp.
      replace ((absorb_loop_on ord) (length p) (kc_on st q' (8 * N.of_nat (length r + length p))) p b (8 * N.of_nat (length p)))
        with (Ret (kc_on st q' (8 * N.of_nat (length r + length p)))).
      2:{ destruct (length p) eqn:El; [lia|]. cbn [absorb_loop_on]. unfold b. rewrite N.leb_refl. reflexivity. }
      eexists; split; [reflexivity|]. exists bs, (r ++ p), q'. rewrite app_length.
      repeat split; auto; try lia; [rewrite app_assoc; reflexivity|]. unfold q'. rewrite Enp, firstn_all. rewrite app_assoc, firstn_app, app_length.
      rewrite Nat.sub_diag, firstn_O, app_nil_r. apply firstn_all2. rewrite app_length. lia.
Qed.

(** ** padding *)
Hypothesis HPL : (P = 2 /\ L = 2) \/ (P = 15 /\ L = 4) \/ (P = 3 /\ L = 2).
Definition padtail_on (n : nat) : list N :=
  if Nat.eqb n 1 then [P + 2 ^ L + 128] else (P + 2 ^ L) :: repeat 0 (n - 2) ++ [128].
Lemma padtail_len_on n : (1 <= n)%nat -> length (padtail_on n) = n.
Proof.
  intros H. unfold padtail_on. destruct (Nat.eqb_spec n 1) as [->|X]; [reflexivity|]. cbn [length]. rewrite app_length, repeat_length. cbn [length]. lia.
Qed.
Lemma padtail_bytes_on n : bytes_ok (padtail_on n).
Proof.
  unfold padtail_on. destruct (Nat.eqb n 1).
  - constructor; [|constructor]. destruct HPL as [[-> ->]|[[-> ->]|[-> ->]]]; vm_compute; reflexivity.
  - constructor; [destruct HPL as [[-> ->]|[[-> ->]|[-> ->]]]; vm_compute; reflexivity|]. apply Forall_app. split.
    + apply Forall_forall. intros x Hx. apply repeat_spec in Hx. subst. reflexivity.
    + constructor; [reflexivity|constructor].
Qed.

Lemma suffix_absorb_on st r x z : (length r < rb)%nat -> length (r ++ x :: z) = 192%nat ->
  (keccak_absorb_on ord) (kc_on st (r ++ x :: z) (8 * N.of_nat (length r))) [P] L = Ret (kc_on st (r ++ P :: z) (8 * N.of_nat (length r) + L)).
Proof.
  intros Hr Lq. assert (HL : 0 < L < 7) by (destruct HPL as [[? ->]|[[? ->]|[? ->]]]; lia).
  unfold keccak_absorb_on. cbn [inq squeezing kc_on]. replace ((8 * N.of_nat (length r)) mod 8 =? 0) with true by lia. cbn [negb orb].
  cbn [absorb_loop_on length]. destruct (N.leb_spec L 0); [lia|]. cbn [inq rate kc_on queue kst].
  replace ((8 * N.of_nat (length r) =? 0) && (R <=? L) && (0 <=? L - R)) with false by lia.
  rewrite N.sub_0_r. cbv zeta. set (i0 := 8 * N.of_nat (length r)) in *.
  replace (u32 L) with L by (unfold u32; rewrite N.mod_small; lia). replace (u32 (L + i0)) with (L + i0) by (unfold u32; rewrite N.mod_small; lia).
  destruct (N.ltb_spec R (L + i0)); [lia|]. rewrite (N.mod_small L 8) by lia. rewrite N.sub_diag.
  change (N.to_nat (0 / 8)) with 0%nat. unfold grab. rewrite skipn_O. cbn [length Nat.ltb Nat.leb bind firstn].
  rewrite blit_ok by (cbn; lia). cbn [bind length app]. rewrite Nat.add_0_r, firstn_skipn, kset_kc_on, !N.add_0_r.
  replace (u32 i0) with i0 by (unfold u32; rewrite N.mod_small; lia). cbn [inq rate kc_on]. destruct (N.eqb_spec i0 R); [lia|]. cbn [bind].
  destruct (N.eqb_spec L 0); [lia|]. change (rd [P] (N.to_nat (0 / 8))) with (Ret P). cbn [bind queue inq kst kc_on].
  replace (N.to_nat (i0 / 8)) with (length r) by lia.
  assert (EM : N.land P (u8 (N.shiftl 1 L - 1)) = P) by (destruct HPL as [[-> ->]|[[-> ->]|[-> ->]]]; reflexivity).
  rewrite EM, wr_app by reflexivity. cbn [bind]. rewrite kset_kc_on. cbn [inq kc_on].
  replace (u32 (i0 + L)) with (i0 + L) by (unfold u32; rewrite N.mod_small; lia). rewrite N.add_0_l, N.leb_refl. reflexivity.
Qed.

Definition kd_on (st q : list N) (i : N) : kctx := mkK st q R i O 24 false 0 P L true.
Definition ks_on (st q : list N) (s : N) : kctx := mkK st q R 0 O 24 true s P L true.

Lemma padding_eq_on st r z v : (length r < rb)%nat -> (length r + 1 + length z = rb)%nat -> length (r ++ P :: z ++ v) = 192%nat -> lanes_ok (absorb1_on st (r ++ padtail_on (rb - length r))) ->
  (k_padding_on ord) (kd_on st (r ++ P :: z ++ v) (8 * N.of_nat (length r) + L)) =
    Ret (ks_on (absorb1_on st (r ++ padtail_on (rb - length r))) ((state_to_seq_on ord) (absorb1_on st (r ++ padtail_on (rb - length r))) lanes ++ v) R).
Proof.
  intros Hr Hz Lq Hok. assert (HL : 0 < L < 7) by (destruct HPL as [[? ->]|[[? ->]|[? ->]]]; lia).
  unfold k_padding_on. cbn [inq rate kd_on queue kst]. destruct (N.eqb_spec (8 * N.of_nat (length r) + L + 1) R); [lia|].
  set (i0 := 8 * N.of_nat (length r)) in *. cbv zeta.
  replace ((i0 + L + 7) / 8) with (N.of_nat (length r + 1)) by lia. rewrite Nat2N.id.
  replace (N.to_nat (R / 8 - N.of_nat (length r + 1))) with (length z) by lia.
  assert (EB : blit (r ++ P :: z ++ v) (length r + 1) (repeat 0 (length z)) = Ret ((r ++ [P]) ++ repeat 0 (length z) ++ v)).
  { replace (r ++ P :: z ++ v) with ((r ++ [P]) ++ z ++ v) by (rewrite <- app_assoc; reflexivity).
    apply blit_app; [rewrite app_length; reflexivity|symmetry; apply repeat_length]. }
  rewrite EB. cbn [bind]. rewrite <- app_assoc. cbn [app]. unfold k_or at 1.
  replace (N.to_nat ((i0 + L) / 8)) with (length r) by lia. rewrite rd_app_mid by reflexivity. cbn [bind].
  replace ((i0 + L) mod 8) with L by lia. rewrite wr_app by reflexivity. cbn [bind].
  assert (EO : u8 (N.lor P (N.shiftl 1 L)) = P + 2 ^ L) by (destruct HPL as [[-> ->]|[[-> ->]|[-> ->]]]; reflexivity). rewrite EO.
  unfold kset. cbn [kst queue rate inq outlen nr squeezing squeezable ap aplen apadded kd_on].
  replace (N.to_nat ((R - 1) / 8)) with (rb - 1)%nat by lia. replace ((R - 1) mod 8) with 7 by lia. change (N.shiftl 1 7) with 128.
  set (D := P + 2 ^ L) in *.
  assert (EK : k_or (r ++ D :: repeat 0 (length z) ++ v) ((R - 1) / 8) 128 = Ret ((r ++ padtail_on (rb - length r)) ++ v)).
  { unfold k_or, padtail_on. replace (N.to_nat ((R - 1) / 8)) with (rb - 1)%nat by lia. destruct (Nat.eqb_spec (rb - length r) 1) as [E1|E1].
    - replace (length z) with 0%nat by lia. cbn [repeat app]. rewrite rd_app_mid by lia. cbn [bind]. rewrite wr_app by lia. fold D.
      assert (EE : u8 (N.lor D 128) = D + 128) by (unfold D; destruct HPL as [[-> ->]|[[-> ->]|[-> ->]]]; reflexivity).
      rewrite EE, <- app_assoc. reflexivity.
    - replace (length z) with ((rb - length r - 2) + 1)%nat by lia. rewrite repeat_app. cbn [repeat].
      set (Z := repeat 0 (rb - length r - 2)).
      replace (r ++ D :: (Z ++ [0]) ++ v) with ((r ++ D :: Z) ++ 0 :: v) by (repeat (rewrite <- app_assoc; cbn [app]); reflexivity).
      assert (LZ : (rb - 1 = length (r ++ D :: Z))%nat) by (rewrite app_length; cbn [length]; unfold Z; rewrite repeat_length; lia).
      rewrite rd_app_mid by exact LZ. cbn [bind]. rewrite wr_app by exact LZ. change (u8 (N.lor 0 128)) with 128. fold D.
      repeat (rewrite <- app_assoc; cbn [app]). reflexivity. }
  rewrite EK. cbn [bind]. set (lastb := r ++ padtail_on (rb - length r)) in *.
  assert (Ll : length lastb = rb) by (unfold lastb; rewrite app_length, padtail_len_on; lia).
  unfold absorb_queue_on. cbn [kst queue rate inq outlen nr squeezing squeezable ap aplen apadded].
  rewrite R64_on, k_absorb_on_eq by (rewrite app_length; lia). rewrite firstn_app, Ll, Nat.sub_diag, firstn_O, app_nil_r, firstn_all2 by lia.
  fold (absorb1_on st lastb). cbn [bind]. unfold kset. cbn [kst queue rate inq outlen nr squeezing squeezable ap aplen apadded]. rewrite R64_on.
  assert (LS : length ((state_to_seq_on ord) (absorb1_on st lastb) lanes) = rb) by (apply state_to_seq_on_len; destruct Hok as [-> _]; lia).
  rewrite (blit_app [] lastb v) by (auto; lia). cbn [bind app]. reflexivity.
Qed.

(** ** squeezing *)
Definition permk_on (k : nat) (st : list N) : list N := Nat.iter k (fun A => k_permutation A 24) st.
Definition sbyte_on (st : list N) (p : nat) : N := nth (p mod rb) ((state_to_seq_on ord) (permk_on (p / rb) st) lanes) 0.
Definition sbytes_on (st : list N) (p n : nat) : list N := map (sbyte_on st) (seq p n).
Lemma permk_ok_on k st : lanes_ok st -> lanes_ok (permk_on k st).
Proof. intros H. induction k; [exact H|]. apply (perm_ok (permk_on k st)), IHk. Qed.
Lemma sbytes_len_on st p n : length (sbytes_on st p n) = n.
Proof. unfold sbytes_on. rewrite map_length. apply seq_length. Qed.
Lemma sbytes_app_on st p a b : sbytes_on st p (a + b) = sbytes_on st p a ++ sbytes_on st (p + a) b.
Proof. unfold sbytes_on. rewrite seq_app, map_app. reflexivity. Qed.
Lemma sbytes_bytes_on st p n : bytes_ok (sbytes_on st p n).
Proof.
  unfold sbytes_on. apply Forall_map, Forall_forall. intros i _. unfold sbyte_on.
  destruct (nth_in_or_default (i mod rb) ((state_to_seq_on ord) (permk_on (i / rb) st) lanes) 0) as [H|H]; [|rewrite H; reflexivity].
  pose proof (state_to_seq_on_bytes ord (permk_on (i / rb) st) lanes) as B. unfold bytes_ok in B. rewrite Forall_forall in B. apply B, H.
Qed.
Lemma sbytes_block_on st k o n : lanes_ok st -> (o + n <= rb)%nat ->
  sbytes_on st (k * rb + o) n = firstn n (skipn o ((state_to_seq_on ord) (permk_on k st) lanes)).
Proof.
  intros Hs Hn. assert (LS : length ((state_to_seq_on ord) (permk_on k st) lanes) = rb) by (apply state_to_seq_on_len; destruct (permk_ok_on k st Hs) as [-> _]; lia).
  apply (nth_ext _ _ 0 0).
  - rewrite sbytes_len_on, firstn_length, skipn_length, LS. lia.
  - intros i Hi. rewrite sbytes_len_on in Hi. unfold sbytes_on. rewrite (nth_indep _ 0 (sbyte_on st 0)) by (rewrite map_length, seq_length; exact Hi).
    rewrite map_nth, seq_nth by exact Hi. rewrite nth_firstn_lt, nth_skipn_add by exact Hi. unfold sbyte_on.
    replace (k * rb + o + i)%nat with ((o + i) + k * rb)%nat by lia. rewrite Nat.mod_add, Nat.div_add by lia.
    rewrite Nat.mod_small, Nat.div_small by lia. reflexivity.
Qed.

(** the context after squeezing [p] bytes *)
Definition sq_on (st : list N) (p : nat) (c : kctx) : Prop := exists k q v,
  (k * rb <= p <= k * rb + rb)%nat /\ q = (state_to_seq_on ord) (permk_on k st) lanes ++ v /\ length q = 192%nat /\
  c = ks_on (permk_on k st) q (R - 8 * N.of_nat (p - k * rb)).

Lemma squeeze_loop_eq_on st (Hst : lanes_ok st) : forall fuel p c out n j, sq_on st p c -> (n <= length out)%nat -> (j <= n)%nat ->
  ((j < n)%nat -> n - j + (if ((squeezable c =? 0) || (squeezable c =? R))%N then 0 else 8) <= 8 * fuel)%nat -> 8 * N.of_nat n < 2 ^ 32 ->
  exists c', (squeeze_loop_on ord) fuel c out (8 * N.of_nat n) (8 * N.of_nat j) = Ret (c', firstn j out ++ sbytes_on st p (n - j) ++ skipn n out) /\
    sq_on st (p + (n - j)) c'.
Proof.
  induction fuel as [|fuel IH]; intros p c out n j (k & q & v & Hk & Eq & Lq & ->) Hn Hj Hf Hb.
  - assert (j = n) by (destruct (Nat.eq_dec j n); [assumption|]; specialize (Hf ltac:(lia)); destruct (_ || _); lia). subst j. cbn [squeeze_loop_on]. rewrite N.leb_refl. rewrite Nat.sub_diag, Nat.add_0_r. cbn [sbytes_on seq map app].
    unfold sbytes_on. cbn [seq map app]. rewrite firstn_skipn. eexists; split; [reflexivity|]. exists k, q, v. auto.
  - cbn [squeeze_loop_on]. destruct (N.leb_spec (8 * N.of_nat n) (8 * N.of_nat j)) as [Le|Le].
    { assert (j = n) by lia. subst j. rewrite Nat.sub_diag, Nat.add_0_r. unfold sbytes_on. cbn [seq map app].
      rewrite firstn_skipn. eexists; split; [reflexivity|]. exists k, q, v. auto. }
    specialize (Hf ltac:(lia)). (* refill *)
    cbn [squeezable ks_on] in *.
    assert (RF : exists k' q' v' o, (p = k' * rb + o)%nat /\ (o < rb)%nat /\ q' = (state_to_seq_on ord) (permk_on k' st) lanes ++ v' /\ length q' = 192%nat /\
      (R - 8 * N.of_nat o = R -> (n - j <= 8 * S fuel)%nat) /\ (R - 8 * N.of_nat o <> R -> (n - j + 8 <= 8 * S fuel)%nat) /\
      (if R - 8 * N.of_nat (p - k * rb) =? 0 then
              let st0 := k_permutation (kst (ks_on (permk_on k st) q (R - 8 * N.of_nat (p - k * rb)))) 24 in
              q0 <- blit q 0 ((state_to_seq_on ord) st0 (N.to_nat (R / 64))) ;;
              Ret (mkK st0 q0 R 0 O 24 true R P L true)
            else Ret (ks_on (permk_on k st) q (R - 8 * N.of_nat (p - k * rb)))) = Ret (ks_on (permk_on k' st) q' (R - 8 * N.of_nat o))).
    { destruct (N.eqb_spec (R - 8 * N.of_nat (p - k * rb)) 0) as [Z|Z].
      - cbn [orb] in Hf. assert (LS : forall i, length ((state_to_seq_on ord) (permk_on i st) lanes) = rb).
        { intros i. apply state_to_seq_on_len. destruct (permk_ok_on i st Hst) as [-> _]. lia. }
        exists (S k), ((state_to_seq_on ord) (permk_on (S k) st) lanes ++ v), v, 0%nat.
        split; [cbn [Nat.mul]; lia|]. split; [lia|]. split; [reflexivity|]. split.
        { rewrite Eq in Lq. rewrite app_length, LS in *. exact Lq. }
        split; [intros _; lia|]. split; [intros W; exfalso; apply W; lia|].
        cbv zeta. cbn [kst ks_on]. rewrite R64_on, Eq. change (k_permutation (permk_on k st) 24) with (permk_on (S k) st).
        rewrite (blit_app [] ((state_to_seq_on ord) (permk_on k st) lanes) v) by (rewrite ?LS; reflexivity). cbn [bind app]. unfold ks_on. rewrite N.sub_0_r. reflexivity.
      - cbn [orb] in Hf. exists k, q, v, (p - k * rb)%nat. split; [lia|]. split; [lia|]. split; [exact Eq|]. split; [exact Lq|].
        split; [|split; [|reflexivity]]; intros W; destruct (N.eqb_spec (R - 8 * N.of_nat (p - k * rb)) R); try lia; try contradiction. }
    destruct RF as (k' & q' & v' & o & Ep & Ho & Eq' & Lq' & F1 & F2 & ER). cbn [kst rate inq outlen nr squeezing ap aplen apadded queue ks_on] in *.
    rewrite ER. clear ER. cbn [bind kst rate inq outlen nr squeezing squeezable ap aplen apadded queue ks_on].
    assert (LS : length ((state_to_seq_on ord) (permk_on k' st) lanes) = rb).
    { apply state_to_seq_on_len. destruct (permk_ok_on k' st Hst) as [-> _]. lia. }
    set (a := Nat.min (n - j) (rb - o)).
    assert (EP : (if 8 * N.of_nat n - 8 * N.of_nat j <? R - 8 * N.of_nat o then u32 (8 * N.of_nat n - 8 * N.of_nat j) else R - 8 * N.of_nat o) = 8 * N.of_nat a).
    { unfold a. destruct (N.ltb_spec (8 * N.of_nat n - 8 * N.of_nat j) (R - 8 * N.of_nat o)); [unfold u32; rewrite N.mod_small by lia|]; lia. }
    rewrite EP. replace (N.to_nat (8 * N.of_nat a / 8)) with a by lia. replace (N.to_nat ((R - (R - 8 * N.of_nat o)) / 8)) with o by lia.
    replace (N.to_nat (8 * N.of_nat j / 8)) with j by lia.
    assert (EG : grab a (skipn o q') = Ret (sbytes_on st p a)).
    { unfold grab. rewrite skipn_length. destruct (Nat.ltb_spec (length q' - o) a); [lia|]. rewrite Ep, sbytes_block_on by (auto; lia).
      rewrite Eq', skipn_app, firstn_app, skipn_length, LS. replace (a - (rb - o))%nat with 0%nat by lia. rewrite firstn_O, app_nil_r. reflexivity. }
    rewrite EG. cbn [bind]. rewrite blit_ok by (rewrite sbytes_len_on; lia). cbn [bind]. rewrite sbytes_len_on.
    replace (8 * N.of_nat j + 8 * N.of_nat a) with (8 * N.of_nat (j + a)) by lia.
    replace (R - 8 * N.of_nat o - 8 * N.of_nat a) with (R - 8 * N.of_nat (o + a)) by lia.
    destruct (IH (p + a)%nat (ks_on (permk_on k' st) q' (R - 8 * N.of_nat (o + a))) (firstn j out ++ sbytes_on st p a ++ skipn (j + a) out) n (j + a)%nat) as (c' & E & S').
    + exists k', q', v'. replace (p + a - k' * rb)%nat with (o + a)%nat by lia. repeat split; auto; lia.
    + rewrite !app_length, sbytes_len_on, firstn_length, skipn_length. lia.
    + lia.
    + intros Hlt. cbn [squeezable ks_on]. destruct (Nat.eq_dec (o + a) rb) as [X|X].
      * replace (R - 8 * N.of_nat (o + a) =? 0) with true by lia. cbn [orb]. destruct (N.eq_dec (R - 8 * N.of_nat o) R); [specialize (F1 e)|specialize (F2 n0)]; lia.
      * exfalso. lia.
    + exact Hb.
    + unfold ks_on at 1 in E. rewrite E. exists c'. split; [|replace (p + (n - j))%nat with (p + a + (n - (j + a)))%nat by lia; exact S']. f_equal. f_equal.
      replace (n - j)%nat with (a + (n - (j + a)))%nat at 1 by lia. rewrite sbytes_app_on, <- !app_assoc.
      rewrite firstn_app, firstn_length, firstn_firstn. replace (Nat.min (j + a) j) with j by lia. rewrite <- app_assoc. f_equal.
      rewrite firstn_app, sbytes_len_on. rewrite firstn_all2 by (rewrite sbytes_len_on; lia). rewrite <- app_assoc. f_equal.
      replace (j + a - Nat.min j (length out) - a)%nat with 0%nat by lia. rewrite firstn_O. cbn [app]. f_equal.
      rewrite !skipn_app, firstn_length, sbytes_len_on. rewrite skipn_all2 by (rewrite firstn_length; lia). cbn [app].
      rewrite skipn_all2 by (rewrite sbytes_len_on; lia). cbn [app]. rewrite skipn_add. f_equal. lia.
Qed.

End Sponge.

