(** Keccak: absorbing, padding and squeezing of the code against the FIPS 202 sponge. *)
From Verif Require Import Base MSha MFront MKeccak SFips202 PWords PSha PKeccak.
Local Open Scope N_scope.

Section Sponge.
Variable lanes : nat.
Hypothesis Hlanes : (1 <= lanes <= 24)%nat.
Notation rb := (8 * lanes)%nat.
Notation R := (N.of_nat (64 * lanes)).

Definition absorb1 (st b : list N) : list N := k_permutation (xor_lanes st b lanes) 24.
Lemma absorb1_ok st b : lanes_ok st -> bytes_ok b -> lanes_ok (absorb1 st b).
Proof. intros. apply perm_ok, xor_lanes_ok; assumption. Qed.
Lemma absorb1_bits st b : lanes_ok st -> bytes_ok b -> length b = rb -> bits_of (absorb1 st b) = absorb_block (bits_of st) (bits_of_bytes b).
Proof.
  intros Hs Hb Hl. unfold absorb1, absorb_block. rewrite <- perm_eq by (apply xor_lanes_ok; assumption).
  rewrite xor_lanes_bits by (auto; lia). reflexivity.
Qed.
Lemma absorbs_ok bs : forall st, lanes_ok st -> Forall bytes_ok bs -> lanes_ok (fold_left absorb1 bs st).
Proof.
  induction bs as [|b bs IH]; intros st Hs Hb; [exact Hs|]. inversion Hb; subst. cbn [fold_left]. apply IH; [apply absorb1_ok|]; assumption.
Qed.
Lemma absorbs_bits bs : forall st, lanes_ok st -> Forall bytes_ok bs -> Forall (fun b => length b = rb) bs ->
  bits_of (fold_left absorb1 bs st) = fold_left absorb_block (map bits_of_bytes bs) (bits_of st).
Proof.
  induction bs as [|b bs IH]; intros st Hs Hb Hl; [reflexivity|]. inversion Hb; inversion Hl; subst. cbn [fold_left map].
  rewrite IH by (auto using absorb1_ok). rewrite absorb1_bits by assumption. reflexivity.
Qed.

(** ** the code's absorb loop *)
Variables (O P L : N).
Definition kc (st q : list N) (i : N) : kctx := mkK st q R i O 24 false 0 P L false.

Lemma R64 : N.to_nat (R / 64) = lanes. Proof. lia. Qed.
Lemma R8 : N.to_nat (R / 8) = rb. Proof. lia. Qed.

Lemma absorb_queue_eq st q i : length q = 192%nat -> absorb_queue (kc st q i) = Ret (kc (absorb1 st (firstn rb q)) q 0).
Proof.
  intros Hq. unfold absorb_queue. cbn [kst queue rate nr kc]. rewrite R64, k_absorb_eq by lia. reflexivity.
Qed.
Lemma absorb_blocks_eq bs : forall st r, Forall (fun b => length b = rb) bs ->
  absorb_blocks (length bs) st (concat bs ++ r) R 24 = Ret (fold_left absorb1 bs st).
Proof.
  induction bs as [|b bs IH]; intros st r H; [reflexivity|]. inversion H as [|? ? Hb Hbs]; subst. cbn [absorb_blocks length concat].
  rewrite R64, R8, <- app_assoc, k_absorb_eq by (rewrite app_length; lia). cbn [bind].
  rewrite firstn_app, Hb, Nat.sub_diag, firstn_O, app_nil_r, firstn_all2 by lia.
  rewrite skipn_app, Hb, Nat.sub_diag, skipn_O, skipn_all2 by lia. apply IH, Hbs.
Qed.
Lemma kset_kc st q i st' q' i' : kset (kc st q i) st' q' i' = kc st' q' i'. Proof. reflexivity. Qed.

(** nothing queued: any length *)
Lemma loop_tail fuel st q inp j : (j <= length inp)%nat -> (length inp - j < rb)%nat -> (length inp - j <= fuel)%nat ->
  8 * N.of_nat (length inp) < 2 ^ 64 -> length q = 192%nat ->
  exists q', absorb_loop fuel (kc st q 0) inp (8 * N.of_nat (length inp)) (8 * N.of_nat j) =
    Ret (kc st q' (8 * N.of_nat (length inp - j))) /\ firstn (length inp - j) q' = skipn j inp /\ length q' = 192%nat.
Proof.
  intros Hj Ht Hf Hb Hq. destruct (Nat.eq_dec j (length inp)) as [->|Nj].
  - exists q. rewrite Nat.sub_diag, skipn_all, firstn_O. split; [|auto].
    destruct fuel; cbn [absorb_loop]; rewrite N.leb_refl; reflexivity.
  - destruct fuel as [|fuel]; [lia|]. cbn [absorb_loop]. destruct (N.leb_spec (8 * N.of_nat (length inp)) (8 * N.of_nat j)); [lia|].
    cbn [inq rate kc]. replace ((0 =? 0) && (R <=? 8 * N.of_nat (length inp)) && (8 * N.of_nat j <=? 8 * N.of_nat (length inp) - R)) with false by lia.
    set (n := (length inp - j)%nat) in *. replace (8 * N.of_nat (length inp) - 8 * N.of_nat j) with (8 * N.of_nat n) by lia.
    assert (E : u32 (8 * N.of_nat n) = 8 * N.of_nat n) by (unfold u32; apply N.mod_small; lia).
    cbv zeta. rewrite E, N.add_0_r, E. destruct (N.ltb_spec R (8 * N.of_nat n)); [lia|].
    replace ((8 * N.of_nat n) mod 8) with 0 by lia. rewrite N.sub_0_r, N.add_0_l, E.
    replace (N.to_nat (8 * N.of_nat n / 8)) with n by lia. replace (N.to_nat (8 * N.of_nat j / 8)) with j by lia.
    change (N.to_nat (0 / 8)) with 0%nat.
    unfold grab. rewrite skipn_length. destruct (Nat.ltb_spec (length inp - j) n); [lia|]. cbn [bind queue kc].
    rewrite firstn_all2 by (rewrite skipn_length; lia).
    rewrite blit_ok by (rewrite skipn_length; lia). cbn [bind firstn app]. rewrite skipn_length. fold n. rewrite kset_kc. cbn [inq rate kc].
    destruct (N.eqb_spec (8 * N.of_nat n) R); [lia|]. cbn [bind]. rewrite N.eqb_refl.
    exists (skipn j inp ++ skipn (0 + n) q). split; [|split].
    + destruct fuel; cbn [absorb_loop]; destruct (N.leb_spec (8 * N.of_nat (length inp)) (8 * N.of_nat j + 8 * N.of_nat n)); try lia; reflexivity.
    + rewrite firstn_app, skipn_length. fold n. rewrite Nat.sub_diag, firstn_O, app_nil_r. apply firstn_all2. rewrite skipn_length. lia.
    + rewrite app_length, !skipn_length. lia.
Qed.

Lemma loop_empty fuel st q inp j : (j <= length inp)%nat -> (length inp - j <= fuel)%nat ->
  8 * N.of_nat (length inp) < 2 ^ 64 -> length q = 192%nat ->
  exists bs r q', absorb_loop fuel (kc st q 0) inp (8 * N.of_nat (length inp)) (8 * N.of_nat j) =
    Ret (kc (fold_left absorb1 bs st) q' (8 * N.of_nat (length r))) /\ skipn j inp = concat bs ++ r /\
    Forall (fun b => length b = rb) bs /\ (length r < rb)%nat /\ firstn (length r) q' = r /\ length q' = 192%nat.
Proof.
  intros Hj Hf Hb Hq. destruct (Nat.lt_ge_cases (length inp - j) rb) as [Ht|Ht].
  - destruct (loop_tail fuel st q inp j) as (q' & E1 & E2 & E3); auto.
    exists [], (skipn j inp), q'. rewrite skipn_length. repeat split; auto.
  - destruct fuel as [|fuel]; [lia|]. cbn [absorb_loop]. destruct (N.leb_spec (8 * N.of_nat (length inp)) (8 * N.of_nat j)); [lia|].
    cbn [inq rate kc kst nr queue]. replace ((0 =? 0) && (R <=? 8 * N.of_nat (length inp)) && (8 * N.of_nat j <=? 8 * N.of_nat (length inp) - R)) with true by lia.
    cbv zeta. assert (Hk : (0 < rb)%nat) by lia. destruct (split_pieces rb Hk (skipn j inp)) as (bs & r & E & F & Hr & Lb).
    assert (EL : (length inp - j = length bs * rb + length r)%nat).
    { rewrite <- skipn_length, E, app_length, (concat_length_k rb Hk bs F). reflexivity. }
    assert (EW : (8 * N.of_nat (length inp) - 8 * N.of_nat j) / R = N.of_nat (length bs)).
    { symmetry. apply (N.div_unique _ _ _ (8 * N.of_nat (length r))); nia. }
    rewrite EW, Nat2N.id. replace (N.to_nat (8 * N.of_nat j / 8)) with j by lia. rewrite E, absorb_blocks_eq by exact F. cbn [bind].
    rewrite kset_kc.
    assert (EI : u64 (8 * N.of_nat j + N.of_nat (length bs) * R) = 8 * N.of_nat (j + length bs * rb)).
    { unfold u64. rewrite N.mod_small; nia. }
    rewrite EI. assert (Lb1 : (1 <= length bs)%nat) by nia. assert (Lb2 : (1 <= length bs * rb)%nat) by nia.
    remember (length bs * rb)%nat as nb eqn:Enb.
    destruct (loop_tail fuel (fold_left absorb1 bs st) q inp (j + nb)) as (q' & E1 & E2 & E3); auto; try lia.
    assert (Er : (length inp - (j + nb) = length r)%nat) by lia. rewrite Er in *.
    exists bs, r, q'. rewrite E1. repeat split; auto. rewrite E2, <- skipn_add, E, skipn_app, (concat_length_k rb Hk bs F), <- Enb, Nat.sub_diag.
    rewrite skipn_all2 by (rewrite (concat_length_k rb Hk bs F); lia). reflexivity.
Qed.

(** the context after absorbing the message m *)
Definition kfed (m : list N) (c : kctx) : Prop :=
  exists bs r q, m = concat bs ++ r /\ Forall (fun b => length b = rb) bs /\ (length r < rb)%nat /\
    firstn (length r) q = r /\ length q = 192%nat /\
    c = kc (fold_left absorb1 bs (repeat 0 25)) q (8 * N.of_nat (length r)).

(** which calls are safe: [q] bits queued, a piece of [b] bits *)
Definition fine (q b : N) : Prop :=
  q = 0 \/ (b mod 2 ^ 32 + q < 2 ^ 32 /\ (b < 2 ^ 32 \/ R <= b mod 2 ^ 32 + q)).

Lemma update_fed m c p : kfed m c -> 8 * N.of_nat (length p) < 2 ^ 64 -> fine (inq c) (8 * N.of_nat (length p)) ->
  exists c', keccak_update c p = Ret c' /\ kfed (m ++ p) c'.
Proof.
  intros (bs & r & q & -> & F & Hr & Eq & Lq & ->) Hb Hfine. unfold keccak_update.
  assert (Eu : u64 (8 * N.of_nat (length p)) = 8 * N.of_nat (length p)) by (unfold u64; apply N.mod_small; exact Hb).
  rewrite Eu. unfold keccak_absorb. cbn [inq squeezing kc] in *.
  replace ((8 * N.of_nat (length r)) mod 8 =? 0) with true by lia. cbn [negb orb].
  set (st := fold_left absorb1 bs (repeat 0 25)).
  destruct (Nat.eq_dec (length r) 0) as [Er|Er].
  - destruct r; [|discriminate]. rewrite app_nil_r. change (8 * N.of_nat (length [])) with 0.
    destruct (loop_empty (S (length p)) st q p 0) as (bs' & r' & q' & E & Es & F' & Hr' & Eq' & Lq'); auto; try lia.
    change (8 * N.of_nat 0) with 0 in E. rewrite E. eexists; split; [reflexivity|].
    exists (bs ++ bs'), r', q'. rewrite skipn_O in Es. rewrite Es, concat_app, <- app_assoc. repeat split; auto.
    + apply Forall_app; auto.
    + unfold st. rewrite fold_left_app. reflexivity.
  - destruct Hfine as [?|(Hw & Hl)]; [lia|].
    destruct (Nat.eq_dec (length p) 0) as [Ep|Ep].
    { destruct p; [|discriminate]. rewrite app_nil_r. cbn [absorb_loop length]. change (8 * N.of_nat 0 <=? 0) with true. cbn iota.
      eexists; split; [reflexivity|]. exists bs, r, q. repeat split; auto. }
    cbn [absorb_loop]. destruct (N.leb_spec (8 * N.of_nat (length p)) 0); [lia|]. cbn [inq rate kc queue kst].
    replace (8 * N.of_nat (length r) =? 0) with false by lia. cbn [andb]. rewrite N.sub_0_r. cbv zeta. change (N.to_nat (0 / 8)) with 0%nat. rewrite skipn_O.
    set (b := 8 * N.of_nat (length p)) in *. set (i0 := 8 * N.of_nat (length r)) in *.
    assert (E32 : u32 (u32 b + i0) = u32 b + i0) by (unfold u32 at 1; apply N.mod_small; exact Hw). rewrite E32.
    (* the number of bytes copied *)
    assert (HP : exists n : nat, (if R <? u32 b + i0 then u32 (R + 2 ^ 32 - i0) else u32 b) = 8 * N.of_nat n /\ (n <= length p)%nat /\
      (n + length r <= rb)%nat /\ (1 <= n)%nat /\ ((n + length r < rb)%nat -> n = length p)).
    { destruct (N.ltb_spec R (u32 b + i0)) as [X|X].
      - exists (rb - length r)%nat. unfold u32 in *. replace (R + 2 ^ 32 - i0) with ((R - i0) + 1 * 2 ^ 32) by lia. rewrite N.mod_add by lia.
        rewrite N.mod_small by lia. assert (b mod 2 ^ 32 <= b) by (apply N.mod_le; lia). repeat split; lia.
      - destruct Hl as [Hl|Hl].
        + exists (length p). unfold u32 in *. rewrite N.mod_small in * by exact Hl. repeat split; lia.
        + exists (rb - length r)%nat. assert (b mod 2 ^ 32 <= b) by (apply N.mod_le; lia). unfold u32 in *. repeat split; lia. }
    destruct HP as (n & En & Hn1 & Hn2 & Hn3 & Hn4). rewrite En. replace ((8 * N.of_nat n) mod 8) with 0 by lia. rewrite N.sub_0_r.
    replace (N.to_nat (8 * N.of_nat n / 8)) with n by lia. unfold grab. destruct (Nat.ltb_spec (length p) n); [lia|]. cbn [bind].
    replace (N.to_nat (i0 / 8)) with (length r) by lia.
    rewrite blit_ok by (rewrite firstn_length; lia). cbn [bind]. rewrite Eq, firstn_length, Nat.min_l by lia. rewrite kset_kc.
    assert (EI : u32 (i0 + 8 * N.of_nat n) = 8 * N.of_nat (length r + n)) by (unfold u32; rewrite N.mod_small; lia). rewrite EI.
    set (q' := r ++ firstn n p ++ skipn (length r + n) q).
    assert (Lq' : length q' = 192%nat) by (unfold q'; rewrite !app_length, firstn_length, skipn_length; lia).
    cbn [inq rate kc]. destruct (N.eqb_spec (8 * N.of_nat (length r + n)) R) as [X|X].
    + rewrite absorb_queue_eq by exact Lq'. cbn [bind]. rewrite N.eqb_refl, N.add_0_l.
      assert (Efull : firstn rb q' = r ++ firstn n p).
      { unfold q'. rewrite app_assoc, firstn_app. replace (rb - length (r ++ firstn n p))%nat with 0%nat by (rewrite app_length, firstn_length; lia).
        rewrite firstn_O, app_nil_r. apply firstn_all2. rewrite app_length, firstn_length. lia. }
      rewrite Efull. destruct (loop_empty (length p) (absorb1 st (r ++ firstn n p)) q' p n) as (bs' & r' & q'' & E & Es & F' & Hr' & Eq' & Lq''); auto; try lia.
      unfold b. rewrite E. eexists; split; [reflexivity|]. exists (bs ++ [r ++ firstn n p] ++ bs'), r', q''.
      split; [|split; [|split; [|split; [|split]]]]; auto.
      * rewrite !concat_app. cbn [concat]. rewrite app_nil_r, <- !app_assoc. f_equal. f_equal. rewrite <- Es. symmetry. apply firstn_skipn.
      * apply Forall_app; split; [exact F|]. constructor; [rewrite app_length, firstn_length; lia|exact F'].
      * unfold st. rewrite !fold_left_app. reflexivity.
    + cbn [bind]. rewrite N.eqb_refl, N.add_0_l. assert (Enp : n = length p) by (apply Hn4; lia). rewrite Enp.
      replace (absorb_loop (length p) (kc st q' (8 * N.of_nat (length r + length p))) p b (8 * N.of_nat (length p)))
        with (Ret (kc st q' (8 * N.of_nat (length r + length p)))).
      2:{ destruct (length p) eqn:El; [lia|]. cbn [absorb_loop]. unfold b. rewrite N.leb_refl. reflexivity. }
      eexists; split; [reflexivity|]. exists bs, (r ++ p), q'. rewrite app_length.
      repeat split; auto; try lia; [rewrite app_assoc; reflexivity|]. unfold q'. rewrite Enp, firstn_all. rewrite app_assoc, firstn_app, app_length.
      rewrite Nat.sub_diag, firstn_O, app_nil_r. apply firstn_all2. rewrite app_length. lia.
Qed.

(** ** the calls that are not safe *)
Lemma update_overflow m c p : kfed m c -> 8 * N.of_nat (length p) < 2 ^ 64 -> 0 < inq c ->
  2 ^ 32 <= (8 * N.of_nat (length p)) mod 2 ^ 32 + inq c -> keccak_update c p = UB OutOfBounds.
Proof.
  intros (bs & r & q & -> & F & Hr & Eq & Lq & ->) Hb Hi Hw. unfold keccak_update.
  assert (Eu : u64 (8 * N.of_nat (length p)) = 8 * N.of_nat (length p)) by (unfold u64; apply N.mod_small; exact Hb).
  rewrite Eu. unfold keccak_absorb. cbn [inq squeezing kc] in *.
  replace ((8 * N.of_nat (length r)) mod 8 =? 0) with true by lia. cbn [negb orb].
  set (st := fold_left absorb1 bs (repeat 0 25)).
  set (b := 8 * N.of_nat (length p)) in *. set (i0 := 8 * N.of_nat (length r)) in *.
  assert (Hle : b mod 2 ^ 32 <= b) by (apply N.mod_le; lia). assert (Hlt : b mod 2 ^ 32 < 2 ^ 32) by (apply N.mod_lt; lia).
  cbn [absorb_loop]. destruct (N.leb_spec b 0); [lia|]. cbn [inq rate kc queue kst].
  replace (i0 =? 0) with false by lia. cbn [andb]. rewrite N.sub_0_r. cbv zeta. change (N.to_nat (0 / 8)) with 0%nat. rewrite skipn_O.
  assert (E32 : u32 (u32 b + i0) = b mod 2 ^ 32 + i0 - 2 ^ 32).
  { unfold u32. replace (b mod 2 ^ 32 + i0) with ((b mod 2 ^ 32 + i0 - 2 ^ 32) + 1 * 2 ^ 32) at 1 by lia. rewrite N.mod_add by lia. apply N.mod_small. lia. }
  rewrite E32. destruct (N.ltb_spec R (b mod 2 ^ 32 + i0 - 2 ^ 32)); [lia|].
  assert (En : u32 b mod 8 = 0).
  { unfold u32. change (2 ^ 32) with (8 * 2 ^ 29). unfold b. rewrite N.mul_mod_distr_l by (vm_compute; discriminate). rewrite N.mul_comm. apply N.mod_mul. discriminate. }
  rewrite En, N.sub_0_r. unfold grab. unfold u32. destruct (Nat.ltb_spec (length p) (N.to_nat (b mod 2 ^ 32 / 8))); [lia|]. cbn [bind].
  rewrite blit_ub; [reflexivity|]. rewrite firstn_length, Nat.min_l by lia. unfold i0 in *. rewrite Lq. unfold u32 in En. lia.
Qed.

Lemma stuck st k p b i q : (0 < k < rb)%nat -> length q = 192%nat -> i < b -> (b - i) mod 2 ^ 32 = 0 -> (N.to_nat (i / 8) <= length p)%nat ->
  forall fuel, absorb_loop fuel (kc st q (8 * N.of_nat k)) p b i = Hang.
Proof.
  intros Hk Hq Hi Hm Hp. induction fuel as [|fuel IH]; cbn [absorb_loop]; (destruct (N.leb_spec b i); [lia|]); [reflexivity|].
  cbn [inq rate kc queue kst]. replace (8 * N.of_nat k =? 0) with false by lia. cbn [andb]. cbv zeta.
  replace (u32 (b - i)) with 0 by (symmetry; exact Hm). rewrite N.add_0_l.
  replace (R <? u32 (8 * N.of_nat k)) with false by (unfold u32; rewrite N.mod_small; lia).
  change (0 mod 8) with 0. rewrite N.sub_0_r. change (N.to_nat (0 / 8)) with 0%nat. unfold grab.
  destruct (Nat.ltb_spec (length (skipn (N.to_nat (i / 8)) p)) 0); [lia|]. cbn [bind firstn].
  rewrite blit_ok by (cbn; lia). cbn [bind length app]. rewrite Nat.add_0_r, firstn_skipn, kset_kc, N.add_0_r.
  replace (u32 (8 * N.of_nat k)) with (8 * N.of_nat k) by (unfold u32; rewrite N.mod_small; lia).
  cbn [inq rate kc]. destruct (N.eqb_spec (8 * N.of_nat k) R); [lia|]. cbn [bind]. rewrite N.eqb_refl, N.add_0_r. exact IH.
Qed.

Lemma update_hang m c p : kfed m c -> 8 * N.of_nat (length p) < 2 ^ 64 -> 0 < inq c -> 2 ^ 32 <= 8 * N.of_nat (length p) ->
  (8 * N.of_nat (length p)) mod 2 ^ 32 + inq c < R ->
  forall fuel, absorb_loop fuel c p (8 * N.of_nat (length p)) 0 = Hang.
Proof.
  intros (bs & r & q & -> & F & Hr & Eq & Lq & ->) Hb Hi Hbig Hw fuel. cbn [inq kc] in *.
  set (st := fold_left absorb1 bs (repeat 0 25)).
  set (b := 8 * N.of_nat (length p)) in *. set (i0 := 8 * N.of_nat (length r)) in *.
  assert (Hle : b mod 2 ^ 32 <= b) by (apply N.mod_le; lia). assert (Hlt : b mod 2 ^ 32 < 2 ^ 32) by (apply N.mod_lt; lia).
  destruct fuel as [|fuel]; cbn [absorb_loop]; (destruct (N.leb_spec b 0); [lia|]); [reflexivity|]. cbn [inq rate kc queue kst].
  replace (i0 =? 0) with false by lia. cbn [andb]. rewrite N.sub_0_r. cbv zeta. change (N.to_nat (0 / 8)) with 0%nat. rewrite skipn_O.
  assert (E32 : u32 (u32 b + i0) = b mod 2 ^ 32 + i0) by (unfold u32; apply N.mod_small; lia).
  rewrite E32. destruct (N.ltb_spec R (b mod 2 ^ 32 + i0)); [lia|].
  assert (En : u32 b mod 8 = 0).
  { unfold u32. change (2 ^ 32) with (8 * 2 ^ 29). unfold b. rewrite N.mul_mod_distr_l by (vm_compute; discriminate). rewrite N.mul_comm. apply N.mod_mul. discriminate. }
  rewrite En, N.sub_0_r. unfold grab. unfold u32 in *. destruct (Nat.ltb_spec (length p) (N.to_nat (b mod 2 ^ 32 / 8))); [lia|]. cbn [bind].
  rewrite blit_ok by (rewrite firstn_length; lia). cbn [bind]. rewrite kset_kc. cbn [inq rate kc].
  replace ((i0 + b mod 2 ^ 32) mod 2 ^ 32) with (i0 + b mod 2 ^ 32) by (symmetry; apply N.mod_small; lia).
  destruct (N.eqb_spec (i0 + b mod 2 ^ 32) R); [lia|]. cbn [bind]. change (0 =? 0) with true. cbn iota. rewrite N.add_0_l.
  replace (i0 + b mod 2 ^ 32) with (8 * N.of_nat (length r + N.to_nat (b mod 2 ^ 32 / 8))) by lia.
  apply stuck.
  - lia.
  - rewrite !app_length, !firstn_length, skipn_length. lia.
  - lia.
  - replace (b - b mod 2 ^ 32) with (b / 2 ^ 32 * 2 ^ 32) by (pose proof (N.div_mod' b (2 ^ 32)); lia). apply N.mod_mul. discriminate.
  - lia.
Qed.

(** ** padding *)
Hypothesis HPL : (P = 2 /\ L = 2) \/ (P = 15 /\ L = 4) \/ (P = 3 /\ L = 2).
Definition padtail (n : nat) : list N :=
  if Nat.eqb n 1 then [P + 2 ^ L + 128] else (P + 2 ^ L) :: repeat 0 (n - 2) ++ [128].
Lemma padtail_len n : (1 <= n)%nat -> length (padtail n) = n.
Proof.
  intros H. unfold padtail. destruct (Nat.eqb_spec n 1) as [->|X]; [reflexivity|]. cbn [length]. rewrite app_length, repeat_length. cbn [length]. lia.
Qed.
Lemma padtail_bytes n : bytes_ok (padtail n).
Proof.
  unfold padtail. destruct (Nat.eqb n 1).
  - constructor; [|constructor]. destruct HPL as [[-> ->]|[[-> ->]|[-> ->]]]; vm_compute; reflexivity.
  - constructor; [destruct HPL as [[-> ->]|[[-> ->]|[-> ->]]]; vm_compute; reflexivity|]. apply Forall_app. split.
    + apply Forall_forall. intros x Hx. apply repeat_spec in Hx. subst. reflexivity.
    + constructor; [reflexivity|constructor].
Qed.

Lemma suffix_absorb st r x z : (length r < rb)%nat -> length (r ++ x :: z) = 192%nat ->
  keccak_absorb (kc st (r ++ x :: z) (8 * N.of_nat (length r))) [P] L = Ret (kc st (r ++ P :: z) (8 * N.of_nat (length r) + L)).
Proof.
  intros Hr Lq. assert (HL : 0 < L < 7) by (destruct HPL as [[? ->]|[[? ->]|[? ->]]]; lia).
  unfold keccak_absorb. cbn [inq squeezing kc]. replace ((8 * N.of_nat (length r)) mod 8 =? 0) with true by lia. cbn [negb orb].
  cbn [absorb_loop length]. destruct (N.leb_spec L 0); [lia|]. cbn [inq rate kc queue kst].
  replace ((8 * N.of_nat (length r) =? 0) && (R <=? L) && (0 <=? L - R)) with false by lia.
  rewrite N.sub_0_r. cbv zeta. set (i0 := 8 * N.of_nat (length r)) in *.
  replace (u32 L) with L by (unfold u32; rewrite N.mod_small; lia). replace (u32 (L + i0)) with (L + i0) by (unfold u32; rewrite N.mod_small; lia).
  destruct (N.ltb_spec R (L + i0)); [lia|]. rewrite (N.mod_small L 8) by lia. rewrite N.sub_diag.
  change (N.to_nat (0 / 8)) with 0%nat. unfold grab. rewrite skipn_O. cbn [length Nat.ltb Nat.leb bind firstn].
  rewrite blit_ok by (cbn; lia). cbn [bind length app]. rewrite Nat.add_0_r, firstn_skipn, kset_kc, !N.add_0_r.
  replace (u32 i0) with i0 by (unfold u32; rewrite N.mod_small; lia). cbn [inq rate kc]. destruct (N.eqb_spec i0 R); [lia|]. cbn [bind].
  destruct (N.eqb_spec L 0); [lia|]. change (rd [P] (N.to_nat (0 / 8))) with (Ret P). cbn [bind queue inq kst kc].
  replace (N.to_nat (i0 / 8)) with (length r) by lia.
  assert (EM : N.land P (u8 (N.shiftl 1 L - 1)) = P) by (destruct HPL as [[-> ->]|[[-> ->]|[-> ->]]]; reflexivity).
  rewrite EM, wr_app by reflexivity. cbn [bind]. rewrite kset_kc. cbn [inq kc].
  replace (u32 (i0 + L)) with (i0 + L) by (unfold u32; rewrite N.mod_small; lia). rewrite N.add_0_l, N.leb_refl. reflexivity.
Qed.

Definition kd (st q : list N) (i : N) : kctx := mkK st q R i O 24 false 0 P L true.
Definition ks (st q : list N) (s : N) : kctx := mkK st q R 0 O 24 true s P L true.

Lemma padding_eq st r z v : (length r < rb)%nat -> (length r + 1 + length z = rb)%nat -> length (r ++ P :: z ++ v) = 192%nat -> lanes_ok (absorb1 st (r ++ padtail (rb - length r))) ->
  k_padding (kd st (r ++ P :: z ++ v) (8 * N.of_nat (length r) + L)) =
    Ret (ks (absorb1 st (r ++ padtail (rb - length r))) (state_to_seq (absorb1 st (r ++ padtail (rb - length r))) lanes ++ v) R).
Proof.
  intros Hr Hz Lq Hok. assert (HL : 0 < L < 7) by (destruct HPL as [[? ->]|[[? ->]|[? ->]]]; lia).
  unfold k_padding. cbn [inq rate kd queue kst]. destruct (N.eqb_spec (8 * N.of_nat (length r) + L + 1) R); [lia|].
  set (i0 := 8 * N.of_nat (length r)) in *. cbv zeta.
  replace ((i0 + L + 7) / 8) with (N.of_nat (length r + 1)) by lia. rewrite Nat2N.id.
  replace (N.to_nat (R / 8 - N.of_nat (length r + 1))) with (length z) by lia.
  assert (EB : blit (r ++ P :: z ++ v) (length r + 1) (repeat 0 (length z)) = Ret ((r ++ [P]) ++ repeat 0 (length z) ++ v)).
  { replace (r ++ P :: z ++ v) with ((r ++ [P]) ++ z ++ v) by (rewrite <- app_assoc; reflexivity).
    apply blit_app; [rewrite app_length; reflexivity|symmetry; apply repeat_length]. }
  rewrite EB. cbn [bind]. rewrite <- app_assoc. cbn [app]. unfold k_or at 1.
  replace (N.to_nat ((i0 + L) / 8)) with (length r) by lia. rewrite rd_app_mid by reflexivity. cbn [bind].
  replace ((i0 + L) mod 8) with L by lia. rewrite wr_app by reflexivity. cbn [bind].
  assert (EO : u8 (N.lor P (N.shiftl 1 L)) = P + 2 ^ L) by (destruct HPL as [[-> ->]|[[-> ->]|[-> ->]]]; reflexivity). rewrite EO.
  unfold kset. cbn [kst queue rate inq outlen nr squeezing squeezable ap aplen apadded kd].
  replace (N.to_nat ((R - 1) / 8)) with (rb - 1)%nat by lia. replace ((R - 1) mod 8) with 7 by lia. change (N.shiftl 1 7) with 128.
  set (D := P + 2 ^ L) in *.
  assert (EK : k_or (r ++ D :: repeat 0 (length z) ++ v) ((R - 1) / 8) 128 = Ret ((r ++ padtail (rb - length r)) ++ v)).
  { unfold k_or, padtail. replace (N.to_nat ((R - 1) / 8)) with (rb - 1)%nat by lia. destruct (Nat.eqb_spec (rb - length r) 1) as [E1|E1].
    - replace (length z) with 0%nat by lia. cbn [repeat app]. rewrite rd_app_mid by lia. cbn [bind]. rewrite wr_app by lia. fold D.
      assert (EE : u8 (N.lor D 128) = D + 128) by (unfold D; destruct HPL as [[-> ->]|[[-> ->]|[-> ->]]]; reflexivity).
      rewrite EE, <- app_assoc. reflexivity.
    - replace (length z) with ((rb - length r - 2) + 1)%nat by lia. rewrite repeat_app. cbn [repeat].
      set (Z := repeat 0 (rb - length r - 2)).
      replace (r ++ D :: (Z ++ [0]) ++ v) with ((r ++ D :: Z) ++ 0 :: v) by (repeat (rewrite <- app_assoc; cbn [app]); reflexivity).
      assert (LZ : (rb - 1 = length (r ++ D :: Z))%nat) by (rewrite app_length; cbn [length]; unfold Z; rewrite repeat_length; lia).
      rewrite rd_app_mid by exact LZ. cbn [bind]. rewrite wr_app by exact LZ. change (u8 (N.lor 0 128)) with 128. fold D.
      repeat (rewrite <- app_assoc; cbn [app]). reflexivity. }
  rewrite EK. cbn [bind]. set (lastb := r ++ padtail (rb - length r)) in *.
  assert (Ll : length lastb = rb) by (unfold lastb; rewrite app_length, padtail_len; lia).
  unfold absorb_queue. cbn [kst queue rate inq outlen nr squeezing squeezable ap aplen apadded].
  rewrite R64, k_absorb_eq by (rewrite app_length; lia). rewrite firstn_app, Ll, Nat.sub_diag, firstn_O, app_nil_r, firstn_all2 by lia.
  fold (absorb1 st lastb). cbn [bind]. unfold kset. cbn [kst queue rate inq outlen nr squeezing squeezable ap aplen apadded]. rewrite R64.
  assert (LS : length (state_to_seq (absorb1 st lastb) lanes) = rb) by (apply state_to_seq_len; destruct Hok as [-> _]; lia).
  rewrite (blit_app [] lastb v) by (auto; lia). cbn [bind app]. reflexivity.
Qed.

(** ** squeezing *)
Definition permk (k : nat) (st : list N) : list N := Nat.iter k (fun A => k_permutation A 24) st.
Definition sbyte (st : list N) (p : nat) : N := nth (p mod rb) (state_to_seq (permk (p / rb) st) lanes) 0.
Definition sbytes (st : list N) (p n : nat) : list N := map (sbyte st) (seq p n).
Lemma permk_ok k st : lanes_ok st -> lanes_ok (permk k st).
Proof. intros H. induction k; [exact H|]. apply (perm_ok (permk k st)), IHk. Qed.
Lemma sbytes_len st p n : length (sbytes st p n) = n.
Proof. unfold sbytes. rewrite map_length. apply seq_length. Qed.
Lemma sbytes_app st p a b : sbytes st p (a + b) = sbytes st p a ++ sbytes st (p + a) b.
Proof. unfold sbytes. rewrite seq_app, map_app. reflexivity. Qed.
Lemma sbytes_bytes st p n : bytes_ok (sbytes st p n).
Proof.
  unfold sbytes. apply Forall_map, Forall_forall. intros i _. unfold sbyte.
  destruct (nth_in_or_default (i mod rb) (state_to_seq (permk (i / rb) st) lanes) 0) as [H|H]; [|rewrite H; reflexivity].
  pose proof (state_to_seq_bytes (permk (i / rb) st) lanes) as B. unfold bytes_ok in B. rewrite Forall_forall in B. apply B, H.
Qed.
Lemma sbytes_block st k o n : lanes_ok st -> (o + n <= rb)%nat ->
  sbytes st (k * rb + o) n = firstn n (skipn o (state_to_seq (permk k st) lanes)).
Proof.
  intros Hs Hn. assert (LS : length (state_to_seq (permk k st) lanes) = rb) by (apply state_to_seq_len; destruct (permk_ok k st Hs) as [-> _]; lia).
  apply (nth_ext _ _ 0 0).
  - rewrite sbytes_len, firstn_length, skipn_length, LS. lia.
  - intros i Hi. rewrite sbytes_len in Hi. unfold sbytes. rewrite (nth_indep _ 0 (sbyte st 0)) by (rewrite map_length, seq_length; exact Hi).
    rewrite map_nth, seq_nth by exact Hi. rewrite nth_firstn_lt, nth_skipn_add by exact Hi. unfold sbyte.
    replace (k * rb + o + i)%nat with ((o + i) + k * rb)%nat by lia. rewrite Nat.mod_add, Nat.div_add by lia.
    rewrite Nat.mod_small, Nat.div_small by lia. reflexivity.
Qed.

(** the context after squeezing [p] bytes *)
Definition sq (st : list N) (p : nat) (c : kctx) : Prop := exists k q v,
  (k * rb <= p <= k * rb + rb)%nat /\ q = state_to_seq (permk k st) lanes ++ v /\ length q = 192%nat /\
  c = ks (permk k st) q (R - 8 * N.of_nat (p - k * rb)).

Lemma squeeze_loop_eq st (Hst : lanes_ok st) : forall fuel p c out n j, sq st p c -> (n <= length out)%nat -> (j <= n)%nat ->
  ((j < n)%nat -> n - j + (if ((squeezable c =? 0) || (squeezable c =? R))%N then 0 else 8) <= 8 * fuel)%nat -> 8 * N.of_nat n < 2 ^ 32 ->
  exists c', squeeze_loop fuel c out (8 * N.of_nat n) (8 * N.of_nat j) = Ret (c', firstn j out ++ sbytes st p (n - j) ++ skipn n out) /\
    sq st (p + (n - j)) c'.
Proof.
  induction fuel as [|fuel IH]; intros p c out n j (k & q & v & Hk & Eq & Lq & ->) Hn Hj Hf Hb.
  - assert (j = n) by (destruct (Nat.eq_dec j n); [assumption|]; specialize (Hf ltac:(lia)); destruct (_ || _); lia). subst j. cbn [squeeze_loop]. rewrite N.leb_refl. rewrite Nat.sub_diag, Nat.add_0_r. cbn [sbytes seq map app].
    unfold sbytes. cbn [seq map app]. rewrite firstn_skipn. eexists; split; [reflexivity|]. exists k, q, v. auto.
  - cbn [squeeze_loop]. destruct (N.leb_spec (8 * N.of_nat n) (8 * N.of_nat j)) as [Le|Le].
    { assert (j = n) by lia. subst j. rewrite Nat.sub_diag, Nat.add_0_r. unfold sbytes. cbn [seq map app].
      rewrite firstn_skipn. eexists; split; [reflexivity|]. exists k, q, v. auto. }
    specialize (Hf ltac:(lia)). (* refill *)
    cbn [squeezable ks] in *.
    assert (RF : exists k' q' v' o, (p = k' * rb + o)%nat /\ (o < rb)%nat /\ q' = state_to_seq (permk k' st) lanes ++ v' /\ length q' = 192%nat /\
      (R - 8 * N.of_nat o = R -> (n - j <= 8 * S fuel)%nat) /\ (R - 8 * N.of_nat o <> R -> (n - j + 8 <= 8 * S fuel)%nat) /\
      (if R - 8 * N.of_nat (p - k * rb) =? 0 then
              let st0 := k_permutation (kst (ks (permk k st) q (R - 8 * N.of_nat (p - k * rb)))) 24 in
              q0 <- blit q 0 (state_to_seq st0 (N.to_nat (R / 64))) ;;
              Ret (mkK st0 q0 R 0 O 24 true R P L true)
            else Ret (ks (permk k st) q (R - 8 * N.of_nat (p - k * rb)))) = Ret (ks (permk k' st) q' (R - 8 * N.of_nat o))).
    { destruct (N.eqb_spec (R - 8 * N.of_nat (p - k * rb)) 0) as [Z|Z].
      - cbn [orb] in Hf. assert (LS : forall i, length (state_to_seq (permk i st) lanes) = rb).
        { intros i. apply state_to_seq_len. destruct (permk_ok i st Hst) as [-> _]. lia. }
        exists (S k), (state_to_seq (permk (S k) st) lanes ++ v), v, 0%nat.
        split; [cbn [Nat.mul]; lia|]. split; [lia|]. split; [reflexivity|]. split.
        { rewrite Eq in Lq. rewrite app_length, LS in *. exact Lq. }
        split; [intros _; lia|]. split; [intros W; exfalso; apply W; lia|].
        cbv zeta. cbn [kst ks]. rewrite R64, Eq. change (k_permutation (permk k st) 24) with (permk (S k) st).
        rewrite (blit_app [] (state_to_seq (permk k st) lanes) v) by (rewrite ?LS; reflexivity). cbn [bind app]. unfold ks. rewrite N.sub_0_r. reflexivity.
      - cbn [orb] in Hf. exists k, q, v, (p - k * rb)%nat. split; [lia|]. split; [lia|]. split; [exact Eq|]. split; [exact Lq|].
        split; [|split; [|reflexivity]]; intros W; destruct (N.eqb_spec (R - 8 * N.of_nat (p - k * rb)) R); try lia; try contradiction. }
    destruct RF as (k' & q' & v' & o & Ep & Ho & Eq' & Lq' & F1 & F2 & ER). cbn [kst rate inq outlen nr squeezing ap aplen apadded queue ks] in *.
    rewrite ER. clear ER. cbn [bind kst rate inq outlen nr squeezing squeezable ap aplen apadded queue ks].
    assert (LS : length (state_to_seq (permk k' st) lanes) = rb).
    { apply state_to_seq_len. destruct (permk_ok k' st Hst) as [-> _]. lia. }
    set (a := Nat.min (n - j) (rb - o)).
    assert (EP : (if 8 * N.of_nat n - 8 * N.of_nat j <? R - 8 * N.of_nat o then u32 (8 * N.of_nat n - 8 * N.of_nat j) else R - 8 * N.of_nat o) = 8 * N.of_nat a).
    { unfold a. destruct (N.ltb_spec (8 * N.of_nat n - 8 * N.of_nat j) (R - 8 * N.of_nat o)); [unfold u32; rewrite N.mod_small by lia|]; lia. }
    rewrite EP. replace (N.to_nat (8 * N.of_nat a / 8)) with a by lia. replace (N.to_nat ((R - (R - 8 * N.of_nat o)) / 8)) with o by lia.
    replace (N.to_nat (8 * N.of_nat j / 8)) with j by lia.
    assert (EG : grab a (skipn o q') = Ret (sbytes st p a)).
    { unfold grab. rewrite skipn_length. destruct (Nat.ltb_spec (length q' - o) a); [lia|]. rewrite Ep, sbytes_block by (auto; lia).
      rewrite Eq', skipn_app, firstn_app, skipn_length, LS. replace (a - (rb - o))%nat with 0%nat by lia. rewrite firstn_O, app_nil_r. reflexivity. }
    rewrite EG. cbn [bind]. rewrite blit_ok by (rewrite sbytes_len; lia). cbn [bind]. rewrite sbytes_len.
    replace (8 * N.of_nat j + 8 * N.of_nat a) with (8 * N.of_nat (j + a)) by lia.
    replace (R - 8 * N.of_nat o - 8 * N.of_nat a) with (R - 8 * N.of_nat (o + a)) by lia.
    destruct (IH (p + a)%nat (ks (permk k' st) q' (R - 8 * N.of_nat (o + a))) (firstn j out ++ sbytes st p a ++ skipn (j + a) out) n (j + a)%nat) as (c' & E & S').
    + exists k', q', v'. replace (p + a - k' * rb)%nat with (o + a)%nat by lia. repeat split; auto; lia.
    + rewrite !app_length, sbytes_len, firstn_length, skipn_length. lia.
    + lia.
    + intros Hlt. cbn [squeezable ks]. destruct (Nat.eq_dec (o + a) rb) as [X|X].
      * replace (R - 8 * N.of_nat (o + a) =? 0) with true by lia. cbn [orb]. destruct (N.eq_dec (R - 8 * N.of_nat o) R); [specialize (F1 e)|specialize (F2 n0)]; lia.
      * exfalso. lia.
    + exact Hb.
    + unfold ks at 1 in E. rewrite E. exists c'. split; [|replace (p + (n - j))%nat with (p + a + (n - (j + a)))%nat by lia; exact S']. f_equal. f_equal.
      replace (n - j)%nat with (a + (n - (j + a)))%nat at 1 by lia. rewrite sbytes_app, <- !app_assoc.
      rewrite firstn_app, firstn_length, firstn_firstn. replace (Nat.min (j + a) j) with j by lia. rewrite <- app_assoc. f_equal.
      rewrite firstn_app, sbytes_len. rewrite firstn_all2 by (rewrite sbytes_len; lia). rewrite <- app_assoc. f_equal.
      replace (j + a - Nat.min j (length out) - a)%nat with 0%nat by lia. rewrite firstn_O. cbn [app]. f_equal.
      rewrite !skipn_app, firstn_length, sbytes_len. rewrite skipn_all2 by (rewrite firstn_length; lia). cbn [app].
      rewrite skipn_all2 by (rewrite sbytes_len; lia). cbn [app]. rewrite skipn_add. f_equal. lia.
Qed.

End Sponge.
