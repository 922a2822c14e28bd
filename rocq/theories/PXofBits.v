(** The squeeze loop of keccak-backend.c for arbitrary numbers of bits. *)
From Verif Require Import Base MSha MFront MKeccak SFips202 SKeccakFns SXofBits PWords PSha PKeccak PSponge PSponge2 PKeccakFns.
Local Open Scope N_scope.

Section Bits.
Variable lanes : nat.
Hypothesis Hlanes : (1 <= lanes <= 24)%nat.
Notation rb := (8 * lanes)%nat.
Notation RR := (64 * lanes)%nat.
Notation R := (N.of_nat (64 * lanes)).
Variables (P L : N).
Hypothesis HPL : (P = 2 /\ L = 2) \/ (P = 15 /\ L = 4) \/ (P = 3 /\ L = 2).

(** the context after [p] bits were asked for *)
Definition sqb (O : N) (st : list N) (p : nat) (c : kctx) : Prop := exists k q v,
  (k * RR <= p <= k * RR + RR)%nat /\ q = state_to_seq (permk k st) lanes ++ v /\ length q = 192%nat /\
  c = ks lanes O P L (permk k st) q (R - N.of_nat (p - k * RR)).

Lemma sqb_set_out O st p c o : sqb O st p c -> sqb o st p (set_out c o).
Proof. intros (k & q & v & A & B & C & ->). exists k, q, v. repeat (split; [assumption|]). reflexivity. Qed.

Lemma start_squeeze O m c : kfed lanes O P L m c -> bytes_ok m ->
  exists c0, sqb O (final lanes P L m) 0 c0 /\ forall out, keccak_squeeze c out = squeeze_loop (N.to_nat (O / 64) + 2) c0 out O 0.
Proof.
  intros (bs & r & q & -> & F & Hr & Eq & Lq & ->) Hm.
  assert (HL : 0 < L) by (destruct HPL as [[? ->]|[[? ->]|[? ->]]]; lia).
  pose proof (final_ok lanes Hlanes P L HPL _ Hm) as Hok. rewrite final_split in * by assumption.
  set (st := fold_left (absorb1 lanes) bs (repeat 0 25)) in *. set (st' := absorb1 lanes st _) in *.
  unfold keccak_squeeze. cbn [outlen aplen apadded kc]. destruct (N.eqb_spec L 0); [lia|]. cbn [negb andb].
  assert (D : exists x z v, q = r ++ x :: z ++ v /\ (length r + 1 + length z = rb)%nat).
  { destruct (skipn (length r) q) as [|x w] eqn:E; [apply (f_equal (@length N)) in E; rewrite skipn_length in E; cbn in E; lia|].
    exists x, (firstn (rb - length r - 1) w), (skipn (rb - length r - 1) w). rewrite firstn_skipn, <- E. split.
    - rewrite <- Eq at 1. symmetry. apply firstn_skipn.
    - apply (f_equal (@length N)) in E. rewrite skipn_length in E. cbn [length] in E. rewrite firstn_length. lia. }
  destruct D as (x & z & v & -> & Lz). cbn [ap kc].
  rewrite suffix_absorb by auto. cbn [bind kst queue rate inq outlen nr squeezing squeezable ap aplen apadded kc].
  fold (kd lanes O P L st (r ++ P :: z ++ v) (8 * N.of_nat (length r) + L)).
  assert (Lq2 : length (r ++ P :: z ++ v) = 192%nat) by (rewrite app_length in Lq |- *; cbn [length] in Lq |- *; exact Lq).
  rewrite padding_eq by auto. cbn [bind]. fold st'.
  exists (ks lanes O P L st' (state_to_seq st' lanes ++ v) R). split.
  { exists 0%nat, (state_to_seq st' lanes ++ v), v. split; [lia|]. split; [reflexivity|]. split.
    - rewrite app_length, state_to_seq_len by (destruct Hok as [-> _]; lia). rewrite app_length in Lq2. cbn [length] in Lq2. rewrite app_length in Lq2. lia.
    - rewrite N.sub_0_r. reflexivity. }
  intros out. reflexivity.
Qed.

Lemma one_round O st (Hst : lanes_ok st) p c b j out : sqb O st p c -> (j < b)%nat -> N.of_nat b < 2 ^ 32 ->
  let a := Nat.min (b - j) (RR - p mod RR) in (j / 8 + a / 8 <= length out)%nat ->
  exists c', sqb O st (p + a) c' /\ forall fuel, squeeze_loop (S fuel) c out (N.of_nat b) (N.of_nat j) =
    squeeze_loop fuel c' (firstn (j / 8) out ++ sbytes lanes st (p / 8) (a / 8) ++ skipn (j / 8 + a / 8) out) (N.of_nat b) (N.of_nat (j + a)).
Proof.
  intros (k & q & v & Hk & Eq & Lq & ->) Hj Hb a Ha.
  assert (RF : exists k' q' v' o, (p = k' * RR + o)%nat /\ (o < RR)%nat /\ q' = state_to_seq (permk k' st) lanes ++ v' /\ length q' = 192%nat /\
      (if R - N.of_nat (p - k * RR) =? 0 then
              let st0 := k_permutation (kst (ks lanes O P L (permk k st) q (R - N.of_nat (p - k * RR)))) 24 in
              q0 <- blit q 0 (state_to_seq st0 (N.to_nat (R / 64))) ;;
              Ret (mkK st0 q0 R 0 O 24 true R P L true)
            else Ret (ks lanes O P L (permk k st) q (R - N.of_nat (p - k * RR)))) = Ret (ks lanes O P L (permk k' st) q' (R - N.of_nat o))).
  { destruct (N.eqb_spec (R - N.of_nat (p - k * RR)) 0) as [Z|Z].
    - assert (LS : forall i, length (state_to_seq (permk i st) lanes) = rb).
      { intros i. apply state_to_seq_len. destruct (permk_ok i st Hst) as [-> _]. lia. }
      exists (S k), (state_to_seq (permk (S k) st) lanes ++ v), v, 0%nat.
      split; [cbn [Nat.mul]; lia|]. split; [lia|]. split; [reflexivity|]. split.
      { rewrite Eq in Lq. rewrite app_length, LS in *. exact Lq. }
      cbv zeta. cbn [kst ks]. rewrite (R64 lanes Hlanes), Eq. change (k_permutation (permk k st) 24) with (permk (S k) st).
      rewrite (blit_app [] (state_to_seq (permk k st) lanes) v) by (rewrite ?LS; reflexivity). cbn [bind app]. unfold ks. rewrite N.sub_0_r. reflexivity.
    - exists k, q, v, (p - k * RR)%nat. split; [lia|]. split; [lia|]. split; [exact Eq|]. split; [exact Lq|]. reflexivity. }
  destruct RF as (k' & q' & v' & o & Ep & Ho & Eq' & Lq' & ER).
  assert (Em : (p mod RR = o)%nat) by (rewrite Ep, Nat.add_comm, Nat.mod_add, Nat.mod_small by lia; reflexivity).
  unfold a in *. clear a. rewrite Em in *. set (a := Nat.min (b - j) (RR - o)) in *.
  assert (Ed : (p / 8 = k' * rb + o / 8)%nat) by (rewrite Ep; replace (k' * RR + o)%nat with (o + (k' * rb) * 8)%nat by lia; rewrite Nat.div_add by lia; lia).
  assert (LS : length (state_to_seq (permk k' st) lanes) = rb).
  { apply state_to_seq_len. destruct (permk_ok k' st Hst) as [-> _]. lia. }
  exists (ks lanes O P L (permk k' st) q' (R - N.of_nat (o + a))). split.
  { exists k', q', v'. replace (p + a - k' * RR)%nat with (o + a)%nat by lia. repeat split; auto; lia. }
  intros fuel. cbn [squeeze_loop]. destruct (N.leb_spec (N.of_nat b) (N.of_nat j)) as [Le|Le]; [lia|].
  cbn [kst rate inq outlen nr squeezing squeezable ap aplen apadded queue ks] in *.
  rewrite ER. clear ER. cbn [bind kst rate inq outlen nr squeezing squeezable ap aplen apadded queue ks].
  assert (EP : (if N.of_nat b - N.of_nat j <? R - N.of_nat o then u32 (N.of_nat b - N.of_nat j) else R - N.of_nat o) = N.of_nat a).
  { unfold a. destruct (N.ltb_spec (N.of_nat b - N.of_nat j) (R - N.of_nat o)); [unfold u32; rewrite N.mod_small by lia|]; lia. }
  rewrite EP. replace (N.to_nat (N.of_nat a / 8)) with (a / 8)%nat by lia. replace (N.to_nat ((R - (R - N.of_nat o)) / 8)) with (o / 8)%nat by lia.
  replace (N.to_nat (N.of_nat j / 8)) with (j / 8)%nat by lia.
  assert (EG : grab (a / 8) (skipn (o / 8) q') = Ret (sbytes lanes st (p / 8) (a / 8))).
  { unfold grab. rewrite skipn_length. destruct (Nat.ltb_spec (length q' - o / 8) (a / 8)); [lia|]. rewrite Ed, (sbytes_block lanes Hlanes P L HPL) by (auto; lia).
    rewrite Eq', skipn_app, firstn_app, skipn_length, LS. replace (a / 8 - (rb - o / 8))%nat with 0%nat by lia. rewrite firstn_O, app_nil_r. reflexivity. }
  rewrite EG. cbn [bind]. rewrite blit_ok by (rewrite sbytes_len; lia). cbn [bind]. rewrite sbytes_len.
  replace (N.of_nat j + N.of_nat a) with (N.of_nat (j + a)) by lia.
  replace (R - N.of_nat o - N.of_nat a) with (R - N.of_nat (o + a)) by lia. reflexivity.
Qed.

Lemma loop_done fuel c out b : squeeze_loop fuel c out b b = Ret (c, out).
Proof. destruct fuel; cbn [squeeze_loop]; rewrite N.leb_refl; reflexivity. Qed.

Lemma splice (out s t : list N) i m n : (i + m + n <= length out)%nat -> length s = m -> length t = n ->
  firstn (i + m) (firstn i out ++ s ++ skipn (i + m) out) ++ t ++ skipn (i + m + n) (firstn i out ++ s ++ skipn (i + m) out) =
  firstn i out ++ (s ++ t) ++ skipn (i + m + n) out.
Proof.
  intros H Hs Ht. assert (Li : length (firstn i out) = i) by (rewrite firstn_length; lia).
  rewrite (app_assoc (firstn i out) s). rewrite firstn_app, skipn_app, app_length, Li, Hs.
  rewrite firstn_all2 by (rewrite app_length; lia). rewrite Nat.sub_diag, firstn_O, app_nil_r.
  rewrite skipn_all2 by (rewrite app_length; lia). cbn [app]. rewrite skipn_add. rewrite <- !app_assoc. do 3 f_equal. f_equal. lia.
Qed.

(** from the start of a block on *)
Lemma aligned O st (Hst : lanes_ok st) b (Hb : N.of_nat b < 2 ^ 32) : forall fuel p c j out, sqb O st p c -> (p mod RR = 0)%nat -> (j <= b)%nat ->
  (b - j <= 64 * fuel)%nat -> (j / 8 + (b - j) / 8 <= length out)%nat ->
  exists c', squeeze_loop fuel c out (N.of_nat b) (N.of_nat j) =
    Ret (c', firstn (j / 8) out ++ sbytes lanes st (p / 8) ((b - j) / 8) ++ skipn (j / 8 + (b - j) / 8) out) /\ sqb O st (p + (b - j)) c'.
Proof.
  induction fuel as [|fuel IH]; intros p c j out S Hp Hj Hf Ho.
  - assert (j = b) as -> by lia. rewrite loop_done. rewrite Nat.sub_diag, Nat.div_0_l, !Nat.add_0_r by lia. cbn [sbytes seq map app]. exists c.
    unfold sbytes. cbn [seq map app]. rewrite firstn_skipn. auto.
  - destruct (Nat.eq_dec j b) as [->|Nj].
    { rewrite loop_done. rewrite Nat.sub_diag, Nat.div_0_l, !Nat.add_0_r by lia. exists c. unfold sbytes. cbn [seq map app]. rewrite firstn_skipn. auto. }
    destruct (one_round O st Hst p c b j out S) as (c1 & S1 & E1); [lia|exact Hb|rewrite Hp; lia|].
    rewrite E1. rewrite Hp, Nat.sub_0_r in *. destruct (Nat.le_gt_cases (b - j) RR) as [C|C].
    + rewrite Nat.min_l in * by lia. replace (j + (b - j))%nat with b by lia. rewrite loop_done. exists c1. auto.
    + rewrite Nat.min_r in * by lia.
      destruct (IH (p + RR)%nat c1 (j + RR)%nat (firstn (j / 8) out ++ sbytes lanes st (p / 8) (RR / 8) ++ skipn (j / 8 + RR / 8) out)) as (c' & E & S'); auto.
      { rewrite <- (Nat.mul_1_l RR) at 1. rewrite Nat.mod_add by lia. exact Hp. }
      { lia. } { lia. }
      { rewrite !app_length, firstn_length, skipn_length, sbytes_len. lia. }
      exists c'. split; [|replace (p + (b - j))%nat with (p + RR + (b - (j + RR)))%nat by lia; exact S'].
      rewrite E. f_equal. f_equal.
      replace ((j + RR) / 8)%nat with (j / 8 + RR / 8)%nat by lia.
      replace ((b - j) / 8)%nat with (RR / 8 + (b - (j + RR)) / 8)%nat by lia.
      replace ((p + RR) / 8)%nat with (p / 8 + RR / 8)%nat by lia. rewrite sbytes_app, Nat.add_assoc.
      apply splice; [lia|apply sbytes_len|apply sbytes_len].
Qed.

Lemma delivered_len (f : nat -> nat -> list N) p b : (forall a n, length (f a n) = n) -> (length (delivered RR f p b) <= b / 8)%nat.
Proof.
  intros H. unfold delivered. destruct (Nat.leb_spec b (RR - p mod RR)); [rewrite H; lia|]. rewrite app_length, !H. lia.
Qed.
Lemma whole_call O st (Hst : lanes_ok st) p c b out : sqb O st p c -> N.of_nat b < 2 ^ 32 -> (b / 8 <= length out)%nat ->
  exists c', squeeze_loop (N.to_nat (N.of_nat b / 64) + 2) c out (N.of_nat b) 0 =
    Ret (c', delivered RR (sbytes lanes st) p b ++ skipn (length (delivered RR (sbytes lanes st) p b)) out) /\ sqb O st (p + b) c'.
Proof.
  intros Q Hb Ho. change 0 with (N.of_nat 0). unfold delivered.
  replace (N.to_nat (N.of_nat b / 64) + 2)%nat with (S (b / 64 + 1))%nat by lia.
  destruct (Nat.eq_dec b 0) as [->|Nb].
  { rewrite loop_done. rewrite Nat.add_0_r. cbn [Nat.leb]. rewrite Nat.div_0_l by lia. rewrite sbytes_len. exists c. auto. }
  destruct (one_round O st Hst p c b 0 out Q) as (c1 & S1 & E1); [lia|exact Hb|lia|].
  rewrite E1. rewrite Nat.sub_0_r, Nat.div_0_l in * by lia. cbn [firstn app Nat.add] in *.
  assert (Hm : (p mod RR < RR)%nat) by (apply Nat.mod_upper_bound; lia).
  destruct (Nat.leb_spec b (RR - p mod RR)) as [C|C].
  - rewrite Nat.min_l in * by lia. rewrite loop_done, sbytes_len. exists c1. auto.
  - rewrite Nat.min_r in * by lia. set (a := (RR - p mod RR)%nat) in *.
    destruct (aligned O st Hst b Hb (b / 64 + 1) (p + a) c1 a (sbytes lanes st (p / 8) (a / 8) ++ skipn (a / 8) out) S1) as (c' & E & S'); try lia.
    { pose proof (Nat.div_mod p RR ltac:(lia)). replace (p + a)%nat with (0 + (p / RR + 1) * RR)%nat by (unfold a; nia). rewrite Nat.mod_add by lia. apply Nat.mod_0_l. lia. }
    { rewrite app_length, skipn_length, sbytes_len. lia. }
    exists c'. split; [|replace (p + b)%nat with (p + a + (b - a))%nat by lia; exact S'].
    rewrite E. f_equal. f_equal. rewrite app_length, !sbytes_len.
    pose proof (splice out (sbytes lanes st (p / 8) (a / 8)) (sbytes lanes st ((p + a) / 8) ((b - a) / 8)) 0 (a / 8) ((b - a) / 8)) as X.
    cbn [firstn app Nat.add] in X. rewrite X; auto; try apply sbytes_len. lia.
Qed.
End Bits.
