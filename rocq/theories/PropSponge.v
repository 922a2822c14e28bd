(** Property theorems C80: the Keccak permutation loses nothing; what equal states and equal digests of two messages mean. *)
From Coq Require Import String.
From Verif Require SFips180 PShaInst.
From Verif Require Import Base MSha MFront MKeccak SFips202 SHash SKeccakFns PWords PSha PKeccak PSponge PSponge2 PKeccakFns PKeccakInj SSponge.
Local Open Scope N_scope.

Lemma bits_of_inj A B : lanes_ok A -> lanes_ok B -> bits_of A = bits_of B -> A = B.
Proof.
  intros [LA FA] [LB FB] E. apply (nth_ext _ _ 0 0); [congruence|]. intros i Hi. apply N.bits_inj. intros z.
  destruct (N.lt_ge_cases z 64) as [L|L].
  - apply (f_equal (fun l => nth (64 * i + N.to_nat z) l false)) in E. rewrite !bits_of_nth in E.
    replace ((64 * i + N.to_nat z) / 64)%nat with i in E by lia. replace ((64 * i + N.to_nat z) mod 64)%nat with (N.to_nat z) in E by lia.
    rewrite N2Nat.id in E. exact E.
  - rewrite !(testbit_high _ z 64); try reflexivity; try exact L; apply nth_lt; assumption.
Qed.
Lemma bits_1600 A : lanes_ok A -> length (bits_of A) = 1600%nat.
Proof. intros [L _]. rewrite bits_of_len, L. reflexivity. Qed.

(** the permutation of the code maps different states to different states *)
Theorem C80_permutation : forall A B, length A = 25%nat -> length B = 25%nat -> Forall (fun v => v < 2 ^ 64) A -> Forall (fun v => v < 2 ^ 64) B ->
  k_permutation A 24 = k_permutation B 24 -> A = B.
Proof.
  intros A B LA LB FA FB E. assert (OA : lanes_ok A) by (split; assumption). assert (OB : lanes_ok B) by (split; assumption).
  apply bits_of_inj; [exact OA|exact OB|]. apply keccak_f_inj; [apply bits_1600; exact OA|apply bits_1600; exact OB|]. rewrite !perm_eq by assumption. rewrite E. reflexivity.
Qed.
Print Assumptions C80_permutation.
Lemma permk_inj k : forall A B, lanes_ok A -> lanes_ok B -> permk k A = permk k B -> A = B.
Proof.
  induction k as [|k IH]; intros A B OA OB E; [exact E|]. apply IH; [exact OA|exact OB|].
  pose proof (permk_ok k A OA) as [? ?]. pose proof (permk_ok k B OB) as [? ?]. apply C80_permutation; assumption.
Qed.

(** ** blocks *)
Lemma split_cut fuel r (l : bits) : split_bits fuel r l = SFips180.cut fuel r l.
Proof. revert l. induction fuel as [|f IH]; intros [|b l]; try reflexivity. cbn [split_bits SFips180.cut]. f_equal. apply IH. Qed.
Lemma pad_mult r m : (2 <= r)%nat -> exists n, (m + length (pad10star1 r m) = S n * r)%nat.
Proof.
  intros R. unfold pad10star1. rewrite !app_length, repeat_length. cbn [length].
  pose proof (Nat.div_mod_eq m r) as D. pose proof (Nat.mod_upper_bound m r ltac:(lia)) as L.
  set (q := (m / r)%nat) in *. set (k := (m mod r)%nat) in *. clearbody q k. subst m.
  destruct (Nat.le_gt_cases k (r - 2)) as [K|K].
  - exists q. replace (2 * r - k - 2)%nat with ((r - k - 2) + 1 * r)%nat by lia. rewrite Nat.mod_add, Nat.mod_small by lia. cbn [Nat.mul]. rewrite (Nat.mul_comm r q). lia.
  - exists (S q). rewrite Nat.mod_small by lia. cbn [Nat.mul]. rewrite (Nat.mul_comm r q). lia.
Qed.
Lemma sponge_blocks_ok r sfx m : (2 <= r)%nat -> let s := bits_of_bytes m ++ sfx in
  concat (sponge_blocks r sfx m) = s ++ pad10star1 r (length s) /\ Forall (fun b => length b = r) (sponge_blocks r sfx m) /\ sponge_blocks r sfx m <> [].
Proof.
  intros R s. unfold sponge_blocks. fold s. cbv zeta. set (t := s ++ pad10star1 r (length s)).
  destruct (pad_mult r (length s) R) as (n & E). assert (L : length t = (S n * r)%nat) by (unfold t; rewrite app_length; exact E).
  rewrite split_cut. change (SFips180.cut (length t) r t) with (SFips180.pieces r t).
  destruct (pieces_mult r ltac:(lia) t (S n) L) as (F & C & K). split; [exact C|]. split; [exact F|]. intros X. rewrite X in K. discriminate.
Qed.
Lemma strip_zeros (j j' : nat) (u v : bits) : repeat false j ++ true :: u = repeat false j' ++ true :: v -> u = v.
Proof. revert j'. induction j as [|j IH]; intros [|j'] E; cbn in E; try discriminate; injection E; auto. apply IH. Qed.
Lemma rev_zeros j : rev (repeat false j) = repeat false j.
Proof. induction j as [|j IH]; [reflexivity|]. cbn [repeat rev]. rewrite IH. symmetry. apply repeat_cons. Qed.
Lemma pad_inj r u v : u ++ pad10star1 r (length u) = v ++ pad10star1 r (length v) -> u = v.
Proof.
  unfold pad10star1. intros E. apply (f_equal (@rev bool)) in E. rewrite !rev_app_distr, !rev_zeros in E. cbn [rev app] in E. injection E as E.
  rewrite <- !app_assoc in E. cbn [app] in E. apply strip_zeros in E. rewrite <- (rev_involutive u), E. apply rev_involutive.
Qed.
Lemma message_inj r sfx m m' : (2 <= r)%nat -> bytes_ok m -> bytes_ok m' -> sponge_blocks r sfx m = sponge_blocks r sfx m' -> m = m'.
Proof.
  intros R B B' E. destruct (sponge_blocks_ok r sfx m R) as (C & _). destruct (sponge_blocks_ok r sfx m' R) as (C' & _). rewrite E, C' in C.
  apply pad_inj in C. apply app_inv_tail in C. rewrite <- (bytes_of_bits_bytes m B), <- C. apply bytes_of_bits_bytes. exact B'.
Qed.

(** ** equal states *)
Lemma absorbed_len bs : length (absorbed bs) = 1600%nat.
Proof. unfold absorbed. destruct bs as [|b bs _] using rev_ind; [apply repeat_length|]. rewrite fold_left_app. cbn [fold_left]. unfold absorb_block. apply keccak_f_len. Qed.
Lemma absorbed_snoc bs x : absorbed (bs ++ [x]) = keccak_f (xor_bits (absorbed bs) x).
Proof. unfold absorbed. rewrite fold_left_app. reflexivity. Qed.
Lemma skipn_xor S : forall r P, length P = r -> skipn r (xor_bits S P) = skipn r S.
Proof.
  induction S as [|s S IH]; intros r P L; [destruct P; rewrite ?skipn_nil; reflexivity|]. destruct P as [|p P]; [subst r; reflexivity|].
  subst r. cbn [length xor_bits skipn]. apply IH. reflexivity.
Qed.
Lemma xor_cancel S : forall P Q, length P = length Q -> (length P <= length S)%nat -> xor_bits S P = xor_bits S Q -> P = Q.
Proof.
  induction S as [|s S IH]; intros [|p P] [|q Q] L B E; try discriminate; try reflexivity; cbn in *; try lia. injection E as E1 E2.
  f_equal; [|apply IH; [lia|lia|exact E2]]. destruct s, p, q; try reflexivity; discriminate.
Qed.
Lemma states_collide r bs bs' : (2 <= r <= 1600)%nat -> Forall (fun b => length b = r) bs -> Forall (fun b => length b = r) bs' -> bs <> [] -> bs' <> [] ->
  absorbed bs = absorbed bs' -> bs <> bs' -> inner_collision r bs bs'.
Proof.
  intros R F F' D D' E N. destruct bs as [|x bs _] using rev_ind; [contradiction|]. destruct bs' as [|x' bs' _] using rev_ind; [contradiction|].
  apply Forall_app in F, F'. destruct F as [F Fx], F' as [F' Fx']. inversion Fx as [|? ? Lx _]; inversion Fx' as [|? ? Lx' _]; subst.
  rewrite !absorbed_snoc in E.
  apply keccak_f_inj in E; [|rewrite xor_bits_len; apply absorbed_len|rewrite xor_bits_len; apply absorbed_len].
  exists bs, [x], bs', [x']. repeat split; try discriminate.
  - intros ->. apply N. f_equal. f_equal. apply xor_cancel in E; [exact E|congruence|rewrite absorbed_len; lia].
  - apply (f_equal (skipn (length x))) in E. rewrite skipn_xor in E by reflexivity. rewrite skipn_xor in E by exact Lx'. exact E.
Qed.
Lemma short_block r sfx m : (8 <= r)%nat -> (length sfx <= 4)%nat -> (8 * length m <= r - 8)%nat -> length (sponge_blocks r sfx m) = 1%nat.
Proof.
  intros R Ls B. destruct (sponge_blocks_ok r sfx m ltac:(lia)) as (C & F & _). set (bs := sponge_blocks r sfx m) in *. clearbody bs.
  assert (L : length (concat bs) = (length bs * r)%nat).
  { clear - F. induction F as [|b bs H F IH]; [reflexivity|]. cbn [concat length Nat.mul]. rewrite app_length, H, IH. reflexivity. }
  rewrite C in L. unfold pad10star1 in L. rewrite !app_length, repeat_length, bb_len in L. cbn [length] in L.
  rewrite (Nat.mod_small (8 * length m + length sfx) r) in L by lia.
  replace (2 * r - (8 * length m + length sfx) - 2)%nat with ((r - (8 * length m + length sfx) - 2) + 1 * r)%nat in L by lia.
  rewrite Nat.mod_add, Nat.mod_small in L by lia.
  destruct (length bs) as [|[|n]]; [lia|reflexivity|]. cbn [Nat.mul] in L. lia.
Qed.

(** ** the table *)
Record sview (init : kctx -> kctx) (dig : kctx -> list N -> outcome (kctx * list N)) (n rb : nat) (sfx : bits) (lanes : nat) (O P L : N) : Prop := mkSview {
  sv_lanes : (1 <= lanes <= 24)%nat; sv_PL : (P = 2 /\ L = 2) \/ (P = 15 /\ L = 4) \/ (P = 3 /\ L = 2); sv_rb : rb = (8 * lanes)%nat;
  sv_init : init = keccak_init (N.of_nat (1600 - 64 * lanes)) O P L; sv_sfx : sfx = wordbits (N.to_nat L) P;
  sv_dig : forall m c out, kfed lanes O P L m c -> bytes_ok m -> (n <= length out)%nat ->
    exists c1 o, dig c out = Ret (c1, sbytes lanes (final lanes P L m) 0 n ++ skipn n out) /\ sq lanes o P L (final lanes P L m) n c1 }.
Lemma table_sview init dig n rb sfx : sponge_fn init dig n rb sfx -> exists lanes O P L, sview init dig n rb sfx lanes O P L.
Proof.
  intros K.
  assert (S2 : (2 = 2 /\ 2 = 2) \/ (2 = 15 /\ 2 = 4) \/ (2 = 3 /\ 2 = 2)) by auto.
  assert (S15 : (15 = 2 /\ 4 = 2) \/ (15 = 15 /\ 4 = 4) \/ (15 = 3 /\ 4 = 2)) by auto.
  assert (S3 : (3 = 2 /\ 2 = 2) \/ (3 = 15 /\ 2 = 4) \/ (3 = 3 /\ 2 = 2)) by auto.
  destruct K.
  - exists 18%nat, 224, 2, 2. constructor; auto; try lia; try reflexivity. intros m c out H B Lo.
    destruct (first_squeeze 18 ltac:(lia) 2 2 S2 m c out 28 H B Lo ltac:(reflexivity)) as (c1 & E & Q). exists c1. eexists. split; [exact E|exact Q].
  - exists 17%nat, 256, 2, 2. constructor; auto; try lia; try reflexivity. intros m c out H B Lo.
    destruct (first_squeeze 17 ltac:(lia) 2 2 S2 m c out 32 H B Lo ltac:(reflexivity)) as (c1 & E & Q). exists c1. eexists. split; [exact E|exact Q].
  - exists 13%nat, 384, 2, 2. constructor; auto; try lia; try reflexivity. intros m c out H B Lo.
    destruct (first_squeeze 13 ltac:(lia) 2 2 S2 m c out 48 H B Lo ltac:(reflexivity)) as (c1 & E & Q). exists c1. eexists. split; [exact E|exact Q].
  - exists 9%nat, 512, 2, 2. constructor; auto; try lia; try reflexivity. intros m c out H B Lo.
    destruct (first_squeeze 9 ltac:(lia) 2 2 S2 m c out 64 H B Lo ltac:(reflexivity)) as (c1 & E & Q). exists c1. eexists. split; [exact E|exact Q].
  - exists 21%nat, 0, 15, 4. constructor; auto; try lia; try reflexivity. intros m c out X B Lo.
    destruct (xof_first 21 n 15 4 m c out 0 ltac:(lia) S15 H X B Lo) as (c1 & E & Q). exists c1. eexists. split; [exact E|exact Q].
  - exists 17%nat, 0, 15, 4. constructor; auto; try lia; try reflexivity. intros m c out X B Lo.
    destruct (xof_first 17 n 15 4 m c out 0 ltac:(lia) S15 H X B Lo) as (c1 & E & Q). exists c1. eexists. split; [exact E|exact Q].
  - exists 21%nat, 0, 3, 2. constructor; auto; try lia; try reflexivity. intros m c out X B Lo.
    destruct (xof_first 21 n 3 2 m c out 0 ltac:(lia) S3 H X B Lo) as (c1 & E & Q). exists c1. eexists. split; [exact E|exact Q].
  - exists 17%nat, 0, 3, 2. constructor; auto; try lia; try reflexivity. intros m c out X B Lo.
    destruct (xof_first 17 n 3 2 m c out 0 ltac:(lia) S3 H X B Lo) as (c1 & E & Q). exists c1. eexists. split; [exact E|exact Q].
Qed.
Lemma feed_all_k c ps : feed_all c ps = kupdates c ps.
Proof. revert c. induction ps as [|p ps IH]; intros c; [reflexivity|]. cbn [feed_all kupdates]. destruct (keccak_update c p); cbn [bind]; auto. Qed.
Lemma final_absorbed lanes P L m : (1 <= lanes <= 24)%nat -> (P = 2 /\ L = 2) \/ (P = 15 /\ L = 4) \/ (P = 3 /\ L = 2) -> bytes_ok m ->
  bits_of (final lanes P L m) = absorbed (sponge_blocks (64 * lanes) (wordbits (N.to_nat L) P) m).
Proof.
  intros Hl HPL B. rewrite <- absorb_final by assumption. unfold absorb. rewrite pad_bits by assumption. reflexivity.
Qed.
Lemma run_sview init dig n rb sfx lanes O P L : sview init dig n rb sfx lanes O P L ->
  forall g ps out c c1 d, kshape g -> Forall keccak_piece ps -> (n <= length out)%nat -> feed_all (init g) ps = Ret c -> dig c out = Ret (c1, d) ->
  bytes_ok (concat ps) /\ d = sbytes lanes (final lanes P L (concat ps)) 0 n ++ skipn n out /\ exists o, sq lanes o P L (final lanes P L (concat ps)) n c1.
Proof.
  intros [Hl HPL Hrb Hi Hs Hd] g ps out c c1 d Hg HP Ho E D. subst init.
  pose proof (fed_init lanes Hl P L HPL O g Hg _ eq_refl) as F0.
  assert (B : bytes_ok (concat ps)) by (apply pieces_concat_bytes; exact HP).
  destruct (updates_kfed lanes Hl P L HPL O ps [] _ F0 HP) as (c' & E' & F). rewrite feed_all_k, E' in E. injection E as <-.
  destruct (Hd _ c' out F B Ho) as (c2 & o & E2 & Q). rewrite E2 in D. injection D as <- <-. eauto.
Qed.

(** the contexts two digest calls leave behind hold the same state: the messages are the same, or the sponge had an inner collision *)
Theorem C80_same_state : forall init dig n rb sfx, sponge_fn init dig n rb sfx ->
  forall g g' ps ps' out out' c c' c1 c1' d d', kshape g -> kshape g' -> Forall keccak_piece ps -> Forall keccak_piece ps' ->
  (n <= length out)%nat -> (n <= length out')%nat ->
  feed_all (init g) ps = Ret c -> feed_all (init g') ps' = Ret c' -> dig c out = Ret (c1, d) -> dig c' out' = Ret (c1', d') ->
  kst c1 = kst c1' -> squeezable c1 = squeezable c1' ->
  concat ps = concat ps' \/ inner_collision (8 * rb) (sponge_blocks (8 * rb) sfx (concat ps)) (sponge_blocks (8 * rb) sfx (concat ps')).
Proof.
  intros init dig n rb sfx K g g' ps ps' out out' c c' c1 c1' d d' Hg Hg' HP HP' Ho Ho' U U' D D' ES EQ.
  destruct (table_sview _ _ _ _ _ K) as (lanes & O & P & L & V).
  destruct (run_sview _ _ _ _ _ _ _ _ _ V g ps out c c1 d Hg HP Ho U D) as (B & _ & o & k & q & v & Hk & _ & _ & ->).
  destruct (run_sview _ _ _ _ _ _ _ _ _ V g' ps' out' c' c1' d' Hg' HP' Ho' U' D') as (B' & _ & o' & k' & q' & v' & Hk' & _ & _ & ->).
  destruct V as [Hl HPL Hrb _ Hs _]. cbn [kst squeezable ks] in ES, EQ.
  assert (EK : k = k').
  { assert (X : (n - k * (8 * lanes) = n - k' * (8 * lanes))%nat) by lia. nia. }
  subst k'. apply permk_inj in ES; [|apply final_ok; assumption|apply final_ok; assumption].
  replace (8 * rb)%nat with (64 * lanes)%nat by lia. rewrite Hs.
  assert (E : absorbed (sponge_blocks (64 * lanes) (wordbits (N.to_nat L) P) (concat ps)) = absorbed (sponge_blocks (64 * lanes) (wordbits (N.to_nat L) P) (concat ps'))).
  { rewrite <- !final_absorbed by assumption. rewrite ES. reflexivity. }
  destruct (list_eq_dec (list_eq_dec Bool.bool_dec) (sponge_blocks (64 * lanes) (wordbits (N.to_nat L) P) (concat ps)) (sponge_blocks (64 * lanes) (wordbits (N.to_nat L) P) (concat ps'))) as [X|X].
  - left. eapply message_inj; [|exact B|exact B'|exact X]. lia.
  - right. destruct (sponge_blocks_ok (64 * lanes) (wordbits (N.to_nat L) P) (concat ps) ltac:(lia)) as (_ & F & N0).
    destruct (sponge_blocks_ok (64 * lanes) (wordbits (N.to_nat L) P) (concat ps') ltac:(lia)) as (_ & F' & N0').
    apply states_collide; auto. lia.
Qed.
Print Assumptions C80_same_state.

(** violation of wiping: different messages shorter than a block never leave the same state behind (the state tells which message was hashed) *)
Theorem C80_short_message_stays_refuted : forall init dig n rb sfx, sponge_fn init dig n rb sfx ->
  forall g g' ps ps' out out' c c' c1 c1' d d', kshape g -> kshape g' -> Forall keccak_piece ps -> Forall keccak_piece ps' ->
  (n <= length out)%nat -> (n <= length out')%nat -> (length (concat ps) < rb)%nat -> (length (concat ps') < rb)%nat ->
  feed_all (init g) ps = Ret c -> feed_all (init g') ps' = Ret c' -> dig c out = Ret (c1, d) -> dig c' out' = Ret (c1', d') ->
  kst c1 = kst c1' -> squeezable c1 = squeezable c1' -> concat ps = concat ps'.
Proof.
  intros init dig n rb sfx K g g' ps ps' out out' c c' c1 c1' d d' Hg Hg' HP HP' Ho Ho' S S' U U' D D' ES EQ.
  destruct (C80_same_state init dig n rb sfx K g g' ps ps' out out' c c' c1 c1' d d' Hg Hg' HP HP' Ho Ho' U U' D D' ES EQ) as [X|X]; [exact X|exfalso].
  destruct (table_sview _ _ _ _ _ K) as (lanes & O & P & L & [Hl HPL Hrb _ Hs _]).
  assert (L4 : (length sfx <= 4)%nat) by (rewrite Hs, wordbits_len; destruct HPL as [[_ ->]|[[_ ->]|[_ ->]]]; cbn; lia).
  destruct X as (p & q & p' & q' & Eb & Eb' & Q & Q' & N & _).
  assert (E1 : length (p ++ q) = 1%nat) by (rewrite <- Eb; apply short_block; lia).
  assert (E1' : length (p' ++ q') = 1%nat) by (rewrite <- Eb'; apply short_block; lia).
  rewrite app_length in E1, E1'. destruct q as [|? q]; [contradiction|]. destruct q' as [|? q']; [contradiction|]. cbn [length] in E1, E1'.
  destruct p; [|cbn in E1; lia]. destruct p'; [|cbn in E1'; lia]. apply N. reflexivity.
Qed.
Print Assumptions C80_short_message_stays_refuted.

(** two different messages with the same digest: an inner collision, or different final states that agree in the output *)
Theorem C80_collisions : forall init dig n rb sfx, sponge_fn init dig n rb sfx ->
  forall g g' ps ps' out out' c c' c1 c1' d d', kshape g -> kshape g' -> Forall keccak_piece ps -> Forall keccak_piece ps' ->
  (n <= length out)%nat -> (n <= length out')%nat ->
  feed_all (init g) ps = Ret c -> feed_all (init g') ps' = Ret c' -> dig c out = Ret (c1, d) -> dig c' out' = Ret (c1', d') ->
  concat ps <> concat ps' -> firstn n d = firstn n d' ->
  let r := (8 * rb)%nat in let bs := sponge_blocks r sfx (concat ps) in let bs' := sponge_blocks r sfx (concat ps') in
  inner_collision r bs bs' \/
  (absorbed bs <> absorbed bs' /\ firstn (8 * n) (squeeze (8 * n / r + 1) r (absorbed bs)) = firstn (8 * n) (squeeze (8 * n / r + 1) r (absorbed bs'))).
Proof.
  intros init dig n rb sfx K g g' ps ps' out out' c c' c1 c1' d d' Hg Hg' HP HP' Ho Ho' U U' D D' N E r bs bs'. unfold bs, bs'. clear bs bs'.
  destruct (table_sview _ _ _ _ _ K) as (lanes & O & P & L & V).
  destruct (run_sview _ _ _ _ _ _ _ _ _ V g ps out c c1 d Hg HP Ho U D) as (B & -> & _).
  destruct (run_sview _ _ _ _ _ _ _ _ _ V g' ps' out' c' c1' d' Hg' HP' Ho' U' D') as (B' & -> & _).
  destruct V as [Hl HPL Hrb _ Hs _]. assert (R : r = (64 * lanes)%nat) by (unfold r; lia). clearbody r. subst r. rewrite Hs.
  rewrite !firstn_app, !sbytes_len, Nat.sub_diag, !firstn_O, !app_nil_r, !firstn_all2 in E by (rewrite sbytes_len; lia).
  destruct (sponge_blocks_ok (64 * lanes) (wordbits (N.to_nat L) P) (concat ps) ltac:(lia)) as (_ & F & N0).
  destruct (sponge_blocks_ok (64 * lanes) (wordbits (N.to_nat L) P) (concat ps') ltac:(lia)) as (_ & F' & N0').
  destruct (list_eq_dec Bool.bool_dec (absorbed (sponge_blocks (64 * lanes) (wordbits (N.to_nat L) P) (concat ps))) (absorbed (sponge_blocks (64 * lanes) (wordbits (N.to_nat L) P) (concat ps')))) as [X|X].
  - left. apply states_collide; auto; [lia|]. intros Y. apply N. eapply message_inj; [|exact B|exact B'|exact Y]. lia.
  - right. split; [exact X|]. rewrite <- !final_absorbed by assumption. rewrite !(squeeze_bytes lanes Hl P L HPL) by (apply final_ok; assumption).
    assert (G : forall m, bytes_ok m -> firstn (8 * n) (bits_of_bytes (sbytes lanes (final lanes P L m) 0 ((8 * n / (64 * lanes) + 1) * (8 * lanes)))) = bits_of_bytes (sbytes lanes (final lanes P L m) 0 n)).
    { intros m Bm. rewrite (firstn_bb lanes Hl P L HPL). f_equal.
      assert (Q : (n <= (8 * n / (64 * lanes) + 1) * (8 * lanes))%nat).
      { pose proof (Nat.div_mod_eq (8 * n) (64 * lanes)) as Dv. pose proof (Nat.mod_upper_bound (8 * n) (64 * lanes) ltac:(lia)) as Mv.
        set (u := (8 * n / (64 * lanes))%nat) in *. set (w := ((8 * n) mod (64 * lanes))%nat) in *. clearbody u w. nia. }
      set (t := ((8 * n / (64 * lanes) + 1) * (8 * lanes))%nat) in Q |- *. clearbody t. replace t with (n + (t - n))%nat by lia.
      rewrite sbytes_app, firstn_app, sbytes_len, Nat.sub_diag, firstn_O, app_nil_r, firstn_all2 by (rewrite sbytes_len; lia). reflexivity. }
    rewrite !G by assumption. rewrite E. reflexivity.
Qed.
Print Assumptions C80_collisions.

(** ** Non-vacuity: SHA3-256 of "abc" and "abd", from a used context *)
Definition used : kctx := mkK (repeat 7 25) (repeat 9 192) 3 3 3 3 true 3 3 3 true.
Lemma used_ok : kshape used.
Proof. split; reflexivity. Qed.
Example C80_nonvacuous : exists c c' c1 c1' d d', feed_all (iinit impl_sha3_256 used) [chars "a"; []; chars "bc"] = Ret c /\ feed_all (iinit impl_sha3_256 used) [chars "abd"] = Ret c' /\
  idigest impl_sha3_256 c (repeat 0 32) = Ret (c1, d) /\ idigest impl_sha3_256 c' (repeat 0 32) = Ret (c1', d') /\
  squeezable c1 = squeezable c1' /\ kst c1 <> kst c1'.
Proof.
  assert (P1 : Forall keccak_piece [chars "a"; []; chars "bc"]).
  { repeat constructor; try reflexivity; try (intros X; discriminate X). }
  assert (P2 : Forall keccak_piece [chars "abd"]) by (repeat constructor; try reflexivity; try (intros X; discriminate X)).
  destruct (table_sview _ _ _ _ _ sp_sha3_256) as (lanes & O & P & L & V). pose proof V as [Hl HPL Hrb Hi Hs Hd].
  destruct (updates_kfed lanes Hl P L HPL O [chars "a"; []; chars "bc"] [] _ (fed_init lanes Hl P L HPL O used used_ok _ eq_refl) P1) as (c & E & F).
  destruct (updates_kfed lanes Hl P L HPL O [chars "abd"] [] _ (fed_init lanes Hl P L HPL O used used_ok _ eq_refl) P2) as (c' & E' & F').
  destruct (Hd _ c (repeat 0 32) F ltac:(apply pieces_concat_bytes; exact P1) ltac:(rewrite repeat_length; lia)) as (c1 & o & D & Q).
  destruct (Hd _ c' (repeat 0 32) F' ltac:(apply pieces_concat_bytes; exact P2) ltac:(rewrite repeat_length; lia)) as (c1' & o' & D' & Q').
  rewrite <- feed_all_k, <- Hi in E, E'.
  assert (SQ : squeezable c1 = squeezable c1').
  { destruct Q as (k & q & v & Hk & _ & _ & ->), Q' as (k' & q' & v' & Hk' & _ & _ & ->). cbn [squeezable ks].
    assert (k = 0%nat) by (destruct k; [reflexivity|nia]). assert (k' = 0%nat) by (destruct k'; [reflexivity|nia]). subst. reflexivity. }
  eexists c, c', c1, c1', _, _. split; [exact E|]. split; [exact E'|]. split; [exact D|]. split; [exact D'|]. split; [exact SQ|]. intros X.
  pose proof (C80_short_message_stays_refuted _ _ _ _ _ sp_sha3_256 used used _ _ (repeat 0 32) (repeat 0 32) c c' c1 c1' _ _ used_ok used_ok P1 P2
    ltac:(rewrite repeat_length; lia) ltac:(rewrite repeat_length; lia) ltac:(cbn; lia) ltac:(cbn; lia) E E' D D' X SQ) as Y.
  vm_compute in Y. discriminate Y.
Qed.
