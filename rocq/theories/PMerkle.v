(** Lemmas for C67: the Merkle-Damgard argument. *)
From Verif Require SMd5 PMd5.
From Verif Require Import Base SHex PBase2 SFips180 SShaLib SMerkle PWords PSha.
Local Open Scope N_scope.

Section Chain.
Variable comp : list N -> list N -> list N.
Variable iv : list N.
Lemma compressed_snoc bs b x s : compressed comp iv bs s b -> compressed comp iv (bs ++ [x]) s b.
Proof. intros (p & q & -> & ->). exists p, (q ++ [x]). rewrite <- app_assoc. auto. Qed.
Lemma collide_snoc bs bs' x y : collide comp iv bs bs' -> collide comp iv (bs ++ [x]) (bs' ++ [y]).
Proof. intros (s & b & s' & b' & A & B & C). exists s, b, s', b'. split; [|split]; auto using compressed_snoc. Qed.
Lemma chain_collides : forall bs bs', length bs = length bs' -> bs <> bs' -> fold_left comp bs iv = fold_left comp bs' iv -> collide comp iv bs bs'.
Proof.
  induction bs as [|x bs IH] using rev_ind; intros bs' L D E.
  - destruct bs'; [congruence|discriminate].
  - destruct bs' as [|y bs' _] using rev_ind; [rewrite app_length in L; cbn in L; lia|].
    rewrite !app_length in L. cbn [length] in L. rewrite !fold_left_app in E. cbn [fold_left] in E.
    destruct (list_eq_dec N.eq_dec (fold_left comp bs iv) (fold_left comp bs' iv)) as [e|e].
    + destruct (list_eq_dec N.eq_dec x y) as [->|n].
      * apply collide_snoc, IH; [lia|congruence|exact e].
      * exists (fold_left comp bs iv), x, (fold_left comp bs' iv), y. repeat split; auto; [exists bs, []|exists bs', []]; auto.
    + exists (fold_left comp bs iv), x, (fold_left comp bs' iv), y. repeat split; auto; [exists bs, []|exists bs', []]; auto.
Qed.
Lemma last_collides bs bs' x y : x <> y -> fold_left comp (bs ++ [x]) iv = fold_left comp (bs' ++ [y]) iv -> collide comp iv (bs ++ [x]) (bs' ++ [y]).
Proof.
  intros D E. rewrite !fold_left_app in E. cbn [fold_left] in E.
  exists (fold_left comp bs iv), x, (fold_left comp bs' iv), y. repeat split; auto; [exists bs, []|exists bs', []]; auto.
Qed.
End Chain.

(** whole blocks followed by nothing, ending in a field no longer than a block *)
Lemma last_block bs (X enc : list N) n : (0 < bs)%nat -> (0 < n)%nat -> (length enc <= bs)%nat -> length (X ++ enc) = (n * bs)%nat ->
  exists xs u, pieces bs (X ++ enc) = xs ++ [u ++ enc].
Proof.
  intros Hb Hn He L. destruct (pieces_mult bs Hb (X ++ enc) n L) as (F & C & K).
  destruct (pieces bs (X ++ enc)) as [|x xs _] using rev_ind; [cbn in K; lia|].
  apply Forall_app in F. destruct F as [F1 F2]. inversion F2 as [|? ? Lx _]; subst.
  rewrite concat_app in C. cbn [concat] in C. rewrite app_nil_r in C.
  assert (E : skipn (length (concat xs)) (X ++ enc) = x) by (rewrite <- C, skipn_app, skipn_all, Nat.sub_diag; reflexivity).
  assert (Q : (length (concat xs) <= length X)%nat).
  { assert (T : length (concat xs ++ x) = length (X ++ enc)) by (rewrite C; reflexivity). rewrite !app_length in T. lia. }
  rewrite skipn_app in E. replace (length (concat xs) - length X)%nat with O in E by lia. rewrite skipn_O in E.
  exists xs, (skipn (length (concat xs)) X). rewrite E. reflexivity.
Qed.

Lemma app_same_tail {A} (u v x y : list A) : length x = length y -> u ++ x = v ++ y -> x = y.
Proof.
  intros L E. apply (f_equal (@rev A)) in E. rewrite !rev_app_distr in E.
  apply app_inj_1 in E; [|rewrite !rev_length; exact L]. destruct E as [E _]. rewrite <- (rev_involutive x), E, rev_involutive. reflexivity.
Qed.

(** a padding that starts with the message, gives messages of equal length equally many blocks, and ends with an injective length field *)
Section Pad.
Variable bs lb : nat.
Variable pad : list N -> list N.
Variable enc : N -> list N.
Variable ok : list N -> Prop.
Hypothesis Hbs : (0 < bs)%nat.
Hypothesis Hlb : (lb <= bs)%nat.
Hypothesis Henc : forall v, length (enc v) = lb.
Hypothesis Hshape : forall m, exists t, pad m = (m ++ t) ++ enc (8 * N.of_nat (length m)).
Hypothesis Hblocks : forall m, exists n, (0 < n)%nat /\ length (pad m) = (n * bs)%nat.
Hypothesis Hlen : forall m m', length m = length m' -> length (pad m) = length (pad m').
Hypothesis Hinj : forall m m', ok m -> ok m' -> enc (8 * N.of_nat (length m)) = enc (8 * N.of_nat (length m')) -> length m = length m'.

Lemma pad_collides comp iv m m' : ok m -> ok m' -> m <> m' ->
  fold_left comp (pieces bs (pad m)) iv = fold_left comp (pieces bs (pad m')) iv ->
  collide comp iv (pieces bs (pad m)) (pieces bs (pad m')).
Proof.
  intros K K' D E. destruct (Nat.eq_dec (length m) (length m')) as [L|L].
  - destruct (Hblocks m) as (n & Hn & B). assert (B' : length (pad m') = (n * bs)%nat) by (rewrite <- (Hlen m m' L); exact B).
    destruct (pieces_mult bs Hbs _ n B) as (_ & C1 & L1). destruct (pieces_mult bs Hbs _ n B') as (_ & C2 & L2).
    apply chain_collides; [congruence| |exact E]. intros X. apply D.
    assert (P : pad m = pad m') by (rewrite <- C1, <- C2, X; reflexivity).
    destruct (Hshape m) as (t & S1). destruct (Hshape m') as (t' & S2). rewrite S1, S2, <- !app_assoc in P.
    apply app_inj_1 in P; [tauto|exact L].
  - destruct (Hshape m) as (t & S1). destruct (Hshape m') as (t' & S2).
    destruct (Hblocks m) as (n & Hn & B). destruct (Hblocks m') as (n' & Hn' & B').
    rewrite S1 in B. rewrite S2 in B'.
    destruct (last_block bs _ _ n Hbs Hn ltac:(rewrite Henc; lia) B) as (xs & u & U).
    destruct (last_block bs _ _ n' Hbs Hn' ltac:(rewrite Henc; lia) B') as (ys & v & V).
    rewrite S1, S2, U, V in *. apply last_collides; [|exact E]. intros X. apply app_same_tail in X; [|rewrite !Henc; reflexivity].
    apply L. auto.
Qed.
End Pad.

(** big- and little-endian fields are injective *)
Lemma be_bytes_value n : forall v, be_value (be_bytes n v) = v mod 256 ^ N.of_nat n.
Proof.
  induction n as [|n IH]; intros v.
  - change (be_value (be_bytes 0 v)) with 0. change (256 ^ N.of_nat 0) with 1. symmetry. apply N.mod_1_r.
  - replace (be_bytes (S n) v) with (be_bytes n (v / 256) ++ be_bytes 1 (v mod 256)).
    2:{ rewrite <- be_bytes_app by (change (256 ^ N.of_nat 1) with 256; apply N.mod_lt; lia). change (256 ^ N.of_nat 1) with 256.
        replace (n + 1)%nat with (S n) by lia. f_equal. rewrite (N.div_mod' v 256) at 3. lia. }
    unfold be_value. rewrite fold_left_app. fold (be_value (be_bytes n (v / 256))). rewrite IH.
    assert (E1 : be_bytes 1 (v mod 256) = [v mod 256]).
    { unfold be_bytes. cbn [seq map]. change (N.of_nat (1 - 1 - 0)) with 0. change (256 ^ 0) with 1. rewrite N.div_1_r, N.mod_mod by lia. reflexivity. }
    rewrite E1. cbn [fold_left]. rewrite Nat2N.inj_succ, N.pow_succ_r'. rewrite N.mod_mul_r by (try apply N.pow_nonzero; lia). lia.
Qed.
Lemma be_bytes_inj n v v' : v < 256 ^ N.of_nat n -> v' < 256 ^ N.of_nat n -> be_bytes n v = be_bytes n v' -> v = v'.
Proof. intros H H' E. apply (f_equal be_value) in E. rewrite !be_bytes_value, !N.mod_small in E by assumption. exact E. Qed.
Lemma le_bytes_value n : forall v, SMd5.le_value (SMd5.le_bytes n v) = v mod 256 ^ N.of_nat n.
Proof.
  induction n as [|n IH]; intros v.
  - change (256 ^ N.of_nat 0) with 1. symmetry. apply N.mod_1_r.
  - unfold SMd5.le_bytes. cbn [seq map]. rewrite <- seq_shift, map_map.
    replace (map (fun i => (v / 256 ^ N.of_nat (S i)) mod 256) (seq 0 n)) with (SMd5.le_bytes n (v / 256)).
    2:{ unfold SMd5.le_bytes. apply map_ext. intros i. rewrite Nat2N.inj_succ, N.pow_succ_r', N.div_div by (try apply N.pow_nonzero; lia). reflexivity. }
    cbn [SMd5.le_value]. rewrite IH. change (256 ^ N.of_nat 0) with 1. rewrite N.div_1_r.
    rewrite Nat2N.inj_succ, N.pow_succ_r'. rewrite N.mod_mul_r by (try apply N.pow_nonzero; lia). reflexivity.
Qed.
Lemma le_bytes_inj n v v' : v < 256 ^ N.of_nat n -> v' < 256 ^ N.of_nat n -> SMd5.le_bytes n v = SMd5.le_bytes n v' -> v = v'.
Proof. intros H H' E. apply (f_equal SMd5.le_value) in E. rewrite !le_bytes_value, !N.mod_small in E by assumption. exact E. Qed.

Lemma words_inj k (enc : N -> list N) : (forall v, length (enc v) = k) ->
  forall (P : N -> Prop), (forall v v', P v -> P v' -> enc v = enc v' -> v = v') ->
  forall s s', Forall P s -> Forall P s' -> length s = length s' -> flat_map enc s = flat_map enc s' -> s = s'.
Proof.
  intros L P I. induction s as [|x s IH]; intros [|y s'] F F' LL E; try discriminate; [reflexivity|].
  inversion F; inversion F'; subst. cbn [flat_map] in E. apply app_inj_1 in E; [|rewrite !L; reflexivity]. destruct E as [E1 E2].
  f_equal; [auto|]. apply IH; auto.
Qed.

(** paddings of the library *)
Lemma lib_padded_shape bs lb enc m : exists t, lib_padded bs lb enc m = (m ++ t) ++ enc (8 * N.of_nat (length m)).
Proof.
  unfold lib_padded, padded. destruct (fits bs lb m).
  - exists ([0x80] ++ repeat 0 (pad_zeros bs lb (length m))). rewrite <- !app_assoc. reflexivity.
  - exists ([0x80] ++ repeat 0 (bs - length m mod bs - 1) ++ firstn (bs - lb) (last_part bs m)). rewrite <- !app_assoc. reflexivity.
Qed.
Lemma padded_shape bs lb enc m : exists t, padded bs lb enc m = (m ++ t) ++ enc (8 * N.of_nat (length m)).
Proof. unfold padded. exists ([0x80] ++ repeat 0 (pad_zeros bs lb (length m))). rewrite <- !app_assoc. reflexivity. Qed.
Lemma padded_length bs lb enc m : (forall v, length (enc v) = lb) ->
  length (padded bs lb enc m) = (length m + 1 + pad_zeros bs lb (length m) + lb)%nat.
Proof. intros L. unfold padded. rewrite !app_length, repeat_length, L. cbn [length]. lia. Qed.
Lemma padded_blocks bs lb enc m : (forall v, length (enc v) = lb) -> (1 + lb <= bs)%nat ->
  exists n, (0 < n)%nat /\ length (padded bs lb enc m) = (n * bs)%nat.
Proof.
  intros L B. rewrite padded_length by exact L. destruct (pad_zeros_least bs lb (length m) B) as [Z _].
  apply Nat.mod_divides in Z; [|lia]. destruct Z as (n & Z). exists n. split; [|rewrite Z; apply Nat.mul_comm]. destruct n; [|apply Nat.lt_0_succ]. rewrite Nat.mul_0_r in Z. lia.
Qed.
Lemma lib_padded_len bs lb enc m m' : (forall v, length (enc v) = lb) -> (0 < bs)%nat -> length m = length m' ->
  length (lib_padded bs lb enc m) = length (lib_padded bs lb enc m').
Proof.
  intros L B E. unfold lib_padded, fits, last_part. rewrite E. destruct (Nat.leb _ _).
  - rewrite !padded_length by exact L. rewrite E. reflexivity.
  - rewrite !app_length, !repeat_length, !L, !firstn_length, !skipn_length, E. reflexivity.
Qed.
Lemma lib_padded_whole bs lb enc m : (forall v, length (enc v) = lb) -> (1 + lb <= bs)%nat -> (2 * lb <= bs)%nat ->
  exists n, (0 < n)%nat /\ length (lib_padded bs lb enc m) = (n * bs)%nat.
Proof.
  intros L B B2. unfold lib_padded. destruct (fits bs lb m) eqn:X; [apply padded_blocks; assumption|].
  unfold fits in X. apply Nat.leb_gt in X. exists (length m / bs + 2)%nat. split; [apply Nat.add_pos_r, Nat.lt_0_2|].
  assert (B0 : bs <> 0%nat) by (clear - B; lia).
  pose proof (Nat.div_mod_eq (length m) bs) as D. pose proof (Nat.mod_upper_bound (length m) bs B0) as R.
  rewrite !app_length, repeat_length, L, firstn_length. cbn [length]. unfold last_part. rewrite skipn_length.
  set (q := (length m / bs)%nat) in *. set (r := (length m mod bs)%nat) in *. clearbody q r. nia.
Qed.
