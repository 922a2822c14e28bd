(** Streaming: update/padding/digest of the SHA-1/SHA-2 contexts, generic over the instance. *)
From Verif Require Import Base SHex SFips180 SShaLib MSha PWords PSha.
Local Open Scope N_scope.

Section Stream.
Variable a : sha_alg.
Hypothesis Hwb : word_bytes a = 4%nat \/ word_bytes a = 8%nat.
Notation bsz := (block_bytes a).
Notation w := (word_bits a).
Notation lb := (2 * word_bytes a)%nat.
Notation lenpos := (bsz - lb)%nat.

(** total length limit of the two length halves *)
Definition limit : N := 2 ^ (2 * w).

Definition fed (m : list N) (c : sha_ctx) : Prop :=
  exists bs r, m = concat bs ++ r /\ Forall (fun b => length b = bsz) bs /\ (length r < bsz)%nat /\
    state c = fold_left (process a) bs (H0 a) /\ index c = length r /\ length (block c) = bsz /\
    firstn (length r) (block c) = r /\ len_low c < 2 ^ w /\ len_high c < 2 ^ w /\
    len_high c * 2 ^ w + len_low c = 8 * N.of_nat (length m).

Lemma bsz_pos : (0 < bsz)%nat.
Proof. unfold block_bytes. lia. Qed.
Lemma w_cases : w = 32 \/ w = 64.
Proof. unfold word_bits. destruct Hwb as [-> | ->]; auto. Qed.
Lemma pow_w_big : 8 < 2 ^ w.
Proof. destruct w_cases as [-> | ->]; vm_compute; reflexivity. Qed.

Lemma fed_init c : length (block c) = bsz -> fed [] (sha_init a c).
Proof.
  intros H. exists [], []. cbn. pose proof bsz_pos. pose proof pow_w_big. repeat split; auto; lia.
Qed.

(** one byte *)
Definition one (c : sha_ctx) (b : N) : outcome (sha_ctx * bool) :=
  blk <- wr (block c) (index c) b ;;
  let low := trunc w (len_low c + 8) in
  let wrapped := low <? len_low c in
  let high := if wrapped then trunc w (len_high c + 1) else len_high c in
  let corrupt := wrapped && (high =? 0) in
  let c := mkSha (state c) low high (S (index c)) blk in
  Ret (if negb corrupt && Nat.eqb (index c) bsz then process_block a c else c, corrupt).

Lemma loop_cons c b r i : sha_update_loop a c (b :: r) i false =
  ('(c', k) <- one c b ;; if i =? INT_MAX then UB SignedOverflow else sha_update_loop a c' r (i + 1) k).
Proof.
  cbn [sha_update_loop]. unfold one. destruct (wr (block c) (index c) b); reflexivity.
Qed.

Lemma len_step (hi lo T : N) : lo < 2 ^ w -> hi < 2 ^ w -> hi * 2 ^ w + lo = T ->
  let low := trunc w (lo + 8) in
  let wrapped := low <? lo in
  let high := if wrapped then trunc w (hi + 1) else hi in
  low < 2 ^ w /\ high < 2 ^ w /\
  (T + 8 < limit -> wrapped && (high =? 0) = false /\ high * 2 ^ w + low = T + 8) /\
  (T + 8 = limit -> wrapped && (high =? 0) = true).
Proof.
  intros Hlo Hhi HT low wrapped high. pose proof pow_w_big as H8. unfold limit.
  replace (2 * w) with (w + w) by lia. rewrite N.pow_add_r. set (M := 2 ^ w) in *.
  assert (L : low = if lo + 8 <? M then lo + 8 else lo + 8 - M).
  { unfold low. rewrite trunc_mod. fold M. destruct (N.ltb_spec (lo + 8) M); [apply N.mod_small; lia|].
    symmetry. apply N.mod_unique with 1; lia. }
  assert (Wd : wrapped = negb (lo + 8 <? M)).
  { unfold wrapped. rewrite L. destruct (N.ltb_spec (lo + 8) M); cbn [negb]; [apply N.ltb_ge|apply N.ltb_lt]; lia. }
  assert (Hh : high = if lo + 8 <? M then hi else if hi + 1 =? M then 0 else hi + 1).
  { unfold high. rewrite Wd. destruct (N.ltb_spec (lo + 8) M); cbn [negb]; [reflexivity|]. rewrite trunc_mod. fold M.
    destruct (N.eqb_spec (hi + 1) M) as [->|]; [apply N.mod_same; lia|apply N.mod_small; lia]. }
  rewrite L, Hh, Wd. clear L Wd Hh. clearbody M. clear low wrapped high. 
  destruct (N.ltb_spec (lo + 8) M); cbn [negb andb].
  - repeat split; try lia. intros E. exfalso. nia.
  - destruct (N.eqb_spec (hi + 1) M) as [E|E].
    + repeat split; try lia; try (exfalso; nia).
    + destruct (N.eqb_spec (hi + 1) 0); [lia|]. repeat split; try lia; nia.
Qed.

Lemma one_fed m c b : fed m c -> 8 * (N.of_nat (length m) + 1) < limit ->
  exists c', one c b = Ret (c', false) /\ fed (m ++ [b]) c'.
Proof.
  intros (bs & r & Em & F & R & S & I & LB & FB & HL & HH & T) HLim.
  unfold one. destruct (app_split_at (block c) (index c) ltac:(lia)) as (p & x & q & EB & LP).
  rewrite EB, wr_app by (symmetry; exact LP). cbn [bind].
  assert (p = r) as ->.
  { rewrite <- FB, EB, firstn_app, <- I, <- LP, firstn_all, Nat.sub_diag. cbn. symmetry. apply app_nil_r. }
  destruct (len_step (len_high c) (len_low c) _ HL HH T) as (A1 & A2 & A3 & _).
  destruct (A3 ltac:(lia)) as [-> A4]. cbn [negb andb]. cbn [index].
  assert (LQ : length (r ++ b :: q) = bsz).
  { rewrite EB in LB. rewrite app_length in *. cbn [length] in *. exact LB. }
  eexists. split; [reflexivity|].
  destruct (Nat.eqb_spec (Datatypes.S (index c)) bsz) as [E|E].
  - assert (q = []) as -> by (rewrite app_length in LQ; cbn [length] in LQ; destruct q; [reflexivity|cbn [length] in LQ; lia]).
    exists (bs ++ [r ++ [b]]), []. unfold process_block. cbn [state index block len_low len_high length firstn].
    repeat split; auto.
    + rewrite concat_app. cbn. rewrite Em, !app_nil_r, app_assoc. reflexivity.
    + apply Forall_app. split; [exact F|]. constructor; [exact LQ|constructor].
    + apply bsz_pos.
    + rewrite fold_left_app, <- S. reflexivity.
    + rewrite A4, app_length. cbn [length]. lia.
  - exists bs, (r ++ [b]). cbn [state index block len_low len_high].
    assert (LR : length (r ++ [b]) = Datatypes.S (length r)) by (rewrite app_length; cbn; lia).
    repeat split; auto.
    + rewrite Em, app_assoc. reflexivity.
    + lia.
    + lia.
    + change (r ++ b :: q) with (r ++ [b] ++ q). rewrite app_assoc, firstn_app, firstn_all, Nat.sub_diag. cbn. apply app_nil_r.
    + rewrite A4, app_length. cbn [length]. lia.
Qed.

Lemma update_fed inp : forall m c i, fed m c -> i + N.of_nat (length inp) <= INT_MAX ->
  8 * N.of_nat (length m + length inp) < limit ->
  exists c', sha_update_loop a c inp i false = Ret c' /\ fed (m ++ inp) c'.
Proof.
  induction inp as [|b inp IH]; intros m c i Hf Hi HL.
  - exists c. rewrite app_nil_r. split; [reflexivity|exact Hf].
  - cbn [length] in *. rewrite loop_cons. destruct (one_fed m c b Hf ltac:(lia)) as (c' & -> & Hf'). cbn [bind].
    destruct (N.eqb_spec i INT_MAX); [lia|].
    destruct (IH (m ++ [b]) c' (i + 1) Hf' ltac:(lia) ltac:(rewrite app_length; cbn [length]; lia)) as (c'' & E & Hf'').
    exists c''. rewrite <- app_assoc in Hf''. split; assumption.
Qed.

(** int counter overflow: 2^31 bytes or more in one call, below the total limit *)
Lemma update_overflow inp : forall m c i, fed m c -> i <= INT_MAX -> INT_MAX < i + N.of_nat (length inp) ->
  8 * N.of_nat (length m + length inp) < limit ->
  sha_update_loop a c inp i false = UB SignedOverflow.
Proof.
  induction inp as [|b inp IH]; intros m c i Hf Hi1 Hi HL; [cbn [length] in Hi; lia|].
  cbn [length] in *. rewrite loop_cons. destruct (one_fed m c b Hf ltac:(lia)) as (c' & -> & Hf'). cbn [bind].
  destruct (N.eqb_spec i INT_MAX); [reflexivity|].
  apply (IH (m ++ [b]) c'); auto; try lia. rewrite app_length; cbn [length]; lia.
Qed.

(** the state reached when the length counter wraps *)
Definition stuck (c : sha_ctx) : Prop := index c = bsz /\ length (block c) = bsz.

Lemma one_stuck m c b : fed m c -> 8 * (N.of_nat (length m) + 1) = limit ->
  exists c', one c b = Ret (c', true) /\ stuck c'.
Proof.
  intros (bs & r & Em & F & R & S & I & LB & FB & HL & HH & T) HLim.
  unfold one. destruct (app_split_at (block c) (index c) ltac:(lia)) as (p & x & q & EB & LP).
  rewrite EB, wr_app by (symmetry; exact LP). cbn [bind].
  destruct (len_step (len_high c) (len_low c) _ HL HH T) as (A1 & A2 & _ & A3).
  rewrite A3 by lia. cbn [negb andb]. eexists. split; [reflexivity|]. unfold stuck. cbn [index block].
  assert (LQ : length (p ++ b :: q) = bsz).
  { rewrite EB in LB. rewrite app_length in *. cbn [length] in *. exact LB. }
  split; [|exact LQ].
  assert (LM : length m = (length bs * bsz + length r)%nat) by (rewrite Em, app_length, concat_length_k with (k := bsz) by (auto using bsz_pos); reflexivity).
  (* limit / 8 is a multiple of the block size *)
  assert (exists k, limit = 8 * (N.of_nat bsz * k)) as (k & Ek).
  { unfold limit, block_bytes. unfold word_bits. destruct Hwb as [-> | ->].
    - exists (2 ^ 55). vm_compute. reflexivity.
    - exists (2 ^ 118). vm_compute. reflexivity. }
  rewrite I. rewrite Ek in HLim.
  assert (N.of_nat (length m) + 1 = N.of_nat bsz * k) by lia. clear HLim.
  assert (N.of_nat (length r + 1) = N.of_nat bsz * (k - N.of_nat (length bs))) by nia.
  assert (0 < k - N.of_nat (length bs)) by nia. pose proof bsz_pos. nia.
Qed.

Lemma update_stuck inp : forall m c i, fed m c -> i + N.of_nat (length inp) <= INT_MAX ->
  8 * N.of_nat (length m) < limit -> limit <= 8 * N.of_nat (length m + length inp) ->
  exists c', sha_update_loop a c inp i false = Ret c' /\ stuck c'.
Proof.
  induction inp as [|b inp IH]; intros m c i Hf Hi H1 H2; [cbn [length] in H2; lia|].
  cbn [length] in *. rewrite loop_cons.
  assert (L8 : exists k, limit = 8 * k).
  { unfold limit. destruct w_cases as [-> | ->]; [exists (2 ^ 61)|exists (2 ^ 125)]; vm_compute; reflexivity. }
  destruct L8 as (k & L8). rewrite L8 in *.
  destruct (N.eq_dec (8 * (N.of_nat (length m) + 1)) (8 * k)) as [E|E].
  - destruct (one_stuck m c b Hf) as (c' & -> & Hs). { rewrite L8. exact E. }
    cbn [bind]. destruct (N.eqb_spec i INT_MAX); [lia|]. exists c'. split; [|exact Hs]. destruct inp; reflexivity.
  - destruct (one_fed m c b Hf) as (c' & -> & Hf'). { rewrite L8. lia. }
    cbn [bind]. destruct (N.eqb_spec i INT_MAX); [lia|].
    apply (IH (m ++ [b]) c' (i + 1) Hf'); try lia; rewrite app_length; cbn [length]; lia.
Qed.

Lemma stuck_update c b r : stuck c -> sha_update a c (b :: r) = UB OutOfBounds.
Proof. intros [I L]. unfold sha_update. rewrite loop_cons. unfold one. rewrite wr_ub by lia. reflexivity. Qed.
Lemma stuck_digest c out : stuck c -> sha_digest a c out = UB OutOfBounds.
Proof. intros [I L]. unfold sha_digest, sha_padding. rewrite wr_ub by lia. reflexivity. Qed.

(** ** padding *)
Lemma len_bytes_be v : len_bytes a v = be_bytes (word_bytes a) v.
Proof. symmetry. apply be_bytes_shift. Qed.

Lemma len_field hi lo : lo < 2 ^ w -> len_bytes a hi ++ len_bytes a lo = be_bytes lb (hi * 2 ^ w + lo).
Proof.
  intros H. rewrite !len_bytes_be. replace lb with (word_bytes a + word_bytes a)%nat by lia.
  unfold word_bits in *. rewrite <- pow256 in *. symmetry. apply be_bytes_app. exact H.
Qed.

Lemma geometry : (bsz = 8 * lb /\ 1 + lb <= bsz /\ lb < bsz)%nat.
Proof. unfold block_bytes. lia. Qed.

Lemma padding_spec m c : fed m c -> exists c', sha_padding a c = Ret c' /\
  state c' = fold_left (process a) (pieces bsz (lib_padded bsz lb (be_bytes lb) m)) (H0 a) /\
  index c' = 0%nat /\ length (block c') = bsz /\ len_low c' = len_low c /\ len_high c' = len_high c /\
  (exists pre, block c' = pre ++ be_bytes lb (8 * N.of_nat (length m)) /\
     (pre = if fits bsz lb m then last_part bsz m ++ [0x80] ++ repeat 0 (lenpos - 1 - length m mod bsz)
            else firstn lenpos (last_part bsz m))).
Proof.
  intros (bs & r & Em & F & R & S & I & LB & FB & HL & HH & T).
  pose proof geometry as (G1 & G2 & G3). pose proof bsz_pos as G4.
  destruct (last_part_concat bsz bs r G4 F R) as [LPt MD]. fold (last_part bsz (concat bs ++ r)) in LPt. rewrite <- Em in *.
  unfold sha_padding. destruct (app_split_at (block c) (index c) ltac:(lia)) as (p & x & q & EB & LP).
  rewrite EB, wr_app by (symmetry; exact LP). cbn [bind].
  assert (p = r) as ->.
  { rewrite <- FB, EB, firstn_app, <- I, <- LP, firstn_all, Nat.sub_diag. cbn. symmetry. apply app_nil_r. }
  assert (LQ : (length r + 1 + length q = bsz)%nat).
  { rewrite EB in LB. rewrite app_length in LB. cbn [length] in LB. lia. }
  set (ENC := be_bytes lb (8 * N.of_nat (length m))).
  assert (LENC : length ENC = lb) by apply be_bytes_length.
  assert (LF : len_bytes a (len_high c) ++ len_bytes a (len_low c) = ENC).
  { rewrite len_field by exact HL. unfold ENC. rewrite T. reflexivity. }
  assert (XB : forall l tail, length l = lenpos -> length tail = lb -> blit (l ++ tail) lenpos ENC = Ret (l ++ ENC)).
  { intros l tail H1 H2. pose proof (blit_app l tail [] ENC lenpos) as K. rewrite !app_nil_r in K. apply K; lia. }
  rewrite I. unfold lib_padded, fits. rewrite MD.
  destruct (Nat.ltb_spec lenpos (Datatypes.S (length r))) as [HB|HB].
  - (* second block *)
    destruct (Nat.leb_spec (length r + 1 + lb) bsz) as [X|X]; [lia|].
    assert (E1 : blit (r ++ 0x80 :: q) (Datatypes.S (length r)) (repeat 0 (bsz - Datatypes.S (length r))) = Ret (r ++ 0x80 :: repeat 0 (bsz - length r - 1))).
    { replace (bsz - Datatypes.S (length r))%nat with (length q) by lia. replace (bsz - length r - 1)%nat with (length q) by lia.
      pose proof (blit_app (r ++ [0x80]) q [] (repeat 0 (length q)) (Datatypes.S (length r))) as K.
      rewrite !app_nil_r, <- !app_assoc in K. cbn [app] in K. apply K; [rewrite app_length; cbn; lia|rewrite repeat_length; reflexivity]. }
    rewrite E1. cbn [bind]. unfold process_block at 2. cbn [state block index len_low len_high].
    set (B1 := r ++ 0x80 :: repeat 0 (bsz - length r - 1)).
    assert (LB1 : length B1 = bsz) by (unfold B1; rewrite app_length; cbn [length]; rewrite repeat_length; lia).
    unfold process_block. cbn [block state index len_low len_high]. rewrite LF.
    assert (SP : B1 = firstn lenpos r ++ skipn lenpos B1).
    { rewrite <- (firstn_skipn lenpos B1) at 1. f_equal. unfold B1. rewrite firstn_app.
      replace (lenpos - length r)%nat with 0%nat by lia. cbn. apply app_nil_r. }
    assert (BB : blit B1 lenpos ENC = Ret (firstn lenpos r ++ ENC)).
    { rewrite SP. apply XB; rewrite ?firstn_length, ?skipn_length; lia. }
    rewrite BB. cbn [bind].
    eexists. split; [reflexivity|]. cbn [state index block len_low len_high].
    rewrite LPt. repeat split.
    + rewrite Em. fold ENC. rewrite <- app_assoc. rewrite pieces_concat by assumption.
      rewrite <- Em. fold ENC.
      match goal with |- context[pieces bsz ?l] => replace l with (B1 ++ (firstn lenpos r ++ ENC) ++ []) end.
      2:{ unfold B1. cbn [app]. rewrite app_nil_r, <- !app_assoc. reflexivity. }
      rewrite pieces_cons by (auto; lia). rewrite pieces_cons by (try rewrite app_length, firstn_length; lia).
      rewrite pieces_nil, fold_left_app, <- S. reflexivity.
    + rewrite app_length, firstn_length. lia.
    + exists (firstn lenpos r). split; reflexivity.
  - (* one block *)
    destruct (Nat.leb_spec (length r + 1 + lb) bsz) as [X|X]; [|lia].
    assert (PZ : pad_zeros bsz lb (length m) = (bsz - length r - 1 - lb)%nat).
    { unfold pad_zeros. rewrite MD. replace (2 * bsz - length r - 1 - lb)%nat with ((bsz - length r - 1 - lb) + 1 * bsz)%nat by lia.
      rewrite Nat.mod_add, Nat.mod_small by lia. reflexivity. }
    set (z := (lenpos - 1 - length r)%nat).
    assert (E1 : exists c1, (if Nat.ltb (Datatypes.S (length r)) lenpos
              then blk <- blit (r ++ 0x80 :: q) (Datatypes.S (length r)) (repeat 0 (lenpos - Datatypes.S (length r))) ;;
                   Ret (mkSha (state c) (len_low c) (len_high c) lenpos blk)
              else Ret (mkSha (state c) (len_low c) (len_high c) (Datatypes.S (length r)) (r ++ 0x80 :: q))) = Ret c1 /\
              state c1 = state c /\ len_low c1 = len_low c /\ len_high c1 = len_high c /\
              exists tail, block c1 = (r ++ 0x80 :: repeat 0 z) ++ tail /\ length tail = lb).
    { destruct (Nat.ltb_spec (Datatypes.S (length r)) lenpos) as [Y|Y].
      - assert (E1 : blit (r ++ 0x80 :: q) (Datatypes.S (length r)) (repeat 0 (lenpos - Datatypes.S (length r))) = Ret ((r ++ 0x80 :: repeat 0 z) ++ skipn z q)).
        { replace (lenpos - Datatypes.S (length r))%nat with z by (unfold z; lia).
          pose proof (blit_app (r ++ [0x80]) (firstn z q) (skipn z q) (repeat 0 z) (Datatypes.S (length r))) as K.
          rewrite firstn_skipn in K. rewrite <- !app_assoc in K. cbn [app] in K. rewrite K; [rewrite <- app_assoc; reflexivity| |].
          - rewrite app_length; cbn; lia.
          - rewrite repeat_length, firstn_length. unfold z. lia. }
        rewrite E1. cbn [bind]. eexists. split; [reflexivity|]. cbn [state len_low len_high block]. repeat split.
        exists (skipn z q). split; [reflexivity|]. rewrite skipn_length. unfold z. lia.
      - eexists. split; [reflexivity|]. cbn [state len_low len_high block]. repeat split.
        exists q. replace z with 0%nat by (unfold z; lia). cbn [repeat]. rewrite <- app_assoc. split; [reflexivity|]. lia. }
    destruct E1 as (c1 & -> & S1 & L1 & L2 & tail & B1 & LT). cbn [bind].
    rewrite L1, L2, LF, B1, XB; [|rewrite app_length; cbn [length]; rewrite repeat_length; unfold z; lia|exact LT].
    cbn [bind]. eexists. split; [reflexivity|]. unfold process_block. cbn [state index block len_low len_high].
    repeat split.
    + unfold padded. rewrite PZ. 
      fold ENC. match goal with |- context[pieces bsz ?l] => replace l with (concat bs ++ (((r ++ 0x80 :: repeat 0 z) ++ ENC) ++ [])) end.
      2:{ rewrite Em at 1. rewrite app_nil_r, <- !app_assoc. cbn [app]. replace (bsz - length r - 1 - lb)%nat with z by (unfold z; lia). reflexivity. }
      rewrite pieces_concat by assumption.
      rewrite pieces_cons by (try (rewrite !app_length; cbn [length]; rewrite repeat_length, LENC; unfold z); lia).
      rewrite pieces_nil, fold_left_app, <- S, S1. reflexivity.
    + rewrite !app_length. cbn [length]. rewrite repeat_length, LENC. unfold z. lia.
    + eexists. split; [reflexivity|]. rewrite LPt. unfold z. reflexivity.
Qed.

(** ** digest *)
Hypothesis Hst : forall bs, Forall (fun b => length b = bsz) bs -> exists k, length (fold_left (process a) bs (H0 a)) = k /\ (digest_bytes a <= k * word_bytes a)%nat.

Lemma out_bytes s : (digest_bytes a <= length s * word_bytes a)%nat ->
  map (out_byte a s) (seq 0 (digest_bytes a)) = firstn (digest_bytes a) (flat_map (be_bytes (word_bytes a)) s).
Proof.
  intros H. assert (W : (0 < word_bytes a)%nat) by lia.
  assert (G : forall s, map (out_byte a s) (seq 0 (length s * word_bytes a)) = flat_map (be_bytes (word_bytes a)) s).
  { clear s H. induction s as [|x s IH]; [reflexivity|]. cbn [length flat_map]. cbn [Nat.mul]. rewrite seq_app, map_app. f_equal.
    - rewrite be_bytes_shift. apply map_ext_in. intros i Hi. apply in_seq in Hi. unfold out_byte.
      rewrite Nat.div_small, Nat.mod_small by lia. reflexivity.
    - rewrite <- IH. cbn [plus]. replace (seq (word_bytes a) (length s * word_bytes a)) with (map (fun i => i + word_bytes a)%nat (seq 0 (length s * word_bytes a))).
      2:{ generalize (word_bytes a) at 1 3. generalize (length s * word_bytes a)%nat. clear. intros n k. revert k. induction n as [|n IHn]; intros k; [reflexivity|].
          cbn. f_equal. rewrite <- seq_shift, map_map. rewrite <- (IHn (Datatypes.S k)). apply map_ext. intros; lia. }
      rewrite map_map. apply map_ext. intros i. unfold out_byte.
      replace (i + word_bytes a)%nat with (i + 1 * word_bytes a)%nat by lia. rewrite Nat.div_add, Nat.mod_add by lia.
      rewrite Nat.add_1_r. reflexivity. }
  rewrite <- G. rewrite <- (firstn_skipn (digest_bytes a) (seq 0 (length s * word_bytes a))).
  assert (E : firstn (digest_bytes a) (seq 0 (length s * word_bytes a)) = seq 0 (digest_bytes a)).
  { replace (length s * word_bytes a)%nat with (digest_bytes a + (length s * word_bytes a - digest_bytes a))%nat by lia.
    rewrite seq_app, firstn_app, seq_length, Nat.sub_diag, firstn_O, app_nil_r. apply firstn_all2. rewrite seq_length. lia. }
  rewrite E, map_app, firstn_app, map_length, seq_length, Nat.sub_diag, firstn_O, app_nil_r.
  symmetry. apply firstn_all2. rewrite map_length, seq_length. lia.
Qed.

(** the digest the code computes, in terms of the model's block function *)
Definition code_hash (m : list N) : list N :=
  firstn (digest_bytes a) (flat_map (be_bytes (word_bytes a))
    (fold_left (process a) (pieces bsz (lib_padded bsz lb (be_bytes lb) m)) (H0 a))).

Lemma lib_padded_blocks m : exists n, length (lib_padded bsz lb (be_bytes lb) m) = (n * bsz)%nat.
Proof.
  pose proof geometry as (G1 & G2 & G3). pose proof bsz_pos as G4. unfold lib_padded, fits.
  assert (D : (length m = bsz * (length m / bsz) + length m mod bsz)%nat) by apply Nat.div_mod_eq.
  assert (R : (length m mod bsz < bsz)%nat) by (apply Nat.mod_upper_bound; lia).
  destruct (Nat.leb_spec (length m mod bsz + 1 + lb) bsz) as [X|X].
  - exists (length m / bsz + 1)%nat. unfold padded. rewrite !app_length, repeat_length, be_bytes_length. cbn [length].
    unfold pad_zeros. replace (2 * bsz - length m mod bsz - 1 - lb)%nat with ((bsz - length m mod bsz - 1 - lb) + 1 * bsz)%nat by lia.
    rewrite Nat.mod_add, Nat.mod_small by lia. nia.
  - exists (length m / bsz + 2)%nat. rewrite !app_length, repeat_length, be_bytes_length, firstn_length. cbn [length].
    unfold last_part. rewrite skipn_length. nia.
Qed.

Lemma code_hash_length m : length (code_hash m) = digest_bytes a.
Proof.
  unfold code_hash. destruct (lib_padded_blocks m) as (n & Hn).
  destruct (pieces_mult bsz bsz_pos _ n Hn) as (F & _ & _).
  destruct (Hst _ F) as (k & K1 & K2). rewrite firstn_length.
  assert (X : forall s, length (flat_map (be_bytes (word_bytes a)) s) = (length s * word_bytes a)%nat).
  { induction s as [|x s IH]; [reflexivity|]. cbn [flat_map length]. rewrite app_length, be_bytes_length, IH. lia. }
  rewrite X, K1. lia.
Qed.

Lemma digest_spec m c out : fed m c -> (digest_bytes a <= length out)%nat ->
  exists c', sha_digest a c out = Ret (c', code_hash m ++ skipn (digest_bytes a) out) /\ length (block c') = bsz.
Proof.
  intros Hf Ho. destruct (padding_spec m c Hf) as (c' & E & S & I & L & _). unfold sha_digest. rewrite E. cbn [bind].
  destruct (lib_padded_blocks m) as (n & Hn). destruct (pieces_mult bsz bsz_pos _ n Hn) as (F & _ & _).
  destruct (Hst _ F) as (k & K1 & K2).
  assert (ES : forall b : bool, state (if b then mkSha (state c') 0 0 (index c') (repeat 0 bsz) else c') = state c') by (intros []; reflexivity).
  rewrite ES, S, out_bytes by (rewrite K1; exact K2).
  fold (code_hash m). rewrite blit_ok by (rewrite code_hash_length; lia). rewrite code_hash_length. cbn [bind firstn app plus].
  eexists. split; [reflexivity|]. destruct (wipes a); [cbn; apply repeat_length|exact L].
Qed.
Lemma digest_small m c out : fed m c -> (length out < digest_bytes a)%nat -> sha_digest a c out = UB OutOfBounds.
Proof.
  intros Hf Ho. destruct (padding_spec m c Hf) as (c' & E & S & I & L & _). unfold sha_digest. rewrite E. cbn [bind].
  rewrite blit_ub; [reflexivity|]. rewrite map_length, seq_length. lia.
Qed.
End Stream.
