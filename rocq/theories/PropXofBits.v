(** C85: SHAKE and RawSHAKE asked for any number of bits (shake.c, keccak-backend.c). [xof_bits], [bit_run] and
    [expected] are in SXofBits.v; the FIPS 202 functions in SFips202.v. *)
From Coq Require Import String.
From Verif Require Import Base MSha MFront MKeccak SFips202 SHash SKeccakFns SXofBits PWords PSha PKeccak PSponge PSponge2 PKeccakFns PXofBits.
Local Open Scope N_scope.

(** ** the specification, for lengths that are not whole bytes *)
Lemma value_low : forallb (fun x => forallb (fun r => N.eqb (bits_value (firstn r (byte_bits x))) (x mod 2 ^ N.of_nat r)) (seq 0 8)) (map N.of_nat (seq 0 256)) = true.
Proof. vm_compute. reflexivity. Qed.
Lemma bits_value_low x r : x < 256 -> (r < 8)%nat -> bits_value (firstn r (byte_bits x)) = x mod 2 ^ N.of_nat r.
Proof.
  intros Hx Hr. pose proof value_low as V. rewrite forallb_forall in V. specialize (V x). rewrite forallb_forall in V.
  apply N.eqb_eq, V; [|apply in_seq; lia]. apply in_map_iff. exists (N.to_nat x). split; [lia|]. apply in_seq. lia.
Qed.
Lemma bytes_of_tail t : (0 < length t < 8)%nat -> forall u fuel, bytes_ok u -> (length u < fuel)%nat -> bytes_of fuel (bits_of_bytes u ++ t) = u ++ [bits_value t].
Proof.
  intros Ht. induction u as [|b u IH]; intros fuel Hu Hf; (destruct fuel as [|fuel]; [cbn in Hf; lia|]).
  - cbn [bits_of_bytes flat_map app]. destruct t as [|x t]; [cbn in Ht; lia|]. cbn [bytes_of]. rewrite firstn_all2, skipn_all2 by lia.
    destruct fuel; reflexivity.
  - change (bits_of_bytes (b :: u)) with (byte_bits b ++ bits_of_bytes u). rewrite <- app_assoc. inversion Hu; subst.
    set (w := bits_of_bytes u ++ t). change (byte_bits b ++ w) with (N.testbit b (N.of_nat 0) :: tl (byte_bits b ++ w)) at 1. cbn [bytes_of].
    change (N.testbit b (N.of_nat 0) :: tl (byte_bits b ++ w)) with (byte_bits b ++ w).
    rewrite firstn_app, skipn_app. change (length (byte_bits b)) with 8%nat. rewrite Nat.sub_diag, firstn_O, app_nil_r.
    rewrite firstn_all2, skipn_all2 by (cbn; lia). cbn [app skipn]. rewrite bits_value_byte by assumption. unfold w. rewrite IH by (auto; cbn in Hf; lia). reflexivity.
Qed.
Lemma bits_prefix n r l : (0 < r < 8)%nat -> (n < length l)%nat -> bytes_ok l ->
  bytes_of_bits (firstn (8 * n + r) (bits_of_bytes l)) = firstn n l ++ [nth n l 0 mod 2 ^ N.of_nat r].
Proof.
  intros Hr Hn Hl. destruct (nth_split l 0 Hn) as (u & w & E & Lu). set (x := nth n l 0) in *.
  assert (Hx : x < 256 /\ bytes_ok u) by (rewrite E in Hl; unfold bytes_ok in Hl; rewrite Forall_app in Hl; destruct Hl as [A B]; inversion B; auto).
  rewrite E. unfold bits_of_bytes. rewrite flat_map_app. fold (bits_of_bytes u). cbn [flat_map].
  rewrite firstn_app, bb_len. rewrite firstn_all2 by (rewrite bb_len; lia). replace (8 * n + r - 8 * length u)%nat with r by lia.
  rewrite firstn_app. replace (r - length (byte_bits x))%nat with 0%nat by (cbn; lia). rewrite firstn_O, app_nil_r.
  assert (Lt : length (firstn r (byte_bits x)) = r) by (rewrite firstn_length; cbn; lia).
  unfold bytes_of_bits. rewrite bytes_of_tail; [|lia|tauto|rewrite app_length, bb_len; lia].
  rewrite bits_value_low by (tauto || lia). rewrite firstn_app, <- Lu, Nat.sub_diag, firstn_O, app_nil_r, firstn_all. reflexivity.
Qed.

Lemma sbytes_nth lanes st n k : (k < n)%nat -> nth k (sbytes lanes st 0 n) 0 = sbyte lanes st k.
Proof.
  intros H. unfold sbytes. rewrite (nth_indep _ 0 (sbyte lanes st 0)) by (rewrite map_length, seq_length; exact H). rewrite map_nth, seq_nth by exact H. reflexivity.
Qed.
Lemma sbytes_firstn lanes st p n k : (k <= n)%nat -> firstn k (sbytes lanes st p n) = sbytes lanes st p k.
Proof.
  intros H. replace n with (k + (n - k))%nat by lia. rewrite sbytes_app, firstn_app, sbytes_len, Nat.sub_diag, firstn_O, app_nil_r.
  apply firstn_all2. rewrite sbytes_len. lia.
Qed.
Lemma sponge_bits lanes P L m d : (1 <= lanes <= 24)%nat -> (P = 2 /\ L = 2) \/ (P = 15 /\ L = 4) \/ (P = 3 /\ L = 2) -> bytes_ok m -> (d mod 8 <> 0)%nat ->
  bytes_of_bits (sponge (64 * lanes) (bits_of_bytes m ++ suffix P L) d) =
  sbytes lanes (final lanes P L m) 0 (d / 8) ++ [sbyte lanes (final lanes P L m) (d / 8) mod 2 ^ N.of_nat (d mod 8)].
Proof.
  intros Hl HPL Hm Hd. unfold sponge. rewrite <- (pad_bits lanes Hl P L HPL), (absorb_final lanes Hl P L HPL) by exact Hm.
  rewrite (squeeze_bytes lanes Hl P L HPL) by (apply final_ok; auto).
  set (k := (d / (64 * lanes) + 1)%nat).
  assert (Hk : (d / 8 < k * (8 * lanes))%nat).
  { unfold k. pose proof (Nat.div_mod d (64 * lanes) ltac:(lia)) as E1. pose proof (Nat.mod_upper_bound d (64 * lanes) ltac:(lia)) as E2.
    apply Nat.div_lt_upper_bound; [lia|]. nia. }
  rewrite (Nat.div_mod d 8) at 1 by lia. rewrite bits_prefix.
  - rewrite sbytes_firstn by lia. rewrite sbytes_nth by lia. reflexivity.
  - lia.
  - rewrite sbytes_len. exact Hk.
  - apply sbytes_bytes.
Qed.

(** ** the four functions *)
Record xfacts (init : kctx -> kctx) (rate : nat) (H : list N -> nat -> list N) (lanes : nat) (P L : N) : Prop := mkXf {
  xf_lanes : (1 <= lanes <= 24)%nat;
  xf_PL : (P = 2 /\ L = 2) \/ (P = 15 /\ L = 4) \/ (P = 3 /\ L = 2);
  xf_rate : rate = (64 * lanes)%nat;
  xf_init : init = keccak_init (N.of_nat (1600 - 64 * lanes)) 0 P L;
  xf_bytes : forall m n, bytes_ok m -> H m (8 * n)%nat = sbytes lanes (final lanes P L m) 0 n;
  xf_bits : forall m d, bytes_ok m -> (d mod 8 <> 0)%nat -> H m d =
    sbytes lanes (final lanes P L m) 0 (d / 8) ++ [sbyte lanes (final lanes P L m) (d / 8) mod 2 ^ N.of_nat (d mod 8)] }.
Lemma xof_bits_facts init rate H : xof_bits init rate H -> exists lanes P L, xfacts init rate H lanes P L.
Proof.
  intros X. destruct X.
  - exists 21%nat, 15, 4. split; [lia|auto|lia|reflexivity| |]; intros m n Hm.
    + apply shake_spec; auto; lia.
    + intros Hd. unfold SHAKE128, KECCAK. apply (sponge_bits 21 15 4); auto; lia.
  - exists 17%nat, 15, 4. split; [lia|auto|lia|reflexivity| |]; intros m n Hm.
    + apply shake_spec; auto; lia.
    + intros Hd. unfold SHAKE256, KECCAK. apply (sponge_bits 17 15 4); auto; lia.
  - exists 21%nat, 3, 2. split; [lia|auto|lia|reflexivity| |]; intros m n Hm.
    + apply rawshake_spec; auto; lia.
    + intros Hd. unfold RawSHAKE128, KECCAK. apply (sponge_bits 21 3 2); auto; lia.
  - exists 17%nat, 3, 2. split; [lia|auto|lia|reflexivity| |]; intros m n Hm.
    + apply rawshake_spec; auto; lia.
    + intros Hd. unfold RawSHAKE256, KECCAK. apply (sponge_bits 17 3 2); auto; lia.
Qed.

Lemma delivered_ext rate f g p b : (forall a n, f a n = g a n) -> delivered rate f p b = delivered rate g p b.
Proof. intros E. unfold delivered. rewrite !E. reflexivity. Qed.
Lemma expected_ext rate f g ops : (forall a n, f a n = g a n) -> forall p, expected rate f p ops = expected rate g p ops.
Proof.
  intros E. induction ops as [|[x|bits buf] ops IH]; intros p; cbn [expected]; [reflexivity|apply IH|].
  rewrite IH, (delivered_ext rate f g) by exact E. reflexivity.
Qed.
Lemma stretch_eq lanes P L H m : (forall n, H m (8 * n)%nat = sbytes lanes (final lanes P L m) 0 n) ->
  forall a n, stretch H m a n = sbytes lanes (final lanes P L m) a n.
Proof. intros E a n. unfold stretch. rewrite E, sbytes_app, skipn_app, sbytes_len, Nat.sub_diag, skipn_O, skipn_all2 by (rewrite sbytes_len; lia). reflexivity. Qed.

Lemma understood_lt b : N.of_nat (understood b) < 2 ^ 32.
Proof. unfold understood. rewrite N2Nat.id. apply N.mod_lt. discriminate. Qed.
Lemma sqb_update lanes P L O st p c x : sqb lanes P L O st p c -> keccak_update c x = Ret c.
Proof. intros (k & q & v & _ & _ & _ & ->). unfold keccak_update, keccak_absorb. cbn [squeezing ks]. rewrite orb_true_r. reflexivity. Qed.
Lemma digest_set_out b c out : shake_digest b c out = keccak_squeeze (set_out c (N.of_nat (understood b))) out.
Proof. unfold shake_digest, set_out, understood, u32. rewrite N2Nat.id. reflexivity. Qed.

Section Runs.
Context (lanes : nat) (Hl : (1 <= lanes <= 24)%nat) (P L : N) (HPL : (P = 2 /\ L = 2) \/ (P = 15 /\ L = 4) \/ (P = 3 /\ L = 2)).
Context (m : list N) (Hm : bytes_ok m).
Let st := final lanes P L m.
Lemma later_call O p c b buf : sqb lanes P L O st p c -> (understood b / 8 <= length buf)%nat ->
  exists c', shake_digest b c buf = Ret (c', delivered (64 * lanes) (sbytes lanes st) p (understood b) ++ skipn (length (delivered (64 * lanes) (sbytes lanes st) p (understood b))) buf) /\
    sqb lanes P L (N.of_nat (understood b)) st (p + understood b) c'.
Proof.
  intros S Hb. rewrite digest_set_out. apply (sqb_set_out lanes P L O st p c (N.of_nat (understood b))) in S.
  destruct (whole_call lanes Hl P L HPL _ st (final_ok lanes Hl P L HPL m Hm) p _ (understood b) buf S (understood_lt b) Hb) as (c' & E & S').
  exists c'. split; [|exact S']. rewrite <- E. destruct S as (k & q & v & _ & _ & _ & ->). unfold keccak_squeeze.
  cbn [outlen aplen apadded squeezing ks]. rewrite andb_false_r. cbn [bind squeezing ks]. reflexivity.
Qed.
Lemma first_call O c b buf : kfed lanes O P L m c -> (understood b / 8 <= length buf)%nat ->
  exists c', shake_digest b c buf = Ret (c', delivered (64 * lanes) (sbytes lanes st) 0 (understood b) ++ skipn (length (delivered (64 * lanes) (sbytes lanes st) 0 (understood b))) buf) /\
    sqb lanes P L (N.of_nat (understood b)) st (understood b) c'.
Proof.
  intros F Hb. rewrite digest_set_out. apply (kfed_set_out _ _ _ _ _ _ (N.of_nat (understood b))) in F.
  destruct (start_squeeze lanes Hl P L HPL _ m _ F Hm) as (c0 & S & E). rewrite E.
  apply (whole_call lanes Hl P L HPL _ st (final_ok lanes Hl P L HPL m Hm) 0 _ (understood b) buf S (understood_lt b) Hb).
Qed.
Lemma later_run ops : Forall roomy_op ops -> forall O p c, sqb lanes P L O st p c -> bit_run c ops = Ret (expected (64 * lanes) (sbytes lanes st) p ops).
Proof.
  intros F. induction F as [|o ops Ho _ IH]; intros O p c S; [reflexivity|]. destruct o as [x|b buf]; cbn [bit_run expected].
  - rewrite (sqb_update _ _ _ _ _ _ _ x S). cbn [bind]. apply (IH O p c S).
  - cbn [roomy_op] in Ho. destruct (later_call O p c b buf S Ho) as (c' & E & S'). rewrite E. cbn [bind]. rewrite (IH _ _ _ S'). reflexivity.
Qed.
End Runs.
Lemma run_gives ps : forall c c0 rest, kupdates c0 ps = Ret c -> bit_run c0 (map Give ps ++ rest) = bit_run c rest.
Proof.
  induction ps as [|p ps IH]; intros c c0 rest E; [injection E as ->; reflexivity|]. cbn [map app bit_run kupdates] in *.
  destruct (keccak_update c0 p); cbn [bind] in *; [|discriminate|discriminate]. apply IH, E.
Qed.

(** ** C85: any sequence of digest calls for any numbers of bits *)
Theorem C85_any_bits : forall init rate H, xof_bits init rate H ->
  forall g ps bits buf ops, kshape g -> Forall keccak_piece ps -> Forall roomy_op (Ask bits buf :: ops) ->
  bit_run (init g) (map Give ps ++ Ask bits buf :: ops) = Ret (expected rate (stretch H (concat ps)) 0 (Ask bits buf :: ops)).
Proof.
  intros init rate H X g ps bits buf ops Hg HP HO. destruct (xof_bits_facts _ _ _ X) as (lanes & P & L & F). destruct F as [Hl HPL -> -> HB _].
  pose proof (pieces_concat_bytes ps HP) as B.
  rewrite (expected_ext _ _ (sbytes lanes (final lanes P L (concat ps)))) by (apply stretch_eq; intros n; apply HB, B).
  destruct (updates_kfed lanes Hl P L HPL 0 ps [] (keccak_init (N.of_nat (1600 - 64 * lanes)) 0 P L g)) as (c & E & Hf); auto.
  { apply fed_init; auto. }
  cbn [app] in Hf. rewrite (run_gives ps c) by exact E. inversion HO as [|? ? Hb HOps]; subst. cbn [bit_run expected roomy_op] in *.
  destruct (first_call lanes Hl P L HPL (concat ps) B 0 c bits buf Hf Hb) as (c' & E' & S'). rewrite E'. cbn [bind].
  rewrite (later_run lanes Hl P L HPL (concat ps) B ops HOps _ _ _ S'). reflexivity.
Qed.

(** the FIPS 202 output of [d] bits: the whole bytes, and a last byte of the remaining bits *)
Lemma stretch_len init rate H M : xof_bits init rate H -> bytes_ok M -> forall a n, length (stretch H M a n) = n.
Proof.
  intros X HM a n. destruct (xof_bits_facts _ _ _ X) as (lanes & P & L & F).
  rewrite (stretch_eq lanes P L) by (intros k; apply (xf_bytes _ _ _ _ _ _ F), HM). apply sbytes_len.
Qed.
Lemma xof_d init rate H M d : xof_bits init rate H -> bytes_ok M -> length (H M d) = ((d + 7) / 8)%nat /\ firstn (d / 8) (H M d) = H M (8 * (d / 8))%nat /\
  ((d mod 8 <> 0)%nat -> last (H M d) 0 < 2 ^ N.of_nat (d mod 8)).
Proof.
  intros X HM. destruct (xof_bits_facts _ _ _ X) as (lanes & P & L & F). rewrite (xf_bytes _ _ _ _ _ _ F M (d / 8) HM).
  destruct (Nat.eq_dec (d mod 8) 0) as [Z|Z].
  - assert (E : exists n, d = (8 * n)%nat) by (exists (d / 8)%nat; lia). destruct E as (n & ->). replace (8 * n / 8)%nat with n by lia.
    rewrite (xf_bytes _ _ _ _ _ _ F M n HM), sbytes_len.
    split; [lia|]. split; [apply firstn_all2; rewrite sbytes_len; lia|]. intros C. exfalso. apply C. exact Z.
  - rewrite (xf_bits _ _ _ _ _ _ F M d HM Z). rewrite app_length, sbytes_len, firstn_app, sbytes_len, Nat.sub_diag, firstn_O, app_nil_r. cbn [length].
    split; [lia|]. split; [apply firstn_all2; rewrite sbytes_len; lia|]. intros _. rewrite last_last. apply N.mod_lt. apply N.pow_nonzero. lia.
Qed.

(** C85, one call (any d below 2^32): the whole bytes of the FIPS 202 output; the rest of the buffer is not touched *)
Theorem C85_one_call : forall init rate H, xof_bits init rate H ->
  forall g ps d buf, kshape g -> Forall keccak_piece ps -> N.of_nat d < 2 ^ 32 -> (d / 8 <= length buf)%nat ->
  bit_run (init g) (map Give ps ++ [Ask (N.of_nat d) buf]) = Ret [firstn (d / 8) (H (concat ps) d) ++ skipn (d / 8) buf].
Proof.
  intros init rate H X g ps d buf Hg HP Hd Hb. assert (U : understood (N.of_nat d) = d) by (unfold understood; rewrite N.mod_small, Nat2N.id by exact Hd; reflexivity).
  rewrite (C85_any_bits _ _ _ X) by (assumption || (constructor; [cbn [roomy_op]; rewrite U; exact Hb|constructor])).
  cbn [expected]. rewrite U. pose proof (pieces_concat_bytes ps HP) as B.
  assert (E : delivered rate (stretch H (concat ps)) 0 d = firstn (d / 8) (H (concat ps) d)).
  { destruct (xof_d _ _ _ (concat ps) d X B) as (_ & -> & _). unfold delivered. rewrite Nat.mod_0_l, Nat.sub_0_r by (destruct X; lia).
    destruct (xof_bits_facts _ _ _ X) as (lanes & P & L & F). pose proof (stretch_eq lanes P L H (concat ps) (fun n => xf_bytes _ _ _ _ _ _ F _ n B)) as SE.
    rewrite !SE, (xf_bytes _ _ _ _ _ _ F _ _ B). rewrite Nat.div_0_l, (xf_rate _ _ _ _ _ _ F) by lia. cbn [Nat.add].
    destruct (Nat.leb_spec d (64 * lanes)) as [C|C]; [reflexivity|]. replace (d / 8)%nat with ((64 * lanes) / 8 + (d - 64 * lanes) / 8)%nat by lia. rewrite sbytes_app. reflexivity. }
  rewrite E. do 2 f_equal. f_equal. f_equal. rewrite firstn_length. destruct (xof_d _ _ _ (concat ps) d X B) as (-> & _). lia.
Qed.

(** C85, violation: if d is not a multiple of 8 the last bits are not delivered: a buffer of the right size holds the
    FIPS 202 output after the call only if its last byte held those bits before *)
Theorem C85_last_bits_refuted : forall init rate H, xof_bits init rate H ->
  forall g ps d buf x, kshape g -> Forall keccak_piece ps -> N.of_nat d < 2 ^ 32 -> (d mod 8 <> 0)%nat -> length buf = (d / 8)%nat ->
  exists o, bit_run (init g) (map Give ps ++ [Ask (N.of_nat d) (buf ++ [x])]) = Ret [o] /\ last o 0 = x /\
    (o = H (concat ps) d <-> x = last (H (concat ps) d) 0) /\ last (H (concat ps) d) 0 < 2 ^ N.of_nat (d mod 8) /\ length o = length (H (concat ps) d).
Proof.
  intros init rate H X g ps d buf x Hg HP Hd Hm Lb. pose proof (pieces_concat_bytes ps HP) as B. eexists. split; [apply (C85_one_call _ _ _ X); auto; rewrite app_length; lia|].
  destruct (xof_d _ _ _ (concat ps) d X B) as (EL & EF & ELt). set (h := H (concat ps) d) in *.
  assert (Eh : h = firstn (d / 8) h ++ [last h 0]).
  { destruct (@exists_last _ h) as (u & y & Eu); [intros Z; rewrite Z in EL; cbn in EL; lia|]. rewrite Eu in *. rewrite last_last. rewrite app_length in EL. cbn [length] in EL.
    rewrite firstn_app. replace (d / 8 - length u)%nat with 0%nat by lia. rewrite firstn_O, app_nil_r, firstn_all2 by lia. reflexivity. }
  rewrite skipn_app, skipn_all2 by lia. rewrite <- Lb, Nat.sub_diag, skipn_O. cbn [app]. rewrite last_last. split; [reflexivity|]. split; [|split].
  - rewrite <- Lb in Eh. rewrite Eh at 2. split.
    + intros E. apply app_inj_tail in E. tauto.
    + intros ->. reflexivity.
  - apply ELt, Hm.
  - rewrite app_length, firstn_length, EL. cbn [length]. lia.
Qed.

(** C85: a request is taken modulo 2^32 bits, in every context; so a call for 2^32 bits (512 MiB) after any feeding leaves the buffer as it was *)
Theorem C85_modulo_2_32 : forall bits c buf, shake_digest bits c buf = shake_digest (bits mod 2 ^ 32) c buf.
Proof. intros. unfold shake_digest, u32. rewrite N.mod_mod by discriminate. reflexivity. Qed.
Theorem C85_huge_request_refuted : forall init rate H, xof_bits init rate H ->
  forall g ps k buf, kshape g -> Forall keccak_piece ps -> bit_run (init g) (map Give ps ++ [Ask (k * 2 ^ 32) buf]) = Ret [buf].
Proof.
  intros init rate H X g ps k buf Hg HP. assert (U : understood (k * 2 ^ 32) = 0%nat) by (unfold understood; rewrite N.mod_mul by discriminate; reflexivity).
  rewrite (C85_any_bits _ _ _ X) by (assumption || (constructor; [cbn [roomy_op]; rewrite U; cbn; lia|constructor])).
  cbn [expected]. rewrite U. unfold delivered. rewrite Nat.mod_0_l, Nat.sub_0_r by (destruct X; lia). cbn [Nat.leb]. rewrite Nat.div_0_l by lia.
  rewrite (stretch_len _ _ _ _ X (pieces_concat_bytes ps HP)). unfold stretch. rewrite skipn_O.
  pose proof (stretch_len _ _ _ _ X (pieces_concat_bytes ps HP) 0 0) as Z. unfold stretch in Z. rewrite skipn_O in Z.
  destruct (H (concat ps) (8 * (0 + 0))%nat); [reflexivity|discriminate].
Qed.

(** C85, when the pieces fit together: as long as the bits asked for stay within one block, each call starts at the
    byte that contains the next bit. Two calls for 4 bits deliver nothing, and a following call for 8 bits delivers byte 1:
    byte 0 is never delivered. *)
Theorem C85_byte_lost_refuted : forall init rate H, xof_bits init rate H ->
  forall g ps x, kshape g -> Forall keccak_piece ps ->
  bit_run (init g) (map Give ps ++ [Ask 4 []; Ask 4 []; Ask 8 [x]]) = Ret [[]; []; [nth 1 (H (concat ps) 16%nat) 0]].
Proof.
  intros init rate H X g ps x Hg HP. pose proof (pieces_concat_bytes ps HP) as B.
  rewrite (C85_any_bits _ _ _ X) by (assumption || (repeat constructor; cbn; lia)).
  cbn [expected]. change (understood 4) with 4%nat. change (understood 8) with 8%nat.
  assert (D : forall p b, (p < 100)%nat -> (b < 100)%nat -> delivered rate (stretch H (concat ps)) p b = stretch H (concat ps) (p / 8) (b / 8)).
  { intros p b Hp Hb. unfold delivered. rewrite Nat.mod_small by (destruct X; lia). destruct (Nat.leb_spec b (rate - p)); [reflexivity|destruct X; lia]. }
  rewrite !D by lia. change (4 / 8)%nat with 0%nat. change ((0 + 4 + 4) / 8)%nat with 1%nat. change (0 / 8)%nat with 0%nat. change ((0 + 4) / 8)%nat with 0%nat. change (8 / 8)%nat with 1%nat.
  pose proof (stretch_len _ _ _ _ X B) as SL.
  assert (Z : stretch H (concat ps) 0 0 = []) by (specialize (SL 0%nat 0%nat); destruct (stretch H (concat ps) 0 0); [reflexivity|discriminate]).
  rewrite Z. cbn [length skipn app]. rewrite SL. cbn [skipn]. rewrite app_nil_r. do 4 f_equal.
  pose proof (SL 1%nat 1%nat) as L1. unfold stretch in *. change (8 * (1 + 1))%nat with 16%nat in *.
  destruct (H (concat ps) 16%nat) as [|u [|v [|? ?]]]; cbn in L1; try discriminate. reflexivity.
Qed.

(** C85, at the end of a block: after a call for a number of bits that is not a multiple of 8 (and ends before the last byte of
    the block), a call that crosses the end of the block loses the last byte of the block *)
Theorem C85_block_end_refuted : forall init rate H, xof_bits init rate H ->
  forall g ps p n b1 b2, kshape g -> Forall keccak_piece ps -> (p mod 8 <> 0)%nat -> (p < rate - 8)%nat -> N.of_nat (8 * n) < 2 ^ 32 -> (rate - p < 8 * n)%nat ->
  length b1 = (p / 8)%nat -> length b2 = n ->
  let S := stretch H (concat ps) in
  bit_run (init g) (map Give ps ++ [Ask (N.of_nat p) b1; Ask (N.of_nat (8 * n)) b2]) =
  Ret [S 0 (p / 8); S (p / 8) (rate / 8 - 1 - p / 8) ++ S (rate / 8) (n - (rate / 8 - p / 8)) ++ skipn (n - 1) b2]%nat.
Proof.
  intros init rate H X g ps p n b1 b2 Hg HP Hp8 Hp Hn Hc L1 L2 S. pose proof (pieces_concat_bytes ps HP) as B.
  assert (Hr : exists k, rate = (8 * k)%nat /\ (20 < k < 200)%nat) by (destruct X; [exists 168%nat|exists 136%nat|exists 168%nat|exists 136%nat]; lia).
  destruct Hr as (k & Ek & Hk).
  assert (U : understood (N.of_nat p) = p) by (unfold understood; rewrite N.mod_small, Nat2N.id; lia).
  assert (U' : understood (N.of_nat (8 * n)) = (8 * n)%nat) by (unfold understood; rewrite N.mod_small, Nat2N.id; lia).
  pose proof (stretch_len _ _ _ _ X B) as SL. fold S in SL.
  rewrite (C85_any_bits _ _ _ X) by (assumption || (constructor; [cbn [roomy_op]; rewrite U; lia|constructor; [cbn [roomy_op]; rewrite U'; lia|constructor]])).
  cbn [expected]. rewrite U, U'. cbn [Nat.add]. fold S.
  assert (D1 : delivered rate S 0 p = S 0%nat (p / 8)%nat).
  { unfold delivered. rewrite Nat.mod_0_l, Nat.sub_0_r, Nat.div_0_l by lia. destruct (Nat.leb_spec p rate); [reflexivity|lia]. }
  assert (D2 : delivered rate S p (8 * n) = S (p / 8)%nat (rate / 8 - 1 - p / 8)%nat ++ S (rate / 8)%nat (n - (rate / 8 - p / 8))%nat).
  { unfold delivered. rewrite Nat.mod_small by lia. destruct (Nat.leb_spec (8 * n) (rate - p)); [lia|].
    replace (p + (rate - p))%nat with rate by lia. replace ((rate - p) / 8)%nat with (rate / 8 - 1 - p / 8)%nat by lia.
    replace ((8 * n - (rate - p)) / 8)%nat with (n - (rate / 8 - p / 8))%nat by lia. reflexivity. }
  rewrite D1, D2, app_length, !SL. rewrite (skipn_all2 (n := (p / 8)%nat)) by lia. rewrite app_nil_r, <- app_assoc.
  replace (rate / 8 - 1 - p / 8 + (n - (rate / 8 - p / 8)))%nat with (n - 1)%nat by lia. reflexivity.
Qed.

(** ** Non-vacuity *)
Definition stale : kctx := mkK (repeat 7 25) (repeat 9 192) 3 3 3 3 true 3 3 3 true.
Lemma stale_shape : kshape stale. Proof. split; reflexivity. Qed.
Lemma two_pieces : Forall keccak_piece [chars "a"; chars "bc"].
Proof. repeat constructor; cbn; lia. Qed.
(** SHAKE128 of "abc", 12 bits: one byte, and the last 4 bits missing *)
Example C85_twelve_bits : exists o, bit_run (iinit (impl_shake128 0) stale) (map Give [chars "a"; chars "bc"] ++ [Ask 12 ([1] ++ [255])]) = Ret [o] /\ last o 0 = 255 /\ o <> SHAKE128 (chars "abc") 12.
Proof.
  destruct (C85_last_bits_refuted _ _ _ xb_shake128 stale [chars "a"; chars "bc"] 12 [1] 255 stale_shape two_pieces) as (o & E & La & I & Lt & _); [reflexivity|discriminate|reflexivity|].
  change (concat [chars "a"; chars "bc"]) with (chars "abc") in *. exists o. split; [exact E|]. split; [exact La|].
  revert I Lt. generalize (SHAKE128 (chars "abc") 12). intros h I Lt C. apply I in C. rewrite <- C in Lt. clear -Lt. vm_compute in Lt. discriminate Lt.
Qed.
(** 4 bits, then one block of 1344 bits: 167 bytes *)
Example C85_block_end_hyps : (4 mod 8 <> 0 /\ 4 < 1344 - 8 /\ 1344 - 4 < 8 * 168)%nat.
Proof. cbn. lia. Qed.
(** computed by the model: byte 1 of SHAKE128("abc") after two calls for 4 bits *)
Check (@eq_refl _ (Ret [[]; []; [0x81]])
  <: bit_run (iinit (impl_shake128 0) stale) (map Give [chars "a"; chars "bc"] ++ [Ask 4 []; Ask 4 []; Ask 8 [7]]) = Ret [[]; []; [0x81]]).

Print Assumptions C85_any_bits.
Print Assumptions C85_one_call.
Print Assumptions C85_last_bits_refuted.
Print Assumptions C85_modulo_2_32.
Print Assumptions C85_huge_request_refuted.
Print Assumptions C85_byte_lost_refuted.
Print Assumptions C85_block_end_refuted.
