(** C25-C28: SHA-3, SHAKE and RawSHAKE. *)
From Coq Require Import String.
From Verif Require SFips180.
From Verif Require Import Base MSha MFront MKeccak SFips202 SHash SKeccakFns PWords PSha PKeccak PSponge PSponge2 PKeccakFns.
Local Open Scope N_scope.

Lemma keccak_streams I rb H : keccak_fn I rb H -> streams I keccak_piece (fun _ => True) H.
Proof.
  intros K. destruct (keccak_view _ _ _ K) as [v _]. destruct v as [lanes n O P L dig EI Erb Hl HPL HH HF HN]. subst I rb.
  intros g ps out Hg HP _ Ho. cbn [idsz iinit idigest typed] in *.
  destruct (updates_kfed lanes Hl P L HPL O ps [] (keccak_init (N.of_nat (1600 - 64 * lanes)) O P L g)) as (c & E & Hf); auto.
  { apply fed_init; auto. }
  pose proof (pieces_concat_bytes ps HP) as B. cbn [app] in Hf. destruct (HF (concat ps) c out Hf B Ho) as (c' & o & Ed & Sq).
  exists c, c'. rewrite updates_k. rewrite HH by exact B. split; [exact E|]. split; [exact Ed|]. split.
  - apply (sq_shape lanes P L o _ _ _ (final_ok lanes Hl P L HPL _ B) Sq).
  - apply sbytes_len.
Qed.

(** ** C25 *)
Theorem C25_sha3_fips202 :
  streams impl_sha3_224 keccak_piece (fun _ => True) SHA3_224 /\
  streams impl_sha3_256 keccak_piece (fun _ => True) SHA3_256 /\
  streams impl_sha3_384 keccak_piece (fun _ => True) SHA3_384 /\
  streams impl_sha3_512 keccak_piece (fun _ => True) SHA3_512.
Proof. repeat split; eapply keccak_streams; constructor. Qed.

(** without a bound on the pieces: whenever the updates return, the digest is right *)
Theorem C25_whenever_updates_return : forall I rb H, keccak_fn I rb H ->
  forall g ps out c, typed I g -> Forall (fun p => bytes_ok p /\ 8 * N.of_nat (length p) < 2 ^ 64) ps -> (idsz I <= length out)%nat ->
  updates I (iinit I g) ps = Ret c -> exists c', idigest I c out = Ret (c', H (concat ps) ++ skipn (idsz I) out).
Proof.
  intros I rb H K. destruct (keccak_view _ _ _ K) as [v _]. destruct v as [lanes n O P L dig EI Erb Hl HPL HH HF HN]. subst I rb.
  intros g ps out c Hg HP Ho. cbn [idsz iinit idigest typed] in *. rewrite updates_k. intros E.
  assert (B : bytes_ok (concat ps)) by (apply bytes_concat; revert HP; apply Forall_impl; intros p [? _]; assumption).
  assert (Hf : kfed lanes O P L ([] ++ concat ps) c).
  { apply (updates_ret lanes Hl P L HPL O ps [] (keccak_init (N.of_nat (1600 - 64 * lanes)) O P L g)); auto.
    - apply fed_init; auto.
    - revert HP. apply Forall_impl. intros p [_ ?]; assumption. }
  cbn [app] in Hf. destruct (HF (concat ps) c out Hf B Ho) as (c' & o & Ed & Sq). exists c'. rewrite HH by exact B. exact Ed.
Qed.

(** ** C26 *)
Theorem C26_xof_fips202 : forall n, 8 * N.of_nat n < 2 ^ 32 ->
  streams (impl_shake128 (8 * N.of_nat n)) keccak_piece (fun _ => True) (fun M => SHAKE128 M (8 * n)) /\
  streams (impl_shake256 (8 * N.of_nat n)) keccak_piece (fun _ => True) (fun M => SHAKE256 M (8 * n)) /\
  streams (impl_rawshake128 (8 * N.of_nat n)) keccak_piece (fun _ => True) (fun M => RawSHAKE128 M (8 * n)) /\
  streams (impl_rawshake256 (8 * N.of_nat n)) keccak_piece (fun _ => True) (fun M => RawSHAKE256 M (8 * n)).
Proof. intros n Hn. repeat split; eapply keccak_streams; constructor; exact Hn. Qed.

Lemma xof_facts init H : xof_fn init H -> exists lanes P L, (1 <= lanes <= 24)%nat /\ ((P = 2 /\ L = 2) \/ (P = 15 /\ L = 4) \/ (P = 3 /\ L = 2)) /\
  init = keccak_init (N.of_nat (1600 - 64 * lanes)) 0 P L /\ forall m n, bytes_ok m -> H m (8 * n)%nat = sbytes lanes (final lanes P L m) 0 n.
Proof.
  intros X. destruct X.
  - exists 21%nat, 15, 4. split; [lia|]. split; [auto|]. split; [reflexivity|]. intros m n Hm. apply shake_spec; auto; lia.
  - exists 17%nat, 15, 4. split; [lia|]. split; [auto|]. split; [reflexivity|]. intros m n Hm. apply shake_spec; auto; lia.
  - exists 21%nat, 3, 2. split; [lia|]. split; [auto|]. split; [reflexivity|]. intros m n Hm. apply rawshake_spec; auto; lia.
  - exists 17%nat, 3, 2. split; [lia|]. split; [auto|]. split; [reflexivity|]. intros m n Hm. apply rawshake_spec; auto; lia.
Qed.
Lemma sq_update lanes O P L st p c x : sq lanes O P L st p c -> keccak_update c x = Ret c.
Proof. intros (k & q & v & _ & _ & _ & ->). unfold keccak_update, keccak_absorb. cbn [squeezing ks]. rewrite orb_true_r. reflexivity. Qed.
Lemma xof_run_sq lanes P L m ops : (1 <= lanes <= 24)%nat -> (P = 2 /\ L = 2) \/ (P = 15 /\ L = 4) \/ (P = 3 /\ L = 2) -> bytes_ok m ->
  Forall small_op ops -> forall O p c, sq lanes O P L (final lanes P L m) p c ->
  xof_run c ops = Ret (sbytes lanes (final lanes P L m) p (list_sum (map squeezed ops))).
Proof.
  intros Hl HPL Hm F. induction F as [|o ops Ho _ IH]; intros O p c Hs; [reflexivity|]. destruct o as [x|buf]; cbn [xof_run map squeezed list_sum].
  - rewrite (sq_update _ _ _ _ _ _ _ x Hs). cbn [bind]. apply (IH O p c Hs).
  - cbn [small_op] in Ho. destruct (xof_next lanes (length buf) P L m c buf p O) as (c' & E & S'); auto. rewrite E. cbn [bind].
    rewrite (IH _ _ _ S'). cbn [bind]. rewrite skipn_all, app_nil_r. change (list_sum (length buf :: map squeezed ops)) with (length buf + list_sum (map squeezed ops))%nat. rewrite sbytes_app. reflexivity.
Qed.

(** Feed any pieces, then squeeze any number of times; updates that come after the first squeeze are ignored.
    What comes out is one FIPS 202 output of the message fed before the first squeeze. *)
Theorem C26_squeeze_sequences : forall init H, xof_fn init H ->
  forall g ps buf ops, kshape g -> Forall keccak_piece ps -> Forall small_op (Squeeze buf :: ops) ->
  xof_run (init g) (map Feed ps ++ Squeeze buf :: ops) = Ret (H (concat ps) (8 * (length buf + list_sum (map squeezed ops)))%nat).
Proof.
  intros init H X. destruct (xof_facts _ _ X) as (lanes & P & L & Hl & HPL & -> & HH).
  intros g ps buf ops Hg HP HO. pose proof (pieces_concat_bytes ps HP) as B. rewrite HH by exact B.
  destruct (updates_kfed lanes Hl P L HPL 0 ps [] (keccak_init (N.of_nat (1600 - 64 * lanes)) 0 P L g)) as (c & E & Hf); auto.
  { apply fed_init; auto. }
  cbn [app] in Hf. set (c0 := keccak_init _ 0 P L g) in *.
  assert (R : forall c0 rest, kupdates c0 ps = Ret c -> xof_run c0 (map Feed ps ++ rest) = xof_run c rest).
  { clear. induction ps as [|p ps IH]; intros c0 rest E; [injection E as ->; reflexivity|]. cbn [map app xof_run kupdates] in *.
    destruct (keccak_update c0 p); cbn [bind] in *; [|discriminate|discriminate]. apply IH, E. }
  rewrite R by exact E. clear R. inversion HO as [|? ? Hb HOps]; subst. cbn [xof_run small_op] in *.
  destruct (xof_first lanes (length buf) P L (concat ps) c buf 0) as (c' & E' & Sq); auto. rewrite E'. cbn [bind].
  rewrite (xof_run_sq lanes P L (concat ps) ops Hl HPL B HOps _ _ _ Sq). cbn [bind]. rewrite skipn_all, app_nil_r, sbytes_app. reflexivity.
Qed.
(** in particular: n bytes and then m bytes are the n + m bytes at once, and a shorter output is a prefix of a longer one *)
Theorem C26_split_squeeze : forall init H, xof_fn init H ->
  forall g ps b1 b2 b12, kshape g -> Forall keccak_piece ps -> length b12 = (length b1 + length b2)%nat -> 8 * N.of_nat (length b12) < 2 ^ 32 ->
  xof_run (init g) (map Feed ps ++ [Squeeze b1; Squeeze b2]) = xof_run (init g) (map Feed ps ++ [Squeeze b12]).
Proof.
  intros init H X g ps b1 b2 b12 Hg HP HL HB.
  rewrite !(C26_squeeze_sequences init H X) by (auto; repeat (constructor; [cbn; lia|]); constructor).
  cbn [map squeezed list_sum fold_right]. do 2 f_equal. lia.
Qed.
Theorem C26_prefix : forall init H, xof_fn init H -> forall M n k, bytes_ok M -> (n <= k)%nat -> H M (8 * n)%nat = firstn n (H M (8 * k)%nat).
Proof.
  intros init H X M n k HM Hn. destruct (xof_facts _ _ X) as (lanes & P & L & Hl & HPL & -> & HH). rewrite !HH by exact HM.
  replace k with (n + (k - n))%nat by lia. rewrite sbytes_app, firstn_app, sbytes_len, Nat.sub_diag, firstn_O, app_nil_r. symmetry. apply firstn_all2.
  rewrite sbytes_len. lia.
Qed.

(** ** C27 *)
(** [rb] rate in bytes; after any updates that returned, [q] bits are queued *)
Definition queued (rb : nat) (m : list N) : N := 8 * N.of_nat (length m mod rb).

Lemma update_cases I rb H : keccak_fn I rb H -> forall g ps c p, typed I g -> Forall (fun p => 8 * N.of_nat (length p) < 2 ^ 64) ps ->
  updates I (iinit I g) ps = Ret c -> 8 * N.of_nat (length p) < 2 ^ 64 ->
  let q := queued rb (concat ps) in let b := 8 * N.of_nat (length p) in
  (q = 0 \/ (b mod 2 ^ 32 + q < 2 ^ 32 /\ (b < 2 ^ 32 \/ 8 * N.of_nat rb <= b mod 2 ^ 32 + q)) -> exists c', iupdate I c p = Ret c') /\
  (0 < q -> 2 ^ 32 <= b mod 2 ^ 32 + q -> iupdate I c p = UB OutOfBounds) /\
  (0 < q -> 2 ^ 32 <= b -> b mod 2 ^ 32 + q < 8 * N.of_nat rb -> iupdate I c p = Hang).
Proof.
  intros K. destruct (keccak_view _ _ _ K) as [v _]. destruct v as [lanes n O P L dig EI Erb Hl HPL HH HF HN]. subst I rb.
  intros g ps c p Hg HP E Hp. rewrite updates_k in E. cbn [iupdate].
  assert (Hf : kfed lanes O P L (concat ps) c).
  { apply (updates_ret lanes Hl P L HPL O ps [] (keccak_init (N.of_nat (1600 - 64 * lanes)) O P L g)); auto. apply fed_init; auto. }
  cbv zeta. unfold queued. rewrite <- (fed_inq lanes Hl P L HPL O _ _ Hf). replace (8 * N.of_nat (8 * lanes)) with (N.of_nat (64 * lanes)) by lia.
  split; [|split].
  - intros D. destruct (update_fed lanes Hl O P L _ c p Hf Hp D) as (c' & E' & _). eauto.
  - intros D1 D2. apply (update_overflow lanes Hl O P L _ c p Hf Hp D1 D2).
  - intros D1 D2 D3. pose proof (update_hang lanes Hl O P L _ c p Hf Hp D1 D2 D3) as X.
    destruct Hf as (bs & r & q & _ & _ & _ & _ & _ & ->). unfold keccak_update.
    replace (u64 (8 * N.of_nat (length p))) with (8 * N.of_nat (length p)) by (unfold u64; rewrite N.mod_small; auto).
    unfold keccak_absorb. cbn [inq squeezing kc]. replace ((8 * N.of_nat (length r)) mod 8 =? 0) with true by (clear; lia). cbn [negb orb]. apply X.
Qed.

(** the call terminates and stays in bounds when nothing is queued or the piece and the queue together are
    below 2^32 bits *)
Theorem C27_safe : forall I rb H, keccak_fn I rb H -> forall g ps c p, typed I g -> Forall (fun p => 8 * N.of_nat (length p) < 2 ^ 64) ps ->
  updates I (iinit I g) ps = Ret c -> 8 * N.of_nat (length p) < 2 ^ 64 ->
  queued rb (concat ps) = 0 \/ 8 * N.of_nat (length p) + queued rb (concat ps) < 2 ^ 32 ->
  exists c', iupdate I c p = Ret c'.
Proof.
  intros I rb H K g ps c p Hg HP E Hp D. destruct (update_cases I rb H K g ps c p Hg HP E Hp) as [S _]. apply S.
  destruct D as [D|D]; [auto|]. right. rewrite N.mod_small by lia. lia.
Qed.
(** with something queued, the piece writes outside the context or never returns *)
Theorem C27_overflow : forall I rb H, keccak_fn I rb H -> forall g ps c p, typed I g -> Forall (fun p => 8 * N.of_nat (length p) < 2 ^ 64) ps ->
  updates I (iinit I g) ps = Ret c -> 8 * N.of_nat (length p) < 2 ^ 64 -> 0 < queued rb (concat ps) ->
  2 ^ 32 <= (8 * N.of_nat (length p)) mod 2 ^ 32 + queued rb (concat ps) -> iupdate I c p = UB OutOfBounds.
Proof. intros I rb H K g ps c p Hg HP E Hp D1 D2. destruct (update_cases I rb H K g ps c p Hg HP E Hp) as (_ & S & _). auto. Qed.
Theorem C27_never_returns : forall I rb H, keccak_fn I rb H -> forall g ps c p, typed I g -> Forall (fun p => 8 * N.of_nat (length p) < 2 ^ 64) ps ->
  updates I (iinit I g) ps = Ret c -> 8 * N.of_nat (length p) < 2 ^ 64 -> 0 < queued rb (concat ps) ->
  2 ^ 32 <= 8 * N.of_nat (length p) -> (8 * N.of_nat (length p)) mod 2 ^ 32 + queued rb (concat ps) < 8 * N.of_nat rb -> iupdate I c p = Hang.
Proof. intros I rb H K g ps c p Hg HP E Hp D1 D2 D3. destruct (update_cases I rb H K g ps c p Hg HP E Hp) as (_ & _ & S). auto. Qed.
(** the three outcomes, exactly *)
Theorem C27_classification : forall I rb H, keccak_fn I rb H -> forall g ps c p, typed I g -> Forall (fun p => 8 * N.of_nat (length p) < 2 ^ 64) ps ->
  updates I (iinit I g) ps = Ret c -> 8 * N.of_nat (length p) < 2 ^ 64 ->
  let q := queued rb (concat ps) in let b := 8 * N.of_nat (length p) in
  ((exists c', iupdate I c p = Ret c') <-> q = 0 \/ (b mod 2 ^ 32 + q < 2 ^ 32 /\ (b < 2 ^ 32 \/ 8 * N.of_nat rb <= b mod 2 ^ 32 + q))) /\
  (iupdate I c p = UB OutOfBounds <-> 0 < q /\ 2 ^ 32 <= b mod 2 ^ 32 + q) /\
  (iupdate I c p = Hang <-> 0 < q /\ 2 ^ 32 <= b /\ b mod 2 ^ 32 + q < 8 * N.of_nat rb).
Proof.
  intros I rb H HF g ps c p Hg Hps Hu Hp q b. destruct (update_cases I rb H HF g ps c p Hg Hps Hu Hp) as (A & B & C). fold q in A, B, C. fold b in A, B, C.
  assert (R : 8 * N.of_nat rb < 2 ^ 32) by (destruct HF; reflexivity).
  assert (D : q = 0 \/ (b mod 2 ^ 32 + q < 2 ^ 32 /\ (b < 2 ^ 32 \/ 8 * N.of_nat rb <= b mod 2 ^ 32 + q)) \/ (0 < q /\ 2 ^ 32 <= b mod 2 ^ 32 + q) \/
    (0 < q /\ 2 ^ 32 <= b /\ b mod 2 ^ 32 + q < 8 * N.of_nat rb)).
  { generalize (b mod 2 ^ 32). intros x. revert R. generalize (2 ^ 32) (8 * N.of_nat rb). intros y z R. lia. }
  split; [|split]; split; try assumption; intros E.
  - destruct D as [D|[D|[[D1 D2]|(D1 & D2 & D3)]]]; [left; exact D|right; exact D| |]; destruct E as [c' E]; [rewrite (B D1 D2) in E|rewrite (C D1 D2 D3) in E]; discriminate.
  - destruct D as [D|[D|[D|(D1 & D2 & D3)]]]; [destruct (A (or_introl D)) as [x Ex]; congruence|destruct (A (or_intror D)) as [x Ex]; congruence|exact D|].
    rewrite (C D1 D2 D3) in E. discriminate.
  - destruct E as [D1 D2]. exact (B D1 D2).
  - destruct D as [D|[D|[[D1 D2]|D]]]; [destruct (A (or_introl D)) as [x Ex]; congruence|destruct (A (or_intror D)) as [x Ex]; congruence| |exact D].
    rewrite (B D1 D2) in E. discriminate.
  - destruct E as (D1 & D2 & D3). exact (C D1 D2 D3).
Qed.
Print Assumptions C27_classification.
(** [Hang] above is not an artefact of the model's fuel: the loop has not finished after any number of iterations.
    (keccak_absorb_b1600 applied to what SHA3-256 init and updates give; same for the other seven.) *)
Theorem C27_never_returns_any_fuel : forall cap O P L g ps c p fuel, In cap [448; 512; 768; 1024; 256] -> In (P, L) [(2, 2); (15, 4); (3, 2)] -> kshape g ->
  Forall (fun p => 8 * N.of_nat (length p) < 2 ^ 64) ps -> kupdates (keccak_init cap O P L g) ps = Ret c -> 8 * N.of_nat (length p) < 2 ^ 64 ->
  let q := queued (N.to_nat ((1600 - cap) / 8)) (concat ps) in
  0 < q -> 2 ^ 32 <= 8 * N.of_nat (length p) -> (8 * N.of_nat (length p)) mod 2 ^ 32 + q < 1600 - cap ->
  absorb_loop fuel c p (8 * N.of_nat (length p)) 0 = Hang.
Proof.
  intros cap O P L g ps c p fuel Hc HPL0 Hg HP E Hp. cbv zeta.
  assert (HPL : (P = 2 /\ L = 2) \/ (P = 15 /\ L = 4) \/ (P = 3 /\ L = 2)).
  { cbn in HPL0. destruct HPL0 as [X|[X|[X|[]]]]; injection X as <- <-; auto. }
  assert (V : exists lanes, (1 <= lanes <= 24)%nat /\ cap = N.of_nat (1600 - 64 * lanes)).
  { cbn in Hc. destruct Hc as [<-|[<-|[<-|[<-|[<-|[]]]]]]; [exists 18%nat|exists 17%nat|exists 13%nat|exists 9%nat|exists 21%nat]; lia. }
  destruct V as (lanes & Hl & ->). replace (N.to_nat ((1600 - N.of_nat (1600 - 64 * lanes)) / 8)) with (8 * lanes)%nat by lia.
  replace (1600 - N.of_nat (1600 - 64 * lanes)) with (N.of_nat (64 * lanes)) by lia.
  assert (Hf : kfed lanes O P L (concat ps) c).
  { apply (updates_ret lanes Hl P L HPL O ps [] (keccak_init (N.of_nat (1600 - 64 * lanes)) O P L g)); auto. apply fed_init; auto. }
  unfold queued. rewrite <- (fed_inq lanes Hl P L HPL O _ _ Hf). intros D1 D2 D3. apply (update_hang lanes Hl O P L _ c p Hf Hp D1 D2 D3).
Qed.

(** ** C28 *)
Theorem C28_no_absorb_after_digest : forall I rb H, keccak_fn I rb H ->
  forall g ps c out c' o, typed I g -> Forall (fun p => bytes_ok p /\ 8 * N.of_nat (length p) < 2 ^ 64) ps -> (idsz I <= length out)%nat ->
  updates I (iinit I g) ps = Ret c -> idigest I c out = Ret (c', o) -> forall p, iupdate I c' p = Ret c'.
Proof.
  intros I rb H K. destruct (keccak_view _ _ _ K) as [v _]. destruct v as [lanes n O P L dig EI Erb Hl HPL HH HF HN]. subst I rb.
  intros g ps c out c' o Hg HP Ho. cbn [idsz iinit idigest typed iupdate] in *. rewrite updates_k. intros E Ed p.
  assert (B : bytes_ok (concat ps)) by (apply bytes_concat; revert HP; apply Forall_impl; intros x [? _]; assumption).
  assert (Hf : kfed lanes O P L ([] ++ concat ps) c).
  { apply (updates_ret lanes Hl P L HPL O ps [] (keccak_init (N.of_nat (1600 - 64 * lanes)) O P L g)); auto.
    - apply fed_init; auto.
    - revert HP. apply Forall_impl. intros x [_ ?]; assumption. }
  cbn [app] in Hf. destruct (HF (concat ps) c out Hf B Ho) as (c1 & o1 & Ed1 & Sq). rewrite Ed in Ed1. injection Ed1 as <- _.
  apply (sq_update _ _ _ _ _ _ _ p Sq).
Qed.

(** ** Non-vacuity *)
Lemma abc_pieces : Forall keccak_piece [chars "a"; []; chars "bc"].
Proof. repeat (constructor; [split; [repeat (constructor; [reflexivity|]); constructor|vm_compute; discriminate]|]). constructor. Qed.
Definition dirty : kctx := mkK (repeat 7 25) (repeat 9 192) 3 3 3 3 true 3 3 3 true.
Example sha3_run : exists c c', updates impl_sha3_256 (iinit impl_sha3_256 dirty) [chars "a"; []; chars "bc"] = Ret c /\
  idigest impl_sha3_256 c (repeat 1 34) = Ret (c', SHA3_256 (chars "abc") ++ [1; 1]).
Proof.
  destruct C25_sha3_fips202 as (_ & S & _). destruct (S dirty [chars "a"; []; chars "bc"] (repeat 1 34)) as (c & c' & E1 & E2 & _); auto.
  - split; reflexivity.
  - apply abc_pieces.
  - vm_compute. lia.
  - exists c, c'. split; [exact E1|exact E2].
Qed.
Example xof_sequence : xof_run (iinit (impl_shake128 0) dirty) (map Feed [chars "a"; []; chars "bc"] ++ [Squeeze (repeat 0 5); Feed [1]; Squeeze (repeat 0 200)])
  = Ret (SHAKE128 (chars "abc") (8 * 205)).
Proof.
  rewrite (C26_squeeze_sequences _ _ xof_shake128 dirty [chars "a"; []; chars "bc"] (repeat 0 5) [Feed [1]; Squeeze (repeat 0 200)]).
  - reflexivity.
  - split; reflexivity.
  - apply abc_pieces.
  - repeat (constructor; [vm_compute; auto|]). constructor.
Qed.
(** one byte queued, then a piece of 2^29 bytes: C27_never_returns; of 2^29 - 1 bytes: C27_overflow *)
Lemma one_byte_queued : queued 136 (concat [[7]]) = 8. Proof. reflexivity. Qed.
Example huge_pieces : exists c, updates impl_sha3_256 (iinit impl_sha3_256 dirty) [[7]] = Ret c /\
  (forall p, N.of_nat (length p) = 2 ^ 29 -> iupdate impl_sha3_256 c p = Hang) /\
  (forall p, N.of_nat (length p) = 2 ^ 29 - 1 -> iupdate impl_sha3_256 c p = UB OutOfBounds).
Proof.
  destruct C25_sha3_fips202 as (_ & S & _). destruct (S dirty [[7]] (repeat 0 32)) as (c & c' & E1 & E2 & _); auto.
  - split; reflexivity.
  - repeat (constructor; [split; [repeat (constructor; [reflexivity|]); constructor|vm_compute; discriminate]|]). constructor.
  - exists c. split; [exact E1|]. split; intros p Hp.
    + apply (C27_never_returns _ _ _ fn_sha3_256 dirty [[7]] c p); rewrite ?one_byte_queued, ?Hp.
      * split; reflexivity.
      * constructor; [vm_compute; reflexivity|constructor].
      * exact E1.
      * vm_compute; reflexivity.
      * vm_compute; reflexivity.
      * vm_compute; discriminate.
      * vm_compute; reflexivity.
    + apply (C27_overflow _ _ _ fn_sha3_256 dirty [[7]] c p); rewrite ?one_byte_queued, ?Hp.
      * split; reflexivity.
      * constructor; [vm_compute; reflexivity|constructor].
      * exact E1.
      * vm_compute; reflexivity.
      * vm_compute; reflexivity.
      * vm_compute; discriminate.
Qed.
(** known answers of the specification, checked at compile time through the model *)
Check (@eq_refl _ (Ret (SFips180.be_bytes 32 0x3a985da74fe225b2045c172d6bd390bd855f086e3e9d525b46bfe24511431532))
  <: (c <- updates impl_sha3_256 (iinit impl_sha3_256 dirty) [chars "abc"] ;; omap snd (idigest impl_sha3_256 c (repeat 0 32))) =
     Ret (SFips180.be_bytes 32 0x3a985da74fe225b2045c172d6bd390bd855f086e3e9d525b46bfe24511431532)).

Print Assumptions C25_sha3_fips202.
Print Assumptions C25_whenever_updates_return.
Print Assumptions C26_xof_fips202.
Print Assumptions C26_squeeze_sequences.
Print Assumptions C26_split_squeeze.
Print Assumptions C26_prefix.
Print Assumptions C27_safe.
Print Assumptions C27_overflow.
Print Assumptions C27_never_returns.
Print Assumptions C27_never_returns_any_fuel.
Print Assumptions C28_no_absorb_after_digest.
