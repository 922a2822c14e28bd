(** Facts for C53-C55: squeezing a number of bits that is not a multiple of 8; which errors the hash functions can raise. *)
From Coq Require Import Eqdep_dec.
From Verif Require SFips202 SMd5 PropSha PropKeccak.
From Verif Require Import Base SHex SFips180 SShaLib MSha MFront MMd5 MKeccak MHmac SHash SKeccakFns SHashFns PKeccak PSponge PSponge2 PKeccakFns PShort PTyped MHashEnc SHashEnc.
Local Open Scope N_scope.

(** ** extra bits beyond a whole number of bytes change nothing in the output *)
Lemma squeeze_done fuel c o a : squeeze_loop fuel c o a a = Ret (c, o).
Proof. destruct fuel; cbn [squeeze_loop]; rewrite N.leb_refl; reflexivity. Qed.
Lemma squeeze_S fuel c out bl i : squeeze_loop (S fuel) c out bl i =
  if bl <=? i then Ret (c, out) else
  c <- (if squeezable c =? 0 then
          let st := k_permutation (kst c) (nr c) in
          q <- blit (queue c) 0 (state_to_seq st (N.to_nat (rate c / 64))) ;;
          Ret (mkK st q (rate c) (inq c) (outlen c) (nr c) (squeezing c) (rate c) (ap c) (aplen c) (apadded c))
        else Ret c) ;;
  let pb := if bl - i <? squeezable c then u32 (bl - i) else squeezable c in
  src <- grab (N.to_nat (pb / 8)) (skipn (N.to_nat ((rate c - squeezable c) / 8)) (queue c)) ;;
  out <- blit out (N.to_nat (i / 8)) src ;;
  squeeze_loop fuel
    (mkK (kst c) (queue c) (rate c) (inq c) (outlen c) (nr c) (squeezing c) (squeezable c - pb) (ap c) (aplen c) (apadded c))
    out bl (i + pb).
Proof. reflexivity. Qed.
Definition kgood (c : kctx) (lanes : nat) (s : N) : Prop :=
  rate c = 64 * N.of_nat lanes /\ squeezable c = 8 * s /\ 8 * s <= rate c /\ length (queue c) = 192%nat /\ length (kst c) = 25%nat.
Lemma squeeze_extra lanes (Hl : (1 <= lanes <= 24)%nat) e (He : e < 8) : forall fuel c out s n j c' o, kgood c lanes s ->
  8 * n + e < 2 ^ 32 -> j <= n -> n <= N.of_nat (length out) ->
  squeeze_loop fuel c out (8 * n) (8 * j) = Ret (c', o) ->
  exists c'', squeeze_loop (S fuel) c out (8 * n + e) (8 * j) = Ret (c'', o).
Proof.
  (* the refill *)
  assert (RF : forall c s, kgood c lanes s -> exists c1 s1, kgood c1 lanes s1 /\ 0 < s1 /\
    (if squeezable c =? 0 then
       let st := k_permutation (kst c) (nr c) in
       q <- blit (queue c) 0 (state_to_seq st (N.to_nat (rate c / 64))) ;;
       Ret (mkK st q (rate c) (inq c) (outlen c) (nr c) (squeezing c) (rate c) (ap c) (aplen c) (apadded c))
     else Ret c) = Ret c1).
  { intros c s (Kr & Ks & Kl & Kq & Kt). destruct (N.eqb_spec (squeezable c) 0) as [Z|Z].
    - cbv zeta. pose proof (permutation_length (kst c) (nr c) Kt) as LP. set (st := k_permutation (kst c) (nr c)) in *. clearbody st.
      rewrite Kr. replace (N.to_nat (64 * N.of_nat lanes / 64)) with lanes by (rewrite (N.mul_comm 64), N.div_mul by discriminate; lia).
      assert (LS : length (state_to_seq st lanes) = (8 * lanes)%nat) by (apply state_to_seq_len; lia).
      rewrite blit_ok by (rewrite LS, Kq; lia). cbn [bind].
      eexists _, (8 * N.of_nat lanes). split; [|split; [lia|reflexivity]]. unfold kgood. cbn [rate squeezable queue kst].
      split; [reflexivity|]. split; [lia|]. split; [lia|]. split; [|exact LP]. rewrite !app_length, firstn_length, skipn_length, LS, Kq. lia.
    - exists c, s. split; [|split; [lia|reflexivity]]. unfold kgood. auto. }
  induction fuel as [|fuel IH]; intros c out s n j c' o K Hb Hj Hn E; [cbn [squeeze_loop] in E|rewrite squeeze_S in E].
  all: destruct (N.leb_spec (8 * n) (8 * j)) as [Le|Le].
  2: discriminate.
  1,2: assert (j = n) by lia; subst j; injection E as <- <-; destruct (N.eq_dec e 0) as [->|Z];
    [rewrite N.add_0_r; cbn [squeeze_loop]; rewrite N.leb_refl; eauto|];
    destruct (RF c s K) as (c1 & s1 & (Kr & Ks & Kl & Kq & Kt) & H1 & R1);
    rewrite squeeze_S;
    (destruct (N.leb_spec (8 * n + e) (8 * n)) as [Le2|Le2]; [lia|]);
    rewrite R1; cbn [bind]; cbv zeta;
    replace (if 8 * n + e - 8 * n <? squeezable c1 then u32 (8 * n + e - 8 * n) else squeezable c1) with e
      by (destruct (N.ltb_spec (8 * n + e - 8 * n) (squeezable c1)); [unfold u32; rewrite N.mod_small; lia|lia]);
    replace (e / 8) with 0 by lia; change (N.to_nat 0) with 0%nat; unfold grab; rewrite firstn_O;
    (match goal with |- context [Nat.ltb ?x 0] => destruct (Nat.ltb_spec x 0) as [B|B]; [lia|] end); cbn [bind];
    rewrite blit_ok by (cbn [length]; lia); cbn [bind app length]; rewrite Nat.add_0_r, firstn_skipn;
    rewrite squeeze_done; eauto.
  destruct (RF c s K) as (c1 & s1 & (Kr & Ks & Kl & Kq & Kt) & H1 & R1).
  rewrite squeeze_S. destruct (N.leb_spec (8 * n + e) (8 * j)) as [Le2|Le2]; [lia|].
  rewrite R1 in E |- *. cbn [bind] in E |- *. cbv zeta in E |- *. rewrite Ks in E |- *. set (k := n - j).
  replace (8 * n - 8 * j) with (8 * k) in E by lia. replace (8 * n + e - 8 * j) with (8 * k + e) by lia.
  destruct (N.ltb_spec (8 * k) (8 * s1)) as [X|X].
  - destruct (N.ltb_spec (8 * k + e) (8 * s1)) as [Y|Y]; [|lia].
    replace (u32 (8 * k)) with (8 * k) in E by (unfold u32; rewrite N.mod_small; lia).
    replace (u32 (8 * k + e)) with (8 * k + e) by (unfold u32; rewrite N.mod_small; lia).
    replace (8 * k / 8) with k in E by lia. replace ((8 * k + e) / 8) with k by lia.
    destruct (grab _ _) as [src| |]; try discriminate. cbn [bind] in E |- *.
    destruct (blit out _ src) as [out1| |]; try discriminate. cbn [bind] in E |- *.
    replace (8 * j + 8 * k) with (8 * n) in E by lia. replace (8 * j + (8 * k + e)) with (8 * n + e) by lia.
    rewrite squeeze_done in E |- *. injection E as _ <-. eauto.
  - destruct (N.ltb_spec (8 * k + e) (8 * s1)) as [Y|Y]; [lia|].
    destruct (grab _ _) as [src| |]; try discriminate. cbn [bind] in E |- *.
    destruct (blit out _ src) as [out1| |] eqn:EB; try discriminate. cbn [bind] in E |- *. apply blit_len in EB.
    rewrite N.sub_diag in E |- *. replace (8 * j + 8 * s1) with (8 * (j + s1)) in E |- * by lia.
    eapply (IH _ out1 0); try exact E; try lia. unfold kgood. cbn [rate squeezable queue kst]. repeat split; auto; lia.
Qed.

(** ** squeezing from a fed context *)
Lemma sq0 lanes O P L st c0 : (1 <= lanes <= 24)%nat -> lanes_ok st -> sq lanes O P L st 0 c0 -> kgood c0 lanes (8 * N.of_nat lanes) /\ squeezable c0 = 64 * N.of_nat lanes.
Proof.
  intros Hl Hok (k & q & v & Hk & Eq & Lq & ->). assert (k = 0%nat) by (destruct k; [reflexivity|]; cbn [Nat.mul] in Hk; lia). subst k.
  unfold kgood. cbn [rate squeezable queue kst ks permk Nat.iter]. change (0 - 0 * (8 * lanes))%nat with 0%nat. destruct Hok as [LK _].
  cbn [Nat.iter] in *. repeat split; try assumption; lia.
Qed.
Lemma xof_bits lanes P L m c out O n e : (1 <= lanes <= 24)%nat -> (P = 2 /\ L = 2) \/ (P = 15 /\ L = 4) \/ (P = 3 /\ L = 2) ->
  kfed lanes O P L m c -> bytes_ok m -> e < 8 -> 8 * N.of_nat n + e < 2 ^ 32 -> (n <= length out)%nat ->
  exists c', shake_digest (8 * N.of_nat n + e) c out = Ret (c', sbytes lanes (final lanes P L m) 0 n ++ skipn n out).
Proof.
  intros Hl HPL Hf Hm He Hb Ho. unfold shake_digest.
  replace (u32 (8 * N.of_nat n + e)) with (8 * N.of_nat n + e) by (unfold u32; rewrite N.mod_small; auto).
  pose proof (kfed_set_out _ _ _ _ _ _ (8 * N.of_nat n + e) Hf) as Hf'. unfold set_out in Hf'.
  destruct (first_prep lanes Hl P L HPL _ m _ Hf' Hm) as (c0 & Sq & E). rewrite E.
  pose proof (final_ok lanes Hl P L HPL _ Hm) as Hok. destruct (sq0 _ _ _ _ _ _ Hl Hok Sq) as [Kg Ks].
  set (fuel := (N.to_nat ((8 * N.of_nat n + e) / 64) + 1)%nat).
  destruct (squeeze_loop_eq lanes Hl _ P L HPL _ Hok fuel 0 c0 out n 0 Sq) as (c1 & E1 & _); try lia.
  { intros _. rewrite Ks. replace (64 * N.of_nat lanes =? N.of_nat (64 * lanes)) with true by (symmetry; apply N.eqb_eq; lia). rewrite orb_true_r. unfold fuel. lia. }
  assert (E2 := squeeze_extra lanes Hl e He fuel c0 out (8 * N.of_nat lanes) (N.of_nat n) 0 c1 (firstn 0 out ++ sbytes lanes (final lanes P L m) 0 (n - 0) ++ skipn n out) Kg ltac:(lia) ltac:(lia) ltac:(lia) E1).
  destruct E2 as (c2 & E2).
  exists c2. replace (N.to_nat ((8 * N.of_nat n + e) / 64) + 2)%nat with (S fuel) by (unfold fuel; lia).
  change (8 * 0) with 0 in E2. rewrite E2. rewrite Nat.sub_0_r. reflexivity.
Qed.

(** ** the sixteen algorithms *)
Fixpoint he_updates (garbage : option N) (a : alg_choice) (c : he_ctx a) (ps : list (list N)) : outcome (he_ctx a) :=
  match ps with [] => Ret c | p :: ps => c <- he_update garbage a c p ;; he_updates garbage a c ps end.
Lemma he_updates_app garbage a ps qs : forall c, he_updates garbage a c (ps ++ qs) = (c <- he_updates garbage a c ps ;; he_updates garbage a c qs).
Proof.
  induction ps as [|p ps IH]; intros c; [reflexivity|]. cbn [app he_updates]. destruct (he_update garbage a c p) as [c'| |]; cbn [bind]; [apply IH|reflexivity|reflexivity].
Qed.
Lemma lib_std a n m : message_std a m -> lib_digest a n m = std_digest a n m.
Proof.
  destruct a; cbn [message_std lib_digest std_digest]; intros H; try reflexivity.
  - apply PropSha.lib_SHA1_fips, PropSha.roomy_unaffected; [lia|exact H].
  - apply (PropSha.lib_sha2_fips sha2_32 IV_224 28 m); [cbn; lia|]. apply PropSha.roomy_unaffected; [cbn; lia|exact H].
  - apply (PropSha.lib_sha2_fips sha2_32 IV_256 32 m); [cbn; lia|]. apply PropSha.roomy_unaffected; [cbn; lia|exact H].
  - apply (PropSha.lib_sha2_fips sha2_64 IV_384 48 m); [cbn; lia|]. apply PropSha.roomy_unaffected; [cbn; lia|exact H].
  - apply (PropSha.lib_sha2_fips sha2_64 IV_512 64 m); [cbn; lia|]. apply PropSha.roomy_unaffected; [cbn; lia|exact H].
  - apply (PropSha.lib_sha2_fips sha2_64 IV_512_224 28 m); [cbn; lia|]. apply PropSha.roomy_unaffected; [cbn; lia|exact H].
  - apply (PropSha.lib_sha2_fips sha2_64 IV_512_256 32 m); [cbn; lia|]. apply PropSha.roomy_unaffected; [cbn; lia|exact H].
Qed.

Lemma fold_stuck {A B} (f : A -> B -> outcome A) (o : outcome A) ps : (forall a, o <> Ret a) -> fold_left (fun o p => c <- o ;; f c p) ps o = o.
Proof. induction ps as [|p ps IH]; intros H; [reflexivity|]. cbn [fold_left]. destruct o as [a| |]; [exfalso; apply (H a); reflexivity|apply IH; discriminate|apply IH; discriminate]. Qed.
Lemma he_updates_fold garbage a ps : forall c, he_updates garbage a c ps = fold_left (fun o p => c <- o ;; he_update garbage a c p) ps (Ret c).
Proof.
  induction ps as [|p ps IH]; intros c; [reflexivity|]. cbn [he_updates fold_left bind]. destruct (he_update garbage a c p) as [c'| |]; cbn [bind]; [apply IH| |];
    symmetry; apply (fold_stuck (he_update garbage a)); discriminate.
Qed.
Lemma updates_fold I ps : forall c, updates I c ps = fold_left (fun o p => c <- o ;; iupdate I c p) ps (Ret c).
Proof.
  induction ps as [|p ps IH]; intros c; [reflexivity|]. cbn [updates fold_left bind]. destruct (iupdate I c p) as [c'| |]; cbn [bind]; [apply IH| |];
    symmetry; apply (fold_stuck (iupdate I)); discriminate.
Qed.

(** what is known about one algorithm: [C] its context type, and so on *)
Definition alg_facts (C : Type) (ty : C -> Prop) (init : C -> C) (upd : C -> list N -> outcome C) (dig : N -> C -> list N -> outcome (C * list N))
    (P T : list N -> Prop) (H : nat -> list N -> list N) (size : N -> nat) (bytes : N -> nat) : Prop :=
  (forall c, ty c -> ty (init c)) /\
  (forall c p c', ty c -> upd c p = Ret c' -> ty c') /\
  (forall b c out c' o, ty c -> dig b c out = Ret (c', o) -> ty c') /\
  (forall g ps, ty g -> Forall P ps -> T (concat ps) ->
    exists c, fold_left (fun o p => c <- o ;; upd c p) ps (Ret (init g)) = Ret c /\
      (forall b out, (size b <= length out)%nat -> exists c', dig b c out = Ret (c', H (bytes b) (concat ps) ++ skipn (size b) out)) /\
      (forall b out, b mod 8 = 0 -> (length out < size b)%nat -> dig b c out = UB OutOfBounds) /\
      (forall b, length (H (bytes b) (concat ps)) = size b)).
Lemma fixed_facts I P T H : hash_fn I P T H -> forall sz bytes, sz = idsz I ->
  alg_facts (ictx I) (typed I) (iinit I) (iupdate I) (fun _ => idigest I) P T (fun _ => H) (fun _ => sz) bytes.
Proof.
  intros K sz bytes ->. destruct (hash_keeps _ _ _ _ K) as (K1 & K2 & K3). split; [exact K1|]. split; [exact K2|]. split; [intros _; exact K3|].
  intros g ps Hg HP HT. pose proof (hash_streams _ _ _ _ K) as S.
  destruct (S g ps (repeat 0 (idsz I)) Hg HP HT) as (c & c' & E & _ & _ & L); [rewrite repeat_length; lia|].
  exists c. rewrite <- updates_fold. split; [exact E|]. split; [|split; [|auto]].
  - intros _ out Ho. destruct (S g ps out Hg HP HT Ho) as (c1 & c2 & E1 & D & _). rewrite E in E1. injection E1 as <-. eauto.
  - intros _ out _ Ho. apply (hash_short _ _ _ _ K g ps out c); auto.
Qed.
Lemma xof_facts_bits init H : xof_fn init H ->
  alg_facts kctx kshape init keccak_update shake_digest keccak_piece (fun _ => True) (fun n m => H m (8 * n)%nat) xof_bytes xof_bytes.
Proof.
  intros X. destruct (PropKeccak.xof_facts _ _ X) as (lanes & P & L & Hl & HPL & -> & HH).
  split; [intros c Hc; apply keccak_init_typed; exact Hc|]. split; [intros c p c' Hc E; eapply keccak_absorb_typed; eassumption|].
  split; [intros b c out c' o Hc E; unfold shake_digest in E; eapply keccak_squeeze_typed; [|exact E]; exact Hc|].
  intros g ps Hg HP _. pose proof (pieces_concat_bytes ps HP) as B.
  destruct (updates_kfed lanes Hl P L HPL 0 ps [] (keccak_init (N.of_nat (1600 - 64 * lanes)) 0 P L g)) as (c & E & Hf); auto.
  { apply fed_init; auto. }
  cbn [app] in Hf.
  assert (SB : forall b, exists e, u32 b = 8 * N.of_nat (xof_bytes b) + e /\ e < 8 /\ u32 b < 2 ^ 32 /\ (b mod 8 = 0 -> e = 0)).
  { intros b. exists (u32 b mod 8). unfold xof_bytes. fold (u32 b). rewrite N2Nat.id. split; [apply N.div_mod; discriminate|].
    split; [apply N.mod_lt; discriminate|]. split; [apply N.mod_lt; discriminate|]. unfold u32.
    change (2 ^ 32) with (8 * 2 ^ 29). rewrite N.mod_mul_r by discriminate. intros ->. rewrite N.add_0_l, N.mul_comm. apply N.mod_mul. discriminate. }
  assert (ST : forall b c out, shake_digest b c out = shake_digest (u32 b) c out).
  { intros b c0 out. unfold shake_digest. replace (u32 (u32 b)) with (u32 b); [reflexivity|]. unfold u32. symmetry. apply N.mod_mod. discriminate. }
  assert (EU : forall (f : kctx -> kctx) dg rb n, fold_left (fun o p => c <- o ;; keccak_update c p) ps (Ret (keccak_init (N.of_nat (1600 - 64 * lanes)) 0 P L g)) =
    updates (mkImpl kctx kshape f keccak_update dg rb n) (keccak_init (N.of_nat (1600 - 64 * lanes)) 0 P L g) ps).
  { intros f dg rb n. rewrite updates_fold. reflexivity. }
  exists c. split; [|split; [|split]].
  - rewrite (EU (fun c => c) (fun c o => Ret (c, o)) 0%nat 0%nat). rewrite updates_k. exact E.
  - intros b out Ho. destruct (SB b) as (e & Eb & He & Hb & _). rewrite ST, Eb. rewrite Eb in Hb.
    destruct (xof_bits lanes P L (concat ps) c out 0 (xof_bytes b) e) as (c' & D); auto. exists c'. rewrite D, HH by exact B. reflexivity.
  - intros b out Hb8 Ho. destruct (SB b) as (e & Eb & He & Hb & Z). rewrite ST, Eb. rewrite Eb in Hb. rewrite (Z Hb8), N.add_0_r in *.
    eapply (xof_short lanes (xof_bytes b) _ P L g ps out c Hl eq_refl); auto. unfold xof_impl. rewrite updates_k. exact E.
  - intros b. rewrite HH by exact B. apply sbytes_len.
Qed.
(** bytes the digest function writes for bit length [b] *)
Definition written (a : alg_choice) (b : N) : nat := if shake_flag a then xof_bytes b else N.to_nat (size_digest a).
Lemma he_facts garbage a : alg_facts (he_ctx a) (he_typed a) (he_init a) (he_update garbage a) (he_digest garbage a) (piece_ok a) (message_ok a)
  (lib_digest a) (written a) xof_bytes.
Proof.
  destruct a.
  - exact (fixed_facts _ _ _ _ (hf_md5 garbage) _ xof_bytes eq_refl).
  - exact (fixed_facts _ _ _ _ hf_sha1 _ xof_bytes eq_refl).
  - exact (fixed_facts _ _ _ _ hf_sha224 _ xof_bytes eq_refl).
  - exact (fixed_facts _ _ _ _ hf_sha256 _ xof_bytes eq_refl).
  - exact (fixed_facts _ _ _ _ hf_sha384 _ xof_bytes eq_refl).
  - exact (fixed_facts _ _ _ _ hf_sha512 _ xof_bytes eq_refl).
  - exact (fixed_facts _ _ _ _ hf_sha512_224 _ xof_bytes eq_refl).
  - exact (fixed_facts _ _ _ _ hf_sha512_256 _ xof_bytes eq_refl).
  - exact (fixed_facts _ _ _ _ (hf_keccak _ _ _ fn_sha3_224) _ xof_bytes eq_refl).
  - exact (fixed_facts _ _ _ _ (hf_keccak _ _ _ fn_sha3_256) _ xof_bytes eq_refl).
  - exact (fixed_facts _ _ _ _ (hf_keccak _ _ _ fn_sha3_384) _ xof_bytes eq_refl).
  - exact (fixed_facts _ _ _ _ (hf_keccak _ _ _ fn_sha3_512) _ xof_bytes eq_refl).
  - exact (xof_facts_bits _ _ xof_rawshake128).
  - exact (xof_facts_bits _ _ xof_shake128).
  - exact (xof_facts_bits _ _ xof_rawshake256).
  - exact (xof_facts_bits _ _ xof_shake256).
Qed.
