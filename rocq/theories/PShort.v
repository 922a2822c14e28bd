(** Buffers shorter than the digest, and second digests. *)
From Verif Require SFips202 SMd5 PropSha PropMd5 PropKeccak.
From Verif Require Import Base SHex SFips180 SShaLib MSha MFront MMd5 MKeccak SHash SKeccakFns SHashFns PWords PSha PShaStream PShaInst PMd5 PKeccak PSponge PSponge2 PKeccakFns.
Local Open Scope N_scope.

Lemma hash_streams I P T H : hash_fn I P T H -> streams I P T H.
Proof.
  intros K. destruct K.
  - exact PropSha.C19_sha1_exact.
  - exact PropSha.C20_sha224_exact.
  - exact PropSha.C20_sha256_exact.
  - exact PropSha.C21_sha384_exact.
  - exact PropSha.C21_sha512_exact.
  - exact PropSha.C21_sha512_224_exact.
  - exact PropSha.C21_sha512_256_exact.
  - apply PropMd5.C17_md5_rfc1321.
  - apply PropMd5.C18_streams_nonzero; assumption.
  - eapply PropKeccak.keccak_streams; eassumption.
Qed.
Lemma std_streams I P T H : hash_std I P T H -> streams I P T H.
Proof.
  intros K. destruct K.
  - eapply PropSha.streams_weaken; [|exact PropSha.C19_sha1_fips]. intros m [? ?]; split; auto.
  - eapply PropSha.streams_weaken; [|exact PropSha.C20_sha224_fips]. intros m [? ?]; split; auto.
  - eapply PropSha.streams_weaken; [|exact PropSha.C20_sha256_fips]. intros m [? ?]; split; auto.
  - eapply PropSha.streams_weaken; [|exact PropSha.C21_sha384_fips]. intros m [? ?]; split; auto.
  - eapply PropSha.streams_weaken; [|exact PropSha.C21_sha512_fips]. intros m [? ?]; split; auto.
  - eapply PropSha.streams_weaken; [|exact PropSha.C21_sha512_224_fips]. intros m [? ?]; split; auto.
  - eapply PropSha.streams_weaken; [|exact PropSha.C21_sha512_256_fips]. intros m [? ?]; split; auto.
  - apply PropMd5.C17_md5_rfc1321.
  - apply PropMd5.C18_streams_nonzero; assumption.
  - eapply PropKeccak.keccak_streams; eassumption.
Qed.
(** facts about the pieces *)
Lemma pieces_hash I P T H : hash_fn I P T H ->
  (forall p, bytes_ok p -> p <> [] -> (length p <= 1024)%nat -> P p) /\ (forall p, P p -> bytes_ok p).
Proof.
  assert (X : forall p : list N, (length p <= 1024)%nat -> N.of_nat (length p) <= 1024) by (intros p Hp; lia).
  intros K. destruct K; (split; [intros p Hb Hn Hp; apply X in Hp; clear X|intros p Hp]); try (split; [assumption|]); try lia; try assumption; try (destruct Hp as [? _]; assumption).
Qed.

(** ** short buffers *)
Section Short.
Variable lanes : nat.
Hypothesis Hl : (1 <= lanes <= 24)%nat.
Variables P L : N.
Hypothesis HPL : (P = 2 /\ L = 2) \/ (P = 15 /\ L = 4) \/ (P = 3 /\ L = 2).
Lemma blit_short {A} (out pad src : list A) i o : blit (out ++ pad) i src = Ret o ->
  ((i + length src <= length out)%nat /\ exists out', blit out i src = Ret out' /\ length out' = length out /\ o = out' ++ pad) \/
  ((length out < i + length src)%nat /\ blit out i src = UB OutOfBounds).
Proof.
  intros E. destruct (Nat.leb_spec (i + length src) (length out)) as [X|X].
  - left. split; [exact X|]. eexists. rewrite blit_ok by exact X. split; [reflexivity|].
    rewrite blit_ok in E by (rewrite app_length; lia). injection E as <-. split.
    + rewrite !app_length, firstn_length, skipn_length. lia.
    + rewrite firstn_app, skipn_app. replace (i - length out)%nat with 0%nat by lia. replace (i + length src - length out)%nat with 0%nat by lia.
      cbn [firstn skipn]. rewrite app_nil_r, <- !app_assoc. reflexivity.
  - right. split; [exact X|]. apply blit_ub. exact X.
Qed.
Lemma grab_len n (l src : list N) : grab n l = Ret src -> length src = n.
Proof. unfold grab. destruct (Nat.ltb_spec (length l) n); [discriminate|]. intros E. injection E as <-. apply firstn_length_le. lia. Qed.

Lemma squeeze_short : forall fuel c out pad r s n j res, rate c = 8 * r -> squeezable c = 8 * s -> 8 * n < 2 ^ 32 ->
  squeeze_loop fuel c (out ++ pad) (8 * n) (8 * j) = Ret res -> j <= N.of_nat (length out) -> N.of_nat (length out) < n ->
  squeeze_loop fuel c out (8 * n) (8 * j) = UB OutOfBounds.
Proof.
  induction fuel as [|fuel IH]; intros c out pad r s n j res Er Es Hb; cbn [squeeze_loop]; intros E Hj Hn;
    (destruct (N.leb_spec (8 * n) (8 * j)) as [Le|Le]; [lia|]).
  - discriminate.
  - match type of E with bind ?m _ = _ => remember m as M eqn:EM end. destruct M as [c1| |]; try discriminate. cbn [bind] in E |- *.
    assert (X : exists s', squeezable c1 = 8 * s' /\ rate c1 = 8 * r).
    { destruct (squeezable c =? 0).
      - destruct (blit (queue c) 0 _) as [q| |]; try discriminate. cbn [bind] in EM. injection EM as ->. exists r. auto.
      - injection EM as ->. eauto. }
    clear EM. destruct X as (s' & Es' & Er').
    assert (Y : exists a, (if 8 * n - 8 * j <? squeezable c1 then u32 (8 * n - 8 * j) else squeezable c1) = 8 * a /\ a <= s').
    { rewrite Es'. destruct (N.ltb_spec (8 * n - 8 * j) (8 * s')).
      - exists (n - j). unfold u32. rewrite N.mod_small by lia. lia.
      - exists s'. lia. }
    destruct Y as (a & Ea & La). rewrite Ea in E |- *.
    destruct (grab _ _) as [src| |] eqn:EG; try discriminate. cbn [bind] in E |- *. apply grab_len in EG.
    replace (8 * a / 8) with a in EG by lia. replace (8 * j / 8) with j in E |- * by lia.
    destruct (blit (out ++ pad) (N.to_nat j) src) as [o| |] eqn:EB; try discriminate. cbn [bind] in E.
    destruct (blit_short _ _ _ _ _ EB) as [[B1 (out' & B2 & B3 & ->)]|[B1 B2]]; rewrite B2; cbn [bind]; [|reflexivity].
    rewrite <- N.mul_add_distr_l in *.
    eapply (IH _ out' pad r (s' - a) n (j + a) res); cbn [rate squeezable]; try (rewrite ?B3; lia); auto.
Qed.

(** up to the squeeze loop (same steps as [first_squeeze]) *)
Lemma first_prep O m c : kfed lanes O P L m c -> bytes_ok m ->
  exists c0, sq lanes O P L (final lanes P L m) 0 c0 /\
    forall out, keccak_squeeze c out = squeeze_loop (N.to_nat (O / 64) + 2) c0 out O 0.
Proof.
  intros (bs & r & q & -> & F & Hr & Eq & Lq & ->) Hm.
  assert (HL : 0 < L) by (destruct HPL as [[? ->]|[[? ->]|[? ->]]]; lia).
  pose proof (final_ok lanes Hl P L HPL _ Hm) as Hok. rewrite final_split in * by assumption.
  set (st := fold_left (absorb1 lanes) bs (repeat 0 25)) in *. set (st' := absorb1 lanes st _) in *.
  assert (D : exists x z v, q = r ++ x :: z ++ v /\ (length r + 1 + length z = 8 * lanes)%nat).
  { destruct (skipn (length r) q) as [|x w] eqn:E; [apply (f_equal (@length N)) in E; rewrite skipn_length in E; cbn in E; lia|].
    exists x, (firstn (8 * lanes - length r - 1) w), (skipn (8 * lanes - length r - 1) w). rewrite firstn_skipn, <- E. split.
    - rewrite <- Eq at 1. symmetry. apply firstn_skipn.
    - apply (f_equal (@length N)) in E. rewrite skipn_length in E. cbn [length] in E. rewrite firstn_length. lia. }
  destruct D as (x & z & v & -> & Lz).
  assert (Lq2 : length (r ++ P :: z ++ v) = 192%nat) by (rewrite app_length in Lq |- *; cbn [length] in Lq |- *; exact Lq).
  exists (ks lanes O P L st' (state_to_seq st' lanes ++ v) (N.of_nat (64 * lanes))). split.
  { exists 0%nat, (state_to_seq st' lanes ++ v), v. split; [lia|]. split; [reflexivity|]. split.
    - rewrite app_length, state_to_seq_len by (destruct Hok as [-> _]; lia). rewrite app_length in Lq2. cbn [length] in Lq2. rewrite app_length in Lq2. lia.
    - rewrite N.sub_0_r. reflexivity. }
  intros out.
  unfold keccak_squeeze. cbn [outlen aplen apadded kc]. destruct (N.eqb_spec L 0); [lia|]. cbn [negb andb]. cbn [ap kc].
  rewrite suffix_absorb by auto. cbn [bind kst queue rate inq outlen nr squeezing squeezable ap aplen apadded kc].
  fold (kd lanes O P L st (r ++ P :: z ++ v) (8 * N.of_nat (length r) + L)).
  rewrite padding_eq by auto. cbn [bind]. fold st'. reflexivity.
Qed.
Lemma sq_short st p c out n fuel : sq lanes (8 * N.of_nat n) P L st p c -> lanes_ok st -> (length out < n)%nat -> 8 * N.of_nat n < 2 ^ 32 ->
  (n + 8 <= 8 * fuel)%nat -> squeeze_loop fuel c out (8 * N.of_nat n) 0 = UB OutOfBounds.
Proof.
  intros Sq Hok Hn Hb Hf.
  destruct (squeeze_loop_eq lanes Hl (8 * N.of_nat n) P L HPL st Hok fuel p c (out ++ repeat 0 n) n 0 Sq) as (c' & E & _); auto; try lia.
  { rewrite app_length, repeat_length. lia. }
  { intros _. destruct (_ || _); lia. }
  change (8 * N.of_nat 0) with (8 * 0) in E. destruct Sq as (k & q & v & Hk & _ & _ & ->).
  eapply (squeeze_short fuel _ out (repeat 0 n) (8 * N.of_nat lanes) (8 * N.of_nat lanes - N.of_nat (p - k * (8 * lanes))) (N.of_nat n) 0); cbn [rate squeezable ks]; try lia.
  exact E.
Qed.
Lemma keccak_squeeze_short m c out n : kfed lanes (8 * N.of_nat n) P L m c -> bytes_ok m -> (length out < n)%nat -> 8 * N.of_nat n < 2 ^ 32 ->
  keccak_squeeze c out = UB OutOfBounds.
Proof.
  intros Hf Hm Hn Hb. destruct (first_prep _ m c Hf Hm) as (c0 & Sq & E). rewrite E.
  apply (sq_short _ _ _ _ _ _ Sq (final_ok lanes Hl P L HPL _ Hm)); auto. lia.
Qed.
End Short.

(** every digest into a buffer shorter than the digest goes outside it *)
Lemma sha3_short lanes n cap outbits g ps out c : (1 <= lanes <= 24)%nat -> cap = N.of_nat (1600 - 64 * lanes) -> outbits = 8 * N.of_nat n -> outbits < 2 ^ 32 ->
  kshape g -> Forall keccak_piece ps -> updates (sha3_impl cap outbits) (iinit (sha3_impl cap outbits) g) ps = Ret c -> (length out < n)%nat ->
  keccak_squeeze c out = UB OutOfBounds.
Proof.
  intros Hl -> -> Hb Hg HP E Ho. assert (HPL : ((2 = 2 /\ 2 = 2) \/ (2 = 15 /\ 2 = 4) \/ (2 = 3 /\ 2 = 2)) ) by (left; split; reflexivity).
  unfold sha3_impl in E. rewrite updates_k in E. cbn [iinit] in E.
  destruct (updates_kfed lanes Hl 2 2 HPL (8 * N.of_nat n) ps [] (keccak_init (N.of_nat (1600 - 64 * lanes)) (8 * N.of_nat n) 2 2 g)) as (c1 & E1 & Hf); auto.
  { apply PSponge2.fed_init; auto. }
  rewrite E1 in E. injection E as <-. cbn [app] in Hf.
  eapply (keccak_squeeze_short lanes Hl 2 2 HPL); eauto. apply pieces_concat_bytes; assumption.
Qed.
Lemma xof_short lanes n cap P L g ps out c : (1 <= lanes <= 24)%nat -> cap = N.of_nat (1600 - 64 * lanes) -> 8 * N.of_nat n < 2 ^ 32 ->
  (P = 2 /\ L = 2) \/ (P = 15 /\ L = 4) \/ (P = 3 /\ L = 2) ->
  kshape g -> Forall keccak_piece ps -> updates (xof_impl cap P L (8 * N.of_nat n)) (iinit (xof_impl cap P L (8 * N.of_nat n)) g) ps = Ret c -> (length out < n)%nat ->
  shake_digest (8 * N.of_nat n) c out = UB OutOfBounds.
Proof.
  intros Hl -> Hb HPL Hg HP E Ho.
  unfold xof_impl in E. rewrite updates_k in E. cbn [iinit] in E.
  destruct (updates_kfed lanes Hl P L HPL 0 ps [] (keccak_init (N.of_nat (1600 - 64 * lanes)) 0 P L g)) as (c1 & E1 & Hf); auto.
  { apply PSponge2.fed_init; auto. }
  rewrite E1 in E. injection E as <-. cbn [app] in Hf. unfold shake_digest.
  replace (u32 (8 * N.of_nat n)) with (8 * N.of_nat n) by (unfold u32; rewrite N.mod_small; auto).
  eapply (keccak_squeeze_short lanes Hl P L HPL); eauto. { apply (kfed_set_out _ _ _ _ _ _ _ Hf). } apply pieces_concat_bytes; assumption.
Qed.
Lemma md5_digest_short g m c out : fedm m c -> (length out < 16)%nat -> md5_digest g c out = UB OutOfBounds.
Proof.
  intros Hf Ho. pose proof Hf as (bs & r & Em & F & R & S & BL & LB & FB). pose proof (fed_rem m bs r Em F R) as MD.
  unfold md5_digest. cbv zeta. rewrite BL, count_bytes, land63, Nat2N.id, MD.
  set (n := if Nat.ltb (length r) 56 then (56 - length r)%nat else (120 - length r)%nat).
  assert (Hn : (1 <= n <= 64)%nat) by (unfold n; destruct (Nat.ltb_spec (length r) 56); lia).
  destruct (Nat.leb_spec n (length PADDING)) as [_|X]; [|cbn in X; lia].
  rewrite firstn_padding by exact Hn.
  destruct (md5_update_fed g c (0x80 :: repeat 0 (n - 1)) m Hf ltac:(discriminate)) as (c1 & E1 & Hf1). rewrite E1. cbn [bind].
  destruct (md5_update_fed g c1 (SMd5.le_bytes 8 (8 * N.of_nat (length m))) _ Hf1) as (c2 & E2 & Hf2).
  { intros C. apply (f_equal (@length N)) in C. rewrite le_bytes_length in C. discriminate. }
  rewrite E2. cbn [bind]. rewrite blit_ub; [reflexivity|].
  assert (L4 : length (mstate c2) = 4%nat).
  { destruct Hf2 as (bs2 & r2 & _ & _ & _ & S2 & _). rewrite S2.
    assert (G : forall l s, length s = 4%nat -> length (fold_left md5_transform l s) = 4%nat).
    { induction l as [|b l IH]; intros s Hs; [exact Hs|]. cbn [fold_left]. apply IH. reflexivity. }
    apply G. reflexivity. }
  rewrite md5_encode_le. destruct (mstate c2) as [|w0 [|w1 [|w2 [|w3 [|]]]]]; try discriminate. cbn [flat_map].
  rewrite !app_length, !le_bytes_length. cbn [length]. lia.
Qed.
Lemma sha_short a g ps out c : In a PropSha.sha_algs -> typed (sha_impl a) g -> Forall int_piece ps -> bits_below (PropSha.counter_bits a) (concat ps) ->
  updates (sha_impl a) (iinit (sha_impl a) g) ps = Ret c -> (length out < digest_bytes a)%nat -> idigest (sha_impl a) c out = UB OutOfBounds.
Proof.
  intros Ha Hg HP HT E Ho. destruct (PropSha.feed a g ps Ha Hg HP HT) as (c1 & E1 & F). rewrite E in E1. injection E1 as <-.
  change (sha_digest a c out = UB OutOfBounds). eapply digest_small; eauto. apply PropSha.algs_wb; assumption.
Qed.
Lemma hash_short I P T H : hash_fn I P T H -> forall g ps out c, typed I g -> Forall P ps -> T (concat ps) ->
  updates I (iinit I g) ps = Ret c -> (length out < idsz I)%nat -> idigest I c out = UB OutOfBounds.
Proof.
  intros K. destruct K.
  1-7: intros g ps out c Hg HP HT E Ho; eapply sha_short; eauto; [unfold PropSha.sha_algs; cbn [In]; tauto].
  - intros g ps out c Hg HP HT E Ho. destruct (md5_updates_fed garbage ps [] (md5_init g)) as (c1 & E1 & Hf).
    { apply fedm_init. exact Hg. }
    { eapply Forall_impl; [|exact HP]. intros p [_ X]. exact X. }
    change (iinit (md5_impl garbage) g) with (md5_init g) in E. rewrite E in E1. injection E1 as <-.
    change (md5_digest garbage c out = UB OutOfBounds). eapply md5_digest_short; eauto.
  - intros g ps out c Hg HP HT E Ho.
    set (qs := filter (fun p => match p with [] => false | _ => true end) ps).
    assert (Q : forall c, updates (md5_impl (Some v)) c ps = updates (md5_impl (Some v)) c qs).
    { unfold qs. clear -H. induction ps as [|p ps IH]; intros c; [reflexivity|]. cbn [filter]. destruct p as [|x p].
      - cbn [updates]. change (iupdate (md5_impl (Some v))) with (md5_update (Some v)).
        rewrite PropMd5.C18_empty_update_nonzero by exact H. cbn [bind]. apply IH.
      - cbn [updates]. destruct (iupdate (md5_impl (Some v)) c (x :: p)) as [c'| |]; try reflexivity. cbn [bind]. apply IH. }
    rewrite Q in E. destruct (md5_updates_fed (Some v) qs [] (md5_init g)) as (c1 & E1 & Hf).
    { apply fedm_init. exact Hg. }
    { apply Forall_forall. intros p Hp. unfold qs in Hp. apply filter_In in Hp. destruct p; [destruct Hp; discriminate|discriminate]. }
    change (iinit (md5_impl (Some v)) g) with (md5_init g) in E. rewrite E in E1. injection E1 as <-.
    change (md5_digest (Some v) c out = UB OutOfBounds). eapply md5_digest_short; eauto.
  - intros g ps out c Hg HP _ E Ho. destruct H0.
    + eapply (sha3_short 18 28); eauto; try exact Ho; try lia.
    + eapply (sha3_short 17 32); eauto; try lia; try exact Ho.
    + eapply (sha3_short 13 48); eauto; try lia; try exact Ho.
    + eapply (sha3_short 9 64); eauto; try lia; try exact Ho.
    + cbn [idsz impl_shake128 xof_impl] in Ho. eapply (xof_short 21 n); eauto; try lia.
    + cbn [idsz impl_shake256 xof_impl] in Ho. eapply (xof_short 17 n); eauto; try lia.
    + cbn [idsz impl_rawshake128 xof_impl] in Ho. eapply (xof_short 21 n); eauto; try lia.
    + cbn [idsz impl_rawshake256 xof_impl] in Ho. eapply (xof_short 17 n); eauto; try lia.
Qed.

(** ** second digest *)
Lemma sha_second a comp iv sw m c out out2 : instance a comp iv sw -> In a PropSha.sha_algs -> fed a m c -> bytes_ok m ->
  8 * N.of_nat (length m) < limit a ->
  (digest_bytes a <= length out)%nat -> (digest_bytes a <= length out2)%nat ->
  exists c1 d c2, sha_digest a c out = Ret (c1, d) /\
   sha_digest a c1 out2 = Ret (c2, firstn (digest_bytes a) (flat_map (be_bytes (word_bytes a))
     (comp (lib_iterate (block_bytes a) (2 * word_bytes a) (be_bytes (2 * word_bytes a)) comp iv m)
       (tail_block (block_bytes a) (2 * word_bytes a) (if wipes a then 0 else 8 * N.of_nat (length m))))) ++ skipn (digest_bytes a) out2).
Proof.
  intros Hi Ha Hf Hm HL Ho Ho2. pose proof (i_wb _ _ _ _ Hi) as Hwb. 
  assert (T : len_low c < 2 ^ word_bits a /\ len_high c * 2 ^ word_bits a + len_low c = 8 * N.of_nat (length m)).
  { destruct Hf as (bs & r & _ & _ & _ & _ & _ & _ & _ & A & _ & B). auto. }
  destruct (padding_spec a Hwb m c Hf) as (c' & E & S & I & L & LL & LH & _).
  destruct (digest_spec a Hwb (inst_Hst _ _ _ _ Hi) m c out Hf Ho) as (c1 & E1 & _).
  exists c1. unfold sha_digest in E1. rewrite E in E1. cbn [bind] in E1.
  set (cw := if wipes a then mkSha (state c') 0 0 (index c') (repeat 0 (block_bytes a)) else c') in E1.
  destruct (blit out 0 _) as [o| |] eqn:EB; try discriminate. cbn [bind] in E1. injection E1 as <- Eo.
  assert (F : sha_digest a c out = Ret (cw, o)).
  { unfold sha_digest. rewrite E. cbn [bind]. fold cw. rewrite EB. reflexivity. }
  set (len := if wipes a then 0 else 8 * N.of_nat (length m)).
  assert (W : state cw = state c' /\ index cw = 0%nat /\ length (block cw) = block_bytes a /\
    len_bytes a (len_high cw) ++ len_bytes a (len_low cw) = be_bytes (2 * word_bytes a) len).
  { unfold cw, len. destruct (wipes a); cbn [state index block len_low len_high].
    - repeat split; auto; [apply repeat_length|]. rewrite len_field by (auto; destruct T; lia). f_equal.
    - repeat split; auto. rewrite LL, LH. destruct T as [T1 T2]. rewrite len_field by auto. rewrite T2. reflexivity. }
  destruct W as (W1 & W2 & W3 & W4). clearbody cw.
  pose proof (geometry a Hwb) as (G1 & G2 & G3). pose proof (bsz_pos a Hwb) as G4.
  assert (PAD : sha_padding a cw = Ret (mkSha (process a (state cw) (tail_block (block_bytes a) (2 * word_bytes a) len)) (len_low cw) (len_high cw) 0
      (tail_block (block_bytes a) (2 * word_bytes a) len))).
  { unfold sha_padding. rewrite W2. cbv zeta. set (lp := (block_bytes a - 2 * word_bytes a)%nat) in *.
    destruct (block cw) as [|b0 bt] eqn:EBk; [cbn in W3; lia|]. cbn [length] in W3.
    rewrite (wr_app [] b0 bt) by reflexivity. cbn [bind app].
    destruct (Nat.ltb_spec lp 1); [lia|]. destruct (Nat.ltb_spec 1 lp); [|lia].
    pose proof (blit_app [0x80] (firstn (lp - 1) bt) (skipn (lp - 1) bt) (repeat 0 (lp - 1)) 1%nat) as K.
    rewrite firstn_skipn in K. cbn [app] in K. rewrite K; [|reflexivity|rewrite repeat_length, firstn_length; lia]. clear K. cbn [bind block].
    cbn [len_low len_high]. rewrite W4.
    pose proof (blit_app (0x80 :: repeat 0 (lp - 1)) (skipn (lp - 1) bt) [] (be_bytes (2 * word_bytes a) len) lp) as K.
    rewrite !app_nil_r in K. cbn [app] in K. rewrite K; [|cbn [length]; rewrite repeat_length; lia|rewrite be_bytes_length, skipn_length; lia]. cbn [bind].
    unfold process_block. cbn [state block len_low len_high]. unfold tail_block. fold lp. reflexivity. }
  assert (LT : length (tail_block (block_bytes a) (2 * word_bytes a) len) = block_bytes a).
  { unfold tail_block. rewrite !app_length, repeat_length, be_bytes_length. cbn [length]. lia. }
  assert (BT : bytes_ok (tail_block (block_bytes a) (2 * word_bytes a) len)).
  { unfold tail_block. repeat (apply Forall_app; split); [repeat constructor| |apply be_bytes_ok].
    apply Forall_forall. intros x Hx. apply repeat_spec in Hx. subst. reflexivity. }
  destruct (lib_padded_blocks a Hwb m) as (n & Hn).
  destruct (pieces_mult (block_bytes a) G4 _ n Hn) as (FP & _ & _).
  pose proof (pieces_bytes (block_bytes a) _ G4 (lib_padded_bytes a m Hm)) as FB.
  rewrite Forall_forall in FP, FB.
  assert (ST : state c' = lib_iterate (block_bytes a) (2 * word_bytes a) (be_bytes (2 * word_bytes a)) comp iv m /\ words_ok (word_bits a) sw (state c')).
  { rewrite S. unfold lib_iterate. rewrite (i_iv _ _ _ _ Hi).
    edestruct (fold_ext_inv (words_ok (word_bits a) sw) (process a) comp (pieces (block_bytes a) (lib_padded (block_bytes a) (2 * word_bytes a) (be_bytes (2 * word_bytes a)) m)) iv) as [X Y].
    - intros s b Hb Hs. destruct (i_step _ _ _ _ Hi s b Hs (FP _ Hb) (FB _ Hb)) as [X Y]. rewrite <- X. auto.
    - apply (i_ok _ _ _ _ Hi).
    - rewrite <- X in Y. auto. }
  destruct ST as [ST OK]. destruct (i_step _ _ _ _ Hi _ _ OK LT BT) as [X Y].
  exists o. eexists. split; [exact F|]. unfold sha_digest. rewrite PAD. cbn [bind].
  rewrite <- ST, <- X.
  match goal with |- context[map (out_byte a (state ?z))] => assert (ES : state z = process a (state c') (tail_block (block_bytes a) (2 * word_bytes a) len)) end.
  { destruct (wipes a); cbn [state]; rewrite W1; reflexivity. }
  rewrite ES. destruct Y as [Y _]. pose proof (i_dig _ _ _ _ Hi).
  rewrite out_bytes by (auto; rewrite Y; assumption).
  match goal with |- context[blit out2 0 ?src] => assert (LS : length src = digest_bytes a) end.
  { rewrite firstn_length.
    assert (Q : forall s, length (flat_map (be_bytes (word_bytes a)) s) = (length s * word_bytes a)%nat).
    { induction s as [|x s IH]; [reflexivity|]. cbn [flat_map length]. rewrite app_length, be_bytes_length, IH. lia. }
    rewrite Q, Y. lia. }
  rewrite blit_ok by (rewrite LS; lia). rewrite LS. cbn [bind firstn app plus]. reflexivity.
Qed.

Lemma sha_again a comp iv sw g ps out out2 : instance a comp iv sw -> In a PropSha.sha_algs -> typed (sha_impl a) g -> Forall int_piece ps ->
  bits_below (PropSha.counter_bits a) (concat ps) -> (digest_bytes a <= length out)%nat -> (digest_bytes a <= length out2)%nat ->
  exists c c1 d c2, updates (sha_impl a) (iinit (sha_impl a) g) ps = Ret c /\ idigest (sha_impl a) c out = Ret (c1, d) /\
   idigest (sha_impl a) c1 out2 = Ret (c2, firstn (digest_bytes a) (flat_map (be_bytes (word_bytes a))
     (comp (lib_iterate (block_bytes a) (2 * word_bytes a) (be_bytes (2 * word_bytes a)) comp iv (concat ps))
       (tail_block (block_bytes a) (2 * word_bytes a) (if wipes a then 0 else 8 * N.of_nat (length (concat ps)))))) ++ skipn (digest_bytes a) out2).
Proof.
  intros Hi Ha Hg HP HT Ho Ho2. destruct (PropSha.feed a g ps Ha Hg HP HT) as (c & E & F).
  assert (B : bytes_ok (concat ps)).
  { clear -HP. induction HP as [|p ps [Hp _] _ IH]; cbn; [constructor|apply Forall_app; auto]. }
  assert (L : 8 * N.of_nat (length (concat ps)) < limit a) by (rewrite <- PropSha.counter_limit; exact HT).
  destruct (sha_second a comp iv sw (concat ps) c out out2 Hi Ha F B L Ho Ho2) as (c1 & d & c2 & E1 & E2).
  exists c, c1, d, c2. split; [exact E|]. split; [exact E1|exact E2].
Qed.
Lemma sha3_again lanes n cap outbits g ps out out2 : (1 <= lanes <= 24)%nat -> cap = N.of_nat (1600 - 64 * lanes) -> outbits = 8 * N.of_nat n -> outbits < 2 ^ 32 ->
  kshape g -> Forall keccak_piece ps -> (n <= length out)%nat -> (n <= length out2)%nat ->
  exists c c1 d c2, updates (sha3_impl cap outbits) (iinit (sha3_impl cap outbits) g) ps = Ret c /\ keccak_squeeze c out = Ret (c1, d) /\
    keccak_squeeze c1 out2 = Ret (c2, again_sha3 (1600 - 64 * lanes) (8 * n) (concat ps) ++ skipn n out2).
Proof.
  intros Hl -> -> Hb Hg HP Ho Ho2. assert (HPL : ((2 = 2 /\ 2 = 2) \/ (2 = 15 /\ 2 = 4) \/ (2 = 3 /\ 2 = 2)) ) by (left; split; reflexivity).
  unfold sha3_impl. setoid_rewrite updates_k. cbn [iinit].
  destruct (updates_kfed lanes Hl 2 2 HPL (8 * N.of_nat n) ps [] (keccak_init (N.of_nat (1600 - 64 * lanes)) (8 * N.of_nat n) 2 2 g)) as (c & E & Hf); auto.
  { apply PSponge2.fed_init; auto. }
  cbn [app] in Hf. pose proof (pieces_concat_bytes ps HP) as B.
  destruct (first_squeeze lanes Hl 2 2 HPL (concat ps) c out n Hf B Ho Hb) as (c1 & E1 & S1).
  destruct (next_squeeze lanes Hl 2 2 HPL _ c1 out2 n n S1 (final_ok lanes Hl 2 2 HPL _ B) Ho2 Hb) as (c2 & E2 & _).
  exists c, c1. eexists. exists c2. split; [exact E|]. split; [exact E1|]. rewrite E2. repeat f_equal.
  pose proof (sponge_bytes lanes Hl 2 2 HPL (concat ps) (2 * n) B) as SB.
  unfold again_sha3, SFips202.KECCAK. replace (1600 - (1600 - 64 * lanes))%nat with (64 * lanes)%nat by lia.
  change (suffix 2 2) with [false; true] in SB. replace (2 * (8 * n))%nat with (8 * (2 * n))%nat by lia. rewrite SB.
  replace (2 * n)%nat with (n + n)%nat by lia. rewrite sbytes_app. replace (8 * n / 8)%nat with n by lia.
  rewrite skipn_app, sbytes_len, Nat.sub_diag, skipn_O, skipn_all2 by (rewrite sbytes_len; lia). reflexivity.
Qed.
Lemma hash_again I P T H H2 : again_fn I P T H H2 -> forall g ps out out2, typed I g -> Forall P ps -> T (concat ps) ->
  (idsz I <= length out)%nat -> (idsz I <= length out2)%nat ->
  exists c c1 d c2, updates I (iinit I g) ps = Ret c /\ idigest I c out = Ret (c1, d) /\
    idigest I c1 out2 = Ret (c2, H2 (concat ps) ++ skipn (idsz I) out2).
Proof.
  intros K. destruct K; intros g ps out out2 Hg HP HT Ho Ho2.
  - edestruct (sha_again _ _ _ _ g ps out out2 inst_sha1) as (c & c1 & d & c2 & E & E1 & E2); auto; [left; reflexivity|].
    exists c, c1, d, c2. split; [exact E|]. split; [exact E1|]. rewrite E2. f_equal. f_equal. cbn [idsz sha_impl]. f_equal.
    unfold again_SHA1. cbn [wipes alg_sha1 digest_bytes word_bytes]. change (block_bytes alg_sha1) with 64%nat. change (2 * 4)%nat with 8%nat.
    apply firstn_all2.
    assert (G2 : forall W l s, length (fold_left (sha1_round W) l s) = length s).
    { intros W. induction l as [|t l IH0]; intros v; [reflexivity|]. cbn [fold_left]. rewrite IH0.
      do 6 (destruct v as [|? v]; [reflexivity|]). reflexivity. }
    assert (G : forall l s, length s = 5%nat -> length (fold_left sha1_compress l s) = 5%nat).
    { induction l as [|b l IH]; intros s Hs; [exact Hs|]. cbn [fold_left]. apply IH.
      unfold sha1_compress, zip_add. rewrite map_length, combine_length, G2. lia. }
    assert (Q : forall s, length (flat_map (be_bytes 4) s) = (length s * 4)%nat).
    { induction s as [|x s IH]; [reflexivity|]. cbn [flat_map length]. rewrite app_length, be_bytes_length, IH. lia. }
    rewrite Q. change (sha1_compress (lib_iterate 64 8 (be_bytes 8) sha1_compress sha1_IV (concat ps)) (tail_block 64 8 0)) with
      (fold_left sha1_compress [tail_block 64 8 0] (fold_left sha1_compress (pieces 64 (lib_padded 64 8 (be_bytes 8) (concat ps))) sha1_IV)).
    rewrite <- fold_left_app, G by reflexivity. lia.
  - edestruct (sha_again _ _ _ _ g ps out out2 inst_sha224) as (c & c1 & d & c2 & E & E1 & E2); auto; [right; left; reflexivity|].
    exists c, c1, d, c2. split; [exact E|]. split; [exact E1|]. rewrite E2. reflexivity.
  - edestruct (sha_again _ _ _ _ g ps out out2 inst_sha256) as (c & c1 & d & c2 & E & E1 & E2); auto; [do 2 right; left; reflexivity|].
    exists c, c1, d, c2. split; [exact E|]. split; [exact E1|]. rewrite E2. reflexivity.
  - edestruct (sha_again _ _ _ _ g ps out out2 inst_sha384) as (c & c1 & d & c2 & E & E1 & E2); auto; [do 3 right; left; reflexivity|].
    exists c, c1, d, c2. split; [exact E|]. split; [exact E1|]. rewrite E2. reflexivity.
  - edestruct (sha_again _ _ _ _ g ps out out2 inst_sha512) as (c & c1 & d & c2 & E & E1 & E2); auto; [do 4 right; left; reflexivity|].
    exists c, c1, d, c2. split; [exact E|]. split; [exact E1|]. rewrite E2. reflexivity.
  - edestruct (sha_again _ _ _ _ g ps out out2 inst_sha512_224) as (c & c1 & d & c2 & E & E1 & E2); auto; [do 5 right; left; reflexivity|].
    exists c, c1, d, c2. split; [exact E|]. split; [exact E1|]. rewrite E2. reflexivity.
  - edestruct (sha_again _ _ _ _ g ps out out2 inst_sha512_256) as (c & c1 & d & c2 & E & E1 & E2); auto; [do 6 right; left; reflexivity|].
    exists c, c1, d, c2. split; [exact E|]. split; [exact E1|]. rewrite E2. reflexivity.
  - destruct (md5_updates_fed garbage ps [] (md5_init g)) as (c & E & Hf).
    { apply fedm_init. exact Hg. }
    { eapply Forall_impl; [|exact HP]. intros p [_ X]. exact X. }
    assert (B : bytes_ok (concat ps)).
    { clear -HP. induction HP as [|p ps [Hp _] _ IH]; cbn; [constructor|apply Forall_app; auto]. }
    destruct (md5_digest_fed2 garbage _ c out Hf B Ho) as (c1 & E1 & _ & _ & Hf1 & B1).
    destruct (md5_digest_fed2 garbage _ c1 out2 Hf1 B1 Ho2) as (c2 & E2 & _).
    exists c, c1. eexists. exists c2. split; [exact E|]. split; [exact E1|exact E2].
  - apply (sha3_again 18 28 448 224); auto; lia.
  - apply (sha3_again 17 32 512 256); auto; lia.
  - apply (sha3_again 13 48 768 384); auto; lia.
  - apply (sha3_again 9 64 1024 512); auto; lia.
Qed.

Lemma again_hash I P T H H2 : again_fn I P T H H2 -> hash_fn I P T H.
Proof.
  intros K. destruct K.
  - exact hf_sha1.
  - exact hf_sha224.
  - exact hf_sha256.
  - exact hf_sha384.
  - exact hf_sha512.
  - exact hf_sha512_224.
  - exact hf_sha512_256.
  - exact (hf_md5 garbage).
  - exact (hf_keccak _ _ _ fn_sha3_224).
  - exact (hf_keccak _ _ _ fn_sha3_256).
  - exact (hf_keccak _ _ _ fn_sha3_384).
  - exact (hf_keccak _ _ _ fn_sha3_512).
Qed.

(** the two digests differ *)
Lemma sha_iter_eq a comp iv sw m : instance a comp iv sw -> bytes_ok m ->
  lib_iterate (block_bytes a) (2 * word_bytes a) (be_bytes (2 * word_bytes a)) comp iv m =
    fold_left (process a) (pieces (block_bytes a) (lib_padded (block_bytes a) (2 * word_bytes a) (be_bytes (2 * word_bytes a)) m)) (H0 a) /\
  words_ok (word_bits a) sw (lib_iterate (block_bytes a) (2 * word_bytes a) (be_bytes (2 * word_bytes a)) comp iv m).
Proof.
  intros Hi Hm. pose proof (i_wb _ _ _ _ Hi) as Hwb. pose proof (bsz_pos a Hwb) as G4.
  destruct (lib_padded_blocks a Hwb m) as (n & Hn).
  destruct (pieces_mult (block_bytes a) G4 _ n Hn) as (FP & _ & _).
  pose proof (pieces_bytes (block_bytes a) _ G4 (lib_padded_bytes a m Hm)) as FB.
  rewrite Forall_forall in FP, FB. unfold lib_iterate. rewrite (i_iv _ _ _ _ Hi).
  edestruct (fold_ext_inv (words_ok (word_bits a) sw) (process a) comp (pieces (block_bytes a) (lib_padded (block_bytes a) (2 * word_bytes a) (be_bytes (2 * word_bytes a)) m)) iv) as [X Y].
  - intros s b Hb Hs. destruct (i_step _ _ _ _ Hi s b Hs (FP _ Hb) (FB _ Hb)) as [X Y]. rewrite <- X. auto.
  - apply (i_ok _ _ _ _ Hi).
  - rewrite X. auto.
Qed.
(** one more compression with the tail block *)
Definition state1 (a : sha_alg) (m : list N) : list N :=
  fold_left (process a) (pieces (block_bytes a) (lib_padded (block_bytes a) (2 * word_bytes a) (be_bytes (2 * word_bytes a)) m)) (H0 a).
Definition state2 (a : sha_alg) (m : list N) (len : N) : list N := process a (state1 a m) (tail_block (block_bytes a) (2 * word_bytes a) len).
Lemma sha_tail_eq a comp iv sw m len : instance a comp iv sw -> bytes_ok m ->
  comp (lib_iterate (block_bytes a) (2 * word_bytes a) (be_bytes (2 * word_bytes a)) comp iv m) (tail_block (block_bytes a) (2 * word_bytes a) len) = state2 a m len.
Proof.
  intros Hi Hm. destruct (sha_iter_eq a comp iv sw m Hi Hm) as [E W]. pose proof (i_wb _ _ _ _ Hi) as Hwb.
  assert (LT : length (tail_block (block_bytes a) (2 * word_bytes a) len) = block_bytes a).
  { unfold tail_block, block_bytes. rewrite !app_length, repeat_length, be_bytes_length. cbn [length]. lia. }
  assert (BT : bytes_ok (tail_block (block_bytes a) (2 * word_bytes a) len)).
  { unfold tail_block. repeat (apply Forall_app; split); [repeat constructor| |apply be_bytes_ok].
    apply Forall_forall. intros x Hx. apply repeat_spec in Hx. subst. reflexivity. }
  destruct (i_step _ _ _ _ Hi _ _ W LT BT) as [X _]. rewrite <- X, E. reflexivity.
Qed.
Definition first_of (a : sha_alg) (s : list N) : N := hd 0 (flat_map (be_bytes (word_bytes a)) s).
Lemma sha2_again_differs a F iv m : instance a (sha2_compress F) iv 8 -> wbytes F = word_bytes a -> (0 < digest_bytes a)%nat -> bytes_ok m ->
  first_of a (state1 a m) <> first_of a (state2 a m (8 * N.of_nat (length m))) ->
  again_sha2 F iv (digest_bytes a) m <> lib_sha2_hash F iv (digest_bytes a) m.
Proof.
  intros Hi HF Hd Hm D E. apply D. apply (f_equal (hd 0)) in E. unfold again_sha2, lib_sha2_hash in E. rewrite HF in E.
  rewrite !PropSha.hd_firstn in E by exact Hd. fold (block_bytes a) in E.
  rewrite (sha_tail_eq a _ iv 8 m _ Hi Hm) in E. destruct (sha_iter_eq a _ iv 8 m Hi Hm) as [E1 _]. rewrite E1 in E.
  symmetry. exact E.
Qed.
Lemma sha3_again_differs lanes n : (1 <= lanes <= 24)%nat -> (1 <= n)%nat ->
  sbyte lanes (final lanes 2 2 []) 0 <> sbyte lanes (final lanes 2 2 []) n ->
  again_sha3 (1600 - 64 * lanes) (8 * n) [] <> SFips202.sha3 (1600 - 64 * lanes) (8 * n) [].
Proof.
  intros Hl Hn D E. apply D. assert (HPL : ((2 = 2 /\ 2 = 2) \/ (2 = 15 /\ 2 = 4) \/ (2 = 3 /\ 2 = 2)) ) by (left; split; reflexivity).
  assert (B : bytes_ok []) by constructor.
  rewrite (sha3_spec _ _ lanes n [] Hl eq_refl eq_refl B) in E.
  pose proof (sponge_bytes lanes Hl 2 2 HPL [] (2 * n) B) as SB. change (suffix 2 2) with [false; true] in SB.
  unfold again_sha3, SFips202.KECCAK in E. replace (1600 - (1600 - 64 * lanes))%nat with (64 * lanes)%nat in E by lia.
  replace (2 * (8 * n))%nat with (8 * (2 * n))%nat in E by lia. rewrite SB in E.
  replace (2 * n)%nat with (n + n)%nat in E by lia. rewrite sbytes_app in E. replace (8 * n / 8)%nat with n in E by lia.
  rewrite skipn_app, sbytes_len, Nat.sub_diag, skipn_O, skipn_all2 in E by (rewrite sbytes_len; lia). cbn [app] in E.
  destruct n as [|n]; [lia|]. unfold sbytes in E. change (0 + S n)%nat with (S n) in E. cbn [seq map] in E. injection E as E _. symmetry. exact E.
Qed.
Lemma again_differs I P T H H2 : again_fn I P T H H2 -> exists ps, Forall P ps /\ T (concat ps) /\ H2 (concat ps) <> H (concat ps).
Proof.
  intros K. destruct K.
  2: exists [[97]]; split; [constructor; [split; [repeat constructor|vm_compute; reflexivity]|constructor]|]; split; [vm_compute; reflexivity|]; cbn [concat app].
  2: apply (sha2_again_differs _ _ _ _ inst_sha224 eq_refl); [cbn; lia|repeat constructor|vm_compute; discriminate].
  1-6: exists []; split; [constructor|]; split; [vm_compute; reflexivity|]; cbn [concat].
  - intros E. apply (f_equal (hd 0)) in E. revert E.
    unfold again_SHA1, lib_SHA1. pose proof (sha_tail_eq _ _ _ _ [] 0 inst_sha1 (Forall_nil _)) as E2.
    change (block_bytes alg_sha1) with 64%nat in E2. cbn [word_bytes alg_sha1] in E2. change (2 * 4)%nat with 8%nat in E2. rewrite E2. destruct (sha_iter_eq _ _ _ _ [] inst_sha1 (Forall_nil _)) as [E1 _].
    change (block_bytes alg_sha1) with 64%nat in E1. cbn [word_bytes alg_sha1] in E1. change (2 * 4)%nat with 8%nat in E1. rewrite E1. vm_compute. discriminate.
  - apply (sha2_again_differs _ _ _ _ inst_sha256 eq_refl); [cbn; lia|exact (Forall_nil _)|vm_compute; discriminate].
  - apply (sha2_again_differs _ _ _ _ inst_sha384 eq_refl); [cbn; lia|exact (Forall_nil _)|vm_compute; discriminate].
  - apply (sha2_again_differs _ _ _ _ inst_sha512 eq_refl); [cbn; lia|exact (Forall_nil _)|vm_compute; discriminate].
  - apply (sha2_again_differs _ _ _ _ inst_sha512_224 eq_refl); [cbn; lia|exact (Forall_nil _)|vm_compute; discriminate].
  - apply (sha2_again_differs _ _ _ _ inst_sha512_256 eq_refl); [cbn; lia|exact (Forall_nil _)|vm_compute; discriminate].
  - exists [[97]]. split; [constructor; [split; [repeat constructor|discriminate]|constructor]|]. split; [exact Logic.I|]. cbn [concat app].
    vm_compute. discriminate.
  - exists []. split; [constructor|]. split; [exact Logic.I|]. apply (sha3_again_differs 18 28); [lia|lia|]. vm_compute. discriminate.
  - exists []. split; [constructor|]. split; [exact Logic.I|]. apply (sha3_again_differs 17 32); [lia|lia|]. vm_compute. discriminate.
  - exists []. split; [constructor|]. split; [exact Logic.I|]. apply (sha3_again_differs 13 48); [lia|lia|]. vm_compute. discriminate.
  - exists []. split; [constructor|]. split; [exact Logic.I|]. apply (sha3_again_differs 9 64); [lia|lia|]. vm_compute. discriminate.
Qed.
