(** Property theorems C72: null pointers passed to the hash functions. *)
From Coq Require Import String.
From Verif Require SFips202 SMd5.
From Verif Require Import Base SHex SFips180 SShaLib MSha MFront MMd5 MKeccak SHash SKeccakFns SHashFns PWords PSha PSponge PSponge2 PKeccakFns PShort MNull SNull PropFront.
Local Open Scope N_scope.

Lemma checked_hash I P T H : checked_fn I P T H -> hash_fn I P T H.
Proof. destruct 1; constructor. Qed.
Lemma checked_nil I P T H : checked_fn I P T H -> T [].
Proof. destruct 1; try exact Logic.I; unfold bits_below; cbn [length]; reflexivity. Qed.
Lemma calls_data I : forall ks c, Forall no_digest ks -> calls_p I (Some c) ks = omap Some (updates I c (data_of ks)).
Proof.
  induction ks as [|k ks IH]; intros c F; [reflexivity|]. inversion F as [|? ? F1 F2]; subst.
  destruct k as [[p|]|[o|]]; cbn [no_digest] in F1; [|exact (IH c F2)|contradiction|exact (IH c F2)].
  cbn [calls_p call_p update_p data_of updates]. destruct (iupdate I c p) as [c1| |]; cbn [omap bind]; [apply IH; exact F2|reflexivity|reflexivity].
Qed.

(** ** C72 *)
(** MD5, SHA-1, SHA-2: updates with a null input and digests with a null output, anywhere among the calls, change nothing. *)
Theorem C72_null_ignored : forall I P T H, checked_fn I P T H ->
  forall g ks out, typed I g -> Forall no_digest ks -> Forall P (data_of ks) -> T (concat (data_of ks)) -> (idsz I <= length out)%nat ->
  exists c c', calls_p I (init_p I (Some g)) ks = Ret (Some c) /\
    digest_p I (Some c) (Some out) = Ret (Some c', Some (H (concat (data_of ks)) ++ skipn (idsz I) out)).
Proof.
  intros I P T H K g ks out Hg F HP HT Ho.
  destruct (hash_streams _ _ _ _ (checked_hash _ _ _ _ K) g (data_of ks) out Hg HP HT Ho) as (c & c' & E1 & E2 & _).
  exists c, c'. cbn [init_p]. rewrite calls_data by exact F. rewrite E1. split; [reflexivity|]. cbn [digest_p]. rewrite E2. reflexivity.
Qed.
Print Assumptions C72_null_ignored.
(** any history, digests in between included: the calls with a null pointer do nothing, the others run the functions as they are *)
Fixpoint calls_run (I : hash_impl) (c : ictx I) (ks : list (list N + list N)) : outcome (ictx I) :=
  match ks with
  | [] => Ret c
  | inl i :: ks => c <- iupdate I c i ;; calls_run I c ks
  | inr o :: ks => '(c, _) <- idigest I c o ;; calls_run I c ks
  end.
Definition no_null (ks : list call) : list (list N + list N) :=
  flat_map (fun k => match k with Update (Some i) => [inl i] | Digest (Some o) => [inr o] | _ => [] end) ks.
Theorem C72_null_removed : forall I P T H, checked_fn I P T H ->
  forall g ks, calls_p I (init_p I (Some g)) ks = omap Some (calls_run I (iinit I g) (no_null ks)).
Proof.
  intros I P T H _ g ks. cbn [init_p]. generalize (iinit I g). induction ks as [|k ks IH]; intros c; [reflexivity|].
  destruct k as [[i|]|[o|]]; cbn [calls_p call_p update_p digest_p no_null flat_map app bind omap fst]; try exact (IH c).
  - cbn [calls_run]. destruct (iupdate I c i) as [c'| |]; [exact (IH c')|reflexivity|reflexivity].
  - cbn [calls_run]. destruct (idigest I c o) as [[c' o']| |]; [exact (IH c')|reflexivity|reflexivity].
Qed.
Print Assumptions C72_null_removed.
(** a null context: every call returns and no buffer is written *)
Theorem C72_null_context : forall I P T H, checked_fn I P T H ->
  forall ks out, calls_p I (init_p I None) ks = Ret None /\ digest_p I None out = Ret (None, out).
Proof.
  intros I P T H _ ks out. split; [|destruct out; reflexivity]. induction ks as [|k ks IH]; [reflexivity|].
  destruct k as [[p|]|[o|]]; exact IH.
Qed.
Print Assumptions C72_null_context.
(** one-shot with null data: the digest of the empty message, also for MD5, whose update is undefined for an empty
    message that is not null (C18) *)
Theorem C72_encode_null_data : forall I P T H, checked_fn I P T H ->
  forall g out, typed I g -> (idsz I <= length out)%nat -> encode_p I g None (Some out) = Ret (Some (H [] ++ skipn (idsz I) out)).
Proof.
  intros I P T H K g out Hg Ho.
  destruct (C72_null_ignored I P T H K g [] out Hg) as (c & c' & E1 & E2); try solve [constructor]; [apply (checked_nil _ _ _ _ K)|exact Ho|].
  cbn [calls_p init_p] in E1. injection E1 as <-. unfold encode_p. cbn [init_p update_p bind]. rewrite E2. reflexivity.
Qed.
Print Assumptions C72_encode_null_data.
(** one-shot with null output: nothing *)
Theorem C72_encode_null_output : forall I P T H, checked_fn I P T H ->
  forall g data, typed I g -> (forall d, data = Some d -> P d /\ T d) -> encode_p I g data None = Ret None.
Proof.
  intros I P T H K g data Hg HD. destruct data as [d|]; [|reflexivity]. destruct (HD d eq_refl) as [HP HT].
  destruct (hash_streams _ _ _ _ (checked_hash _ _ _ _ K) g [d] (repeat 0 (idsz I)) Hg) as (c & c' & E1 & _).
  - repeat constructor; exact HP.
  - cbn [concat]. rewrite app_nil_r. exact HT.
  - rewrite repeat_length. lia.
  - cbn [updates] in E1. unfold encode_p. cbn [init_p update_p]. destruct (iupdate I (iinit I g) d) as [c1| |]; [reflexivity|discriminate|discriminate].
Qed.
Print Assumptions C72_encode_null_output.

Lemma kupdates_eq : forall ps c, keccak_updates c ps = kupdates c ps.
Proof. induction ps as [|p ps IH]; intros c; [reflexivity|]. cbn [keccak_updates kupdates]. destruct (keccak_update c p); cbn [bind]; auto. Qed.
Lemma inits_facts init : In init keccak_inits -> exists lanes O P L, (1 <= lanes <= 24)%nat /\
  ((P = 2 /\ L = 2) \/ (P = 15 /\ L = 4) \/ (P = 3 /\ L = 2)) /\ init = keccak_init (N.of_nat (1600 - 64 * lanes)) O P L.
Proof.
  intros HI. cbn [In keccak_inits] in HI.
  destruct HI as [<-|[<-|[<-|[<-|[<-|[<-|[<-|[<-|[]]]]]]]]].
  - exists 18%nat, 224, 2, 2. repeat split; [lia|lia|auto].
  - exists 17%nat, 256, 2, 2. repeat split; [lia|lia|auto].
  - exists 13%nat, 384, 2, 2. repeat split; [lia|lia|auto].
  - exists 9%nat, 512, 2, 2. repeat split; [lia|lia|auto].
  - exists 21%nat, 0, 15, 4. repeat split; [lia|lia|auto].
  - exists 17%nat, 0, 15, 4. repeat split; [lia|lia|auto].
  - exists 21%nat, 0, 3, 2. repeat split; [lia|lia|auto].
  - exists 17%nat, 0, 3, 2. repeat split; [lia|lia|auto].
Qed.
(** SHA-3 and the XOFs: after any updates, an update with a null pointer and a length other than zero reads through the
    null pointer *)
Theorem C72_keccak_update_refuted : forall init, In init keccak_inits ->
  forall g ps len, kshape g -> Forall keccak_piece ps -> 0 < len -> 8 * len + 1600 <= 2 ^ 32 ->
  exists c, keccak_updates (init g) ps = Ret c /\ keccak_update_null c len = UB OutOfBounds.
Proof.
  intros init HI g ps len Hg HP H0 H1. destruct (inits_facts _ HI) as (lanes & O & P & L & Hl & HPL & ->).
  destruct (updates_kfed lanes Hl P L HPL O ps [] (keccak_init (N.of_nat (1600 - 64 * lanes)) O P L g)) as (c & E & Hf); auto.
  { apply fed_init; auto. }
  exists c. rewrite kupdates_eq. split; [exact E|]. destruct Hf as (bs & r & q & _ & _ & Hr & _ & _ & ->).
  set (st := fold_left _ _ _). clearbody st. clear E. unfold keccak_update_null, u64. rewrite N.mod_small by lia.
  unfold keccak_absorb. cbn [inq squeezing kc]. replace ((8 * N.of_nat (length r)) mod 8 =? 0) with true by lia. cbn [negb orb].
  remember (length r) as lr eqn:Elr. clear Elr. remember (8 * len) as bl eqn:Ebl. cbn [length absorb_loop].
  replace (bl <=? 0) with false by lia. cbn [inq rate kst nr queue kc].
  destruct ((8 * N.of_nat lr =? 0) && (N.of_nat (64 * lanes) <=? bl) && (0 <=? bl - N.of_nat (64 * lanes))) eqn:D.
  - apply andb_prop in D as [D _]. apply andb_prop in D as [D1 D2].
    destruct (N.to_nat ((bl - 0) / N.of_nat (64 * lanes))) as [|n] eqn:En.
    + exfalso. assert (1 <= (bl - 0) / N.of_nat (64 * lanes)); [|lia]. apply N.div_le_lower_bound; lia.
    + cbn [absorb_blocks]. unfold k_absorb, seq_to_state.
      replace (N.to_nat (N.of_nat (64 * lanes) / 64)) with lanes by lia.
      rewrite skipn_nil. cbn [length]. replace (Nat.ltb 0 (8 * lanes)) with true by (symmetry; apply Nat.ltb_lt; lia). reflexivity.
  - clear D. set (pb := if _ <? _ then _ else _).
    assert (Hpb : 0 < pb /\ pb mod 8 = 0).
    { unfold pb, u32. rewrite !(N.mod_small (bl - 0)) by lia. rewrite (N.mod_small (bl - 0 + _)) by lia.
      destruct (N.ltb_spec (N.of_nat (64 * lanes)) (bl - 0 + 8 * N.of_nat lr)); [|lia].
      replace (N.of_nat (64 * lanes) + 2 ^ 32 - 8 * N.of_nat lr) with (N.of_nat (64 * lanes) - 8 * N.of_nat lr + 1 * 2 ^ 32) by lia.
      rewrite N.mod_add by discriminate. rewrite N.mod_small by lia. lia. }
    clearbody pb. destruct Hpb as [P1 P2]. cbv zeta. rewrite P2, N.sub_0_r. unfold grab. rewrite skipn_nil. cbn [length].
    replace (Nat.ltb 0 (N.to_nat (pb / 8))) with true by (symmetry; apply Nat.ltb_lt; lia). reflexivity.
Qed.
Print Assumptions C72_keccak_update_refuted.
(** with length zero it is harmless *)
Theorem C72_keccak_update_zero : forall c, keccak_update_null c 0 = Ret c.
Proof. intros c. unfold keccak_update_null. change (u64 (8 * 0)) with 0. unfold keccak_absorb. destruct (_ || _); reflexivity. Qed.
Print Assumptions C72_keccak_update_zero.
(** and a digest with a null output writes through the null pointer (unless an XOF is asked for nothing) *)
Theorem C72_keccak_digest_refuted : forall I rb H, keccak_fn I rb H ->
  forall g ps, typed I g -> Forall keccak_piece ps -> (0 < idsz I)%nat -> hash_run I g ps [] = UB OutOfBounds.
Proof. intros I rb H K g ps Hg HP Hd. apply (C33_short_buffer I keccak_piece (fun _ => True) H); auto. constructor 10 with (rb := rb). exact K. Qed.
Print Assumptions C72_keccak_digest_refuted.

(** ** Cases *)
(** "ab", nothing, a digest into nothing, "c": SHA-256 of "abc" *)
Example ex_null_calls :
  omap snd (c <- calls_p (sha_impl alg_sha256) (init_p (sha_impl alg_sha256) (Some (mkSha (repeat 7 8) 1 2 3 (repeat 9 64))))
    [Update (Some [97; 98]); Update None; Digest None; Update (Some [99])] ;; digest_p (sha_impl alg_sha256) c (Some (repeat 1 33)))
  = Ret (Some (flat_map (be_bytes 4) [0xba7816bf; 0x8f01cfea; 0x414140de; 0x5dae2223; 0xb00361a3; 0x96177a9c; 0xb410ff61; 0xf20015ad] ++ [1])).
Proof. vm_compute. reflexivity. Qed.
Example ex_null_sha3 : exists c, keccak_updates (iinit impl_sha3_256 (mkK (repeat 1 25) (repeat 2 192) 3 4 5 6 true 7 8 9 true)) [[97; 98]; []; [99]] = Ret c
  /\ keccak_update_null c 5 = UB OutOfBounds.
Proof.
  apply C72_keccak_update_refuted; [right; left; reflexivity|split; reflexivity| |reflexivity|discriminate].
  repeat constructor; try (cbn; lia); discriminate.
Qed.
