(** Updates and digests keep the arrays of a context at their declared sizes. *)
From Verif Require SFips202 SMd5.
From Verif Require Import Base MSha MFront MMd5 MKeccak SHash SKeccakFns SHashFns.
Local Open Scope N_scope.

Lemma blit_len {A} (l src : list A) i r : blit l i src = Ret r -> length r = length l.
Proof.
  unfold blit. destruct (Nat.leb_spec (i + length src) (length l)) as [L|L]; [|discriminate]. intros E. injection E as <-.
  rewrite !app_length, firstn_length, skipn_length. lia.
Qed.
Lemma wr_len {A} (l : list A) i v r : wr l i v = Ret r -> length r = length l.
Proof. apply blit_len. Qed.
Lemma bind_inv {A B} (m : outcome A) (k : A -> outcome B) r : bind m k = Ret r -> exists a, m = Ret a /\ k a = Ret r.
Proof. destruct m; cbn [bind]; [eauto|discriminate|discriminate]. Qed.
Ltac inv_bind E := let a := fresh "a" in let X := fresh "X" in apply bind_inv in E; destruct E as (a & X & E).

Lemma sha_update_typed a : forall inp c i co c', sha_update_loop a c inp i co = Ret c' -> length (block c') = length (block c).
Proof.
  induction inp as [|b r IH]; intros c i co c' E; cbn [sha_update_loop] in E; [injection E as <-; reflexivity|].
  destruct co; [injection E as <-; reflexivity|]. inv_bind E. cbv zeta in E. apply wr_len in X.
  destruct (i =? INT_MAX); [discriminate|]. apply IH in E. rewrite E.
  match goal with |- context [if ?b then _ else _] => destruct b end; cbn [block process_block]; exact X.
Qed.
Lemma sha_padding_typed a c c' : sha_padding a c = Ret c' -> length (block c') = length (block c).
Proof.
  unfold sha_padding. cbv zeta. intros E. inv_bind E. inv_bind E. inv_bind E. injection E as <-. cbn [block process_block].
  apply blit_len in X1. apply wr_len in X. rewrite X1.
  destruct (Nat.ltb _ _) in X0.
  - inv_bind X0. injection X0 as <-. cbn [block process_block]. apply blit_len in X2. congruence.
  - destruct (Nat.ltb _ _) in X0; [inv_bind X0|]; injection X0 as <-; cbn [block]; try (apply blit_len in X2); congruence.
Qed.
Lemma sha_digest_typed a c out c' o : length (block c) = block_bytes a -> sha_digest a c out = Ret (c', o) -> length (block c') = block_bytes a.
Proof.
  intros Hc E. unfold sha_digest in E. inv_bind E. cbv zeta in E. apply bind_inv in E. destruct E as (o' & _ & E). injection E as <- _.
  apply sha_padding_typed in X. destruct (wipes a); cbn [block]; [apply repeat_length|congruence].
Qed.

Lemma md5_loop_typed : forall fuel c rest wl c' r w, md5_loop fuel c rest wl = Ret (c', r, w) -> length (mblock c') = length (mblock c).
Proof.
  induction fuel as [|fuel IH]; intros c rest wl c' r w E; cbn [md5_loop] in E; [discriminate|].
  destruct rest as [|x rest]; [injection E as <- _ _; reflexivity|]. cbv zeta in E.
  destruct (Nat.ltb _ _) in E; [injection E as <- _ _; reflexivity|]. inv_bind E. apply IH in E. rewrite E. cbn [mblock]. eapply blit_len; exact X.
Qed.
Lemma md5_update_typed g c p c' : md5_update g c p = Ret c' -> length (mblock c') = length (mblock c).
Proof.
  unfold md5_update. intros E. inv_bind E. destruct a as [[c1 r] w]. apply md5_loop_typed in X. inv_bind E. inv_bind E. destruct a0 as [c2 rem].
  assert (L : length (mblock c2) = length (mblock c1)).
  { destruct r; [injection X1 as <- _; reflexivity|]. cbv zeta in X1. inv_bind X1. injection X1 as <- _. cbn [mblock]. eapply blit_len; eassumption. }
  destruct (rem =? 0); injection E as <-; cbn [mblock]; congruence.
Qed.
Lemma md5_digest_typed g c out c' o : md5_digest g c out = Ret (c', o) -> length (mblock c') = length (mblock c).
Proof.
  unfold md5_digest. cbv zeta. intros E. inv_bind E. inv_bind E. inv_bind E. injection E as <- _. apply md5_update_typed in X0.
  destruct (Nat.leb _ _) in X; [|discriminate]. apply md5_update_typed in X. congruence.
Qed.

Lemma cube_length f : length (cube f) = 25%nat.
Proof. unfold cube. rewrite map_length, seq_length. reflexivity. Qed.
Lemma transform_length A rc : length (k_transform A rc) = 25%nat.
Proof.
  unfold k_transform, k_iota. pose proof (cube_length (fun x y => N.lxor (lane (k_rhopi (k_theta A)) x y) (N.land (bnot 64 (lane (k_rhopi (k_theta A)) ((x + 1) mod 5) y)) (lane (k_rhopi (k_theta A)) ((x + 2) mod 5) y)))) as L.
  fold (k_chi (k_rhopi (k_theta A))) in L. destruct (k_chi _) as [|x l]; [discriminate L|]. cbn [length] in *. exact L.
Qed.
Lemma permutation_length A n : length A = 25%nat -> length (k_permutation A n) = 25%nat.
Proof.
  unfold k_permutation. generalize (seq 0 n) as l. intros l. revert A. induction l as [|i l IH]; intros A HA; cbn [fold_left]; [exact HA|].
  apply IH. apply transform_length.
Qed.
Lemma absorb_length st i l n st' : k_absorb st i l n = Ret st' -> length st' = 25%nat.
Proof.
  unfold k_absorb, seq_to_state. destruct (Nat.ltb _ _); [discriminate|]. cbn [bind]. intros E.
  assert (X : forall (a b : list N), Ret a = Ret b -> length a = 25%nat -> length b = 25%nat) by (intros a b Y; injection Y as ->; auto).
  apply X in E; [exact E|]. apply permutation_length. reflexivity.
Qed.
Lemma absorb_queue_typed c c' : kshape c -> absorb_queue c = Ret c' -> kshape c'.
Proof. unfold absorb_queue. intros [_ H] E. inv_bind E. injection E as <-. apply absorb_length in X. split; assumption. Qed.
Lemma absorb_blocks_length : forall n st d r k st', length st = 25%nat -> absorb_blocks n st d r k = Ret st' -> length st' = 25%nat.
Proof.
  induction n as [|n IH]; intros st d r k st' Hs E; cbn [absorb_blocks] in E; [injection E as <-; exact Hs|].
  inv_bind E. apply absorb_length in X. eapply IH; eassumption.
Qed.
Lemma absorb_loop_typed : forall fuel c inp bl i c', kshape c -> absorb_loop fuel c inp bl i = Ret c' -> kshape c'.
Proof.
  induction fuel as [|fuel IH]; intros c inp bl i c' [H1 H2] E; cbn [absorb_loop] in E;
    (destruct (bl <=? i); [injection E as <-; split; assumption|]); [discriminate|].
  destruct (_ && _ && _).
  - cbv zeta in E. inv_bind E. eapply IH; [|exact E]. split; [|exact H2]. eapply absorb_blocks_length; eassumption.
  - cbv zeta in E. inv_bind E. inv_bind E. inv_bind E. apply blit_len in X0.
    assert (K : kshape a1).
    { destruct (_ =? _) in X1; [eapply absorb_queue_typed; [|exact X1]|injection X1 as <-]; (split; cbn [kst queue kset]; [exact H1|congruence]). }
    destruct (_ =? 0) in E; [eapply IH; [exact K|exact E]|]. inv_bind E. inv_bind E. apply wr_len in X3. destruct K as [K1 K2].
    eapply IH; [|exact E]. split; cbn [kst queue kset]; [exact K1|congruence].
Qed.
Lemma keccak_absorb_typed c inp bl c' : kshape c -> keccak_absorb c inp bl = Ret c' -> kshape c'.
Proof. unfold keccak_absorb. destruct (_ || _); intros K E; [injection E as <-; exact K|]. eapply absorb_loop_typed; eassumption. Qed.
Lemma k_or_len q i v q' : k_or q i v = Ret q' -> length q' = length q.
Proof. unfold k_or. intros E. inv_bind E. eapply wr_len; exact E. Qed.
Lemma k_padding_typed c c' : kshape c -> k_padding c = Ret c' -> kshape c'.
Proof.
  intros [H1 H2] E. unfold k_padding in E. inv_bind E. inv_bind E. inv_bind E. inv_bind E. injection E as <-.
  assert (K : kshape a).
  { destruct (_ =? _) in X; cbv zeta in X.
    - inv_bind X. inv_bind X. inv_bind X. injection X as <-. apply k_or_len in X3. apply blit_len in X5.
      destruct (absorb_queue_typed (kset c (kst c) a3 (inq c)) a4) as [K1 K2]; [split; cbn [kst queue kset]; [exact H1|congruence]|exact X4|].
      split; cbn [kst queue kset]; [exact K1|congruence].
    - inv_bind X. inv_bind X. injection X as <-. apply blit_len in X3. apply k_or_len in X4. split; cbn [kst queue kset]; [exact H1|congruence]. }
  destruct K as [K1 K2]. apply k_or_len in X0.
  destruct (absorb_queue_typed (kset a (kst a) a0 (inq a)) a1) as [K3 K4]; [split; cbn [kst queue kset]; [exact K1|congruence]|exact X1|].
  apply blit_len in X2. split; cbn [kst queue]; [exact K3|congruence].
Qed.
Lemma squeeze_loop_typed : forall fuel c out bl i c' o, kshape c -> squeeze_loop fuel c out bl i = Ret (c', o) -> kshape c'.
Proof.
  induction fuel as [|fuel IH]; intros c out bl i c' o [H1 H2] E; cbn [squeeze_loop] in E;
    (destruct (bl <=? i); [injection E as <- _; split; assumption|]); [discriminate|].
  inv_bind E. cbv zeta in E. inv_bind E. inv_bind E.
  assert (K : kshape a).
  { destruct (squeezable c =? 0) in X; [|injection X as <-; split; assumption]. cbv zeta in X. inv_bind X. injection X as <-. apply blit_len in X2.
    split; cbn [kst queue]; [apply permutation_length; exact H1|congruence]. }
  eapply IH; [|exact E]. exact K.
Qed.
Lemma keccak_squeeze_typed c out c' o : kshape c -> keccak_squeeze c out = Ret (c', o) -> kshape c'.
Proof.
  intros K E. unfold keccak_squeeze in E. cbv zeta in E. inv_bind E. inv_bind E.
  assert (K1 : kshape a).
  { destruct (_ && _) in X; [|injection X as <-; exact K]. inv_bind X. injection X as <-. apply keccak_absorb_typed in X1; [|exact K]. exact X1. }
  eapply squeeze_loop_typed; [|exact E]. destruct (squeezing a); [injection X0 as <-; exact K1|eapply k_padding_typed; eassumption].
Qed.
Lemma keccak_init_typed cap out P L g : kshape g -> kshape (keccak_init cap out P L g).
Proof.
  intros K. unfold keccak_init. destruct (_ || _); [exact K|]. split; cbn [kst queue]; apply repeat_length.
Qed.

Definition keeps_typed (I : hash_impl) : Prop :=
  (forall c, typed I c -> typed I (iinit I c)) /\
  (forall c p c', typed I c -> iupdate I c p = Ret c' -> typed I c') /\
  (forall c out c' o, typed I c -> idigest I c out = Ret (c', o) -> typed I c').
Lemma sha_keeps a : keeps_typed (sha_impl a).
Proof.
  split; [|split]; cbn [typed iinit iupdate idigest sha_impl].
  - intros c Hc. exact Hc.
  - intros c p c' Hc E. unfold sha_update in E. apply sha_update_typed in E. congruence.
  - intros c out c' o Hc E. eapply sha_digest_typed; eassumption.
Qed.
Lemma md5_keeps g : keeps_typed (md5_impl g).
Proof.
  split; [|split]; cbn [typed iinit iupdate idigest md5_impl].
  - intros c Hc. exact Hc.
  - intros c p c' Hc E. apply md5_update_typed in E. congruence.
  - intros c out c' o Hc E. apply md5_digest_typed in E. congruence.
Qed.
Lemma sha3_keeps cap out : keeps_typed (sha3_impl cap out).
Proof.
  split; [|split]; cbn [typed iinit iupdate idigest sha3_impl].
  - intros c Hc. apply keccak_init_typed. exact Hc.
  - intros c p c' Hc E. eapply keccak_absorb_typed; eassumption.
  - intros c o c' o' Hc E. eapply keccak_squeeze_typed; eassumption.
Qed.
Lemma xof_keeps cap P L b : keeps_typed (xof_impl cap P L b).
Proof.
  split; [|split]; cbn [typed iinit iupdate idigest xof_impl].
  - intros c Hc. apply keccak_init_typed. exact Hc.
  - intros c p c' Hc E. eapply keccak_absorb_typed; eassumption.
  - intros c o c' o' Hc E. unfold shake_digest in E. eapply keccak_squeeze_typed; [|exact E]. exact Hc.
Qed.
Lemma hash_keeps I P T H : hash_fn I P T H -> keeps_typed I.
Proof.
  intros K. destruct K; try apply sha_keeps; try apply md5_keeps.
  match goal with K : keccak_fn _ _ _ |- _ => destruct K end;
    [apply (sha3_keeps 448 224)|apply (sha3_keeps 512 256)|apply (sha3_keeps 768 384)|apply (sha3_keeps 1024 512)
    |apply (xof_keeps 256 15 4)|apply (xof_keeps 512 15 4)|apply (xof_keeps 256 3 2)|apply (xof_keeps 512 3 2)].
Qed.
