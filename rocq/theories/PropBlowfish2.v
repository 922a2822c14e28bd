(** C86: what Blowfish ciphertexts show, and what they do not protect: pgfe_blowfish_encrypt and pgfe_blowfish_decrypt treat every
    8-byte block alike (electronic codebook), with zeros filling up the last one. *)
From Verif Require Import Base MBlowfish PBlowfish PBlowfish2 PBlowfish3 PropBlowfish.
From Verif Require SBlowfish.
Local Open Scope N_scope.

(** the i-th 8-byte block of a buffer, and a message with the zeros that fill it up to [n] bytes *)
Definition block8 (i : nat) (l : list N) : list N := firstn 8 (skipn (8 * i) l).
Definition filled (n : nat) (m : list N) : list N := m ++ repeat 0 (n - length m).

Lemma skipn_twice {A} a : forall b (l : list A), skipn a (skipn b l) = skipn (b + a) l.
Proof. intros b. induction b as [|b IH]; intros [|x l]; cbn [skipn Nat.add]; auto using skipn_nil. Qed.
Lemma blocks_nth n : forall i (l : list N), (i < n)%nat -> nth_error (SBlowfish.blocks n l) i = Some (block8 i l).
Proof.
  induction n as [|n IH]; intros i l Hi; [lia|]. cbn [SBlowfish.blocks]. destruct i as [|i].
  - cbn [nth_error]. unfold block8. rewrite Nat.mul_0_r. reflexivity.
  - cbn [nth_error]. rewrite IH by lia. unfold block8. rewrite skipn_twice. replace (8 + 8 * i)%nat with (8 * S i)%nat by lia. reflexivity.
Qed.
(** a buffer of whole blocks is given by its blocks *)
Lemma block8_ext n : forall a b : list N, length a = (8 * n)%nat -> length b = (8 * n)%nat -> (forall i, (i < n)%nat -> block8 i a = block8 i b) -> a = b.
Proof.
  intros a b La Lb H. rewrite <- (concat_blocks n a La), <- (concat_blocks n b Lb). f_equal.
  apply (nth_ext _ _ [] []); [rewrite !blocks_length; reflexivity|]. intros i Hi. rewrite blocks_length in Hi.
  rewrite (nth_error_nth _ _ [] (blocks_nth n i a Hi)), (nth_error_nth _ _ [] (blocks_nth n i b Hi)). apply H, Hi.
Qed.

Lemma ecb_block g m k i : SBlowfish.padded_length (length m) = (8 * k)%nat -> (i < k)%nat ->
  block8 i (SBlowfish.ecb g m) = SBlowfish.block_bytes (g (SBlowfish.block_of (block8 i (SBlowfish.pad8 m)))).
Proof.
  intros E Hi. rewrite (ecb_crypted g m k E). set (bs := SBlowfish.blocks k (SBlowfish.pad8 m)).
  assert (Lk : length (map (fun b => SBlowfish.block_bytes (g (SBlowfish.block_of b))) bs) = k) by (rewrite map_length; apply blocks_length).
  pose proof (blocks_nth k i (crypted g bs) Hi) as H. unfold crypted in H at 1. rewrite <- Lk in H at 1. rewrite blocks_concat in H.
  2: { apply Forall_forall. intros b Hb. apply in_map_iff in Hb as (c & <- & _). reflexivity. }
  rewrite nth_error_map in H. unfold bs in H. rewrite blocks_nth in H by exact Hi. cbn [option_map] in H. unfold bs. congruence.
Qed.
Lemma block8_length k i (l : list N) : length l = (8 * k)%nat -> (i < k)%nat -> length (block8 i l) = 8%nat.
Proof. intros L Hi. unfold block8. rewrite firstn_length, skipn_length. lia. Qed.
Lemma block8_bytes i l : bytes_ok l -> bytes_ok (block8 i l).
Proof.
  intros H. unfold bytes_ok in *. rewrite Forall_forall in *. intros x Hx. apply H. unfold block8 in Hx. apply In_firstn_ in Hx. eapply In_skipn_; exact Hx.
Qed.
Lemma block_eq g h k k' i j x y : (forall d, dword_ok d -> dword_ok (g d)) -> (forall d, h (g d) = d) -> bytes_ok x -> bytes_ok y ->
  length x = (8 * k)%nat -> length y = (8 * k')%nat -> (i < k)%nat -> (j < k')%nat ->
  (SBlowfish.block_bytes (g (SBlowfish.block_of (block8 i x))) = SBlowfish.block_bytes (g (SBlowfish.block_of (block8 j y))) <-> block8 i x = block8 j y).
Proof.
  intros Hg Hh Bx By Lx Ly Hi Hj. split; [|intros ->; reflexivity]. intros E.
  pose proof (block8_bytes i x Bx) as Ox. pose proof (block8_bytes j y By) as Oy.
  destruct (Hg _ (block_of_ok _ Ox)) as [G1 G2]. destruct (Hg _ (block_of_ok _ Oy)) as [G3 G4].
  apply (f_equal SBlowfish.block_of) in E. rewrite !block_of_bytes in E by assumption. apply (f_equal h) in E. rewrite !Hh in E.
  rewrite <- (block_bytes_of (block8 i x)), <- (block_bytes_of (block8 j y)) by (assumption || (eapply block8_length; eassumption)). rewrite E. reflexivity.
Qed.

(** what a call that returns has written, in terms of the specification *)
Definition unit_of (dec : bool) (c : bf_ctx) : N * N -> N * N := if dec then SBlowfish.decrypt (flat c) else SBlowfish.encrypt (flat c).
Definition crypt_call (dec : bool) : bf_ctx -> list N -> list N -> list N -> outcome (nat * list N) := if dec then blowfish_decrypt else blowfish_encrypt.
Lemma call_result dec c s m out n e : context c -> length s = 8%nat -> crypt_call dec c s m out = Ret (n, e) ->
  n = SBlowfish.padded_length (length m) /\ firstn n e = SBlowfish.ecb (unit_of dec c) m.
Proof.
  intros Hc Ls E. apply context_shaped in Hc.
  assert (He : forall d, encrypt_unit c d = Ret (SBlowfish.encrypt (flat c) d)) by (intros; apply encrypt_unit_flat, Hc).
  assert (Hd : forall d, decrypt_unit c d = Ret (SBlowfish.decrypt (flat c) d)) by (intros; apply decrypt_unit_flat, Hc).
  assert (G : exists f, (forall d, f d = Ret (unit_of dec c d)) /\ crypt_call dec c s m out = bf_generic f s m out) by (destruct dec; eexists; split; [exact Hd|reflexivity|exact He|reflexivity]).
  destruct G as (f & Hf & G). rewrite G in E. clear G.
  destruct (Nat.lt_ge_cases (length out) (SBlowfish.padded_length (length m))) as [L|L].
  { rewrite (generic_small _ _ Hf) in E by assumption. discriminate E. }
  rewrite <- (firstn_skipn (SBlowfish.padded_length (length m)) out) in E. rewrite (generic_ok _ _ Hf) in E by (auto; rewrite firstn_length; lia).
  assert (n = SBlowfish.padded_length (length m) /\ e = SBlowfish.ecb (unit_of dec c) m ++ skipn (SBlowfish.padded_length (length m)) out) as [-> ->] by (split; congruence).
  split; [reflexivity|]. rewrite <- (ecb_length (unit_of dec c) m) at 1. rewrite firstn_app, Nat.sub_diag, firstn_O, app_nil_r, firstn_all. reflexivity.
Qed.
Lemma unit_ok dec c : context c -> forall d, dword_ok d -> dword_ok (unit_of dec c d).
Proof. intros Hc d. pose proof (context_words c Hc) as W. destruct dec; [apply decrypt_ok, W|apply encrypt_ok, W]. Qed.
Lemma unit_inv dec c : context c -> forall d, unit_of (negb dec) c (unit_of dec c d) = d.
Proof. intros Hc d. apply context_shaped in Hc. pose proof (flat_length c Hc) as L. destruct dec; cbn [negb unit_of]; [apply encrypt_decrypt|apply decrypt_encrypt]; rewrite L; lia. Qed.
Lemma filled_pad m : filled (SBlowfish.padded_length (length m)) m = SBlowfish.pad8 m.
Proof. reflexivity. Qed.
Lemma block8_firstn n i (e : list N) : (8 * i + 8 <= n)%nat -> block8 i (firstn n e) = block8 i e.
Proof. intros H. unfold block8. rewrite skipn_firstn_comm, firstn_firstn. f_equal. lia. Qed.

Lemma same_blocks dec c m m' s s' out out' n n' e e' : context c -> bytes_ok m -> bytes_ok m' -> length s = 8%nat -> length s' = 8%nat ->
  crypt_call dec c s m out = Ret (n, e) -> crypt_call dec c s' m' out' = Ret (n', e') ->
  forall i j, (8 * i < n)%nat -> (8 * j < n')%nat -> (block8 i e = block8 j e' <-> block8 i (filled n m) = block8 j (filled n' m')).
Proof.
  intros Hc Bm Bm' Ls Ls' E E' i j Hi Hj. destruct (call_result _ _ _ _ _ _ _ Hc Ls E) as [En Ee]. destruct (call_result _ _ _ _ _ _ _ Hc Ls' E') as [En' Ee'].
  destruct (padded_mult (length m)) as (k & K & _). destruct (padded_mult (length m')) as (k' & K' & _).
  rewrite <- (block8_firstn n i e), <- (block8_firstn n' j e') by lia. rewrite Ee, Ee', (ecb_block _ m k), (ecb_block _ m' k') by (assumption || lia).
  rewrite En, En', !filled_pad. apply (block_eq _ (unit_of (negb dec) c) k k'); try lia;
    [apply unit_ok, Hc|apply unit_inv, Hc|apply pad8_bytes, Bm|apply pad8_bytes, Bm'|rewrite pad8_length; exact K|rewrite pad8_length; exact K'].
Qed.

(** ** C86 *)
(** Two blocks of ciphertexts made with one key are equal exactly when the blocks of the (zero-filled) messages are: within one
    message and between two, wherever they are. *)
Theorem C86_equal_blocks_show : forall c m m' s s' out out' n n' e e', context c -> bytes_ok m -> bytes_ok m' -> length s = 8%nat -> length s' = 8%nat ->
  blowfish_encrypt c s m out = Ret (n, e) -> blowfish_encrypt c s' m' out' = Ret (n', e') ->
  forall i j, (8 * i < n)%nat -> (8 * j < n')%nat -> (block8 i e = block8 j e' <-> block8 i (filled n m) = block8 j (filled n' m')).
Proof. exact (same_blocks false). Qed.
Print Assumptions C86_equal_blocks_show.
(** Two messages have the same ciphertext exactly when one is the other followed by fewer than 8 zero bytes that do not begin a new
    block: the end of a message that ends with zeros is not preserved, everything else is. *)
Lemma filled_same n m m' : (length m <= n)%nat -> (length m' <= n)%nat -> (filled n m = filled n m' <-> exists z, m' = m ++ repeat 0 z \/ m = m' ++ repeat 0 z).
Proof.
  intros L L'. unfold filled. split.
  - intros E. destruct (Nat.le_ge_cases (length m) (length m')) as [H|H].
    + exists (length m' - length m)%nat. left. apply (f_equal (firstn (length m'))) in E.
      rewrite !firstn_app, firstn_all, Nat.sub_diag, firstn_O, app_nil_r, firstn_all2 in E by exact H. rewrite <- E at 1. clear E. f_equal.
      replace (n - length m)%nat with ((length m' - length m) + (n - length m'))%nat by lia.
      rewrite repeat_app, firstn_app, repeat_length, Nat.sub_diag, firstn_O, app_nil_r. rewrite firstn_all2 by (rewrite repeat_length; lia). reflexivity.
    + exists (length m - length m')%nat. right. apply (f_equal (firstn (length m))) in E.
      rewrite !firstn_app, firstn_all, Nat.sub_diag, firstn_O, app_nil_r, (firstn_all2 m') in E by exact H. rewrite E at 1. clear E. f_equal.
      replace (n - length m')%nat with ((length m - length m') + (n - length m))%nat by lia.
      rewrite repeat_app, firstn_app, repeat_length, Nat.sub_diag, firstn_O, app_nil_r. rewrite firstn_all2 by (rewrite repeat_length; lia). reflexivity.
  - intros (z & [->| ->]); rewrite app_length, repeat_length in *; rewrite <- app_assoc, <- repeat_app; f_equal; f_equal; lia.
Qed.
Theorem C86_same_ciphertext : forall c m m' s s' out out' n n' e e', context c -> bytes_ok m -> bytes_ok m' -> length s = 8%nat -> length s' = 8%nat ->
  blowfish_encrypt c s m out = Ret (n, e) -> blowfish_encrypt c s' m' out' = Ret (n', e') ->
  (firstn n e = firstn n' e' <->
   ((length m + 7) / 8 = (length m' + 7) / 8)%nat /\ exists z, m' = m ++ repeat 0 z \/ m = m' ++ repeat 0 z).
Proof.
  intros c m m' s s' out out' n n' e e' Hc Bm Bm' Ls Ls' E E'.
  destruct (call_result false _ _ _ _ _ _ Hc Ls E) as [En Ee]. destruct (call_result false _ _ _ _ _ _ Hc Ls' E') as [En' Ee'].
  destruct (C48_rounding (length m)) as [_ R]. destruct (C48_rounding (length m')) as [_ R'].
  assert (P : SBlowfish.padded_length (length m) = SBlowfish.padded_length (length m') <-> ((length m + 7) / 8 = (length m' + 7) / 8)%nat) by (unfold SBlowfish.padded_length; lia).
  rewrite <- P. rewrite <- En, <- En' in *.
  assert (L1 : length (firstn n e) = n) by (rewrite Ee, ecb_length; congruence). assert (L2 : length (firstn n' e') = n') by (rewrite Ee', ecb_length; congruence).
  split.
  - intros X. assert (Enn : n = n') by (rewrite <- L1, <- L2, X; reflexivity). split; [exact Enn|]. rewrite <- Enn in *. apply (filled_same n); [lia|lia|].
    destruct (padded_mult (length m)) as (k & K & _). rewrite K in En.
    apply (block8_ext k); [unfold filled; rewrite app_length, repeat_length; lia..|]. intros i Hi.
    apply (C86_equal_blocks_show _ _ _ _ _ _ _ _ _ _ _ Hc Bm Bm' Ls Ls' E E'); [lia|lia|].
    rewrite <- (block8_firstn n i e), <- (block8_firstn n i e') by lia. rewrite X. reflexivity.
  - intros [Enn X]. rewrite <- Enn in *. apply (filled_same n) in X; [|lia|lia].
    destruct (padded_mult (length m)) as (k & K & _). rewrite K in En. apply (block8_ext k); [lia|lia|]. intros i Hi.
    rewrite !block8_firstn by lia. apply (C86_equal_blocks_show _ _ _ _ _ _ _ _ _ _ _ Hc Bm Bm' Ls Ls' E E'); [lia|lia|]. rewrite X. reflexivity.
Qed.
Print Assumptions C86_same_ciphertext.
(** Nothing is recognised as a forgery: every sequence of whole blocks decrypts, and encrypting the result gives it back. *)
Theorem C86_every_ciphertext_accepted : forall c x, context c -> bytes_ok x -> (length x mod 8 = 0)%nat ->
  forall s out, length s = 8%nat -> (length x <= length out)%nat ->
  exists y, blowfish_decrypt c s x out = Ret (length x, y ++ skipn (length x) out) /\ length y = length x /\ bytes_ok y /\
    forall s' out', length s' = 8%nat -> (length x <= length out')%nat -> blowfish_encrypt c s' y out' = Ret (length x, x ++ skipn (length x) out').
Proof.
  intros c x Hc Bx Lx s out Ls Lo. apply Nat.mod_divides in Lx as [k Lx]; [|lia].
  assert (PX : SBlowfish.padded_length (length x) = length x) by (rewrite Lx; apply padded_full).
  pose proof (context_shaped c Hc) as Sh.
  assert (He : forall d, encrypt_unit c d = Ret (unit_of false c d)) by (intros; apply encrypt_unit_flat, Sh).
  assert (Hd : forall d, decrypt_unit c d = Ret (unit_of true c d)) by (intros; apply decrypt_unit_flat, Sh).
  exists (SBlowfish.ecb (unit_of true c) x). rewrite ecb_length, PX. split; [|split; [reflexivity|split; [apply ecb_bytes|]]].
  - unfold blowfish_decrypt. rewrite <- (firstn_skipn (length x) out) at 1. rewrite (generic_ok _ _ Hd); [rewrite PX; reflexivity|exact Ls|rewrite PX, firstn_length; lia].
  - intros s' out' Ls' Lo'. unfold blowfish_encrypt. rewrite <- (firstn_skipn (length x) out') at 1.
    rewrite (generic_ok _ _ He); [|exact Ls'|rewrite ecb_length, PX, PX, firstn_length; lia]. rewrite ecb_length, PX, PX.
    rewrite (ecb_inverse _ (unit_of false c) x (unit_ok true c Hc) (unit_inv true c Hc) Bx). unfold SBlowfish.pad8. rewrite PX, Nat.sub_diag. cbn [repeat]. rewrite app_nil_r. reflexivity.
Qed.
Print Assumptions C86_every_ciphertext_accepted.
(** Changes stay where they are made: blocks of two decrypted buffers are equal exactly when the blocks of the ciphertexts are, so that
    a changed block damages only itself, and blocks cut out, repeated or exchanged are so in the message. *)
Theorem C86_damage_is_local : forall c x x' s s' out out' n n' y y', context c -> bytes_ok x -> bytes_ok x' -> length s = 8%nat -> length s' = 8%nat ->
  (length x mod 8 = 0)%nat -> (length x' mod 8 = 0)%nat ->
  blowfish_decrypt c s x out = Ret (n, y) -> blowfish_decrypt c s' x' out' = Ret (n', y') ->
  forall i j, (8 * i < n)%nat -> (8 * j < n')%nat -> (block8 i y = block8 j y' <-> block8 i x = block8 j x').
Proof.
  intros c x x' s s' out out' n n' y y' Hc Bx Bx' Ls Ls' Lx Lx' E E' i j Hi Hj.
  rewrite (same_blocks true c x x' s s' out out' n n' y y' Hc Bx Bx' Ls Ls' E E' i j Hi Hj).
  destruct (call_result true _ _ _ _ _ _ Hc Ls E) as [-> _]. destruct (call_result true _ _ _ _ _ _ Hc Ls' E') as [-> _].
  apply Nat.mod_divides in Lx as [k Lx]; [|lia]. apply Nat.mod_divides in Lx' as [k' Lx']; [|lia].
  unfold filled. rewrite Lx, Lx', !padded_full, !Nat.sub_diag. cbn [repeat]. rewrite !app_nil_r. reflexivity.
Qed.
Print Assumptions C86_damage_is_local.

(** ** Non-vacuity: under any key (here any context) a message of three blocks whose first and last are equal and not the middle one *)
Example C86_case : forall c, context c -> exists e, blowfish_encrypt c (repeat 7 8) (repeat 1 8 ++ repeat 2 8 ++ repeat 1 8) (repeat 9 24) = Ret (24%nat, e) /\
  block8 0 e = block8 2 e /\ block8 0 e <> block8 1 e.
Proof.
  intros c Hc. set (m := repeat 1 8 ++ repeat 2 8 ++ repeat 1 8).
  assert (Bm : bytes_ok m) by (unfold m, bytes_ok; repeat (apply Forall_app; split); apply Forall_forall; intros x Hx; apply repeat_spec in Hx; subst; reflexivity).
  destruct (C48_encrypt_extent c m Hc Bm) as (body & Lb & Bb & H). specialize (H (repeat 7 8) (repeat 9 24) eq_refl).
  change (SBlowfish.padded_length (length m)) with 24%nat in *. rewrite repeat_length, Nat.ltb_irrefl in H. change (skipn 24 (repeat 9 24)) with (@nil N) in H. rewrite app_nil_r in H.
  exists body. split; [exact H|]. pose proof (C86_equal_blocks_show c m m (repeat 7 8) (repeat 7 8) _ _ _ _ _ _ Hc Bm Bm eq_refl eq_refl H H) as X.
  split; [apply X; [lia|lia|reflexivity]|]. intros Y. apply X in Y; [discriminate Y|lia|lia].
Qed.
