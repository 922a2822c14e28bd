(** Property theorem C76: equal HMAC tags of different (key, message) pairs contain a collision of the hash function. *)
From Coq Require Import String.
From Verif Require SFips202 SMd5 PropSha PWords PMd5.
From Verif Require Import Base SHex SFips180 SShaLib MSha MFront MMd5 MKeccak SHash SKeccakFns SHashFns PShort PTyped MHmac SHmac PHmac PropFront PropHmac MHmac2 SHmac2 PropHmac2 SMerkle PMerkle PropMerkle SHmac3.
Local Open Scope N_scope.

Lemma key_bytes_arrcpy B k : key_bytes B k = arrcpy B k.
Proof.
  unfold key_bytes. apply (nth_ext _ _ 0 0); [rewrite map_length, seq_length, arrcpy_length; reflexivity|].
  intros i Hi. rewrite map_length, seq_length in Hi. rewrite arrcpy_nth by exact Hi.
  rewrite (nth_indep _ 0 (nth 0 k 0)) by (rewrite map_length, seq_length; exact Hi).
  rewrite (map_nth (fun i => nth i k 0)), seq_nth by exact Hi. reflexivity.
Qed.
Lemma key_bytes_length B k : length (key_bytes B k) = B.
Proof. unfold key_bytes. rewrite map_length, seq_length. reflexivity. Qed.
Lemma hmac_texts H B k m : HMAC H B (firstn B k) m = H (outer_text B k (H (inner_text B k m))).
Proof.
  rewrite <- hmac_block_rfc by apply firstn_short. rewrite <- arrcpy_firstn. unfold hmac_block, outer_text, inner_text. rewrite key_bytes_arrcpy. reflexivity.
Qed.
Lemma xor_inj v a : forall b, map (fun x => N.lxor x v) a = map (fun x => N.lxor x v) b -> a = b.
Proof.
  induction a as [|x a IH]; intros [|y b] E; try discriminate; [reflexivity|]. cbn [map] in E. injection E as E1 E2. f_equal; [|apply IH; exact E2].
  apply (f_equal (fun z => N.lxor z v)) in E1. rewrite !N.lxor_assoc, N.lxor_nilpotent, !N.lxor_0_r in E1. exact E1.
Qed.
Lemma text_inj v B k k' (m m' : list N) : map (fun x => N.lxor x v) (key_bytes B k) ++ m = map (fun x => N.lxor x v) (key_bytes B k') ++ m' ->
  key_bytes B k = key_bytes B k' /\ m = m'.
Proof.
  intros E. apply app_eq_app in E.
  assert (L : forall k, length (map (fun x => N.lxor x v) (key_bytes B k)) = B) by (intros; rewrite map_length; apply key_bytes_length).
  destruct E as [l [[E1 E2]|[E1 E2]]]; pose proof (f_equal (@length N) E1) as Q; rewrite app_length, !L in Q; destruct l as [|? l]; try (cbn in Q; lia);
    rewrite app_nil_r in E1; cbn in E2; split; try congruence; (eapply xor_inj; eauto).
Qed.

(** the heart: HMAC over any hash function *)
Lemma hmac_collision (H : list N -> list N) B k k' m m' : ~ (same_key B k k' /\ m = m') -> HMAC H B (firstn B k) m = HMAC H B (firstn B k') m' ->
  hash_collision H (inner_text B k m) (inner_text B k' m') \/
  hash_collision H (outer_text B k (H (inner_text B k m))) (outer_text B k' (H (inner_text B k' m'))).
Proof.
  intros D E. rewrite !hmac_texts in E.
  destruct (list_eq_dec N.eq_dec (outer_text B k (H (inner_text B k m))) (outer_text B k' (H (inner_text B k' m')))) as [e|e]; [left|right; split; assumption].
  apply text_inj in e. destruct e as [Ek Eh]. split; [|exact Eh]. intros X. apply text_inj in X. destruct X as [_ Em]. apply D. split; [|exact Em].
  apply arrcpy_same. rewrite <- !key_bytes_arrcpy. exact Ek.
Qed.

Lemma key_bytes_ok B k : bytes_ok k -> bytes_ok (key_bytes B k).
Proof. rewrite key_bytes_arrcpy. apply arrcpy_bytes. Qed.

(** the two hash computations of HMAC, run by the code *)
Lemma texts_run garbage a P M H B D : choice_lib a P M H B D -> exists I, sp_case garbage a = Some I /\ idsz I = D /\ iblock I = B /\
  forall g, typed I g -> forall k m, bytes_ok k -> P m -> M m ->
  hash_run I g [map (fun x => N.lxor x 0x36) (key_bytes B k); m] (repeat 0 D) = Ret (H (inner_text B k m)) /\ length (H (inner_text B k m)) = D /\
  hash_run I g [map (fun x => N.lxor x 0x5c) (key_bytes B k); H (inner_text B k m)] (repeat 0 D) = Ret (H (outer_text B k (H (inner_text B k m)))) /\
  length (H (outer_text B k (H (inner_text B k m)))) = D /\
  P (map (fun x => N.lxor x 0x36) (key_bytes B k)) /\ P (map (fun x => N.lxor x 0x5c) (key_bytes B k)) /\ P (H (inner_text B k m)).
Proof.
  intros K. destruct (lib_good garbage _ _ _ _ _ _ K) as [(I & T & E & EB & ED & S & _ & T1 & T2) PP HB (SD & SB & LB & LD)].
  exists I. split; [exact E|]. split; [exact ED|]. split; [exact EB|]. intros g Hg k m Hk HP HM.
  assert (Pk : forall v, v < 256 -> P (map (fun x => N.lxor x v) (key_bytes B k))).
  { intros v Hv. apply PP.
    - change (bytes_ok (xor_pad v (key_bytes B k))). apply xor_pad_bytes; [exact Hv|apply key_bytes_ok; exact Hk].
    - intros X. apply (f_equal (@length N)) in X. rewrite map_length, key_bytes_length in X. cbn in X. lia.
    - rewrite map_length, key_bytes_length. exact LB. }
  assert (Lk : forall v, length (map (fun x => N.lxor x v) (key_bytes B k)) = B) by (intros; rewrite map_length; apply key_bytes_length).
  assert (P1 : Forall P [map (fun x => N.lxor x 0x36) (key_bytes B k); m]) by (repeat constructor; [apply Pk; reflexivity|exact HP]).
  assert (Q1 : concat [map (fun x => N.lxor x 0x36) (key_bytes B k); m] = inner_text B k m) by (cbn [concat]; rewrite app_nil_r; reflexivity).
  assert (R1 : T (concat [map (fun x => N.lxor x 0x36) (key_bytes B k); m])) by (rewrite Q1; apply T1; [apply Lk|exact HM]).
  assert (O1 : (idsz I <= length (repeat 0%N D))%nat) by (rewrite repeat_length; lia).
  pose proof (S g _ (repeat 0 D) Hg P1 R1 O1) as (_ & _ & _ & _ & _ & L1). rewrite Q1 in L1.
  assert (P2 : Forall P [map (fun x => N.lxor x 0x5c) (key_bytes B k); H (inner_text B k m)]).
  { repeat constructor; [apply Pk; reflexivity|]. apply PP; [apply HB| |lia]. intros X. rewrite X in L1. cbn in L1. lia. }
  assert (Q2 : concat [map (fun x => N.lxor x 0x5c) (key_bytes B k); H (inner_text B k m)] = outer_text B k (H (inner_text B k m))) by (cbn [concat]; rewrite app_nil_r; reflexivity).
  assert (R2 : T (concat [map (fun x => N.lxor x 0x5c) (key_bytes B k); H (inner_text B k m)])) by (rewrite Q2; apply T2; [apply Lk|lia]).
  pose proof (S g _ (repeat 0 D) Hg P2 R2 O1) as (_ & _ & _ & _ & _ & L2). rewrite Q2 in L2.
  assert (Z : forall x : list N, x ++ skipn (idsz I) (repeat 0 D) = x) by (intros; rewrite skipn_all2 by (rewrite repeat_length; lia); apply app_nil_r).
  split; [rewrite (run_streams I P T H g _ _ S Hg P1 R1 O1), Q1, Z; reflexivity|]. split; [lia|].
  split; [rewrite (run_streams I P T H g _ _ S Hg P2 R2 O1), Q2, Z; reflexivity|]. split; [lia|].
  split; [apply Pk; reflexivity|]. split; [apply Pk; reflexivity|]. inversion P2 as [|? ? ? X]. inversion X. assumption.
Qed.
Lemma some_context garbage a I (g : ectx (sp_case garbage a)) : sp_case garbage a = Some I -> ectx_ok g -> exists c : ictx I, typed I c.
Proof. revert g. intros g E. revert g. rewrite E. intros g Hg. exists (hash_ctx (g : hmac_ctx I)). exact (proj1 Hg). Qed.
Lemma tag_front (x y u v : list N) D : length x = D -> length y = D -> firstn D (x ++ u) = firstn D (y ++ v) -> x = y.
Proof. intros Lx Ly E. rewrite !firstn_app, Lx, Ly, Nat.sub_diag, !firstn_O, !app_nil_r, !firstn_all2 in E by lia. exact E. Qed.

(** ** C76 for all twelve hash functions: the one-shot function and the object *)
Theorem C76_hash_collision : forall garbage a P M H B D, choice_lib a P M H B D ->
  forall g g' l l' k k' m m' out out' d d', ectx_ok g -> ectx_ok g' -> eloc_ok l -> eloc_ok l' -> bytes_ok k -> bytes_ok k' ->
  P m -> P m' -> M m -> M m' -> (D <= length out)%nat -> (D <= length out')%nat ->
  pgfe_hmac garbage a g l k m out = Ret d -> pgfe_hmac garbage a g' l' k' m' out' = Ret d' ->
  ~ (same_key B k k' /\ m = m') -> firstn D d = firstn D d' ->
  hash_collision H (inner_text B k m) (inner_text B k' m') \/
  hash_collision H (outer_text B k (H (inner_text B k m))) (outer_text B k' (H (inner_text B k' m'))).
Proof.
  intros garbage a P M H B D K g g' l l' k k' m m' out out' d d' Hg Hg' Hl Hl' Hk Hk' HP HP' HM HM' Ho Ho' R R' N E.
  destruct (texts_run garbage _ _ _ _ _ _ K) as (I & EI & _ & _ & X). destruct (some_context garbage a I g EI Hg) as (c & Hc).
  destruct (X c Hc k m Hk HP HM) as (_ & _ & _ & L & _). destruct (X c Hc k' m' Hk' HP' HM') as (_ & _ & _ & L' & _). clear X.
  rewrite (C37_dispatch_library garbage a P M H B D K) in R by assumption. rewrite (C37_dispatch_library garbage a P M H B D K) in R' by assumption.
  apply ret_same in R, R'. subst d d'. apply hmac_collision; [exact N|]. rewrite !hmac_texts in *. eapply tag_front; [exact L|exact L'|exact E].
Qed.
Print Assumptions C76_hash_collision.
Theorem C76_encoder_collision : forall garbage a P M H B D, choice_lib a P M H B D ->
  forall r r' k k' ops ops' l l' l_out l_out' t, ectx_ok (r_ctx r) -> ectx_ok (r_ctx r') -> eloc_ok l -> eloc_ok l' -> length l_out = D -> length l_out' = D ->
  bytes_ok k -> bytes_ok k' -> Forall (op_ok P) ops -> Forall (op_ok P) ops' -> M (concat (map op_bytes ops)) -> M (concat (map op_bytes ops')) ->
  encoder_run (sp_case garbage a) a r k ops l l_out = Ret (Some t) -> encoder_run (sp_case garbage a) a r' k' ops' l' l_out' = Ret (Some t) ->
  let m := concat (map op_bytes ops) in let m' := concat (map op_bytes ops') in
  ~ (same_key B k k' /\ m = m') ->
  hash_collision H (inner_text B k m) (inner_text B k' m') \/
  hash_collision H (outer_text B k (H (inner_text B k m))) (outer_text B k' (H (inner_text B k' m'))).
Proof.
  intros garbage a P M H B D K r r' k k' ops ops' l l' l_out l_out' t Hr Hr' Hl Hl' Lo Lo' Hk Hk' Hp Hp' HM HM' R R' m m' N.
  rewrite (C38_digest_library garbage a P M H B D K) in R by assumption. rewrite (C38_digest_library garbage a P M H B D K) in R' by assumption.
  apply hmac_collision; [exact N|]. unfold m, m'. congruence.
Qed.
Print Assumptions C76_encoder_collision.

(** ** traced to the compression function, for MD5, SHA-1 and the SHA-2 functions *)
Theorem C76_compression_collision : forall garbage a P M H B D I b comp iv blocks whole, choice_lib a P M H B D ->
  sp_case garbage a = Some I -> iterated I P b comp iv blocks whole ->
  forall g g' l l' k k' m m' out out' d d', ectx_ok g -> ectx_ok g' -> eloc_ok l -> eloc_ok l' -> bytes_ok k -> bytes_ok k' ->
  P m -> P m' -> M m -> M m' -> with_block B b m -> with_block B b m' -> (D <= length out)%nat -> (D <= length out')%nat ->
  pgfe_hmac garbage a g l k m out = Ret d -> pgfe_hmac garbage a g' l' k' m' out' = Ret d' ->
  ~ (same_key B k k' /\ m = m') -> firstn D d = firstn D d' ->
  traced comp iv blocks whole (inner_text B k m) (inner_text B k' m') \/
  traced comp iv blocks whole (outer_text B k (H (inner_text B k m))) (outer_text B k' (H (inner_text B k' m'))).
Proof.
  intros garbage a P M H B D I b comp iv blocks whole K EI TB g g' l l' k k' m m' out out' d d' Hg Hg' Hl Hl' Hk Hk' HP HP' HM HM' W W' Ho Ho' R R' N E.
  destruct (some_context garbage a I g EI Hg) as (c & Hc).
  destruct (texts_run garbage _ _ _ _ _ _ K) as (J & EJ & ED & EB & X). assert (J = I) by congruence. subst J.
  destruct (X c Hc k m Hk HP HM) as (H1 & L1 & H2 & L2 & P1 & P2 & P3). destruct (X c Hc k' m' Hk' HP' HM') as (H1' & L1' & H2' & L2' & P1' & P2' & P3'). clear X.
  assert (Bb : forall k h : list BinNums.N, length h = D -> bits_below b (outer_text B k h)).
  { intros k0 h Lh. unfold bits_below, outer_text. rewrite app_length, map_length, key_bytes_length, Lh.
    destruct (lib_good garbage _ _ _ _ _ _ K) as [_ _ _ (_ & _ & LB & LD)]. assert (b = 64 \/ b = 128) as [-> | ->] by (clear - TB; destruct TB; auto).
    - apply N.le_lt_trans with 16384; [lia|reflexivity].
    - apply N.le_lt_trans with 16384; [lia|reflexivity]. }
  assert (Bi : forall k m, with_block B b m -> bits_below b (inner_text B k m)).
  { intros k0 m0 W0. unfold bits_below, inner_text. rewrite app_length, map_length, key_bytes_length. exact W0. }
  assert (Z : forall x y x' y' h h' : list BinNums.N, P x -> P y -> P x' -> P y' -> bits_below b (x ++ y) -> bits_below b (x' ++ y') ->
    hash_run I c [x; y] (repeat 0 D) = Ret h -> hash_run I c [x'; y'] (repeat 0 D) = Ret h' -> x ++ y <> x' ++ y' -> h = h' -> traced comp iv blocks whole (x ++ y) (x' ++ y')).
  { intros x y x' y' h h' A1 A2 A3 A4 A5 A6 A7 A8 A9 A10.
    pose proof (C67_collisions I P b comp iv blocks whole TB c c [x; y] [x'; y'] (repeat 0%N D) (repeat 0%N D) h h' Hc Hc) as Z. cbn [concat] in Z. rewrite !app_nil_r in Z. apply Z; auto.
    - rewrite repeat_length. lia.
    - rewrite repeat_length. lia.
    - rewrite A10. reflexivity. }
  destruct (C76_hash_collision garbage a P M H B D K g g' l l' k k' m m' out out' d d' Hg Hg' Hl Hl' Hk Hk' HP HP' HM HM' Ho Ho' R R' N E) as [[C1 C2]|[C1 C2]].
  - left. eapply Z; [exact P1|exact HP|exact P1'|exact HP'|apply Bi; exact W|apply Bi; exact W'|exact H1|exact H1'|exact C1|exact C2].
  - right. eapply Z; [exact P2|exact P3|exact P2'|exact P3'|apply Bb; exact L1|apply Bb; exact L1'|exact H2|exact H2'|exact C1|exact C2].
Qed.
Print Assumptions C76_compression_collision.
(** read the other way: without a collision in those few calls of the compression function the tags differ *)
Theorem C76_distinct_tags : forall garbage a P M H B D I b comp iv blocks, choice_lib a P M H B D ->
  sp_case garbage a = Some I -> iterated I P b comp iv blocks true ->
  forall g g' l l' k k' m m' out out' d d', ectx_ok g -> ectx_ok g' -> eloc_ok l -> eloc_ok l' -> bytes_ok k -> bytes_ok k' ->
  P m -> P m' -> M m -> M m' -> with_block B b m -> with_block B b m' -> (D <= length out)%nat -> (D <= length out')%nat ->
  pgfe_hmac garbage a g l k m out = Ret d -> pgfe_hmac garbage a g' l' k' m' out' = Ret d' ->
  ~ (same_key B k k' /\ m = m') ->
  ~ collide comp iv (blocks (inner_text B k m)) (blocks (inner_text B k' m')) ->
  ~ collide comp iv (blocks (outer_text B k (H (inner_text B k m)))) (blocks (outer_text B k' (H (inner_text B k' m')))) ->
  firstn D d <> firstn D d'.
Proof.
  intros garbage a P M H B D I b comp iv blocks K EI TB g g' l l' k k' m m' out out' d d' Hg Hg' Hl Hl' Hk Hk' HP HP' HM HM' W W' Ho Ho' R R' N N1 N2 E.
  destruct (C76_compression_collision garbage a P M H B D I b comp iv blocks true K EI TB g g' l l' k k' m m' out out' d d' Hg Hg' Hl Hl' Hk Hk' HP HP' HM HM' W W' Ho Ho' R R' N E)
    as [[X|[X _]]|[X|[X _]]]; try discriminate; auto.
Qed.
Print Assumptions C76_distinct_tags.

(** ** Non-vacuity: two messages of one byte under the key "Jefe" with MD5: the calls of the compression function made for
    their tags contain no collision *)
Fixpoint calls (comp : list N -> list N -> list N) (s : list N) (bs : list (list N)) : list ((list N * list N) * list N) :=
  match bs with [] => [] | b :: bs => ((s, b), comp s b) :: calls comp (comp s b) bs end.
Lemma compressed_calls comp : forall bs iv s b, compressed comp iv bs s b -> In ((s, b), comp s b) (calls comp iv bs).
Proof.
  induction bs as [|x bs IH]; intros iv s b (pre & post & E & ->).
  - destruct pre; discriminate.
  - destruct pre as [|y pre]; cbn [app] in E; injection E as -> ->.
    + left. reflexivity.
    + right. cbn [fold_left]. apply IH. exists pre, post. auto.
Qed.
Definition same (x y : list N) : bool := if list_eq_dec N.eq_dec x y then true else false.
Lemma no_collision comp iv bs bs' :
  forallb (fun p => forallb (fun q => if same (snd p) (snd q) then same (fst (fst p)) (fst (fst q)) && same (snd (fst p)) (snd (fst q)) else true) (calls comp iv bs')) (calls comp iv bs) = true ->
  ~ collide comp iv bs bs'.
Proof.
  intros C (s & b & s' & b' & X & Y & D & E). apply compressed_calls in X, Y. rewrite forallb_forall in C. specialize (C _ X). rewrite forallb_forall in C. specialize (C _ Y).
  cbn [fst snd] in C. unfold same in C. destruct (list_eq_dec N.eq_dec (comp s b) (comp s' b')) as [_|n]; [|contradiction].
  destruct (list_eq_dec N.eq_dec s s') as [e1|]; [|discriminate]. destruct (list_eq_dec N.eq_dec b b') as [e2|]; [|discriminate]. destruct D; contradiction.
Qed.
Example C76_nonvacuous : let blocks := fun m => pieces 64 (padded 64 8 (SMd5.le_bytes 8) m) in let k := chars "Jefe" in let m := [97] in let m' := [98] in
  choice_lib A_MD5 md5_piece any_message SMd5.MD5 64 16 /\ iterated (md5_impl None) md5_piece 64 SMd5.md5_compress SMd5.md5_IV blocks true /\
  md5_piece m /\ md5_piece m' /\ with_block 64 64 m /\ with_block 64 64 m' /\ ~ (same_key 64 k k /\ m = m') /\
  ~ collide SMd5.md5_compress SMd5.md5_IV (blocks (inner_text 64 k m)) (blocks (inner_text 64 k m')) /\
  ~ collide SMd5.md5_compress SMd5.md5_IV (blocks (outer_text 64 k (SMd5.MD5 (inner_text 64 k m)))) (blocks (outer_text 64 k (SMd5.MD5 (inner_text 64 k m')))).
Proof.
  cbv zeta. split; [constructor|]. split; [exact (it_md5 None)|]. split; [split; [repeat constructor|discriminate]|]. split; [split; [repeat constructor|discriminate]|].
  split; [vm_compute; reflexivity|]. split; [vm_compute; reflexivity|]. split; [intros [_ X]; discriminate|].
  split; apply no_collision; vm_compute; reflexivity.
Qed.
