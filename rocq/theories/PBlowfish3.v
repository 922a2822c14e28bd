(** Blowfish: byte buffers. *)
From Verif Require Import Base MBlowfish PBlowfish PBlowfish2.
From Verif Require SBlowfish PWords.
Local Open Scope N_scope.

(** ** one 8-byte unit *)
Lemma unit_call_block f g blk : (forall d, f d = Ret (g d)) -> length blk = 8%nat ->
  unit_call f (rev blk) = Ret (rev (SBlowfish.block_bytes (g (SBlowfish.block_of blk)))).
Proof.
  intros Hf L. destruct blk as [|a0 [|a1 [|a2 [|a3 [|a4 [|a5 [|a6 [|a7 [|]]]]]]]]]; try discriminate L. clear L.
  unfold unit_call, unle4. cbn [rev app skipn rd nth_error bind].
  assert (E : SBlowfish.block_of [a0; a1; a2; a3; a4; a5; a6; a7] =
    (a3 + 2 ^ 8 * a2 + 2 ^ 16 * a1 + 2 ^ 24 * a0, a7 + 2 ^ 8 * a6 + 2 ^ 16 * a5 + 2 ^ 24 * a4)).
  { unfold SBlowfish.block_of, SBlowfish.be_word. cbn [firstn skipn fold_left].
    change (2 ^ 8) with 256. change (2 ^ 16) with 65536. change (2 ^ 24) with 16777216. f_equal; lia. }
  rewrite E, Hf. cbn [bind]. destruct (g _) as [lf rg].
  unfold SBlowfish.block_bytes, SBlowfish.be_word_bytes, le4. cbn [fst snd seq map rev app].
  change (256 ^ N.of_nat (3 - 0)) with (2 ^ 24). change (256 ^ N.of_nat (3 - 1)) with (2 ^ 16).
  change (256 ^ N.of_nat (3 - 2)) with (2 ^ 8). change (256 ^ N.of_nat (3 - 3)) with 1. rewrite !N.div_1_r. reflexivity.
Qed.
Lemma block_bytes_length d : length (SBlowfish.block_bytes d) = 8%nat.
Proof. reflexivity. Qed.
Lemma mod8 q t : (t < 8)%nat -> ((8 * q + t) mod 8 = t)%nat.
Proof. intros H. rewrite Nat.add_comm, Nat.mul_comm, Nat.mod_add by lia. apply Nat.mod_small. exact H. Qed.

(** storing *)
Lemma store_some n blk q : length blk = 8%nat -> forall t pre old post, (t + n <= 8)%nat -> length old = n ->
  length pre = (8 * q + t)%nat ->
  store_loop n (8 * q + t) (rev blk) (pre ++ old ++ post) = Ret (pre ++ firstn n (skipn t blk) ++ post).
Proof.
  intros L. induction n as [|n IH]; intros t pre old post Ht Ho Hp.
  - destruct old; [reflexivity|discriminate].
  - destruct old as [|x old]; [discriminate|]. cbn [store_loop]. rewrite mod8 by lia.
    rewrite (rd_lt _ _ 0) by (rewrite rev_length; lia). cbn [bind].
    rewrite rev_nth by lia. rewrite L. replace (8 - S (7 - t))%nat with t by lia.
    change ((x :: old) ++ post) with (x :: old ++ post). rewrite wr_app by (symmetry; exact Hp). cbn [bind].
    replace (pre ++ nth t blk 0 :: old ++ post) with ((pre ++ [nth t blk 0]) ++ old ++ post) by (rewrite <- app_assoc; reflexivity).
    replace (S (8 * q + t)) with (8 * q + S t)%nat by lia.
    rewrite IH; [|lia|cbn in Ho; lia|rewrite app_length; cbn; lia].
    rewrite (skipn_nth_cons blk t 0) by lia. cbn [firstn]. rewrite <- !app_assoc. reflexivity.
Qed.
Lemma store_block blk q pre old post : length blk = 8%nat -> length old = 8%nat -> length pre = (8 * q)%nat ->
  store_loop 8 (8 * q) (rev blk) (pre ++ old ++ post) = Ret (pre ++ blk ++ post).
Proof.
  intros L Lo Lp. rewrite <- (Nat.add_0_r (8 * q)). rewrite (store_some 8 blk q L 0 pre old post) by lia.
  cbn [skipn]. rewrite (firstn_all2 (n := 8)) by lia. reflexivity.
Qed.
Lemma store_short blk q pre old : length blk = 8%nat -> (length old < 8)%nat -> length pre = (8 * q)%nat ->
  store_loop 8 (8 * q) (rev blk) (pre ++ old) = UB OutOfBounds.
Proof.
  intros L Lo Lp.
  assert (X : forall n t l, (t + n = 8)%nat -> length l = (8 * q + length old)%nat -> (t <= length old)%nat ->
    store_loop n (8 * q + t) (rev blk) l = UB OutOfBounds).
  { induction n as [|n IH]; intros t l Ht Hl Hold; [lia|]. cbn [store_loop]. rewrite mod8 by lia.
    rewrite (rd_lt _ _ 0) by (rewrite rev_length; lia). cbn [bind].
    destruct (Nat.eq_dec t (length old)) as [->|Hne].
    - rewrite wr_ub by lia. reflexivity.
    - destruct (app_split_at l (8 * q + t) ltac:(lia)) as (p & x & r & -> & E). rewrite wr_app by lia. cbn [bind].
      replace (S (8 * q + t)) with (8 * q + S t)%nat by lia. apply IH; [lia| |lia].
      rewrite app_length in *. cbn in *. lia. }
  rewrite <- (Nat.add_0_r (8 * q)). apply X; [reflexivity|rewrite app_length; lia|lia].
Qed.

(** collecting the bytes of one unit *)
Lemma fill_unit f input out n : forall q t k g dn, (t + n <= 7)%nat -> length g = (8 - t)%nat ->
  (8 * q + t + n <= length input)%nat -> 
  bf_loop f input (n + k) (8 * q + t) (g ++ rev dn) out =
  bf_loop f input k (8 * q + t + n) (firstn (8 - t - n) g ++ rev (dn ++ firstn n (skipn (8 * q + t) input))) out.
Proof.
  induction n as [|n IH]; intros q t k g dn Ht Hg Hin.
  - cbn [Nat.add firstn]. rewrite Nat.add_0_r, Nat.sub_0_r, app_nil_r, (firstn_all2 (n := 8 - t)) by lia. reflexivity.
  - cbn [Nat.add bf_loop]. rewrite (rd_lt _ _ 0) by lia. cbn [bind]. rewrite mod8 by lia.
    assert (Hg' : exists g' x, g = g' ++ [x] /\ length g' = (7 - t)%nat).
    { exists (removelast g), (last g 0). split; [apply app_removelast_last; intros ->; cbn [length] in Hg; lia|].
      rewrite removelast_firstn_len, firstn_length. lia. }
    destruct Hg' as (g' & x & -> & Hg'). rewrite <- app_assoc. cbn [app]. rewrite wr_app by lia. cbn [bind].
    replace (Nat.eqb t 7) with false by (symmetry; apply Nat.eqb_neq; lia).
    replace (S (8 * q + t)) with (8 * q + S t)%nat by lia.
    change (g' ++ nth (8 * q + t) input 0 :: rev dn) with (g' ++ [nth (8 * q + t) input 0] ++ rev dn).
    replace ([nth (8 * q + t) input 0] ++ rev dn) with (rev (dn ++ [nth (8 * q + t) input 0])) by (rewrite rev_app_distr; reflexivity).
    rewrite IH by lia. f_equal; [lia|]. f_equal.
    + rewrite firstn_app, Hg'. replace (8 - t - S n - (7 - t))%nat with 0%nat by lia. rewrite firstn_O, app_nil_r. f_equal. lia.
    + f_equal. rewrite <- app_assoc. f_equal. rewrite (skipn_nth_cons input (8 * q + t) 0) by lia. cbn [firstn app].
      do 2 f_equal. f_equal. lia.
Qed.
Lemma one_block_pre f g input q k unp out : (forall d, f d = Ret (g d)) -> length unp = 8%nat -> (8 * q + 8 <= length input)%nat ->
  let blk := SBlowfish.block_bytes (g (SBlowfish.block_of (firstn 8 (skipn (8 * q) input)))) in
  bf_loop f input (8 + k) (8 * q) unp out = (out <- store_loop 8 (8 * q) (rev blk) out ;; bf_loop f input k (8 * S q) (rev blk) out).
Proof.
  intros Hf Lu Hin blk.
  pose proof (fill_unit f input out 7 q 0 (S k) unp [] ltac:(lia) ltac:(lia) ltac:(lia)) as E.
  cbn [rev] in E. rewrite app_nil_r, Nat.add_0_r in E. cbn [app] in E.
  replace (7 + S k)%nat with (8 + k)%nat in E by lia. rewrite E. clear E.
  cbn [bf_loop]. rewrite (rd_lt _ _ 0) by lia. cbn [bind]. rewrite mod8 by lia.
  change (8 - 0 - 7)%nat with 1%nat. change (7 - 7)%nat with 0%nat.
  destruct unp as [|u0 unp]; [discriminate|]. change (firstn 1 (u0 :: unp)) with [u0]. cbn [app].
  match goal with |- bind (wr (u0 :: ?X) 0 ?v) _ = _ => change (wr (u0 :: X) 0 v) with (wr ([] ++ u0 :: X) 0 v) end.
  rewrite wr_app by reflexivity. cbn [bind app]. change (Nat.eqb 7 7) with true. cbv iota.
  match goal with |- bind (unit_call f (?v :: rev ?l)) _ = _ => replace (v :: rev l) with (rev (l ++ [v])) by (rewrite rev_app_distr; reflexivity) end.
  assert (B : firstn 7 (skipn (8 * q) input) ++ [nth (8 * q + 7) input 0] = firstn 8 (skipn (8 * q) input)).
  { rewrite (firstn_S_nth _ 7 0) by (rewrite skipn_length; lia). do 2 f_equal.
    rewrite <- (firstn_skipn (8 * q) input) at 1. rewrite app_nth2; rewrite firstn_length; [f_equal; lia|lia]. }
  rewrite B. rewrite (unit_call_block f g) by (auto; rewrite firstn_length, skipn_length; lia). cbn [bind].
  replace (8 * q + 7 - 7)%nat with (8 * q)%nat by lia. fold blk.
  replace (S (8 * q + 7)) with (8 * S q)%nat by lia. reflexivity.
Qed.

Lemma one_block f g input q k unp pre old post : (forall d, f d = Ret (g d)) -> length unp = 8%nat -> (8 * q + 8 <= length input)%nat ->
  length pre = (8 * q)%nat -> length old = 8%nat ->
  let blk := SBlowfish.block_bytes (g (SBlowfish.block_of (firstn 8 (skipn (8 * q) input)))) in
  bf_loop f input (8 + k) (8 * q) unp (pre ++ old ++ post) = bf_loop f input k (8 * S q) (rev blk) (pre ++ blk ++ post).
Proof. intros Hf Lu Hin Lp Lo blk. rewrite (one_block_pre f g) by auto. rewrite store_block by auto. reflexivity. Qed.

Lemma whole_blocks f g input n : (forall d, f d = Ret (g d)) -> forall q k unp pre old post, length unp = 8%nat ->
  (8 * (q + n) <= length input)%nat -> length pre = (8 * q)%nat -> length old = (8 * n)%nat -> exists unp', length unp' = 8%nat /\
  bf_loop f input (8 * n + k) (8 * q) unp (pre ++ old ++ post) =
  bf_loop f input k (8 * (q + n)) unp'
    (pre ++ concat (map (fun b => SBlowfish.block_bytes (g (SBlowfish.block_of b))) (SBlowfish.blocks n (skipn (8 * q) input))) ++ post).
Proof.
  intros Hf. induction n as [|n IH]; intros q k unp pre old post Lu Hin Lp Lo.
  - destruct old; [|cbn in Lo; lia]. exists unp. split; [exact Lu|]. rewrite Nat.add_0_r, Nat.mul_0_r. reflexivity.
  - rewrite <- (firstn_skipn 8 old). rewrite <- app_assoc.
    replace (8 * S n + k)%nat with (8 + (8 * n + k))%nat by lia.
    rewrite (one_block f g) by (auto; try rewrite firstn_length; lia).
    set (blk := SBlowfish.block_bytes _). rewrite app_assoc.
    destruct (IH (S q) k (rev blk) (pre ++ blk) (skipn 8 old) post) as (unp' & Lu' & E);
      [rewrite rev_length; reflexivity|lia|rewrite app_length; change (length blk) with 8%nat; lia|rewrite skipn_length; lia|].
    exists unp'. split; [exact Lu'|]. rewrite E. f_equal; [lia|]. cbn [SBlowfish.blocks map concat]. rewrite <- !app_assoc.
    fold blk. do 3 f_equal. rewrite skipn_add. do 4 f_equal. lia.
Qed.


(** ** whole buffers *)
Definition crypted (g : N * N -> N * N) (bs : list (list N)) : list N := concat (map (fun b => SBlowfish.block_bytes (g (SBlowfish.block_of b))) bs).
Lemma blocks_app n : forall m (a b : list N), length a = (8 * n)%nat ->
  SBlowfish.blocks (n + m) (a ++ b) = SBlowfish.blocks n a ++ SBlowfish.blocks m b.
Proof.
  induction n as [|n IH]; intros m a b L; [destruct a; [reflexivity|cbn [length] in L; lia]|].
  cbn [Nat.add SBlowfish.blocks]. rewrite firstn_app, skipn_app. replace (8 - length a)%nat with 0%nat by lia.
  rewrite firstn_O, app_nil_r. change (skipn 0 b) with b. rewrite IH by (rewrite skipn_length; lia). reflexivity.
Qed.
Lemma blocks_prefix n : forall (a b : list N), length a = (8 * n)%nat -> SBlowfish.blocks n (a ++ b) = SBlowfish.blocks n a.
Proof. intros a b L. pose proof (blocks_app n 0 a b L) as E. rewrite Nat.add_0_r in E. cbn [SBlowfish.blocks] in E. rewrite app_nil_r in E. exact E. Qed.
Lemma crypted_length g bs : length (crypted g bs) = (8 * length bs)%nat.
Proof. unfold crypted. induction bs as [|b bs IH]; [reflexivity|]. cbn [map concat]. rewrite app_length, IH, block_bytes_length. cbn [length]. lia. Qed.
Lemma blocks_length n : forall l, length (SBlowfish.blocks n l) = n.
Proof. induction n as [|n IH]; intros l; [reflexivity|]. cbn. rewrite IH. reflexivity. Qed.

Lemma padded_full n : SBlowfish.padded_length (8 * n) = (8 * n)%nat.
Proof. unfold SBlowfish.padded_length. replace ((8 * n + 7) / 8)%nat with n; [reflexivity|]. rewrite Nat.mul_comm, Nat.add_comm, Nat.div_add by lia. reflexivity. Qed.
Lemma padded_part n r : (0 < r < 8)%nat -> SBlowfish.padded_length (8 * n + r) = (8 * n + 8)%nat.
Proof.
  intros H. unfold SBlowfish.padded_length. replace (8 * n + r + 7)%nat with (r - 1 + (n + 1) * 8)%nat by lia.
  rewrite Nat.div_add by lia. rewrite Nat.div_small by lia. lia.
Qed.
Lemma split8 (l : list N) : exists a t, l = a ++ t /\ length a = (8 * (length l / 8))%nat /\ length t = (length l mod 8)%nat /\ (length t < 8)%nat.
Proof.
  exists (firstn (8 * (length l / 8)) l), (skipn (8 * (length l / 8)) l). rewrite firstn_skipn, firstn_length, skipn_length.
  pose proof (Nat.div_mod (length l) 8 ltac:(lia)) as E. pose proof (Nat.mod_upper_bound (length l) 8 ltac:(lia)) as M.
  repeat split; generalize dependent (length l / 8)%nat; generalize dependent (length l mod 8)%nat; intros; lia.
Qed.
Lemma ecb_full g a n : length a = (8 * n)%nat -> SBlowfish.ecb g a = crypted g (SBlowfish.blocks n a).
Proof.
  intros L. unfold SBlowfish.ecb, SBlowfish.pad8. rewrite L, padded_full, Nat.sub_diag. cbn [repeat]. rewrite app_nil_r.
  rewrite Nat.mul_comm, Nat.div_mul by lia. reflexivity.
Qed.
Lemma ecb_part g a t n : length a = (8 * n)%nat -> (0 < length t < 8)%nat ->
  SBlowfish.ecb g (a ++ t) = crypted g (SBlowfish.blocks n a) ++ crypted g [t ++ repeat 0 (8 - length t)].
Proof.
  intros L H. unfold SBlowfish.ecb, SBlowfish.pad8. rewrite app_length, L, padded_part by exact H.
  replace (8 * n + 8)%nat with ((n + 1) * 8)%nat at 1 by lia. rewrite Nat.div_mul by lia.
  replace (8 * n + 8 - (8 * n + length t))%nat with (8 - length t)%nat by lia. rewrite <- app_assoc, blocks_app by exact L.
  unfold crypted. rewrite map_app, concat_app. do 2 f_equal. cbn [SBlowfish.blocks map]. do 4 f_equal.
  apply firstn_all2. rewrite app_length, repeat_length. lia.
Qed.

Lemma rev_zeros n : rev (repeat 0 n) = repeat 0 n.
Proof.
  induction n as [|n IH]; [reflexivity|]. cbn [repeat rev]. rewrite IH. symmetry. apply (repeat_cons n 0).
Qed.
Section buffer.
  Variables (f : dword -> outcome dword) (g : N * N -> N * N).
  Hypothesis Hf : forall d, f d = Ret (g d).
  Lemma generic_full n unp input old post : length unp = 8%nat -> length input = (8 * n)%nat -> length old = (8 * n)%nat ->
    bf_generic f unp input (old ++ post) = Ret ((8 * n)%nat, SBlowfish.ecb g input ++ post).
  Proof.
    intros Lu Li Lo. unfold bf_generic. rewrite Li.
    destruct (whole_blocks f g input n Hf 0 0 unp [] old post Lu ltac:(lia) ltac:(reflexivity) Lo) as (unp' & Lu' & E).
    rewrite Nat.add_0_r in E. change (8 * 0)%nat with 0%nat in E. cbn [app] in E. rewrite E. cbn [bf_loop bind skipn].
    rewrite <- (Nat.add_0_r (8 * n)) at 1. rewrite mod8 by lia. change (Nat.eqb 0 0) with true. cbv iota.
    rewrite (ecb_full g input n Li). reflexivity.
  Qed.
  (** up to the final store *)
  Lemma generic_tail n unp a t old post : length unp = 8%nat -> length a = (8 * n)%nat -> (0 < length t < 8)%nat -> length old = (8 * n)%nat ->
    bf_generic f unp (a ++ t) (old ++ post) =
    (out <- store_loop 8 (8 * n) (rev (SBlowfish.block_bytes (g (SBlowfish.block_of (t ++ repeat 0 (8 - length t)))))) (crypted g (SBlowfish.blocks n a) ++ post) ;;
     Ret ((8 * n + 8)%nat, out)).
  Proof.
    intros Lu La Ht Lo. unfold bf_generic. rewrite app_length, La. cbv zeta.
    destruct (whole_blocks f g (a ++ t) n Hf 0 (length t) unp [] old post Lu) as (unp' & Lu' & E);
      [rewrite app_length; lia|reflexivity|exact Lo|].
    change (8 * 0)%nat with 0%nat in E. cbn [app] in E. change (0 + n)%nat with n in E. cbn [skipn] in E.
    rewrite (blocks_prefix n a t La) in E. fold (crypted g (SBlowfish.blocks n a)) in E. rewrite E. clear E.
    pose proof (fill_unit f (a ++ t) (crypted g (SBlowfish.blocks n a) ++ post) (length t) n 0 0 unp' []) as E.
    rewrite !Nat.add_0_r, app_length, Nat.sub_0_r in E. cbn [rev app] in E. rewrite app_nil_r in E.
    rewrite E by lia. clear E. cbn [bf_loop bind].
    rewrite skipn_app, skipn_all2 by lia. rewrite La, Nat.sub_diag. change (skipn 0 t) with t. cbn [app]. rewrite firstn_all.
    rewrite mod8 by lia. replace (Nat.eqb (length t) 0) with false by (symmetry; apply Nat.eqb_neq; lia).
    match goal with |- bind (blit ?L 0 ?r) _ = _ => change (blit L 0 r) with (blit ([] ++ L) 0 r) end.
    rewrite blit_app; [|reflexivity|rewrite repeat_length, firstn_length; lia]. cbn [bind app].
    rewrite <- rev_zeros at 1. rewrite <- rev_app_distr. rewrite (unit_call_block f g) by (auto; rewrite app_length, repeat_length; lia). cbn [bind].
    replace (8 * n + length t + (8 - length t) - 8)%nat with (8 * n)%nat by lia.
    replace (8 * n + length t + (8 - length t))%nat with (8 * n + 8)%nat by lia. reflexivity.
  Qed.
  Lemma generic_part n unp a t old post : length unp = 8%nat -> length a = (8 * n)%nat -> (0 < length t < 8)%nat -> length old = (8 * n + 8)%nat ->
    bf_generic f unp (a ++ t) (old ++ post) = Ret ((8 * n + 8)%nat, SBlowfish.ecb g (a ++ t) ++ post).
  Proof.
    intros Lu La Ht Lo. rewrite <- (firstn_skipn (8 * n) old), <- app_assoc.
    rewrite (generic_tail n) by (auto; rewrite firstn_length; lia).
    rewrite (store_block _ n) by (rewrite ?skipn_length, ?crypted_length, ?blocks_length; auto; lia). cbn [bind].
    rewrite (ecb_part g a t n La Ht), <- app_assoc. unfold crypted at 2. cbn [map concat]. reflexivity.
  Qed.
  Lemma generic_ok unp input old post : length unp = 8%nat -> length old = SBlowfish.padded_length (length input) ->
    bf_generic f unp input (old ++ post) = Ret (SBlowfish.padded_length (length input), SBlowfish.ecb g input ++ post).
  Proof.
    intros Lu Lo. destruct (split8 input) as (a & t & E & La & _ & Lt). set (n := (length input / 8)%nat) in *. clearbody n. subst input.
    rewrite app_length, La in *. destruct t as [|x t].
    - cbn [length] in *. rewrite Nat.add_0_r, app_nil_r, padded_full in *. apply generic_full; auto.
    - set (u := x :: t) in *. assert (0 < length u)%nat by (cbn; lia). rewrite padded_part in * by lia. apply generic_part; auto; lia.
  Qed.
  Lemma generic_short unp input out : length unp = 8%nat -> (8 * (length input / 8) <= length out < SBlowfish.padded_length (length input))%nat ->
    bf_generic f unp input out = UB OutOfBounds.
  Proof.
    intros Lu Lo. destruct (split8 input) as (a & t & E & La & _ & Lt). set (n := (length input / 8)%nat) in *. clearbody n. subst input.
    rewrite app_length, La in *. destruct t as [|x t].
    - cbn [length] in *. rewrite Nat.add_0_r, padded_full in *. lia.
    - set (u := x :: t) in *. assert (0 < length u)%nat by (cbn; lia). rewrite padded_part in * by lia.
      rewrite <- (firstn_skipn (8 * n) out). rewrite (generic_tail n) by (auto; try rewrite firstn_length; lia).
      rewrite store_short by (rewrite ?skipn_length, ?crypted_length, ?blocks_length; auto; lia). reflexivity.
  Qed.
  Lemma generic_small unp input out : length unp = 8%nat -> (length out < SBlowfish.padded_length (length input))%nat ->
    bf_generic f unp input out = UB OutOfBounds.
  Proof.
    intros Lu Lo. destruct (Nat.le_gt_cases (8 * (length input / 8)) (length out)) as [H|H]; [apply generic_short; auto|].
    destruct (split8 out) as (a & t & E & La & _ & Lt). set (q := (length out / 8)%nat) in *. clearbody q. subst out.
    rewrite app_length, La in *. clear Lo.
    pose proof (Nat.div_mod (length input) 8 ltac:(lia)) as DM.
    assert (HL : (8 * q + 8 <= length input)%nat) by (generalize dependent (length input / 8)%nat; generalize dependent (length input mod 8)%nat; intros; lia).
    unfold bf_generic. replace (length input) with (8 * q + (8 + (length input - 8 * q - 8)))%nat at 1 by lia.
    destruct (whole_blocks f g input q Hf 0 (8 + (length input - 8 * q - 8)) unp [] a t Lu ltac:(lia) ltac:(reflexivity) La) as (unp' & Lu' & E).
    change (8 * 0)%nat with 0%nat in E. cbn [app] in E. rewrite E. clear E. change (0 + q)%nat with q.
    rewrite (one_block_pre f g) by (auto; lia). cbv zeta. cbn [skipn].
    match goal with |- context [concat (map ?F_ ?B)] => change (concat (map F_ B)) with (crypted g B) end.
    rewrite store_short by (rewrite ?crypted_length, ?blocks_length; auto; lia). reflexivity.
  Qed.
End buffer.

(** ** in place *)
Lemma store_keeps k : forall j unp mem mem', store_loop k j unp mem = Ret mem' -> forall p, (j + k <= p)%nat -> nth_error mem' p = nth_error mem p.
Proof.
  induction k as [|k IH]; intros j unp mem mem' E p Hp; cbn [store_loop] in E; [congruence|].
  destruct (rd unp (7 - j mod 8)) as [b| |]; try discriminate E. cbn [bind] in E.
  destruct (Nat.lt_ge_cases j (length mem)) as [H|H].
  - destruct (app_split_at mem j H) as (q & x & r & -> & L). rewrite wr_app in E by lia. cbn [bind] in E.
    rewrite (IH _ _ _ _ E p) by lia. rewrite !nth_error_app2 by lia. destruct (p - length q)%nat eqn:D; [lia|reflexivity].
  - rewrite wr_ub in E by lia. discriminate E.
Qed.
Lemma in_place_loop f input k : forall i unp mem, (forall p, (i <= p < i + k)%nat -> nth_error mem p = nth_error input p) ->
  bf_loop_in_place f k i unp mem = bf_loop f input k i unp mem.
Proof.
  induction k as [|k IH]; intros i unp mem H; [reflexivity|]. cbn [bf_loop bf_loop_in_place].
  assert (R : rd mem i = rd input i) by (unfold rd; rewrite H by lia; reflexivity). rewrite R.
  destruct (rd input i) as [b| |]; try reflexivity. cbn [bind].
  destruct (wr unp _ b) as [u| |]; try reflexivity. cbn [bind].
  destruct (Nat.eqb (i mod 8) 7) eqn:M.
  - destruct (unit_call f u) as [u2| |]; try reflexivity. cbn [bind].
    destruct (store_loop 8 (i - 7) u2 mem) as [mem'| |] eqn:St; try reflexivity. cbn [bind].
    apply IH. intros p Hp. rewrite (store_keeps _ _ _ _ _ St) by (apply Nat.eqb_eq in M; pose proof (Nat.mod_le i 8 ltac:(lia)); lia).
    apply H. lia.
  - apply IH. intros p Hp. apply H. lia.
Qed.
Lemma in_place_generic f unp input post : bf_in_place f unp (length input) (input ++ post) = bf_generic f unp input (input ++ post).
Proof.
  unfold bf_in_place, bf_generic. rewrite (in_place_loop f input); [reflexivity|].
  intros p Hp. apply nth_error_app1. lia.
Qed.

(** ** words and bytes *)
Lemma be_word_bytes_ok v : bytes_ok (SBlowfish.be_word_bytes v).
Proof. unfold bytes_ok, SBlowfish.be_word_bytes. apply Forall_forall. intros b H. apply in_map_iff in H as (k & <- & _). apply N.mod_lt. lia. Qed.
Lemma be_word_inv v : v < 2 ^ 32 -> SBlowfish.be_word (SBlowfish.be_word_bytes v) = v.
Proof.
  change (2 ^ 32) with 4294967296. intros H. unfold SBlowfish.be_word, SBlowfish.be_word_bytes. cbn [seq map fold_left].
  change (256 ^ N.of_nat (3 - 0)) with 16777216. change (256 ^ N.of_nat (3 - 1)) with 65536.
  change (256 ^ N.of_nat (3 - 2)) with 256. change (256 ^ N.of_nat (3 - 3)) with 1. lia.
Qed.
Lemma be_word4_inv a b c d : is_byte a -> is_byte b -> is_byte c -> is_byte d -> SBlowfish.be_word_bytes (SBlowfish.be_word [a; b; c; d]) = [a; b; c; d].
Proof.
  unfold is_byte. intros. unfold SBlowfish.be_word, SBlowfish.be_word_bytes. cbn [seq map fold_left].
  change (256 ^ N.of_nat (3 - 0)) with 16777216. change (256 ^ N.of_nat (3 - 1)) with 65536.
  change (256 ^ N.of_nat (3 - 2)) with 256. change (256 ^ N.of_nat (3 - 3)) with 1.
  rewrite N.mul_0_l, N.add_0_l. f_equal; [lia|f_equal; [lia|f_equal; [lia|f_equal; lia]]].
Qed.
Lemma block_of_bytes d : fst d < 2 ^ 32 -> snd d < 2 ^ 32 -> SBlowfish.block_of (SBlowfish.block_bytes d) = d.
Proof.
  intros H1 H2. destruct d as [l r]. unfold SBlowfish.block_of, SBlowfish.block_bytes. cbn [fst snd] in *.
  change (firstn 4 (SBlowfish.be_word_bytes l ++ SBlowfish.be_word_bytes r)) with (SBlowfish.be_word_bytes l).
  change (firstn 4 (skipn 4 (SBlowfish.be_word_bytes l ++ SBlowfish.be_word_bytes r))) with (SBlowfish.be_word_bytes r).
  rewrite !be_word_inv by assumption. reflexivity.
Qed.
Lemma block_bytes_of b : length b = 8%nat -> bytes_ok b -> SBlowfish.block_bytes (SBlowfish.block_of b) = b.
Proof.
  intros L Hb. destruct b as [|a0 [|a1 [|a2 [|a3 [|a4 [|a5 [|a6 [|a7 [|]]]]]]]]]; try discriminate L.
  unfold bytes_ok in Hb. repeat match goal with H : Forall _ (_ :: _) |- _ => pose proof (Forall_inv H); apply Forall_inv_tail in H end.
  unfold SBlowfish.block_bytes, SBlowfish.block_of. cbn [firstn skipn fst snd].
  rewrite !be_word4_inv by assumption. reflexivity.
Qed.
Lemma be_word_lt l : bytes_ok l -> (length l <= 4)%nat -> SBlowfish.be_word l < 2 ^ 32.
Proof.
  intros Hb L. change (2 ^ 32) with 4294967296. unfold bytes_ok, is_byte in Hb. unfold SBlowfish.be_word.
  destruct l as [|a [|b [|c [|d [|]]]]]; cbn [length] in L; try lia; cbn [fold_left];
  repeat match goal with H : Forall _ (_ :: _) |- _ => pose proof (Forall_inv H); apply Forall_inv_tail in H end; cbn beta in *; lia.
Qed.


(** ** 32-bit words stay 32-bit words *)
Definition dword_ok (d : N * N) : Prop := fst d < 2 ^ 32 /\ snd d < 2 ^ 32.
Lemma lxor_lt32 a b : a < 2 ^ 32 -> b < 2 ^ 32 -> N.lxor a b < 2 ^ 32.
Proof.
  intros Ha Hb. replace (N.lxor a b) with (N.lxor a b mod 2 ^ 32); [apply N.mod_lt; discriminate|].
  apply N.bits_inj. intros k. destruct (N.lt_ge_cases k 32) as [H|H].
  - apply N.mod_pow2_bits_low. exact H.
  - rewrite N.mod_pow2_bits_high by exact H. rewrite N.lxor_spec, (PWords.testbit_high a k 32), (PWords.testbit_high b k 32) by assumption. reflexivity.
Qed.
Lemma word_lt W i : words_ok W -> SBlowfish.word W i < 2 ^ 32.
Proof.
  intros H. unfold SBlowfish.word. destruct (Nat.lt_ge_cases i (length W)) as [L|L].
  - unfold words_ok in H. rewrite Forall_forall in H. apply H, nth_In, L.
  - rewrite nth_overflow by exact L. reflexivity.
Qed.
Lemma round_ok W b p : dword_ok b -> p < 2 ^ 32 -> dword_ok (SBlowfish.round W b p).
Proof.
  intros [H1 H2] Hp. unfold SBlowfish.round, dword_ok. cbn [fst snd]. split; [|apply lxor_lt32; assumption].
  apply lxor_lt32; [|exact H2]. unfold SBlowfish.F. apply N.mod_lt. discriminate.
Qed.
Lemma rounds_ok W ps : words_ok ps -> forall b, dword_ok b -> dword_ok (fold_left (SBlowfish.round W) ps b).
Proof. induction 1 as [|p ps Hp Hps IH]; intros b Hb; [exact Hb|]. cbn [fold_left]. apply IH, round_ok; assumption. Qed.
Lemma crypt_ok W ps p q b : words_ok ps -> p < 2 ^ 32 -> q < 2 ^ 32 -> dword_ok b -> dword_ok (SBlowfish.crypt W ps p q b).
Proof.
  intros Hps Hp Hq Hb. unfold SBlowfish.crypt. pose proof (rounds_ok W ps Hps b Hb) as [H1 H2].
  destruct (fold_left (SBlowfish.round W) ps b) as [x y]. cbn [fst snd] in *. split; cbn [fst snd]; apply lxor_lt32; assumption.
Qed.
Lemma words_firstn n W : words_ok W -> words_ok (firstn n W).
Proof. intros H. unfold words_ok in *. rewrite <- (firstn_skipn n W) in H. apply Forall_app in H. apply H. Qed.
Lemma words_skipn n W : words_ok W -> words_ok (skipn n W).
Proof. intros H. unfold words_ok in *. rewrite <- (firstn_skipn n W) in H. apply Forall_app in H. apply H. Qed.
Lemma encrypt_ok W b : words_ok W -> dword_ok b -> dword_ok (SBlowfish.encrypt W b).
Proof. intros H Hb. apply crypt_ok; auto using words_firstn, word_lt. Qed.
Lemma decrypt_ok W b : words_ok W -> dword_ok b -> dword_ok (SBlowfish.decrypt W b).
Proof. intros H Hb. apply crypt_ok; auto using word_lt. apply words_firstn. unfold words_ok. apply Forall_rev. apply words_firstn, H. Qed.
Lemma replace_ok W k b : words_ok W -> dword_ok b -> words_ok (SBlowfish.replace W k b).
Proof.
  intros H [H1 H2]. unfold SBlowfish.replace, words_ok. apply Forall_app. split; [apply words_firstn, H|].
  constructor; [exact H1|]. constructor; [exact H2|]. apply words_skipn, H.
Qed.
Lemma expand_ok n : forall k W b, words_ok W -> dword_ok b -> words_ok (SBlowfish.expand n k W b).
Proof. induction n as [|n IH]; intros k W b H Hb; [exact H|]. cbn [SBlowfish.expand]. cbv zeta. apply IH; [apply replace_ok|]; auto using encrypt_ok. Qed.
Lemma key_word_lt key i : key <> [] -> bytes_ok key -> SBlowfish.key_word key i < 2 ^ 32.
Proof.
  intros H Hb. unfold SBlowfish.key_word. change (2 ^ 32) with 4294967296.
  pose proof (key_byte_lt key (4 * i) H Hb). pose proof (key_byte_lt key (4 * i + 1) H Hb).
  pose proof (key_byte_lt key (4 * i + 2) H Hb). pose proof (key_byte_lt key (4 * i + 3) H Hb).
  generalize dependent (SBlowfish.key_byte key (4 * i)). generalize dependent (SBlowfish.key_byte key (4 * i + 1)).
  generalize dependent (SBlowfish.key_byte key (4 * i + 2)). generalize dependent (SBlowfish.key_byte key (4 * i + 3)). intros. lia.
Qed.
Lemma subkeys_ok key : key <> [] -> bytes_ok key -> words_ok (SBlowfish.subkeys key).
Proof.
  intros H Hb. unfold SBlowfish.subkeys. apply expand_ok; [|split; reflexivity]. unfold SBlowfish.mixed, words_ok. apply Forall_app. split.
  - apply Forall_forall. intros w Hw. apply in_map_iff in Hw as (i & <- & _). apply lxor_lt32; [apply word_lt, pi_words_ok|apply key_word_lt; assumption].
  - apply words_skipn, pi_words_ok.
Qed.

(** ** ECB round trip *)
Lemma blocks_concat (bs : list (list N)) : Forall (fun b => length b = 8%nat) bs -> SBlowfish.blocks (length bs) (concat bs) = bs.
Proof.
  induction 1 as [|b bs Hb Hbs IH]; [reflexivity|]. cbn [length SBlowfish.blocks concat].
  rewrite firstn_app, skipn_app, Hb, Nat.sub_diag, firstn_O, app_nil_r, firstn_all2, skipn_all2 by lia. cbn [skipn app]. rewrite IH. reflexivity.
Qed.
Lemma concat_blocks n : forall l : list N, length l = (8 * n)%nat -> concat (SBlowfish.blocks n l) = l.
Proof.
  induction n as [|n IH]; intros l L; [destruct l; [reflexivity|cbn [length] in L; lia]|]. cbn [SBlowfish.blocks concat].
  rewrite IH by (rewrite skipn_length; lia). apply firstn_skipn.
Qed.
Lemma blocks_each n : forall l : list N, length l = (8 * n)%nat -> Forall (fun b => length b = 8%nat) (SBlowfish.blocks n l).
Proof.
  induction n as [|n IH]; intros l L; [constructor|]. cbn [SBlowfish.blocks]. constructor; [rewrite firstn_length; lia|].
  apply IH. rewrite skipn_length. lia.
Qed.
Lemma blocks_bytes n : forall l : list N, bytes_ok l -> Forall bytes_ok (SBlowfish.blocks n l).
Proof.
  induction n as [|n IH]; intros l H; [constructor|]. cbn [SBlowfish.blocks].
  unfold bytes_ok in H. rewrite <- (firstn_skipn 8 l) in H. apply Forall_app in H as [H1 H2]. constructor; [exact H1|]. apply IH, H2.
Qed.
Lemma padded_mult n : exists k, SBlowfish.padded_length n = (8 * k)%nat /\ (n <= 8 * k < n + 8)%nat.
Proof.
  exists ((n + 7) / 8)%nat. split; [reflexivity|].
  pose proof (Nat.div_mod (n + 7) 8 ltac:(lia)) as E. pose proof (Nat.mod_upper_bound (n + 7) 8 ltac:(lia)) as M.
  generalize dependent ((n + 7) / 8)%nat. generalize dependent ((n + 7) mod 8)%nat. intros. lia.
Qed.
Lemma pad8_length l : length (SBlowfish.pad8 l) = SBlowfish.padded_length (length l).
Proof. unfold SBlowfish.pad8. rewrite app_length, repeat_length. destruct (padded_mult (length l)) as (k & -> & H). lia. Qed.
Lemma pad8_bytes l : bytes_ok l -> bytes_ok (SBlowfish.pad8 l).
Proof.
  intros H. unfold SBlowfish.pad8, bytes_ok. apply Forall_app. split; [exact H|]. apply Forall_forall. intros x Hx. apply repeat_spec in Hx. subst. reflexivity.
Qed.
Lemma ecb_crypted g l k : SBlowfish.padded_length (length l) = (8 * k)%nat -> SBlowfish.ecb g l = crypted g (SBlowfish.blocks k (SBlowfish.pad8 l)).
Proof. intros E. unfold SBlowfish.ecb. rewrite E, Nat.mul_comm, Nat.div_mul by lia. reflexivity. Qed.
Lemma ecb_length g l : length (SBlowfish.ecb g l) = SBlowfish.padded_length (length l).
Proof. destruct (padded_mult (length l)) as (k & E & _). rewrite (ecb_crypted g l k E), crypted_length, blocks_length. congruence. Qed.
Lemma crypted_bytes g bs : bytes_ok (crypted g bs).
Proof.
  unfold crypted, bytes_ok. apply Forall_concat. apply Forall_forall. intros b H. apply in_map_iff in H as (c & <- & _).
  unfold SBlowfish.block_bytes. apply Forall_app. split; apply be_word_bytes_ok.
Qed.
Lemma ecb_bytes g l : bytes_ok (SBlowfish.ecb g l).
Proof. apply crypted_bytes. Qed.
Lemma In_firstn_ {A} (x : A) n l : In x (firstn n l) -> In x l.
Proof. intros H. rewrite <- (firstn_skipn n l). apply in_or_app. auto. Qed.
Lemma In_skipn_ {A} (x : A) n l : In x (skipn n l) -> In x l.
Proof. intros H. rewrite <- (firstn_skipn n l). apply in_or_app. auto. Qed.
Lemma block_of_ok b : bytes_ok b -> dword_ok (SBlowfish.block_of b).
Proof.
  intros H. unfold bytes_ok in H. split; cbn [fst snd SBlowfish.block_of]; apply be_word_lt; try (rewrite firstn_length; lia);
  unfold bytes_ok; apply Forall_forall; intros x Hx; rewrite Forall_forall in H; apply H; [|apply (In_skipn_ x 4)]; eapply In_firstn_; exact Hx.
Qed.
Lemma ecb_inverse g h l : (forall d, dword_ok d -> dword_ok (g d)) -> (forall d, h (g d) = d) -> bytes_ok l ->
  SBlowfish.ecb h (SBlowfish.ecb g l) = SBlowfish.pad8 l.
Proof.
  intros Hg Hh Hl. destruct (padded_mult (length l)) as (k & E & _).
  pose proof (ecb_length g l) as L. rewrite E in L. rewrite (ecb_full h _ k L). rewrite (ecb_crypted g l k E).
  assert (LP : length (SBlowfish.pad8 l) = (8 * k)%nat) by (rewrite pad8_length; exact E).
  set (bs := SBlowfish.blocks k (SBlowfish.pad8 l)).
  assert (Lk : length (map (fun b => SBlowfish.block_bytes (g (SBlowfish.block_of b))) bs) = k) by (rewrite map_length; apply blocks_length).
  unfold crypted at 2. rewrite <- Lk at 1. rewrite blocks_concat.
  2: { apply Forall_forall. intros b Hb. apply in_map_iff in Hb as (c & <- & _). reflexivity. }
  unfold crypted. rewrite map_map.
  rewrite (map_ext_in _ (fun b => b)).
  - rewrite map_id. apply concat_blocks, LP.
  - intros b Hb. 
    pose proof (blocks_each k _ LP) as X1. pose proof (blocks_bytes k _ (pad8_bytes l Hl)) as X2.
    rewrite Forall_forall in X1, X2. specialize (X1 b Hb). specialize (X2 b Hb).
    pose proof (Hg _ (block_of_ok b X2)) as [G1 G2]. rewrite block_of_bytes by assumption. rewrite Hh. apply block_bytes_of; assumption.
Qed.
Lemma ecb_app g a b n : length a = (8 * n)%nat -> SBlowfish.ecb g (a ++ b) = SBlowfish.ecb g a ++ SBlowfish.ecb g b.
Proof.
  intros L. rewrite (ecb_full g a n L). destruct (padded_mult (length b)) as (k & E & Hk).
  assert (EP : SBlowfish.padded_length (length (a ++ b)) = (8 * (n + k))%nat).
  { rewrite app_length, L. destruct (padded_mult (8 * n + length b)) as (m & -> & Hm). lia. }
  rewrite (ecb_crypted g _ _ EP), (ecb_crypted g b k E). unfold SBlowfish.pad8. rewrite EP, E, app_length, L.
  replace (8 * (n + k) - (8 * n + length b))%nat with (8 * k - length b)%nat by lia.
  rewrite <- app_assoc, blocks_app by exact L. unfold crypted. rewrite map_app, concat_app. reflexivity.
Qed.
