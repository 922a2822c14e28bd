(** C88: Blowfish contexts used by several threads. *)
From Verif Require Import Base MBlowfish PBlowfish PBlowfish2 PBlowfish3 PBfFast MBfThreads SBfThreads PBfThreads PropBlowfish.
From Verif Require SBlowfish.
Local Open Scope N_scope.

(** a struct pgfe_blowfish_sequence_t with any contents *)
Definition struct (c : bf_ctx) : Prop := length (bP c) = 18%nat /\ length (bS c) = 4%nat /\ forall row, In row (bS c) -> length row = 256%nat.
Lemma struct_shaped c : struct c <-> shaped c.
Proof. unfold struct, shaped. rewrite Forall_forall. reflexivity. Qed.

Lemma total_work cs work : Forall shaped cs -> (forall calls, In calls work -> exists r, alone cs calls = Ret r) ->
  exists need, forall i calls csi rs, nth_error work i = Some calls -> alone cs calls = Ret (csi, rs) ->
    forall n, (need <= n)%nat -> iter n (cs, mkBT calls None []) = Ret (csi, mkBT [] None rs).
Proof.
  intros F T. enough (exists need, forall calls csi rs, In calls work -> alone cs calls = Ret (csi, rs) ->
    forall n, (need <= n)%nat -> iter n (cs, mkBT calls None []) = Ret (csi, mkBT [] None rs)) as (need & X).
  { exists need. intros i calls csi rs W. apply X. apply (nth_error_In _ _ W). }
  induction work as [|w work IH]; [exists O; intros ? ? ? []|]. destruct IH as (n1 & H1); [intros; apply T; right; assumption|].
  destruct (T w (or_introl eq_refl)) as ([cs1 rs1] & A). destruct (iter_alone _ _ _ _ [] F A) as (n2 & H2).
  exists (n1 + n2)%nat. intros calls csi rs [<-|W] A2 n L; [|apply (H1 _ _ _ W A2); lia].
  assert (cs1 = csi /\ rs1 = rs) as (-> & ->) by (split; congruence).
  replace n with (n2 + (n - n2))%nat by lia. rewrite iter_add, H2. cbn [bind app]. apply iter_done.
Qed.

(** Threads use contexts, none of which one thread initialises while another uses it; each thread alone does nothing undefined.
    Then no schedule does anything undefined, every result is the one the thread would have got alone, a thread that gets enough steps finishes
    whatever the others do, its contexts are then as if it had been alone, and contexts that nobody initialises never change. *)
Theorem C88_threads : forall cs work, (forall c, In c cs -> struct c) -> no_conflict work ->
  (forall calls, In calls work -> exists r, alone cs calls = Ret r) ->
  exists need, forall sched, exists cs' ts', bt_run (bt_start cs work) sched = Ret (cs', ts') /\ length ts' = length work /\
    (forall i calls csi rs, nth_error work i = Some calls -> alone cs calls = Ret (csi, rs) ->
       exists t, nth_error ts' i = Some t /\ (exists later, rs = b_results t ++ later) /\
         ((need <= steps_of i sched)%nat -> bt_finished t /\ b_results t = rs /\ forall o, uses calls o -> nth_error cs' o = nth_error csi o)) /\
    (forall o, (forall calls, In calls work -> ~ initialises calls o) -> nth_error cs' o = nth_error cs o).
Proof.
  intros cs work St NC T. assert (F : Forall shaped cs) by (apply Forall_forall; intros c H; apply struct_shaped, St, H).
  destruct (total_work cs work F T) as (need & Nd). exists need. intros sched.
  assert (Total : forall i calls, nth_error work i = Some calls -> forall n, exists y, iter n (cs, mkBT calls None []) = Ret y).
  { intros i calls W n. destruct (T calls (nth_error_In _ _ W)) as ([csi rs] & A). apply (iter_total need _ (csi, mkBT [] None rs)); [|eauto].
    apply (Nd _ _ _ _ W A). lia. }
  destruct (run_good cs work NC Total sched) as (cs' & ts' & R & L & LT & TH & Un). exists cs', ts'. split; [exact R|]. split; [exact LT|]. split.
  - intros i calls csi rs W A. destruct (TH i calls W) as (t & cst & Nt & It & Lc & OK & Ag). exists t. split; [exact Nt|].
    assert (Later : iter (steps_of i sched + need) (cs, mkBT calls None []) = Ret (csi, mkBT [] None rs)) by (apply (Nd _ _ _ _ W A); lia).
    split.
    + rewrite iter_add, It in Later. cbn [bind] in Later. apply iter_results in Later. exact Later.
    + intros Enough. rewrite (Nd _ _ _ _ W A _ Enough) in It. assert (csi = cst /\ mkBT [] None rs = t) as (-> & <-) by (split; congruence).
      split; [split; reflexivity|]. split; [reflexivity|exact Ag].
  - intros o H. apply Un. intros i calls W. apply H, (nth_error_In _ _ W).
Qed.
Print Assumptions C88_threads.
(** in particular threads may share contexts that none of them initialises: any block, buffer or object call *)
Theorem C88_shared_readers : forall cs work, (forall c, In c cs -> struct c) -> (forall calls o mem len, In calls work -> ~ In (o, BInit mem len) calls) ->
  (forall calls, In calls work -> exists r, alone cs calls = Ret r) ->
  exists need, forall sched, exists ts', bt_run (bt_start cs work) sched = Ret (cs, ts') /\
    forall i calls csi rs, nth_error work i = Some calls -> alone cs calls = Ret (csi, rs) ->
      exists t, nth_error ts' i = Some t /\ (exists later, rs = b_results t ++ later) /\ ((need <= steps_of i sched)%nat -> bt_finished t /\ b_results t = rs).
Proof.
  intros cs work St NI T.
  assert (NC : no_conflict work).
  { intros i j a b o D Wa Wb (mem & len & Hi). destruct (NI a o mem len (nth_error_In _ _ Wa) Hi). }
  destruct (C88_threads cs work St NC T) as (need & X). exists need. intros sched. destruct (X sched) as (cs' & ts' & R & L & Th & Un). exists ts'.
  assert (cs' = cs) as ->.
  { assert (E : forall o, nth_error cs' o = nth_error cs o). { intros o. apply Un. intros calls W (mem & len & Hi). exact (NI calls o mem len W Hi). }
    clear - E. revert cs E. induction cs' as [|c cs' IH]; intros [|d cs] E; [reflexivity|specialize (E O); discriminate E|specialize (E O); discriminate E|].
    pose proof (E O) as E0. cbn in E0. f_equal; [congruence|]. apply IH. intros o. apply (E (S o)). }
  split; [exact R|]. intros i calls csi rs W A. destruct (Th i calls csi rs W A) as (t & Nt & La & En). exists t. split; [exact Nt|]. split; [exact La|].
  intros H. destruct (En H) as (Fi & Rs & _). split; assumption.
Qed.
Print Assumptions C88_shared_readers.

(** ** initialising a context while another thread uses it *)
Lemma run_repeat k n : forall cs t cs' t' ts, nth_error ts k = Some t -> iter n (cs, t) = Ret (cs', t') -> bt_run (cs, ts) (repeat k n) = Ret (cs', putb k t' ts).
Proof.
  induction n as [|n IH]; intros cs t cs' t' ts Nk; cbn [iter repeat bt_run].
  - intros E. assert (cs = cs' /\ t = t') as (<- & <-) by (split; congruence). rewrite (putb_id _ _ _ Nk). reflexivity.
  - cbn [fst snd]. unfold bt_next. rewrite Nk. destruct (bt_step cs t) as [[cs1 t1]| |]; cbn [bind]; try discriminate. intros E.
    assert (K : (k < length ts)%nat) by (apply nth_error_Some; congruence). rewrite (IH _ _ _ _ (putb k t1 ts) (putb_same _ _ _ K) E).
    rewrite putb_putb by exact K. reflexivity.
Qed.
Lemma iter_ctx {A} (K : prog A -> prog bresult) : (forall l k, K (PGet l k) = PGet l (fun v => K (k v))) -> (forall l v k, K (PSet l v k) = PSet l v (K k)) ->
  forall p cs o c c' a todo res, nth_error cs o = Some c -> prun c p = Ret (c', a) ->
  exists n, iter n (cs, mkBT todo (Some (o, K p)) res) = Ret (putb o c' cs, mkBT todo (Some (o, K (PRet (Ret a)))) res).
Proof.
  intros KG KS. induction p as [r|l k IH|l w k IH]; intros cs o c c' v todo res N; cbn [prun]; intros E.
  - destruct r as [a| |]; cbn [omap] in E; try discriminate. assert (c = c' /\ a = v) as (<- & <-) by (split; congruence).
    exists O. cbn [iter]. rewrite (putb_id _ _ _ N). reflexivity.
  - destruct (getw c l) as [x| |] eqn:G; cbn [bind] in E; try discriminate. destruct (IH x cs o c c' v todo res N E) as (n & I). exists (S n).
    rewrite KG. cbn [iter fst snd bt_step b_at b_todo b_results]. unfold rd at 1. rewrite N. cbn [bind]. rewrite G. cbn [bind]. exact I.
  - destruct (setw c l w) as [c1| |] eqn:G; cbn [bind] in E; try discriminate. assert (L : (o < length cs)%nat) by (apply nth_error_Some; congruence).
    destruct (IH (putb o c1 cs) o c1 c' v todo res (putb_same _ _ _ L) E) as (n & I). exists (S n).
    rewrite KS. cbn [iter fst snd bt_step b_at b_todo b_results]. unfold rd at 1. rewrite N. cbn [bind]. rewrite G. cbn [bind]. rewrite I. rewrite putb_putb by exact L. reflexivity.
Qed.
(** the words of the context in the middle of the initialisation: P after the key is mixed in, the original S-boxes *)
Definition mixed_P (key : list N) : list N := map (fun i => N.lxor (SBlowfish.word SBlowfish.pi_words i) (SBlowfish.key_word key i)) (seq 0 18).
Lemma mixed_word key i : (i < 18)%nat -> nth_error (mixed_P key) i = Some (nth i (SBlowfish.mixed key) 0).
Proof.
  intros L. unfold SBlowfish.mixed. fold (mixed_P key). assert (LL : length (mixed_P key) = 18%nat) by (unfold mixed_P; rewrite map_length, seq_length; reflexivity).
  rewrite app_nth1 by lia. apply nth_error_nth'. lia.
Qed.
Lemma init_split c key c' : struct c -> key <> [] -> bytes_ok key -> blowfish_init c key (length key) = Ret c' ->
  prun c (p_copy 0 S0) = Ret (mkBf (bP c) S0, tt) /\
  prun (mkBf (bP c) S0) (p_mix_loop 18 0 key (length key) 0) = Ret (mkBf (mixed_P key) S0, tt) /\
  prun (mkBf (mixed_P key) S0) (dp <-- p_p_loop 9 0 (0, 0) ;;; _ <-- p_s_outer 4 0 dp ;;; PRet (Ret tt)) = Ret (c', tt).
Proof.
  intros St NE B I. assert (Sh : shaped c) by (apply struct_shaped, St). destruct (S0_rows c Sh) as (L & Fo). destruct c as [P R]. cbn [bP bS] in *.
  assert (E1 : prun (mkBf P R) (p_copy 0 S0) = Ret (mkBf P S0, tt)) by (pose proof (prun_copy P S0 [] R L Fo) as HR; cbn [app length] in HR; exact HR).
  assert (E2 : prun (mkBf P S0) (p_mix_loop 18 0 key (length key) 0) = Ret (mkBf (mixed_P key) S0, tt)).
  { rewrite prun_mix. pose proof (mix_loop_words key S0 NE B 18 0 [] P ltac:(lia) eq_refl (proj1 St)) as X.
    rewrite Nat.mul_0_r, Nat.mod_0_l in X by (destruct key; [congruence|discriminate]). change (N.of_nat 0) with 0 in X. cbn [app] in X. fold (mixed_P key) in X. rewrite X. reflexivity. }
  split; [exact E1|]. split; [exact E2|].
  pose proof (prun_init (mkBf P R) key (length key) Sh) as X. rewrite I in X. cbn [omap] in X. unfold p_init in X.
  rewrite prun_bind, E1 in X. cbn [bind fst snd] in X. rewrite prun_bind, E2 in X. cbn [bind fst snd] in X. exact X.
Qed.
Lemma unit_split c b c_mid v16 v17 : shaped c -> nth_error (bP c_mid) 16 = Some v16 -> nth_error (bP c_mid) 17 = Some v17 ->
  exists dp p16 p17, prun c (p_enc_rounds 16 0 b) = Ret (c, dp) /\ nth_error (bP c) 16 = Some p16 /\ nth_error (bP c) 17 = Some p17 /\
    encrypt_unit c b = Ret (N.lxor (snd dp) p17, N.lxor (fst dp) p16).
Proof.
  intros Sh _ _. pose proof (encrypt_unit_flat c b Sh) as E. unfold encrypt_unit in *. pose proof (computes_enc_rounds c 16 0 b) as C. unfold computes in C.
  destruct (enc_rounds c 16 0 b) as [dp| |]; cbn [bind omap] in *; try discriminate. destruct dp as [x y].
  destruct (rd (bP c) 16) as [p16| |] eqn:R16; cbn [bind] in *; try discriminate. destruct (rd (bP c) 17) as [p17| |] eqn:R17; cbn [bind] in *; try discriminate.
  exists (x, y), p16, p17. split; [exact C|]. split; [apply rd_some, R16|]. split; [apply rd_some, R17|reflexivity].
Qed.

(** thread 0 runs until it has only the last two words of P to load, thread 1 runs its call up to a point, thread 0 finishes, thread 1 finishes *)
Lemma interleaved k0 k1 (K0 : prog dword -> prog bresult) (K1 K2 : prog unit -> prog bresult) p0 p1 p2 p3 c c1 c2 c3 dp f v16 v17 r1 :
  call_prog k0 = K0 p0 -> (forall l k, K0 (PGet l k) = PGet l (fun v => K0 (k v))) -> (forall l v k, K0 (PSet l v k) = PSet l v (K0 k)) ->
  K0 (PRet (Ret dp)) = PGet (LP 16) (fun a => PGet (LP 17) (fun b => PRet (Ret (f a b)))) ->
  call_prog k1 = K1 p1 -> (forall l k, K1 (PGet l k) = PGet l (fun v => K1 (k v))) -> (forall l v k, K1 (PSet l v k) = PSet l v (K1 k)) ->
  K1 (PRet (Ret tt)) = K2 p2 -> (forall l k, K2 (PGet l k) = PGet l (fun v => K2 (k v))) -> (forall l v k, K2 (PSet l v k) = PSet l v (K2 k)) ->
  K2 (PRet (Ret tt)) = p3 ->
  prun c p0 = Ret (c, dp) -> prun c p1 = Ret (c1, tt) -> prun c1 p2 = Ret (c2, tt) -> prun c2 p3 = Ret (c3, r1) ->
  rd (bP c2) 16 = Ret v16 -> rd (bP c2) 17 = Ret v17 ->
  exists sched, bt_run (bt_start [c] [[(O, k0)]; [(O, k1)]]) sched = Ret ([c3], [mkBT [] None [f v16 v17]; mkBT [] None [r1]]).
Proof.
  intros C0 G0 S0_ Z0 C1 G1 S1_ Z1 G2 S2_ Z2 R0 R1 R2 R3 V16 V17.
  destruct (iter_ctx K0 G0 S0_ p0 [c] O c c dp [] [] eq_refl R0) as (n0 & Q0).
  destruct (iter_ctx K1 G1 S1_ p1 [c] O c c1 tt [] [] eq_refl R1) as (n1 & Q1).
  destruct (iter_ctx K2 G2 S2_ p2 [c1] O c1 c2 tt [] [] eq_refl R2) as (n2 & Q2).
  destruct (iter_prog p3 [c2] O c2 c3 r1 [] [] eq_refl R3) as (n3 & Q3).
  cbn [putb firstn skipn app] in Q0, Q1, Q2, Q3. rewrite Z0 in Q0. rewrite Z1 in Q1. rewrite Z2 in Q2.
  set (a0 := mkBT [(O, k0)] None []). set (b0 := mkBT [(O, k1)] None []).
  assert (I0 : iter (S n0) ([c], a0) = Ret ([c], mkBT [] (Some (O, PGet (LP 16) (fun a => PGet (LP 17) (fun b => PRet (Ret (f a b)))))) [])).
  { cbn [iter fst snd bt_step b_at b_todo b_results bind a0]. unfold a0. cbn [bt_step b_at b_todo b_results bind]. rewrite C0. exact Q0. }
  assert (I1 : iter (S (n1 + n2)) ([c], b0) = Ret ([c2], mkBT [] (Some (O, p3)) [])).
  { cbn [iter fst snd]. unfold b0. cbn [bt_step b_at b_todo b_results bind]. rewrite C1, iter_add, Q1. cbn [bind]. exact Q2. }
  assert (I2 : iter 3 ([c2], mkBT [] (Some (O, PGet (LP 16) (fun a => PGet (LP 17) (fun b => PRet (Ret (f a b)))))) []) = Ret ([c2], mkBT [] None [f v16 v17])).
  { assert (Rd0 : rd [c2] 0 = Ret c2) by reflexivity.
    cbn [iter fst snd bt_step b_at b_todo b_results]. rewrite Rd0. cbn [bind getw]. rewrite V16. cbn [bind fst snd bt_step b_at b_todo b_results].
    rewrite Rd0. cbn [bind getw]. rewrite V17. reflexivity. }
  exists (repeat O (S n0) ++ repeat 1%nat (S (n1 + n2)) ++ repeat O 3 ++ repeat 1%nat n3).
  change (bt_start [c] [[(O, k0)]; [(O, k1)]]) with (([c], [a0; b0]) : bt_state).
  rewrite bt_run_app, (run_repeat O (S n0) _ a0 _ _ [a0; b0] eq_refl I0). cbn [bind putb firstn skipn app].
  rewrite bt_run_app. match goal with |- bind (bt_run (_, ?ts) _) _ = _ => rewrite (run_repeat 1 (S (n1 + n2)) _ b0 _ _ ts eq_refl I1) end. cbn [bind putb firstn skipn app].
  rewrite bt_run_app. match goal with |- bind (bt_run (_, ?ts) _) _ = _ => rewrite (run_repeat O 3 _ _ _ _ ts eq_refl I2) end. cbn [bind putb firstn skipn app].
  match goal with |- bt_run (_, ?ts) _ = _ => rewrite (run_repeat 1 n3 _ _ _ _ ts eq_refl Q3) end. reflexivity.
Qed.
Lemma reader_and_init c key b dp c1 c2 c3 v16 v17 :
  prun c (p_enc_rounds 16 0 b) = Ret (c, dp) -> prun c (p_copy 0 S0) = Ret (c1, tt) -> prun c1 (p_mix_loop 18 0 key (length key) 0) = Ret (c2, tt) ->
  prun c2 (dp <-- p_p_loop 9 0 (0, 0) ;;; _ <-- p_s_outer 4 0 dp ;;; PRet (Ret tt)) = Ret (c3, tt) -> rd (bP c2) 16 = Ret v16 -> rd (bP c2) 17 = Ret v17 ->
  exists sched, bt_run (bt_start [c] [[(O, BUnit false b)]; [(O, BInit key (length key))]]) sched =
    Ret ([c3], [mkBT [] None [RUnit (N.lxor (snd dp) v17, N.lxor (fst dp) v16)]; mkBT [] None [RNone]]).
Proof.
  intros R0 R1 R2 R3 V16 V17.
  eapply (interleaved (BUnit false b) (BInit key (length key))
    (fun p => pbind (pbind p (fun dp => p16 <-- load_word (LP 16) ;;; p17 <-- load_word (LP 17) ;;; PRet (Ret (N.lxor (snd dp) p17, N.lxor (fst dp) p16)))) (fun b => PRet (Ret (RUnit b))))
    (fun p => pbind (pbind p (fun _ => _ <-- p_mix_loop 18 0 key (length key) 0 ;;; dp <-- p_p_loop 9 0 (0, 0) ;;; _ <-- p_s_outer 4 0 dp ;;; PRet (Ret tt))) (fun _ => PRet (Ret RNone)))
    (fun p => pbind (pbind p (fun _ => dp <-- p_p_loop 9 0 (0, 0) ;;; _ <-- p_s_outer 4 0 dp ;;; PRet (Ret tt))) (fun _ => PRet (Ret RNone)))
    (p_enc_rounds 16 0 b) (p_copy 0 S0) (p_mix_loop 18 0 key (length key) 0)
    (pbind (dp <-- p_p_loop 9 0 (0, 0) ;;; _ <-- p_s_outer 4 0 dp ;;; PRet (Ret tt)) (fun _ => PRet (Ret RNone)))
    c c1 c2 c3 dp (fun a b => RUnit (N.lxor (snd dp) b, N.lxor (fst dp) a)) v16 v17 RNone).
  - unfold call_prog, unit_prog, p_encrypt_unit. exact eq_refl.
  - intros. exact eq_refl.
  - intros. exact eq_refl.
  - cbn [pbind load_word]. exact eq_refl.
  - unfold call_prog, p_init. exact eq_refl.
  - intros. exact eq_refl.
  - intros. exact eq_refl.
  - cbn [pbind]. exact eq_refl.
  - intros. exact eq_refl.
  - intros. exact eq_refl.
  - cbn [pbind]. exact eq_refl.
  - exact R0.
  - exact R1.
  - exact R2.
  - rewrite prun_bind, R3. reflexivity.
  - exact V16.
  - exact V17.
Qed.
(** One would want: initialising a context again with the key it already has does not disturb a thread that encrypts with it. It does:
    unless the last two words of P happen to be the same as in the middle of the initialisation, every block can be encrypted to another one,
    which does not decrypt to the block; afterwards the context is the one it was. *)
Theorem C88_reinit_violation : forall c0 key c, struct c0 -> key <> [] -> bytes_ok key -> blowfish_init c0 key (length key) = Ret c ->
  nth 16 (bP c) 0 <> nth 16 (SBlowfish.mixed key) 0 \/ nth 17 (bP c) 0 <> nth 17 (SBlowfish.mixed key) 0 ->
  forall b, exists sched e m t1 t2,
    encrypt_unit c b = Ret e /\
    bt_run (bt_start [c] [[(O, BUnit false b)]; [(O, BInit key (length key))]]) sched = Ret ([c], [t1; t2]) /\
    bt_finished t1 /\ bt_finished t2 /\ b_results t1 = [RUnit m] /\ m <> e /\ decrypt_unit c m <> Ret b.
Proof.
  intros c0 key c St NE B I Diff b. assert (Sh0 : shaped c0) by (apply struct_shaped, St).
  destruct (init_subkeys c0 key (proj1 Sh0) NE B) as (c1 & I1 & Sh & Fl). assert (c1 = c) as -> by congruence.
  assert (I2 : blowfish_init c key (length key) = Ret c).
  { destruct (init_subkeys c key (proj1 Sh) NE B) as (c2 & J & Sh2 & Fl2). rewrite J. f_equal. apply flat_inj; auto. congruence. }
  destruct (init_split c key c ltac:(apply struct_shaped; exact Sh) NE B I2) as (E1 & E2 & E3).
  pose proof (mixed_word key 16 ltac:(lia)) as M16. pose proof (mixed_word key 17 ltac:(lia)) as M17.
  destruct (unit_split c b (mkBf (mixed_P key) S0) _ _ Sh M16 M17) as (dp & p16 & p17 & U & N16 & N17 & Enc).
  set (m16 := nth 16 (SBlowfish.mixed key) 0) in *. set (m17 := nth 17 (SBlowfish.mixed key) 0) in *.
  set (m := (N.lxor (snd dp) m17, N.lxor (fst dp) m16)).
  assert (P16 : nth 16 (bP c) 0 = p16) by (apply nth_error_nth, N16). assert (P17 : nth 17 (bP c) 0 = p17) by (apply nth_error_nth, N17). rewrite P16, P17 in Diff.
  assert (Dm : m <> (N.lxor (snd dp) p17, N.lxor (fst dp) p16)).
  { intros E. unfold m in E. assert (X17 : N.lxor (snd dp) m17 = N.lxor (snd dp) p17) by congruence. assert (X16 : N.lxor (fst dp) m16 = N.lxor (fst dp) p16) by congruence.
    assert (Cancel : forall x y z, N.lxor x y = N.lxor x z -> y = z).
    { intros x y z X. apply (f_equal (N.lxor x)) in X. rewrite <- !N.lxor_assoc, N.lxor_nilpotent, !N.lxor_0_l in X. exact X. }
    apply Cancel in X16, X17. destruct Diff as [D|D]; congruence. }
  assert (R16 : rd (bP (mkBf (mixed_P key) S0)) 16 = Ret m16) by (cbn [bP]; unfold rd; rewrite M16; reflexivity).
  assert (R17 : rd (bP (mkBf (mixed_P key) S0)) 17 = Ret m17) by (cbn [bP]; unfold rd; rewrite M17; reflexivity).
  destruct (reader_and_init c key b dp (mkBf (bP c) S0) (mkBf (mixed_P key) S0) c m16 m17 U E1 E2 E3 R16 R17) as (sched & Q).
  exists sched, (N.lxor (snd dp) p17, N.lxor (fst dp) p16), m, (mkBT [] None [RUnit m]), (mkBT [] None [RNone]).
  split; [exact Enc|]. split; [exact Q|].
  split; [split; reflexivity|]. split; [split; reflexivity|]. split; [reflexivity|]. split; [exact Dm|].
  intros De. apply Dm. pose proof (f_equal (fun x => x) Enc) as X. rewrite encrypt_unit_flat in X by exact Sh. rewrite decrypt_unit_flat in De by exact Sh.
  assert (Db : SBlowfish.decrypt (flat c) m = b) by congruence. rewrite <- Db in X. rewrite encrypt_decrypt in X by (rewrite flat_length by exact Sh; lia). congruence.
Qed.
Print Assumptions C88_reinit_violation.

(** ** concrete cases *)
Fixpoint fstep (n : nat) (i : N) (T : tab) (b : N * N) : tab * (N * N) :=
  match n with
  | O => (T, b)
  | S n => let b := fencrypt T b in let '(x, y) := b in fstep n (i + 2) (put (put T i x) (N.succ i) y) (x, y)
  end.
Lemma fexpand_fstep n m : forall i T b, fexpand (n + m) i T b = fexpand m (i + 2 * N.of_nat n) (fst (fstep n i T b)) (snd (fstep n i T b)).
Proof.
  induction n as [|n IH]; intros i T b; cbn [Nat.add fexpand fstep]; [cbn [fst snd]; f_equal; lia|]. cbv zeta. destruct (fencrypt T b) as [x y]. rewrite IH. f_equal. lia.
Qed.
Lemma fexpand_low n : forall i T b j, j < i -> get (fexpand n i T b) j = get T j.
Proof.
  induction n as [|n IH]; intros i T b j L; cbn [fexpand]; [reflexivity|]. cbv zeta. destruct (fencrypt T b) as [x y]. rewrite IH by lia. rewrite !get_put.
  destruct (N.eq_dec (N.succ i) j); [lia|]. destruct (N.eq_dec i j); [lia|reflexivity].
Qed.
Definition blank : bf_ctx := mkBf (repeat 0 18) (repeat (repeat 0 256) 4).
Example struct_blank : struct blank.
Proof. split; [reflexivity|]. split; [reflexivity|]. intros row H. apply repeat_spec in H. subst row. apply repeat_length. Qed.
(** the zero key meets the hypotheses of C88_reinit_violation *)
Example C88_reinit_case : exists c, blowfish_init blank (repeat 0 8) 8 = Ret c /\ nth 16 (bP c) 0 <> nth 16 (SBlowfish.mixed (repeat 0 8)) 0.
Proof.
  assert (NE : repeat 0%N 8 <> []) by discriminate. assert (B : bytes_ok (repeat 0 8)) by (repeat constructor).
  destruct (init_subkeys blank (repeat 0 8) eq_refl NE B) as (c & I & Sh & Fl). exists c. split; [exact I|].
  assert (E : nth 16 (bP c) 0 = nth 16 (SBlowfish.subkeys (repeat 0 8)) 0).
  { rewrite <- Fl. unfold flat. destruct Sh as (L & _). rewrite app_nth1 by lia. reflexivity. }
  rewrite E, <- (fsubkeys_rep _ NE B 16%nat). unfold fsubkeys. change 521%nat with (9 + 512)%nat. rewrite fexpand_fstep, fexpand_low by reflexivity.
  rewrite <- (fill_rep (SBlowfish.mixed (repeat 0 8)) 16%nat). vm_compute. discriminate.
Qed.
(** contexts of two threads' own, and a third that both read *)
Example C88_threads_case : exists r, blowfish_init blank (repeat 0 8) 8 = Ret r /\
  let cs := [blank; blank; r] in
  let work := [[(0%nat, BInit [1; 2; 3] 3); (2%nat, BUnit true (5, 6)); (0%nat, BUnit false (7, 8))]; [(2%nat, BUnit false (5, 6)); (1%nat, BInit [4; 5] 2); (1%nat, BUnit true (7, 8))]] in
  (forall c, In c cs -> struct c) /\ no_conflict work /\ (forall calls, In calls work -> exists x, alone cs calls = Ret x).
Proof.
  assert (Ini : forall key, key <> [] -> bytes_ok key -> exists c, blowfish_init blank key (length key) = Ret c /\ shaped c).
  { intros key NE B. destruct (init_subkeys blank key eq_refl NE B) as (c & I & Sh & _). exists c. split; assumption. }
  destruct (Ini (repeat 0 8) ltac:(discriminate) ltac:(repeat constructor)) as (r & I & Sh). exists r. split; [exact I|]. cbv zeta. split; [|split].
  - intros c [<-|[<-|[<-|[]]]]; try apply struct_blank. apply struct_shaped, Sh.
  - intros i j a b o D Wa Wb (mem & len & Hi) (k & Hu).
    destruct i as [|[|i]], j as [|[|j]]; try congruence; cbn [nth_error] in Wa, Wb; try (destruct i; discriminate Wa); try (destruct j; discriminate Wb).
    + injection Wa as <-. injection Wb as <-.
      destruct Hi as [Hi|[Hi|[Hi|[]]]]; try discriminate Hi. assert (o = 0%nat) as -> by congruence. destruct Hu as [Hu|[Hu|[Hu|[]]]]; discriminate Hu.
    + injection Wa as <-. injection Wb as <-.
      destruct Hi as [Hi|[Hi|[Hi|[]]]]; try discriminate Hi. assert (o = 1%nat) as -> by congruence. destruct Hu as [Hu|[Hu|[Hu|[]]]]; discriminate Hu.
  - destruct (Ini [1; 2; 3] ltac:(discriminate) ltac:(repeat constructor)) as (c1 & I1 & Sh1). cbn [length] in I1.
    destruct (Ini [4; 5] ltac:(discriminate) ltac:(repeat constructor)) as (c2 & I2 & Sh2). cbn [length] in I2.
    intros calls [<-|[<-|[]]]; cbn [alone].
    + unfold rd at 1. cbn [nth_error bind one_call]. rewrite I1. cbn [bind firstn skipn app]. unfold rd at 1. cbn [nth_error bind one_call]. rewrite decrypt_unit_flat by exact Sh. cbn [bind firstn skipn app].
      unfold rd at 1. cbn [nth_error bind one_call]. rewrite encrypt_unit_flat by exact Sh1. cbn [bind]. eexists. reflexivity.
    + unfold rd at 1. cbn [nth_error bind one_call]. rewrite encrypt_unit_flat by exact Sh. cbn [bind firstn skipn app]. unfold rd at 1. cbn [nth_error bind one_call]. rewrite I2. cbn [bind firstn skipn app].
      unfold rd at 1. cbn [nth_error bind one_call]. rewrite decrypt_unit_flat by exact Sh2. cbn [bind]. eexists. reflexivity.
Qed.
