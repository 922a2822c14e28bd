(** C54, C55: the hash functions never touch the heap; the invariant of a program using HashEncoder objects. *)
From Coq Require Import Eqdep_dec.
From Verif Require SFips202 SMd5 PropSha PropKeccak.
From Verif Require Import Base SHex SFips180 SShaLib MSha MFront MMd5 MKeccak MHmac SHash SKeccakFns SHashFns PTyped MHashEnc SHashEnc PHashEnc.
Local Open Scope N_scope.

(** ** No hash function raises a heap error *)
Definition quiet {A} (m : outcome A) : Prop := m <> UB DoubleFree /\ m <> UB NullDeref.
Lemma q_ret {A} (a : A) : quiet (Ret a). Proof. split; discriminate. Qed.
Lemma q_hang {A} : quiet (@Hang A). Proof. split; discriminate. Qed.
Lemma q_oob {A} : quiet (@UB A OutOfBounds). Proof. split; discriminate. Qed.
Lemma q_ovf {A} : quiet (@UB A SignedOverflow). Proof. split; discriminate. Qed.
Lemma q_ind {A} : quiet (@UB A Indeterminate). Proof. split; discriminate. Qed.
Lemma q_bind {A B} (m : outcome A) (k : A -> outcome B) : quiet m -> (forall a, quiet (k a)) -> quiet (bind m k).
Proof. destruct m as [a|w|]; cbn [bind]; intros [H1 H2] K; [apply K|split; congruence|split; discriminate]. Qed.
Lemma q_rd {A} (l : list A) i : quiet (rd l i). Proof. unfold rd. destruct (nth_error l i); [apply q_ret|apply q_oob]. Qed.
Lemma q_blit {A} (l : list A) i s : quiet (blit l i s). Proof. unfold blit. destruct (Nat.leb _ _); [apply q_ret|apply q_oob]. Qed.
Lemma q_wr {A} (l : list A) i v : quiet (wr l i v). Proof. apply q_blit. Qed.
Lemma q_grab n l : quiet (grab n l). Proof. unfold grab. destruct (Nat.ltb _ _); [apply q_oob|apply q_ret]. Qed.
Create HintDb q.
Global Hint Resolve q_ret q_hang q_oob q_ovf q_ind q_rd q_blit q_wr q_grab : q.
Ltac q := repeat first [solve [eauto with q] | apply q_bind; [|intros ?] | match goal with |- quiet (if ?b then _ else _) => destruct b end
  | match goal with |- quiet (match ?x with _ => _ end) => destruct x end | progress cbv zeta | progress intros].

Lemma q_sha_update a : forall inp c i co, quiet (sha_update_loop a c inp i co).
Proof. induction inp as [|b r IH]; intros c i co; cbn [sha_update_loop]; q. Qed.
Lemma q_sha_digest a c out : quiet (sha_digest a c out).
Proof. unfold sha_digest, sha_padding. q. Qed.
Lemma q_md5_loop : forall fuel c rest wl, quiet (md5_loop fuel c rest wl).
Proof. induction fuel as [|fuel IH]; intros c rest wl; cbn [md5_loop]; q. Qed.
Global Hint Resolve q_md5_loop : q.
Lemma q_md5_update g c p : quiet (md5_update g c p).
Proof. unfold md5_update. q. Qed.
Global Hint Resolve q_md5_update : q.
Lemma q_md5_digest g c out : quiet (md5_digest g c out).
Proof. unfold md5_digest. q. Qed.
Lemma q_k_absorb st i l n : quiet (k_absorb st i l n).
Proof. unfold k_absorb, seq_to_state. q. Qed.
Global Hint Resolve q_k_absorb : q.
Lemma q_absorb_queue c : quiet (absorb_queue c).
Proof. unfold absorb_queue. q. Qed.
Global Hint Resolve q_absorb_queue : q.
Lemma q_k_or qq i v : quiet (k_or qq i v). Proof. unfold k_or. q. Qed.
Global Hint Resolve q_k_or : q.
Lemma q_k_padding c : quiet (k_padding c). Proof. unfold k_padding. q. Qed.
Global Hint Resolve q_k_padding : q.
Lemma q_absorb_blocks : forall n st d r k, quiet (absorb_blocks n st d r k).
Proof. induction n as [|n IH]; intros; cbn [absorb_blocks]; q. Qed.
Global Hint Resolve q_absorb_blocks : q.
Lemma q_absorb_loop : forall fuel c inp bl i, quiet (absorb_loop fuel c inp bl i).
Proof. induction fuel as [|fuel IH]; intros; cbn [absorb_loop]; q. Qed.
Global Hint Resolve q_absorb_loop : q.
Lemma q_absorb c inp bl : quiet (keccak_absorb c inp bl). Proof. unfold keccak_absorb. q. Qed.
Global Hint Resolve q_absorb : q.
Lemma q_squeeze_loop : forall fuel c out bl i, quiet (squeeze_loop fuel c out bl i).
Proof.
  induction fuel as [|fuel IH]; intros; [cbn [squeeze_loop]; q|]. rewrite squeeze_S. q.
Qed.
Global Hint Resolve q_squeeze_loop : q.
Lemma q_squeeze c out : quiet (keccak_squeeze c out). Proof. unfold keccak_squeeze. q. Qed.
Lemma q_update garbage a c p : quiet (he_update garbage a c p).
Proof. destruct a; cbn [he_update he_impl iupdate md5_impl sha_impl]; try apply q_md5_update; try apply q_sha_update; apply q_absorb. Qed.
Lemma q_digest garbage a b c out : quiet (he_digest garbage a b c out).
Proof. destruct a; cbn [he_digest he_impl idigest md5_impl sha_impl]; try apply q_md5_digest; try apply q_sha_digest; apply q_squeeze. Qed.

(** ** Lists *)
Definition upd {A} (l : list A) (i : nat) (x : A) : list A := firstn i l ++ x :: skipn (S i) l.
Lemma nth_upd {A} (l : list A) i x j : (i < length l)%nat -> nth_error (upd l i x) j = if Nat.eqb j i then Some x else nth_error l j.
Proof.
  intros H. unfold upd. destruct (Nat.eqb_spec j i) as [->|Hj].
  - rewrite nth_error_app2; rewrite firstn_length_le by lia; [|lia]. rewrite Nat.sub_diag. reflexivity.
  - destruct (Nat.lt_ge_cases j i) as [L|L].
    + rewrite nth_error_app1 by (rewrite firstn_length_le; lia). rewrite <- (firstn_skipn i l) at 2. rewrite nth_error_app1 by (rewrite firstn_length_le; lia). reflexivity.
    + rewrite nth_error_app2; rewrite firstn_length_le by lia; [|lia]. destruct (j - i)%nat as [|k] eqn:E; [lia|]. cbn [nth_error].
      replace j with (S i + k)%nat by lia. rewrite <- (firstn_skipn (S i) l) at 2. rewrite nth_error_app2; rewrite firstn_length_le by lia; [|lia].
      f_equal. lia.
Qed.
Lemma upd_length {A} (l : list A) i x : (i < length l)%nat -> length (upd l i x) = length l.
Proof. intros H. unfold upd. rewrite app_length. cbn [length]. rewrite firstn_length, skipn_length. lia. Qed.
Lemma nth_lt {A} (l : list A) i x : nth_error l i = Some x -> (i < length l)%nat.
Proof. intros H. apply nth_error_Some. rewrite H. discriminate. Qed.

(** ** The heap *)
Lemma load_live h p a c : nth_error h p = Some (Live a c) -> load h p a = Ret c.
Proof.
  intros E. unfold load. rewrite E. destruct (alg_eq_dec a a) as [e|n]; [|contradiction]. rewrite (UIP_dec alg_eq_dec e eq_refl). reflexivity.
Qed.
Lemma load_freed h p a : nth_error h p = Some Freed -> load h p a = UB DoubleFree.
Proof. intros E. unfold load. rewrite E. reflexivity. Qed.

Section Inv.
Variable garbage : option N.

Definition obj_inv (g : spec_obj) (h : heap) (o : option henc) : Prop :=
  match g with
  | Absent => o = None
  | Feeding a ps => exists p out c g0, o = Some (mkH a (Some p) (size_digest a) (size_block a) out) /\ nth_error h p = Some (Live a c) /\
                      he_typed a g0 /\ he_updates garbage a (he_init a g0) ps = Ret c
  | Digested a => exists p out c, o = Some (mkH a (Some p) (size_digest a) (size_block a) out) /\ nth_error h p = Some (Live a c) /\ he_typed a c
  | Broken a => exists p out, o = Some (mkH a (Some p) (size_digest a) (size_block a) out) /\ nth_error h p = Some Freed
  end.
Record inv (gs : list spec_obj) (s : he_state) : Prop := {
  i_len : length gs = length (s_objs s);
  i_obj : forall i g, nth_error gs i = Some g -> obj_inv g (s_heap s) (obj_of s i);
  i_inj : forall i j e1 e2 p, obj_of s i = Some e1 -> obj_of s j = Some e2 -> h_ctx e1 = Some p -> h_ctx e2 = Some p -> i = j;
  i_own : forall p a c, nth_error (s_heap s) p = Some (Live a c) -> exists i e, obj_of s i = Some e /\ h_ctx e = Some p /\ h_alg e = a }.

Lemma obj_lt s i e : obj_of s i = Some e -> (i < length (s_objs s))%nat.
Proof. unfold obj_of. destruct (nth_error (s_objs s) i) as [o|] eqn:E; [|discriminate]. intros _. eapply nth_lt; exact E. Qed.
(** every object's pointer is an address that was allocated *)
Lemma ptr_lt gs s i e : inv gs s -> obj_of s i = Some e -> exists p, h_ctx e = Some p /\ (p < length (s_heap s))%nat.
Proof.
  intros I E. pose proof (obj_lt _ _ _ E) as L. rewrite <- (i_len _ _ I) in L. destruct (nth_error gs i) as [g|] eqn:G; [|apply nth_error_None in G; lia].
  pose proof (i_obj _ _ I i g G) as O. rewrite E in O. destruct g; cbn [obj_inv] in O.
  - discriminate.
  - destruct O as (p & out & c & g0 & X & Y & _). injection X as ->. exists p. split; [reflexivity|]. eapply nth_lt; exact Y.
  - destruct O as (p & out & c & X & Y & _). injection X as ->. exists p. split; [reflexivity|]. eapply nth_lt; exact Y.
  - destruct O as (p & out & X & Y). injection X as ->. exists p. split; [reflexivity|]. eapply nth_lt; exact Y.
Qed.
Lemma obj_inv_heap g h h' o : obj_inv g h o -> (forall e p, o = Some e -> h_ctx e = Some p -> nth_error h' p = nth_error h p) -> obj_inv g h' o.
Proof.
  destruct g; cbn [obj_inv]; intros O H.
  - exact O.
  - destruct O as (p & out & c & g0 & -> & Y & Z). exists p, out, c, g0. split; [reflexivity|]. split; [|exact Z]. rewrite (H _ p eq_refl eq_refl). exact Y.
  - destruct O as (p & out & c & -> & Y & Z). exists p, out, c. split; [reflexivity|]. split; [|exact Z]. rewrite (H _ p eq_refl eq_refl). exact Y.
  - destruct O as (p & out & -> & Y). exists p, out. split; [reflexivity|]. rewrite (H _ p eq_refl eq_refl). exact Y.
Qed.

(** one object changes, and with it its block and newly allocated ones *)
Lemma inv_update gs s i g e p h' objs' o' g' res : inv gs s -> nth_error gs i = Some g -> obj_of s i = Some e -> h_ctx e = Some p ->
  (forall q, q <> p -> (q < length (s_heap s))%nat -> nth_error h' q = nth_error (s_heap s) q) ->
  length objs' = length (s_objs s) ->
  (forall j, nth_error objs' j = if Nat.eqb j i then Some o' else nth_error (s_objs s) j) ->
  (forall e', o' = Some e' -> exists p', h_ctx e' = Some p' /\ (p' = p \/ (length (s_heap s) <= p')%nat)) ->
  (forall q b c, nth_error h' q = Some (Live b c) -> q = p \/ (length (s_heap s) <= q)%nat -> exists e', o' = Some e' /\ h_ctx e' = Some q /\ h_alg e' = b) ->
  obj_inv g' h' o' -> inv (upd gs i g') (mkHS h' objs' res).
Proof.
  intros I G E P Hh HL Ho Hp Hown HO.
  assert (L : (i < length gs)%nat) by (eapply nth_lt; exact G).
  assert (OB : forall j, obj_of (mkHS h' objs' res) j = if Nat.eqb j i then o' else obj_of s j).
  { intros j. unfold obj_of. cbn [s_objs]. rewrite Ho. destruct (Nat.eqb j i); [destruct o'; reflexivity|reflexivity]. }
  assert (NE : forall j e2 q, j <> i -> obj_of s j = Some e2 -> h_ctx e2 = Some q -> q <> p /\ (q < length (s_heap s))%nat).
  { intros j e2 q Hj E2 Hq. split; [intros ->; apply Hj; apply (i_inj _ _ I _ _ _ _ _ E2 E Hq P)|].
    destruct (ptr_lt _ _ _ _ I E2) as (q' & Hq' & Hlt). rewrite Hq in Hq'. injection Hq' as <-. exact Hlt. }
  constructor.
  - rewrite upd_length by exact L. cbn [s_objs]. rewrite HL. apply (i_len _ _ I).
  - intros j g2. rewrite nth_upd by exact L. rewrite OB. destruct (Nat.eqb_spec j i) as [->|Hj].
    + intros X. injection X as <-. exact HO.
    + intros G2. apply (obj_inv_heap g2 (s_heap s)); [apply (i_obj _ _ I); exact G2|]. cbn [s_heap]. intros e2 q E2 Hq.
      destruct (NE j e2 q Hj E2 Hq) as [A B]. apply Hh; assumption.
  - intros j k e1 e2 q. rewrite !OB. destruct (Nat.eqb_spec j i) as [->|Hj], (Nat.eqb_spec k i) as [->|Hk]; intros E1 E2 P1 P2.
    + reflexivity.
    + destruct (Hp e1 E1) as (p' & X & Y). rewrite P1 in X. injection X as <-. destruct (NE k e2 q Hk E2 P2). lia.
    + destruct (Hp e2 E2) as (p' & X & Y). rewrite P2 in X. injection X as <-. destruct (NE j e1 q Hj E1 P1). lia.
    + apply (i_inj _ _ I _ _ _ _ _ E1 E2 P1 P2).
  - cbn [s_heap]. intros q b c Hq. destruct (Nat.eq_dec q p) as [->|Hne]; [|destruct (Nat.lt_ge_cases q (length (s_heap s))) as [Hlt|Hge]].
    + destruct (Hown p b c Hq (or_introl eq_refl)) as (e' & X & Y & Z). exists i, e'. rewrite OB, Nat.eqb_refl. auto.
    + rewrite Hh in Hq by assumption. destruct (i_own _ _ I _ _ _ Hq) as (j & e2 & E2 & P2 & A2). exists j, e2. rewrite OB.
      destruct (Nat.eqb_spec j i) as [->|Hj]; [|auto]. rewrite E in E2. injection E2 as <-. rewrite P in P2. injection P2 as ->. contradiction.
    + destruct (Hown q b c Hq (or_intror Hge)) as (e' & X & Y & Z). exists i, e'. rewrite OB, Nat.eqb_refl. auto.
Qed.
Lemma put_nth objs i x j : (i < length objs)%nat -> nth_error (put objs i x) j = if Nat.eqb j i then Some x else nth_error objs j.
Proof. apply (nth_upd objs i x j). Qed.
Lemma put_length objs i x : (i < length objs)%nat -> length (put objs i x) = length objs.
Proof. apply (upd_length objs i x). Qed.
Lemma store_nth h p x q : (p < length h)%nat -> nth_error (store h p x) q = if Nat.eqb q p then Some x else nth_error h q.
Proof. apply (nth_upd h p x q). Qed.
Lemma store_length h p x : (p < length h)%nat -> length (store h p x) = length h.
Proof. apply (upd_length h p x). Qed.
Lemma same_nth s i e : obj_of s i = Some e -> forall j, nth_error (s_objs s) j = if Nat.eqb j i then Some (Some e) else nth_error (s_objs s) j.
Proof.
  intros E j. destruct (Nat.eqb_spec j i) as [->|]; [|reflexivity]. unfold obj_of in E. destruct (nth_error (s_objs s) i) as [[x|]|]; try discriminate.
  injection E as ->. reflexivity.
Qed.

Lemma typed_updates a ps : forall c c', he_typed a c -> he_updates garbage a c ps = Ret c' -> he_typed a c'.
Proof.
  destruct (he_facts garbage a) as (_ & K & _). induction ps as [|p ps IH]; intros c c' Hc E; cbn [he_updates] in E; [injection E as <-; exact Hc|].
  inv_bind E. eapply IH; [|exact E]. eapply K; [exact Hc|exact X].
Qed.
Definition live (g : spec_obj) : option alg_choice := match g with Feeding a _ | Digested a => Some a | _ => None end.
Lemma live_obj gs s i g a : inv gs s -> nth_error gs i = Some g -> live g = Some a ->
  exists p out c, obj_of s i = Some (mkH a (Some p) (size_digest a) (size_block a) out) /\ nth_error (s_heap s) p = Some (Live a c) /\ he_typed a c /\
    (forall ps, g = Feeding a ps -> exists g0, he_typed a g0 /\ he_updates garbage a (he_init a g0) ps = Ret c).
Proof.
  intros I G L. pose proof (i_obj _ _ I i g G) as O. destruct g as [|b ps|b|b]; try discriminate; cbn [live] in L; injection L as ->; cbn [obj_inv] in O.
  - destruct O as (p & out & c & g0 & X & Y & Z & W). exists p, out, c. split; [exact X|]. split; [exact Y|]. split.
    + eapply typed_updates; [|exact W]. apply (proj1 (he_facts garbage a)). exact Z.
    + intros ps' E. injection E as <-. eauto.
  - destruct O as (p & out & c & X & Y & Z). exists p, out, c. repeat (split; [assumption|]). discriminate.
Qed.
Lemma upd_same {A} (l : list A) i x : nth_error l i = Some x -> upd l i x = l.
Proof.
  intros E. unfold upd. revert i E. induction l as [|y l IH]; intros [|i] E; try discriminate; cbn [nth_error] in E.
  - injection E as ->. reflexivity.
  - cbn [firstn skipn app]. f_equal. apply IH. exact E.
Qed.
Lemma at_upd gs i f g : nth_error gs i = Some g -> at_obj gs i f = upd gs i (f g).
Proof. intros E. unfold at_obj. rewrite E. reflexivity. Qed.
Lemma none_obj gs s i : inv gs s -> nth_error gs i = None -> obj_of s i = None.
Proof.
  intros I E. apply nth_error_None in E. rewrite (i_len _ _ I) in E. apply nth_error_None in E. unfold obj_of. rewrite E. reflexivity.
Qed.

Lemma step_new gs s a r al : inv gs s -> memory_ok al -> exists s', he_step garbage s (OpNew a r al) = Ret s' /\ inv (spec_step gs (OpNew a r al)) s'.
Proof.
  intros I M. cbn [he_step]. unfold he_new. set (e0 := mkH a None (rh_digsz r) (rh_blocksz r) None).
  assert (E : (if alg_code a =? rh_alg r then Ret (s_heap s) else destroy_context (s_heap s) e0) = Ret (s_heap s)) by (destruct (_ =? _); reflexivity).
  rewrite E. cbn [bind he_reset destroy_context h_ctx e0]. destruct al as [f|]; cbn [load_algorithm h_alg h_out e0].
  - eexists. split; [reflexivity|]. cbn [spec_step granted].
    set (e := mkH a (Some (length (s_heap s))) (size_digest a) (size_block a) None). set (cl := Live a (he_init a (f a))).
    assert (OB : forall j, obj_of (mkHS (s_heap s ++ [cl]) (s_objs s ++ [Some e]) (s_res s)) j = if Nat.eqb j (length (s_objs s)) then Some e else obj_of s j).
    { intros j. unfold obj_of. cbn [s_objs]. destruct (Nat.eqb_spec j (length (s_objs s))) as [->|Hj].
      - rewrite nth_error_app2, Nat.sub_diag by lia. reflexivity.
      - destruct (Nat.lt_ge_cases j (length (s_objs s))); [rewrite nth_error_app1 by lia; reflexivity|].
        rewrite (proj2 (nth_error_None (s_objs s) j)) by lia. rewrite (proj2 (nth_error_None _ j)); [reflexivity|]. rewrite app_length. cbn [length]. lia. }
    constructor; cbn [s_heap].
    + rewrite !app_length. cbn [length s_objs]. rewrite app_length. rewrite (i_len _ _ I). reflexivity.
    + intros j g Gj. rewrite OB. destruct (Nat.eqb_spec j (length (s_objs s))) as [->|Hj].
      * rewrite <- (i_len _ _ I), nth_error_app2, Nat.sub_diag in Gj by lia. injection Gj as <-. cbn [obj_inv].
        exists (length (s_heap s)), None, (he_init a (f a)), (f a). split; [reflexivity|]. split; [|split; [apply M|reflexivity]].
        rewrite nth_error_app2, Nat.sub_diag by lia. reflexivity.
      * rewrite <- (i_len _ _ I) in Hj. assert (j < length gs)%nat by (apply nth_lt in Gj; rewrite app_length in Gj; cbn [length] in Gj; lia).
        rewrite nth_error_app1 in Gj by lia. apply (obj_inv_heap _ (s_heap s)); [apply (i_obj _ _ I); exact Gj|].
        intros e2 q E2 P2. destruct (ptr_lt _ _ _ _ I E2) as (q' & X & Y). rewrite P2 in X. injection X as <-. apply nth_error_app1. exact Y.
    + intros j k e1 e2 q. rewrite !OB. destruct (Nat.eqb_spec j (length (s_objs s))) as [->|Hj], (Nat.eqb_spec k (length (s_objs s))) as [->|Hk]; intros E1 E2 P1 P2.
      * reflexivity.
      * injection E1 as <-. injection P1 as <-. destruct (ptr_lt _ _ _ _ I E2) as (q' & X & Y). rewrite P2 in X. injection X as <-. lia.
      * injection E2 as <-. injection P2 as <-. destruct (ptr_lt _ _ _ _ I E1) as (q' & X & Y). rewrite P1 in X. injection X as <-. lia.
      * apply (i_inj _ _ I _ _ _ _ _ E1 E2 P1 P2).
    + intros q b c Hq. destruct (Nat.lt_ge_cases q (length (s_heap s))) as [Hlt|Hge].
      * rewrite nth_error_app1 in Hq by exact Hlt. destruct (i_own _ _ I _ _ _ Hq) as (j & e2 & E2 & P2 & A2). exists j, e2. rewrite OB.
        pose proof (obj_lt _ _ _ E2). destruct (Nat.eqb_spec j (length (s_objs s))); [lia|]. auto.
      * assert (q = length (s_heap s)) by (apply nth_lt in Hq; rewrite app_length in Hq; cbn [length] in Hq; lia). subst q.
        rewrite nth_error_app2, Nat.sub_diag in Hq by lia. cbn [nth_error] in Hq. exists (length (s_objs s)), e. rewrite OB, Nat.eqb_refl.
        split; [reflexivity|]. split; [reflexivity|]. unfold cl in Hq. injection Hq as -> _. reflexivity.
  - eexists. split; [reflexivity|]. cbn [spec_step granted].
    assert (OB : forall j, obj_of (mkHS (s_heap s) (s_objs s ++ [None]) (s_res s)) j = obj_of s j).
    { intros j. unfold obj_of. cbn [s_objs]. destruct (Nat.lt_ge_cases j (length (s_objs s))) as [H|H]; [rewrite nth_error_app1 by lia; reflexivity|].
      rewrite (proj2 (nth_error_None (s_objs s) j)) by lia. rewrite nth_error_app2 by lia. destruct (j - length (s_objs s))%nat as [|[|k]]; reflexivity. }
    constructor; cbn [s_heap].
    + rewrite !app_length. cbn [length s_objs]. rewrite app_length. rewrite (i_len _ _ I). reflexivity.
    + intros j g Gj. rewrite OB. destruct (Nat.lt_ge_cases j (length gs)) as [H|H].
      * rewrite nth_error_app1 in Gj by lia. apply (i_obj _ _ I). exact Gj.
      * assert (j = length gs) by (apply nth_lt in Gj; rewrite app_length in Gj; cbn [length] in Gj; lia). subst j.
        rewrite nth_error_app2, Nat.sub_diag in Gj by lia. injection Gj as <-. cbn [obj_inv]. apply (none_obj gs); [exact I|]. apply nth_error_None. lia.
    + intros j k e1 e2 q. rewrite !OB. apply (i_inj _ _ I).
    + intros q b c Hq. destruct (i_own _ _ I _ _ _ Hq) as (j & e2 & E2 & X). exists j, e2. rewrite OB. auto.
Qed.

(** calls on an object that does not exist *)
Lemma step_absent gs s o i : inv gs s -> target o = Some i -> nth_error gs i = None \/ nth_error gs i = Some Absent ->
  he_step garbage s o = Ret s /\ inv (spec_step gs o) s.
Proof.
  intros I T G. assert (E : obj_of s i = None).
  { destruct G as [G|G]; [apply (none_obj gs); auto|]. apply (i_obj _ _ I i Absent G). }
  assert (S : spec_step gs o = gs).
  { destruct o; cbn [target] in T; try discriminate; injection T as ->; cbn [spec_step]; destruct G as [G|G]; unfold at_obj; rewrite G; try reflexivity;
      apply (upd_same gs i Absent G). }
  rewrite S. split; [|exact I]. destruct o; cbn [target] in T; try discriminate; injection T as ->; cbn [he_step]; rewrite E; reflexivity.
Qed.
(** calls on an object whose context was freed by a failed reset *)
Lemma step_broken gs s o i a : inv gs s -> target o = Some i -> nth_error gs i = Some (Broken a) ->
  he_step garbage s o = UB DoubleFree \/ exists mem, o = OpCstr i mem /\ ~ In 0 mem.
Proof.
  intros I T G. destruct (i_obj _ _ I i _ G) as (p & out & E & F).
  destruct o; cbn [target] in T; try discriminate; injection T as ->; cbn [he_step]; rewrite E; cbn [h_ctx h_alg];
    unfold he_reset, he_feed_cstr, he_feed, get_digest, he_delete, destroy_context, delete, he_load; cbn [h_ctx h_alg]; try (left; rewrite load_freed by exact F; reflexivity).
  destruct (Nat.eqb_spec (length (upto_nul mem)) (length mem)) as [L|L]; [|left; rewrite load_freed by exact F; reflexivity].
  right. exists mem. split; [reflexivity|]. clear -L. induction mem as [|x mem IH]; [intros []|]. cbn [upto_nul] in L. destruct (N.eqb_spec x 0) as [->|Hx]; [discriminate|].
  cbn [length] in L. intros [->|H]; [contradiction|]. apply IH; [lia|exact H].
Qed.

(** calls on a live object *)
Lemma live_reset gs s i g a al : inv gs s -> memory_ok al -> nth_error gs i = Some g -> live g = Some a ->
  exists s', he_step garbage s (OpReset i al) = Ret s' /\ inv (spec_step gs (OpReset i al)) s'.
Proof.
  intros I M G L. destruct (live_obj gs s i g a I G L) as (p & out & c & E & F & Tc & _). pose proof (nth_lt _ _ _ F) as Lp. pose proof (obj_lt _ _ _ E) as Li.
  cbn [he_step spec_step]. rewrite E, (at_upd gs i _ g G). unfold he_reset, destroy_context, delete. cbn [h_ctx h_alg]. rewrite (load_live _ _ _ _ F). cbn [bind].
  destruct al as [f|]; cbn [load_algorithm h_alg h_out]; eexists; (split; [reflexivity|]).
  - replace (resets (granted (Some f)) g) with (Feeding a []) by (destruct g; try discriminate; injection L as ->; reflexivity).
    eapply (inv_update gs s i g _ p _ _ _ _ _ I G E eq_refl).
    + intros q Hq Hlt. rewrite nth_error_app1 by (rewrite store_length; lia). rewrite store_nth by exact Lp. destruct (Nat.eqb_spec q p); [contradiction|reflexivity].
    + apply put_length; exact Li.
    + intros j. apply put_nth; exact Li.
    + intros e' X. injection X as <-. cbn [h_ctx]. eexists. split; [reflexivity|]. right. rewrite store_length by exact Lp. lia.
    + intros q b c' Hq Hd. rewrite store_length by exact Lp. destruct (Nat.lt_ge_cases q (length (s_heap s))) as [Hlt|Hge].
      * destruct Hd as [->|]; [|lia]. rewrite nth_error_app1 in Hq by (rewrite store_length; lia). rewrite store_nth, Nat.eqb_refl in Hq by exact Lp. discriminate.
      * assert (q = length (s_heap s)) by (apply nth_lt in Hq; rewrite app_length, store_length in Hq by exact Lp; cbn [length] in Hq; lia). subst q.
        rewrite nth_error_app2 in Hq by (rewrite store_length; lia). rewrite store_length, Nat.sub_diag in Hq by exact Lp. cbn [nth_error] in Hq. eexists.
        split; [reflexivity|]. cbn [h_ctx h_alg]. split; [reflexivity|]. inversion Hq. reflexivity.
    + cbn [obj_inv]. rewrite store_length by exact Lp. exists (length (s_heap s)), out, (he_init a (f a)), (f a). split; [reflexivity|]. split; [|split; [apply M|reflexivity]].
      rewrite nth_error_app2 by (rewrite store_length; lia). rewrite store_length, Nat.sub_diag by exact Lp. reflexivity.
  - replace (resets (granted None) g) with (Broken a) by (destruct g; try discriminate; injection L as ->; reflexivity).
    eapply (inv_update gs s i g _ p _ _ _ _ _ I G E eq_refl).
    + intros q Hq Hlt. rewrite store_nth by exact Lp. destruct (Nat.eqb_spec q p); [contradiction|reflexivity].
    + apply put_length; exact Li.
    + intros j. apply put_nth; exact Li.
    + intros e' X. injection X as <-. cbn [h_ctx]. eauto.
    + intros q b c' Hq Hd. pose proof (nth_lt _ _ _ Hq) as Hlt. rewrite store_length in Hlt by exact Lp. destruct Hd as [->|]; [|lia].
      rewrite store_nth, Nat.eqb_refl in Hq by exact Lp. discriminate.
    + cbn [obj_inv]. exists p, out. split; [reflexivity|]. rewrite store_nth, Nat.eqb_refl by exact Lp. reflexivity.
Qed.
Lemma live_destroy gs s i g a : inv gs s -> nth_error gs i = Some g -> live g = Some a ->
  exists s', he_step garbage s (OpDestroy i) = Ret s' /\ inv (spec_step gs (OpDestroy i)) s'.
Proof.
  intros I G L. destruct (live_obj gs s i g a I G L) as (p & out & c & E & F & Tc & _). pose proof (nth_lt _ _ _ F) as Lp. pose proof (obj_lt _ _ _ E) as Li.
  cbn [he_step spec_step]. rewrite E, (at_upd gs i _ g G). unfold he_delete, destroy_context, delete. cbn [h_ctx h_alg]. rewrite (load_live _ _ _ _ F). cbn [bind].
  eexists. split; [reflexivity|]. eapply (inv_update gs s i g _ p _ _ _ _ _ I G E eq_refl).
  - intros q Hq Hlt. rewrite store_nth by exact Lp. destruct (Nat.eqb_spec q p); [contradiction|reflexivity].
  - apply put_length; exact Li.
  - intros j. apply put_nth; exact Li.
  - intros e' X. discriminate.
  - intros q b c' Hq Hd. pose proof (nth_lt _ _ _ Hq) as Hlt. rewrite store_length in Hlt by exact Lp. destruct Hd as [->|]; [|lia].
    rewrite store_nth, Nat.eqb_refl in Hq by exact Lp. discriminate.
  - reflexivity.
Qed.
(** the block of a live object gets new contents, the object perhaps a new result *)
Lemma live_write gs s i g a p out out' c c' g' objs' res : inv gs s -> nth_error gs i = Some g ->
  obj_of s i = Some (mkH a (Some p) (size_digest a) (size_block a) out) -> nth_error (s_heap s) p = Some (Live a c) ->
  length objs' = length (s_objs s) ->
  (forall j, nth_error objs' j = if Nat.eqb j i then Some (Some (mkH a (Some p) (size_digest a) (size_block a) out')) else nth_error (s_objs s) j) ->
  obj_inv g' (store (s_heap s) p (Live a c')) (Some (mkH a (Some p) (size_digest a) (size_block a) out')) ->
  inv (upd gs i g') (mkHS (store (s_heap s) p (Live a c')) objs' res).
Proof.
  intros I G E F HL Ho HO. pose proof (nth_lt _ _ _ F) as Lp.
  eapply (inv_update gs s i g _ p _ _ _ _ _ I G E eq_refl); [|exact HL|exact Ho| | |exact HO].
  - intros q Hq Hlt. rewrite store_nth by exact Lp. destruct (Nat.eqb_spec q p); [contradiction|reflexivity].
  - intros e' X. injection X as <-. cbn [h_ctx]. eauto.
  - intros q b c2 Hq Hd. pose proof (nth_lt _ _ _ Hq) as Hlt. rewrite store_length in Hlt by exact Lp. destruct Hd as [->|]; [|lia].
    rewrite store_nth, Nat.eqb_refl in Hq by exact Lp. eexists. split; [reflexivity|]. cbn [h_ctx h_alg]. split; [reflexivity|]. inversion Hq. reflexivity.
Qed.
Lemma live_update gs s i g a data : inv gs s -> nth_error gs i = Some g -> live g = Some a ->
  exists p c, he_typed a c /\ (forall ps, g = Feeding a ps -> exists g0, he_typed a g0 /\ he_updates garbage a (he_init a g0) ps = Ret c) /\
    he_step garbage s (OpUpdate i data) = (c' <- he_update garbage a c data ;; Ret (mkHS (store (s_heap s) p (Live a c')) (s_objs s) (s_res s))) /\
    (forall s', he_step garbage s (OpUpdate i data) = Ret s' -> inv (spec_step gs (OpUpdate i data)) s').
Proof.
  intros I G L. destruct (live_obj gs s i g a I G L) as (p & out & c & E & F & Tc & FD). pose proof (nth_lt _ _ _ F) as Lp. pose proof (obj_lt _ _ _ E) as Li.
  exists p, c. split; [exact Tc|]. split; [exact FD|].
  assert (S : he_step garbage s (OpUpdate i data) = (c' <- he_update garbage a c data ;; Ret (mkHS (store (s_heap s) p (Live a c')) (s_objs s) (s_res s)))).
  { cbn [he_step]. rewrite E. unfold he_feed, he_load. cbn [h_ctx h_alg]. rewrite (load_live _ _ _ _ F). cbn [bind]. destruct (he_update garbage a c data); reflexivity. }
  split; [exact S|]. intros s' R. rewrite S in R. apply bind_inv in R. destruct R as (c' & U & R). injection R as <-.
  cbn [spec_step]. rewrite (at_upd gs i _ g G). eapply (live_write gs s i g a p out out c c' _ _ _ I G E F); [reflexivity|apply same_nth; exact E|].
  destruct (he_facts garbage a) as (_ & K & _).
  destruct g as [|b ps|b|b]; try discriminate; cbn [live] in L; injection L as ->; cbn [feeds obj_inv].
  - destruct (FD ps eq_refl) as (g0 & T0 & U0). exists p, out, c', g0. split; [reflexivity|]. rewrite store_nth, Nat.eqb_refl by exact Lp. split; [reflexivity|].
    split; [exact T0|]. rewrite he_updates_app, U0. cbn [bind he_updates]. rewrite U. reflexivity.
  - exists p, out, c'. split; [reflexivity|]. rewrite store_nth, Nat.eqb_refl by exact Lp. split; [reflexivity|]. eapply K; [exact Tc|exact U].
Qed.
Lemma step_cstr gs s i mem e : obj_of s i = Some e -> In 0 mem -> he_step garbage s (OpCstr i mem) = he_step garbage s (OpUpdate i (upto_nul mem)) /\
  spec_step gs (OpCstr i mem) = spec_step gs (OpUpdate i (upto_nul mem)).
Proof.
  intros E Z. cbn [he_step spec_step]. rewrite E. unfold he_feed_cstr. split; [|reflexivity].
  assert (L : (length (upto_nul mem) < length mem)%nat).
  { clear -Z. induction mem as [|x mem IH]; [destruct Z|]. cbn [upto_nul]. destruct (N.eqb_spec x 0) as [->|Hx]; cbn [length]; [lia|].
    destruct Z as [->|Z]; [contradiction|]. specialize (IH Z). lia. }
  destruct (Nat.eqb_spec (length (upto_nul mem)) (length mem)); [lia|reflexivity].
Qed.
Lemma step_cstr_open s i mem e : obj_of s i = Some e -> ~ In 0 mem -> he_step garbage s (OpCstr i mem) = UB OutOfBounds.
Proof.
  intros E Z. cbn [he_step]. rewrite E. unfold he_feed_cstr. assert (L : upto_nul mem = mem).
  { clear -Z. induction mem as [|x mem IH]; [reflexivity|]. cbn [upto_nul]. destruct (N.eqb_spec x 0) as [->|Hx]; [exfalso; apply Z; left; reflexivity|].
    f_equal. apply IH. intros H. apply Z. right. exact H. }
  rewrite L, Nat.eqb_refl. reflexivity.
Qed.
(** the local array of get_digest *)
Definition stack_array (junk : N -> N) (n : nat) : list N := map (fun i => junk (N.of_nat i)) (seq 0 n).
Lemma live_digest gs s i g a bl junk : inv gs s -> nth_error gs i = Some g -> live g = Some a ->
  exists p c objs, he_typed a c /\ (forall ps, g = Feeding a ps -> exists g0, he_typed a g0 /\ he_updates garbage a (he_init a g0) ps = Ret c) /\
    he_step garbage s (OpDigest i bl junk) =
      (x <- he_digest garbage a (fill_bits a bl) c (stack_array junk (N.to_nat (out_len a (size_digest a) bl))) ;;
       Ret (mkHS (store (s_heap s) p (Live a (fst x))) (objs (snd x)) (snd x :: s_res s))) /\
    (forall s', he_step garbage s (OpDigest i bl junk) = Ret s' -> inv (spec_step gs (OpDigest i bl junk)) s').
Proof.
  intros I G L. destruct (live_obj gs s i g a I G L) as (p & out & c & E & F & Tc & FD). pose proof (nth_lt _ _ _ F) as Lp. pose proof (obj_lt _ _ _ E) as Li.
  exists p, c, (fun d => put (s_objs s) i (Some (mkH a (Some p) (size_digest a) (size_block a) (Some d)))). split; [exact Tc|]. split; [exact FD|].
  match goal with |- ?A = ?B /\ _ => assert (S : A = B) end.
  { cbn [he_step]. rewrite E. unfold get_digest, he_load. cbn [h_ctx h_alg h_digsz h_blocksz]. rewrite (load_live _ _ _ _ F). cbn [bind]. fold (stack_array junk (N.to_nat (out_len a (size_digest a) bl))).
    destruct (he_digest garbage a (fill_bits a bl) c _) as [[c' d]| |]; reflexivity. }
  split; [exact S|]. intros s' R. rewrite S in R. apply bind_inv in R. destruct R as ([c' d] & U & R). cbn [fst snd] in R. injection R as <-.
  cbn [spec_step]. rewrite (at_upd gs i _ g G).
  destruct (he_facts garbage a) as (_ & _ & K & _).
  assert (X : digests g = Digested a) by (destruct g as [|b ps|b|b]; try discriminate; cbn [live] in L; injection L as ->; reflexivity). rewrite X.
  eapply (live_write gs s i g a p out (Some d) c c' _ _ _ I G E F); [apply put_length; exact Li|intros j; apply put_nth; exact Li|].
  cbn [obj_inv]. exists p, (Some d), c'. split; [reflexivity|]. rewrite store_nth, Nat.eqb_refl by exact Lp. split; [reflexivity|]. eapply K; [exact Tc|exact U].
Qed.

(** ** One step *)
Lemma step_inv gs s o : inv gs s -> op_memory_ok o ->
  (~ on_broken gs o -> quiet (he_step garbage s o)) /\
  (forall s', he_step garbage s o = Ret s' -> inv (spec_step gs o) s').
Proof.
  intros I M. destruct (target o) as [i|] eqn:T.
  2:{ destruct o; try discriminate. destruct (step_new gs s a r al I M) as (s' & E & I'). rewrite E. split; [intros _; apply q_ret|]. intros s2 X. injection X as <-. exact I'. }
  destruct (nth_error gs i) as [g|] eqn:G.
  2:{ destruct (step_absent gs s o i I T (or_introl G)) as [E I']. rewrite E. split; [intros _; apply q_ret|]. intros s2 X. injection X as <-. exact I'. }
  destruct g as [|a ps|a|a] eqn:Eg.
  1:{ destruct (step_absent gs s o i I T (or_intror G)) as [E I']. rewrite E. split; [intros _; apply q_ret|]. intros s2 X. injection X as <-. exact I'. }
  3:{ split; [intros B; exfalso; apply B; exists i, a; auto|]. intros s' R. destruct (step_broken gs s o i a I T G) as [X|(mem & -> & Z)]; [congruence|].
      destruct (i_obj _ _ I i _ G) as (p & out & E & _). rewrite (step_cstr_open _ _ _ _ E Z) in R. discriminate. }
  all: assert (L : live g = Some a) by (subst g; reflexivity); rewrite <- Eg in G; clear Eg;
    (destruct o; cbn [target] in T; try discriminate; injection T as ->).
  all: try (destruct (live_reset gs s i g a al I M G L) as (s' & E & I'); rewrite E; split; [intros _; apply q_ret|intros s2 X; injection X as <-; exact I']).
  all: try (destruct (live_destroy gs s i g a I G L) as (s' & E & I'); rewrite E; split; [intros _; apply q_ret|intros s2 X; injection X as <-; exact I']).
  all: try (destruct (live_update gs s i g a data I G L) as (p & c & _ & _ & S & HI); split; [intros _; rewrite S; apply q_bind; [apply q_update|intros; apply q_ret]|exact HI]).
  all: try (destruct (live_digest gs s i g a bitlength junk I G L) as (p & c & objs & _ & _ & S & HI); split; [intros _; rewrite S; apply q_bind; [apply q_digest|intros; apply q_ret]|exact HI]).
  all: destruct (live_obj gs s i g a I G L) as (p & out & c & E & _); destruct (in_dec N.eq_dec 0 mem) as [Z|Z];
    [|rewrite (step_cstr_open _ _ _ _ E Z); split; [intros _; apply q_oob|discriminate]];
    destruct (step_cstr gs s i mem _ E Z) as [-> ->];
    destruct (live_update gs s i g a (upto_nul mem) I G L) as (p' & c' & _ & _ & S & HI); split; [intros _; rewrite S; apply q_bind; [apply q_update|intros; apply q_ret]|exact HI].
Qed.
Lemma start_inv : inv [] he_start.
Proof.
  constructor; cbn [he_start s_objs s_heap length]; [reflexivity| | |].
  - intros [|i] g X; discriminate.
  - intros i j e1 e2 p X. unfold obj_of in X. destruct i; discriminate.
  - intros [|p] a c X; discriminate.
Qed.
Lemma run_inv ops : forall gs s s', inv gs s -> Forall op_memory_ok ops -> he_run garbage s ops = Ret s' -> inv (fold_left spec_step ops gs) s'.
Proof.
  induction ops as [|o ops IH]; intros gs s s' I M R; cbn [he_run fold_left] in *; [injection R as <-; exact I|].
  inversion M as [|o' ops' M1 M2]. subst. inv_bind R. eapply IH; [|exact M2|exact R]. apply (proj2 (step_inv gs s o I M1)). exact X.
Qed.
End Inv.
