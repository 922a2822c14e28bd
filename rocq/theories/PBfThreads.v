(** C88: a call as a sequence of accesses, run alone, is the call of MBlowfish. *)
From Verif Require Import Base MBlowfish PBlowfish PBlowfish2 MBfThreads SBfThreads.
Local Open Scope N_scope.

(** ** running a call alone *)
Fixpoint prun {A} (c : bf_ctx) (p : prog A) : outcome (bf_ctx * A) :=
  match p with
  | PRet r => omap (pair c) r
  | PGet l k => v <- getw c l ;; prun c (k v)
  | PSet l v k => c <- setw c l v ;; prun c k
  end.
Lemma prun_bind {A B} (p : prog A) (f : A -> prog B) : forall c, prun c (pbind p f) = bind (prun c p) (fun r => prun (fst r) (f (snd r))).
Proof.
  induction p as [r|l k IH|l v k IH]; intros c; cbn [pbind prun].
  - destruct r; reflexivity.
  - destruct (getw c l); cbn [bind]; [apply IH|reflexivity|reflexivity].
  - destruct (setw c l v); cbn [bind]; [apply IH|reflexivity|reflexivity].
Qed.
Lemma prun_ret {A} c (r : outcome A) : prun c (PRet r) = omap (pair c) r.  Proof. reflexivity. Qed.
Lemma prun_lift {A B} c (r : outcome A) (f : A -> prog B) : prun c (pbind (PRet r) f) = bind r (fun a => prun c (f a)).
Proof. rewrite prun_bind. cbn [prun]. destruct r; reflexivity. Qed.
Lemma prun_load {B} c l (f : N -> prog B) : prun c (pbind (load_word l) f) = bind (getw c l) (fun v => prun c (f v)).
Proof. reflexivity. Qed.
Lemma prun_store {B} c l v (f : unit -> prog B) : prun c (pbind (store_word l v) f) = bind (setw c l v) (fun c => prun c (f tt)).
Proof. reflexivity. Qed.
(** a call that does not change the context *)
Definition computes {A} (c : bf_ctx) (p : prog A) (m : outcome A) : Prop := prun c p = omap (pair c) m.
Lemma computes_bind {A B} c (p : prog A) m (f : A -> prog B) g : computes c p m -> (forall a, computes c (f a) (g a)) -> computes c (pbind p f) (bind m g).
Proof.
  unfold computes. intros P F. rewrite prun_bind, P. destruct m as [a| |]; cbn [omap bind fst snd]; [apply F|reflexivity|reflexivity].
Qed.
Lemma computes_ret {A} c (r : outcome A) : computes c (PRet r) r.  Proof. reflexivity. Qed.
Lemma computes_load c l : computes c (load_word l) (getw c l).
Proof. unfold computes, load_word. cbn [prun]. destruct (getw c l); reflexivity. Qed.
Lemma computes_eq {A} c (p : prog A) m m' : m = m' -> computes c p m' -> computes c p m.
Proof. intros ->. exact id. Qed.

Lemma getw_S c i x : getw c (LS i (N.to_nat x)) = rdS c i x.
Proof. cbn [getw]. rewrite N2Nat.id. reflexivity. Qed.
Lemma computes_loadS c i x : computes c (load_word (LS i (N.to_nat x))) (rdS c i x).
Proof. rewrite <- getw_S. apply computes_load. Qed.
Lemma computes_F c x : computes c (p_F x) (F c x).
Proof.
  unfold p_F, F. cbv zeta. apply computes_bind; [apply computes_loadS|intros s0]. apply computes_bind; [apply computes_loadS|intros s1].
  apply computes_bind; [apply computes_loadS|intros s2]. apply computes_bind; [apply computes_loadS|intros s3]. apply computes_ret.
Qed.
Lemma computes_round c i dp : computes c (p_round i dp) (bf_round c i dp).
Proof.
  destruct dp as [l r]. unfold p_round, bf_round. cbn [fst snd]. apply computes_bind; [apply (computes_load c (LP i))|intros p]. cbv zeta.
  apply computes_bind; [apply computes_F|intros f]. apply computes_ret.
Qed.
Lemma computes_enc_rounds c k : forall i dp, computes c (p_enc_rounds k i dp) (enc_rounds c k i dp).
Proof. induction k; intros i dp; cbn [p_enc_rounds enc_rounds]; [apply computes_ret|]. apply computes_bind; [apply computes_round|intros; apply IHk]. Qed.
Lemma computes_dec_rounds c k : forall dp, computes c (p_dec_rounds k dp) (dec_rounds c k dp).
Proof. induction k; intros dp; cbn [p_dec_rounds dec_rounds]; [apply computes_ret|]. apply computes_bind; [apply computes_round|intros; apply IHk]. Qed.
Lemma computes_encrypt_unit c dp : computes c (p_encrypt_unit dp) (encrypt_unit c dp).
Proof.
  unfold p_encrypt_unit, encrypt_unit. apply computes_bind; [apply computes_enc_rounds|intros [r l]]. cbn [fst snd].
  apply computes_bind; [apply (computes_load c (LP 16))|intros]. apply computes_bind; [apply (computes_load c (LP 17))|intros]. apply computes_ret.
Qed.
Lemma computes_decrypt_unit c dp : computes c (p_decrypt_unit dp) (decrypt_unit c dp).
Proof.
  unfold p_decrypt_unit, decrypt_unit. apply computes_bind; [apply computes_dec_rounds|intros [r l]]. cbn [fst snd].
  apply computes_bind; [apply (computes_load c (LP 1))|intros]. apply computes_bind; [apply (computes_load c (LP 0))|intros]. apply computes_ret.
Qed.
Definition unit_fun (c : bf_ctx) (decrypt : bool) := if decrypt then decrypt_unit c else encrypt_unit c.
Lemma computes_unit c d dp : computes c (unit_prog d dp) (unit_fun c d dp).
Proof. destruct d; [apply computes_decrypt_unit|apply computes_encrypt_unit]. Qed.

Section Generic.
Variables (c : bf_ctx) (fp : dword -> prog dword) (f : dword -> outcome dword).
Hypothesis Hf : forall b, computes c (fp b) (f b).
Lemma computes_unit_call unp : computes c (p_unit_call fp unp) (unit_call f unp).
Proof.
  unfold p_unit_call, unit_call. apply computes_bind; [apply computes_ret|intros r]. apply computes_bind; [apply computes_ret|intros l].
  apply computes_bind; [apply Hf|intros [x y]]. apply computes_ret.
Qed.
Lemma computes_bf_loop input k : forall i unp out, computes c (p_bf_loop fp input k i unp out) (bf_loop f input k i unp out).
Proof.
  induction k; intros i unp out; cbn [p_bf_loop bf_loop]; [apply computes_ret|].
  apply computes_bind; [apply computes_ret|intros b]. apply computes_bind; [apply computes_ret|intros u].
  destruct (Nat.eqb (i mod 8) 7); [|apply IHk]. apply computes_bind; [apply computes_unit_call|intros u'].
  apply computes_bind; [apply computes_ret|intros o]. apply IHk.
Qed.
Lemma computes_generic unp input out : computes c (p_bf_generic fp unp input out) (bf_generic f unp input out).
Proof.
  unfold p_bf_generic, bf_generic. cbv zeta. apply computes_bind; [apply computes_bf_loop|intros [u o]].
  destruct (Nat.eqb (length input mod 8) 0); [apply computes_ret|]. apply computes_bind; [apply computes_ret|intros u1].
  apply computes_bind; [apply computes_unit_call|intros u2]. apply computes_bind; [apply computes_ret|intros o1]. apply computes_ret.
Qed.
Lemma computes_object unp d : computes c (p_object_call fp unp d) (bf_object_call f unp d).
Proof.
  unfold p_object_call, bf_object_call. apply computes_bind; [apply computes_ret|intros s]. cbv zeta.
  apply computes_bind; [apply computes_generic|intros [n o]]. apply computes_ret.
Qed.
End Generic.

(** ** initialisation *)
Lemma blit_one {A} (p q : list A) x v : wr (p ++ x :: q) (length p) v = Ret (p ++ v :: q).
Proof.
  unfold wr, blit. cbn [length]. replace (length p + 1 <=? length (p ++ x :: q))%nat with true by (symmetry; apply Nat.leb_le; rewrite app_length; cbn; lia).
  rewrite firstn_app, Nat.sub_diag, firstn_all, firstn_O, app_nil_r. rewrite skipn_app. replace (length p + 1 - length p)%nat with 1%nat by lia.
  rewrite skipn_all2 by lia. reflexivity.
Qed.
Lemma rd_mid {A} (p q : list A) x : rd (p ++ x :: q) (length p) = Ret x.
Proof. unfold rd. rewrite nth_error_app2, Nat.sub_diag by lia. reflexivity. Qed.
Lemma prun_copy_row P pre post l : forall p old, length old = length l ->
  prun (mkBf P (pre ++ (p ++ old) :: post)) (p_copy_row (length pre) (length p) l) = Ret (mkBf P (pre ++ (p ++ l) :: post), tt).
Proof.
  induction l as [|v l IH]; intros p [|x old] E; cbn [length] in E; try discriminate; cbn [p_copy_row]; [reflexivity|].
  rewrite prun_store. cbn [setw]. unfold wrS. cbn [bS bP]. rewrite rd_mid. cbn [bind]. rewrite blit_one. cbn [bind]. rewrite blit_one. cbn [bind].
  specialize (IH (p ++ [v]) old). rewrite app_length in IH. cbn [length] in IH. rewrite Nat.add_1_r in IH. rewrite <- !app_assoc in IH. cbn [app] in IH.
  apply IH. congruence.
Qed.
Lemma prun_copy P rows : forall pre old, length old = length rows -> Forall2 (fun r o => length o = length r) rows old ->
  prun (mkBf P (pre ++ old)) (p_copy (length pre) rows) = Ret (mkBf P (pre ++ rows), tt).
Proof.
  induction rows as [|l rows IH]; intros pre old E F; inversion F; subst; cbn [p_copy]; [reflexivity|].
  rewrite prun_bind. pose proof (prun_copy_row P pre l' l [] y ltac:(assumption)) as HR. cbn [app length] in HR. rewrite HR. cbn [bind fst snd].
  specialize (IH (pre ++ [l]) l'). rewrite app_length in IH. cbn [length] in IH. rewrite Nat.add_1_r, <- !app_assoc in IH. cbn [app] in IH. apply IH; [cbn in E; congruence|assumption].
Qed.
Lemma prun_mix mem len n : forall i j c, prun c (p_mix_loop n i mem len j) = omap (fun c => (c, tt)) (mix_loop n i mem len j c).
Proof.
  induction n; intros i j c; cbn [p_mix_loop mix_loop]; [reflexivity|]. rewrite prun_lift. destruct (key_loop 4 mem len j 0) as [[j' data]| |]; cbn [bind omap]; try reflexivity.
  rewrite prun_lift. destruct (rd P0 i); cbn [bind omap]; try reflexivity. rewrite prun_store. cbn [setw]. destruct (wrP c i _); cbn [bind omap]; try reflexivity. apply IHn.
Qed.
Lemma prun_p_loop n : forall i c dp, prun c (p_p_loop n i dp) = p_loop n i c dp.
Proof.
  induction n; intros i c dp; cbn [p_p_loop p_loop]; [reflexivity|]. rewrite prun_bind, computes_encrypt_unit. destruct (encrypt_unit c dp) as [d| |]; cbn [bind omap fst snd]; try reflexivity.
  rewrite prun_store. cbn [setw]. destruct (wrP c i _) as [c1| |]; cbn [bind]; try reflexivity. rewrite prun_store. cbn [setw]. destruct (wrP c1 (i + 1) _); cbn [bind]; try reflexivity. apply IHn.
Qed.
Lemma prun_s_inner n : forall i j c dp, prun c (p_s_inner n i j dp) = s_inner n i j c dp.
Proof.
  induction n; intros i j c dp; cbn [p_s_inner s_inner]; [reflexivity|]. rewrite prun_bind, computes_encrypt_unit. destruct (encrypt_unit c dp) as [d| |]; cbn [bind omap fst snd]; try reflexivity.
  rewrite prun_store. cbn [setw]. destruct (wrS c i j _) as [c1| |]; cbn [bind]; try reflexivity. rewrite prun_store. cbn [setw]. destruct (wrS c1 i (j + 1) _); cbn [bind]; try reflexivity. apply IHn.
Qed.
Lemma prun_s_outer n : forall i c dp, prun c (p_s_outer n i dp) = s_outer n i c dp.
Proof.
  induction n; intros i c dp; cbn [p_s_outer s_outer]; [reflexivity|]. rewrite prun_bind, prun_s_inner. destruct (s_inner 128 i 0 c dp) as [[c1 d1]| |]; cbn [bind fst snd]; try reflexivity. apply IHn.
Qed.
Lemma S0_rows c : shaped c -> length (bS c) = length S0 /\ Forall2 (fun r o : list N => length o = length r) S0 (bS c).
Proof.
  intros (_ & L & F). destruct S0_shape as (L0 & F0). split; [congruence|]. revert L F L0 F0. generalize (bS c) as b, S0 as s. intros b s L F L0 F0.
  rewrite <- L0 in L. clear L0. revert b L F. induction F0 as [|x s X F0 IH]; intros [|y b] L F; try discriminate; constructor.
  - inversion F; congruence.
  - apply IH; [cbn in L; congruence|inversion F; assumption].
Qed.
Lemma prun_init c mem len : shaped c -> prun c (p_init mem len) = omap (fun c => (c, tt)) (blowfish_init c mem len).
Proof.
  intros S. destruct (S0_rows c S) as (L & F). unfold p_init, blowfish_init. cbv zeta. rewrite prun_bind. destruct c as [P R]. cbn [bP bS] in *.
  pose proof (prun_copy P S0 [] R L F) as HR. cbn [app length] in HR. rewrite HR. cbn [bind fst snd]. rewrite prun_bind, prun_mix. destruct (mix_loop 18 0 mem len 0 _) as [c| |]; cbn [bind omap fst snd]; try reflexivity.
  rewrite prun_bind, prun_p_loop. destruct (p_loop 9 0 c (0, 0)) as [[c1 d1]| |]; cbn [bind omap fst snd]; try reflexivity.
  rewrite prun_bind, prun_s_outer. destruct (s_outer 4 0 c1 d1) as [[c2 d2]| |]; cbn [bind omap fst snd]; reflexivity.
Qed.
(** every call *)
Lemma prun_call c k : shaped c -> prun c (call_prog k) = one_call c k.
Proof.
  intros S. destruct k as [mem len|d b|d unp i o|d unp a]; cbn [call_prog one_call].
  - rewrite prun_bind, prun_init by exact S. destruct (blowfish_init c mem len); reflexivity.
  - rewrite prun_bind, computes_unit. destruct d; cbn [unit_fun]; [destruct (decrypt_unit c b)|destruct (encrypt_unit c b)]; reflexivity.
  - rewrite prun_bind, (computes_generic c _ (unit_fun c d)) by (intros; apply computes_unit). destruct d; cbn [unit_fun]; unfold blowfish_encrypt, blowfish_decrypt;
    [destruct (bf_generic (decrypt_unit c) unp i o) as [[n r]| |]|destruct (bf_generic (encrypt_unit c) unp i o) as [[n r]| |]]; reflexivity.
  - rewrite prun_bind, (computes_object c _ (unit_fun c d)) by (intros; apply computes_unit). destruct d; cbn [unit_fun]; unfold bf_object_encrypt, bf_object_decrypt;
    [destruct (bf_object_call (decrypt_unit c) unp a)|destruct (bf_object_call (encrypt_unit c) unp a)]; reflexivity.
Qed.

(** ** calls that only load *)
Inductive rdonly {A} : prog A -> Prop :=
| ro_ret r : rdonly (PRet r)
| ro_get l k : (forall v, rdonly (k v)) -> rdonly (PGet l k).
Lemma ro_bind {A B} (p : prog A) (f : A -> prog B) : rdonly p -> (forall a, rdonly (f a)) -> rdonly (pbind p f).
Proof. intros P F. induction P as [r|l k H IH]; cbn [pbind]; [destruct r; [apply F| |]; constructor|constructor; exact IH]. Qed.
Lemma ro_load l : rdonly (load_word l).  Proof. constructor. intros v. constructor. Qed.
Ltac ro := repeat (first [apply ro_ret | apply ro_load | apply ro_bind; [|intros]]).
Lemma ro_round i dp : rdonly (p_round i dp).  Proof. unfold p_round, p_F. cbv zeta. ro. Qed.
Lemma ro_enc k : forall i dp, rdonly (p_enc_rounds k i dp).  Proof. induction k; intros; cbn [p_enc_rounds]; [ro|]. apply ro_bind; [apply ro_round|intros; apply IHk]. Qed.
Lemma ro_dec k : forall dp, rdonly (p_dec_rounds k dp).  Proof. induction k; intros; cbn [p_dec_rounds]; [ro|]. apply ro_bind; [apply ro_round|intros; apply IHk]. Qed.
Lemma ro_unit d dp : rdonly (unit_prog d dp).
Proof. destruct d; cbn [unit_prog]; [unfold p_decrypt_unit|unfold p_encrypt_unit]; (apply ro_bind; [apply ro_dec || apply ro_enc|intros]); ro. Qed.
Lemma ro_unit_call d unp : rdonly (p_unit_call (unit_prog d) unp).
Proof. unfold p_unit_call. ro. apply ro_unit. Qed.
Lemma ro_bf_loop d input k : forall i unp out, rdonly (p_bf_loop (unit_prog d) input k i unp out).
Proof.
  induction k; intros; cbn [p_bf_loop]; [ro|]. ro. destruct (Nat.eqb (i mod 8) 7); [|apply IHk]. apply ro_bind; [apply ro_unit_call|intros]. ro. apply IHk.
Qed.
Lemma ro_generic d unp input out : rdonly (p_bf_generic (unit_prog d) unp input out).
Proof.
  unfold p_bf_generic. cbv zeta. apply ro_bind; [apply ro_bf_loop|intros [u o]]. destruct (Nat.eqb _ 0); [ro|]. ro; apply ro_unit.
Qed.
Lemma ro_call k : (forall mem len, k <> BInit mem len) -> rdonly (call_prog k).
Proof.
  intros H. destruct k as [mem len|d b|d unp i o|d unp a]; cbn [call_prog]; [destruct (H mem len eq_refl)| | |].
  - ro. apply ro_unit.
  - apply ro_bind; [apply ro_generic|intros [n r]; ro].
  - apply ro_bind; [|intros; ro]. unfold p_object_call. apply ro_bind; [apply ro_ret|intros s]. cbv zeta. apply ro_bind; [apply ro_generic|intros [n r]; ro].
Qed.

(** ** one thread alone, step by step *)
Fixpoint iter (n : nat) (x : list bf_ctx * bthread) : outcome (list bf_ctx * bthread) :=
  match n with O => Ret x | S n => bind (bt_step (fst x) (snd x)) (iter n) end.
Lemma iter_add n : forall m x, iter (n + m) x = bind (iter n x) (iter m).
Proof. induction n; intros m x; cbn [iter Nat.add bind]; [reflexivity|]. destruct (bt_step (fst x) (snd x)); cbn [bind]; [apply IHn|reflexivity|reflexivity]. Qed.
Lemma iter_snoc n x : iter (S n) x = bind (iter n x) (fun y => bt_step (fst y) (snd y)).
Proof.
  rewrite <- Nat.add_1_r, iter_add. destruct (iter n x) as [y| |]; cbn [bind iter]; try reflexivity. destruct (bt_step (fst y) (snd y)); reflexivity.
Qed.
Lemma iter_done m : forall cs r, iter m (cs, mkBT [] None r) = Ret (cs, mkBT [] None r).
Proof. induction m; intros; cbn [iter fst snd bt_step b_at b_todo bind]; [reflexivity|apply IHm]. Qed.
Lemma putb_len {A} i (x : A) l : (i < length l)%nat -> length (putb i x l) = length l.
Proof. intros H. unfold putb. rewrite app_length, firstn_length_le by lia. cbn [length]. rewrite skipn_length. lia. Qed.
Lemma putb_same {A} i (x : A) l : (i < length l)%nat -> nth_error (putb i x l) i = Some x.
Proof. intros H. unfold putb. rewrite nth_error_app2; rewrite firstn_length_le by lia; [rewrite Nat.sub_diag; reflexivity|lia]. Qed.
Lemma nth_error_skipn {A} (l : list A) i j : nth_error (skipn i l) j = nth_error l (i + j).
Proof. revert l. induction i; intros [|a l]; cbn; [destruct j; reflexivity|reflexivity|destruct j; reflexivity|apply IHi]. Qed.
Lemma nth_error_firstn_lt {A} (l : list A) : forall i j, (j < i)%nat -> nth_error (firstn i l) j = nth_error l j.
Proof. induction l; intros [|i] [|j] H; try lia; try reflexivity. cbn. apply IHl. lia. Qed.
Lemma putb_other {A} i j (x : A) l : i <> j -> (i < length l)%nat -> nth_error (putb i x l) j = nth_error l j.
Proof.
  intros N H. unfold putb. destruct (Nat.lt_ge_cases j i).
  - rewrite nth_error_app1 by (rewrite firstn_length_le; lia). rewrite nth_error_firstn_lt by lia. reflexivity.
  - rewrite nth_error_app2; rewrite firstn_length_le by lia; [|lia]. destruct (j - i)%nat as [|k] eqn:E; [lia|]. cbn [nth_error]. rewrite nth_error_skipn. f_equal. lia.
Qed.

(** ** shapes stay *)
Lemma in_firstn_in {A} n (l : list A) x : In x (firstn n l) -> In x l.
Proof. intros H. rewrite <- (firstn_skipn n l). apply in_or_app. left. exact H. Qed.
Lemma in_skipn_in {A} n (l : list A) x : In x (skipn n l) -> In x l.
Proof. intros H. rewrite <- (firstn_skipn n l). apply in_or_app. right. exact H. Qed.
Lemma wr_some {A} (l l' : list A) i v : wr l i v = Ret l' -> (i < length l)%nat /\ l' = firstn i l ++ v :: skipn (i + 1) l.
Proof. unfold wr, blit. cbn [length app]. destruct (Nat.leb_spec (i + 1) (length l)); intros E; [|discriminate]. split; [lia|congruence]. Qed.
Lemma wr_len {A} (l l' : list A) i v : wr l i v = Ret l' -> length l' = length l.
Proof. intros E. apply wr_some in E as (L & ->). rewrite app_length, firstn_length_le by lia. cbn [length]. rewrite skipn_length. lia. Qed.
Lemma rd_some {A} (l : list A) i v : rd l i = Ret v -> nth_error l i = Some v.
Proof. unfold rd. destruct (nth_error l i); [congruence|discriminate]. Qed.
Lemma setw_shaped c c' l v : shaped c -> setw c l v = Ret c' -> shaped c'.
Proof.
  intros (P & L & F). destruct l as [i|i j]; cbn [setw].
  - unfold wrP. destruct (wr (bP c) i v) as [p| |] eqn:E; cbn [bind]; intros X; try discriminate. injection X as <-. split; [cbn [bP]; rewrite (wr_len _ _ _ _ E); exact P|split; assumption].
  - unfold wrS. destruct (rd (bS c) i) as [row| |] eqn:E; cbn [bind]; try discriminate. destruct (wr row j v) as [row'| |] eqn:E1; cbn [bind]; try discriminate.
    destruct (wr (bS c) i row') as [s| |] eqn:E2; cbn [bind]; intros X; try discriminate. injection X as <-. split; [exact P|]. cbn [bS].
    split; [rewrite (wr_len _ _ _ _ E2); exact L|]. pose proof (wr_some _ _ _ _ E2) as (_ & ->). apply rd_some, nth_error_In in E.
    rewrite Forall_forall in F. apply Forall_app. split; [apply Forall_forall; intros r H; apply F; apply (in_firstn_in _ _ _ H)|].
    constructor; [rewrite (wr_len _ _ _ _ E1); apply F, E|apply Forall_forall; intros r H; apply F; apply (in_skipn_in _ _ _ H)].
Qed.
Lemma prun_shaped {A} (p : prog A) : forall c c' a, shaped c -> prun c p = Ret (c', a) -> shaped c'.
Proof.
  induction p as [r|l k IH|l v k IH]; intros c c' a S; cbn [prun].
  - destruct r; cbn [omap]; intros E; try discriminate. injection E as <- _. exact S.
  - destruct (getw c l); cbn [bind]; try discriminate. apply IH, S.
  - destruct (setw c l v) as [c1| |] eqn:E; cbn [bind]; try discriminate. apply IH. apply (setw_shaped _ _ _ _ S E).
Qed.
Lemma putb_shaped o c cs : Forall shaped cs -> shaped c -> Forall shaped (putb o c cs).
Proof.
  intros F S. rewrite Forall_forall in F. unfold putb. apply Forall_app. split; [apply Forall_forall; intros r H; apply F; apply (in_firstn_in _ _ _ H)|].
  constructor; [exact S|apply Forall_forall; intros r H; apply F; apply (in_skipn_in _ _ _ H)].
Qed.
Lemma putb_putb {A} o (x y : A) l : (o < length l)%nat -> putb o y (putb o x l) = putb o y l.
Proof.
  intros H. unfold putb. rewrite firstn_app, firstn_firstn, Nat.min_id, firstn_length_le, Nat.sub_diag, firstn_O, app_nil_r by lia. f_equal. f_equal.
  rewrite skipn_app, firstn_length_le by lia. replace (S o - o)%nat with 1%nat by lia. rewrite (skipn_all2 (firstn o l)) by (rewrite firstn_length_le; lia). reflexivity.
Qed.
Lemma putb_id {A} o (x : A) l : nth_error l o = Some x -> putb o x l = l.
Proof. intros H. unfold putb. revert l H. induction o; intros [|y l] H; try discriminate; cbn in *; [congruence|]. f_equal. apply IHo, H. Qed.

Lemma iter_prog p : forall cs o c c' v todo res, nth_error cs o = Some c -> prun c p = Ret (c', v) ->
  exists n, iter n (cs, mkBT todo (Some (o, p)) res) = Ret (putb o c' cs, mkBT todo None (res ++ [v])).
Proof.
  induction p as [r|l k IH|l w k IH]; intros cs o c c' v todo res N; cbn [prun]; intros E.
  - destruct r as [a| |]; cbn [omap] in E; try discriminate. injection E as <- <-. exists 1%nat. cbn [iter fst snd bt_step b_at b_todo b_results bind]. rewrite (putb_id _ _ _ N). reflexivity.
  - destruct (getw c l) as [x| |] eqn:G; cbn [bind] in E; try discriminate. destruct (IH x cs o c c' v todo res N E) as (n & I). exists (S n).
    cbn [iter fst snd bt_step b_at b_todo b_results]. unfold rd at 1. rewrite N. cbn [bind]. rewrite G. cbn [bind]. exact I.
  - destruct (setw c l w) as [c1| |] eqn:G; cbn [bind] in E; try discriminate. assert (L : (o < length cs)%nat) by (apply nth_error_Some; congruence).
    destruct (IH (putb o c1 cs) o c1 c' v todo res (putb_same _ _ _ L) E) as (n & I). exists (S n).
    cbn [iter fst snd bt_step b_at b_todo b_results]. unfold rd at 1. rewrite N. cbn [bind]. rewrite G. cbn [bind]. rewrite I. rewrite putb_putb by exact L. reflexivity.
Qed.
Lemma iter_alone calls : forall cs cs' rs res, Forall shaped cs -> alone cs calls = Ret (cs', rs) ->
  exists n, iter n (cs, mkBT calls None res) = Ret (cs', mkBT [] None (res ++ rs)).
Proof.
  induction calls as [|[o k] calls IH]; intros cs cs' rs res S; cbn [alone].
  - intros E. injection E as <- <-. exists O. rewrite app_nil_r. reflexivity.
  - unfold rd. destruct (nth_error cs o) as [c|] eqn:N; cbn [bind]; try discriminate.
    assert (Sc : shaped c) by (rewrite Forall_forall in S; apply S, (nth_error_In _ _ N)).
    destruct (one_call c k) as [[c1 x]| |] eqn:C; cbn [bind]; try discriminate. rewrite <- (prun_call c k Sc) in C.
    destruct (iter_prog (call_prog k) cs o c c1 x calls res N C) as (n & I).
    change (firstn o cs ++ c1 :: skipn (Datatypes.S o) cs) with (putb o c1 cs).
    destruct (alone (putb o c1 cs) calls) as [[cs2 xs]| |] eqn:Al; cbn [bind]; try discriminate. intros E. injection E as <- <-.
    destruct (IH _ _ _ (res ++ [x]) (putb_shaped o c1 cs S (prun_shaped _ _ _ _ Sc C)) Al) as (m & J). rewrite <- app_assoc in J. cbn [app] in J.
    exists (Datatypes.S (n + m)). cbn [iter fst snd bt_step b_at b_todo b_results bind]. rewrite iter_add, I. cbn [bind]. exact J.
Qed.

(** ** one step, on contexts that agree on what the thread uses *)
Definition thread_ok (calls : list (nat * bcall)) (t : bthread) : Prop :=
  incl (b_todo t) calls /\ forall o p, b_at t = Some (o, p) -> uses calls o /\ (rdonly p \/ initialises calls o).
Lemma step_agree calls cs csi csi' t t' : thread_ok calls t -> length cs = length csi -> (forall o, uses calls o -> nth_error cs o = nth_error csi o) ->
  bt_step csi t = Ret (csi', t') ->
  exists cs', bt_step cs t = Ret (cs', t') /\ length cs' = length cs /\ length csi' = length csi /\ thread_ok calls t' /\
    (forall o, uses calls o -> nth_error cs' o = nth_error csi' o) /\ (forall o, ~ initialises calls o -> nth_error cs' o = nth_error cs o).
Proof.
  destruct t as [todo at_ res]. intros (TI & TA) L A. cbn [b_todo b_at] in TI, TA. unfold bt_step. cbn [b_at b_todo b_results].
  destruct at_ as [[o p]|].
  - destruct (TA o p eq_refl) as (U & W). destruct p as [r|l k|l v k].
    + destruct r as [a| |]; cbn [bind]; intros E; try discriminate. injection E as <- <-. exists cs.
      split; [reflexivity|]. split; [reflexivity|]. split; [reflexivity|]. split; [|split; [exact A|reflexivity]].
      split; [exact TI|]. intros o' p' X. cbn [b_at] in X. discriminate X.
    + unfold rd. rewrite (A o U). destruct (nth_error csi o) as [c|]; cbn [bind]; try discriminate. destruct (getw c l) as [x| |]; cbn [bind]; intros E; try discriminate.
      injection E as <- <-. exists cs.
      split; [reflexivity|]. split; [reflexivity|]. split; [reflexivity|]. split; [|split; [exact A|reflexivity]].
      split; [exact TI|]. intros o' p' X. cbn [b_at] in X. assert (o' = o /\ p' = k x) as (-> & ->) by (split; congruence).
      split; [exact U|]. destruct W as [W|W]; [left; inversion W; auto|right; exact W].
    + unfold rd. rewrite (A o U). destruct (nth_error csi o) as [c|] eqn:N; cbn [bind]; try discriminate. destruct (setw c l v) as [x| |]; cbn [bind]; intros E; try discriminate.
      injection E as <- <-. assert (Li : (o < length csi)%nat) by (apply nth_error_Some; congruence).
      assert (In_ : initialises calls o) by (destruct W as [W|W]; [inversion W|exact W]).
      exists (putb o x cs). split; [reflexivity|]. split; [apply putb_len; lia|]. split; [apply putb_len; lia|]. split; [|split].
      * split; [exact TI|]. intros o' p' X. cbn [b_at] in X. assert (o' = o) as -> by congruence. split; [exact U|right; exact In_].
      * intros o' U'. destruct (Nat.eq_dec o o') as [<-|D]; [rewrite !putb_same by lia; reflexivity|rewrite !putb_other by (assumption || lia); apply A, U'].
      * intros o' NI. apply putb_other; [intros ->; exact (NI In_)|lia].
  - destruct todo as [|[o k] r]; intros E; injection E as <- <-; exists cs.
    + split; [reflexivity|]. split; [reflexivity|]. split; [reflexivity|]. split; [|split; [exact A|reflexivity]]. split; [exact TI|]. intros o' p' X. cbn [b_at] in X. discriminate X.
    + assert (U : In (o, k) calls) by (apply TI; left; reflexivity).
      split; [reflexivity|]. split; [reflexivity|]. split; [reflexivity|]. split; [|split; [exact A|reflexivity]]. split.
      * intros x X. apply TI. right. exact X.
      * intros o' p' X. cbn [b_at] in X. assert (o' = o /\ p' = call_prog k) as (-> & ->) by (split; congruence).
        split; [exists k; exact U|]. destruct k as [mem len| | |].
        { right. exists mem, len. exact U. }
        all: left; apply ro_call; intros mem len X2; discriminate X2.
Qed.

(** ** all threads *)
Lemma bt_run_app s1 : forall st s2, bt_run st (s1 ++ s2) = bind (bt_run st s1) (fun st => bt_run st s2).
Proof. induction s1 as [|k s1 IH]; intros; cbn [app bt_run]; [reflexivity|]. destruct (bt_next st k); cbn [bind]; [apply IH|reflexivity|reflexivity]. Qed.
Lemma steps_snoc i s k : steps_of i (s ++ [k]) = (steps_of i s + if Nat.eq_dec k i then 1 else 0)%nat.
Proof. unfold steps_of. rewrite count_occ_app. cbn [count_occ]. destruct (Nat.eq_dec k i); lia. Qed.
Section Run.
Variables (cs0 : list bf_ctx) (work : list (list (nat * bcall))).
Hypothesis NC : no_conflict work.
(** every thread alone never does anything undefined *)
Hypothesis Total : forall i calls, nth_error work i = Some calls -> forall n, exists y, iter n (cs0, mkBT calls None []) = Ret y.

Definition good (sched : list nat) (cs : list bf_ctx) (ts : list bthread) : Prop :=
  length cs = length cs0 /\ length ts = length work /\
  (forall i calls, nth_error work i = Some calls -> exists t csi,
    nth_error ts i = Some t /\ iter (steps_of i sched) (cs0, mkBT calls None []) = Ret (csi, t) /\ length csi = length cs0 /\ thread_ok calls t /\
    forall o, uses calls o -> nth_error cs o = nth_error csi o) /\
  (forall o, (forall i calls, nth_error work i = Some calls -> ~ initialises calls o) -> nth_error cs o = nth_error cs0 o).
Lemma run_good sched : exists cs ts, bt_run (bt_start cs0 work) sched = Ret (cs, ts) /\ good sched cs ts.
Proof.
  induction sched as [|k sched IH] using rev_ind.
  - exists cs0, (map (fun w => mkBT w None []) work). split; [reflexivity|]. split; [reflexivity|]. split; [apply map_length|]. split; [|reflexivity].
    intros i calls Wi. exists (mkBT calls None []), cs0. split; [rewrite nth_error_map, Wi; reflexivity|]. split; [reflexivity|]. split; [reflexivity|].
    split; [|reflexivity]. split; [apply incl_refl|]. intros o p X. cbn [b_at] in X. discriminate X.
  - destruct IH as (cs & ts & R & L & LT & T & Un). rewrite bt_run_app, R. cbn [bind bt_run]. unfold bt_next at 1.
    destruct (nth_error ts k) as [t|] eqn:Nk.
    + assert (Kt : (k < length ts)%nat) by (apply nth_error_Some; congruence).
      destruct (nth_error work k) as [calls|] eqn:Wk; [|apply nth_error_None in Wk; lia].
      destruct (T k calls Wk) as (t1 & csi & N1 & I1 & Li & OK & A). assert (t1 = t) as -> by congruence.
      destruct (Total k calls Wk (S (steps_of k sched))) as ([csi' t'] & I2). rewrite iter_snoc, I1 in I2. cbn [bind fst snd] in I2.
      destruct (step_agree calls cs csi csi' t t' OK ltac:(congruence) A I2) as (cs' & S1 & L1 & L2 & OK' & A' & NI). rewrite S1. cbn [bind].
      exists cs', (putb k t' ts). split; [reflexivity|]. split; [congruence|]. split; [rewrite putb_len by lia; exact LT|]. split.
      * intros i calls' Wi. rewrite steps_snoc. destruct (Nat.eq_dec k i) as [<-|D].
        -- assert (calls' = calls) as -> by congruence. exists t', csi'. rewrite putb_same by exact Kt. rewrite Nat.add_1_r, iter_snoc, I1. cbn [bind fst snd]. split; [reflexivity|]. split; [exact I2|]. split; [congruence|]. split; [exact OK'|exact A'].
        -- destruct (T i calls' Wi) as (ti & csi2 & Ni & Ii & Li2 & OKi & Ai). exists ti, csi2. rewrite putb_other by (assumption || lia). rewrite Nat.add_0_r. split; [exact Ni|]. split; [exact Ii|]. split; [exact Li2|]. split; [exact OKi|].
           intros o U. rewrite <- (Ai o U). apply NI. intros In_. exact (NC k i calls calls' o D Wk Wi In_ U).
      * intros o H. rewrite <- (Un o H). apply NI. exact (H k calls Wk).
    + cbn [bind]. exists cs, ts. split; [reflexivity|]. split; [exact L|]. split; [exact LT|]. split; [|exact Un]. intros i calls Wi. rewrite steps_snoc. destruct (Nat.eq_dec k i) as [<-|D].
      * apply nth_error_None in Nk. assert (k < length work)%nat by (apply nth_error_Some; congruence). lia.
      * rewrite Nat.add_0_r. apply T, Wi.
Qed.
End Run.
Lemma iter_total n : forall x y, iter n x = Ret y -> (exists cs r, y = (cs, mkBT [] None r)) -> forall m, exists z, iter m x = Ret z.
Proof.
  intros x y E (cs & r & ->) m. destruct (Nat.le_ge_cases m n) as [H|H].
  - replace n with (m + (n - m))%nat in E by lia. rewrite iter_add in E. destruct (iter m x) as [z| |]; cbn [bind] in E; [eauto|discriminate|discriminate].
  - replace m with (n + (m - n))%nat by lia. rewrite iter_add, E. cbn [bind]. rewrite iter_done. eauto.
Qed.
Lemma iter_results n : forall cs t cs' t', iter n (cs, t) = Ret (cs', t') -> exists more, b_results t' = b_results t ++ more.
Proof.
  induction n; intros cs t cs' t'; cbn [iter fst snd].
  - intros E. injection E as <- <-. exists []. rewrite app_nil_r. reflexivity.
  - destruct (bt_step cs t) as [[cs1 t1]| |] eqn:S1; cbn [bind]; try discriminate. intros E. destruct (IHn _ _ _ _ E) as (m2 & ->).
    assert (exists m1, b_results t1 = b_results t ++ m1) as (m1 & ->).
    { unfold bt_step in S1. destruct (b_at t) as [[o [r|l k|l v k]]|].
      - destruct r as [a| |]; cbn [bind] in S1; try discriminate. injection S1 as <- <-. exists [a]. reflexivity.
      - destruct (rd cs o) as [c| |]; cbn [bind] in S1; try discriminate. destruct (getw c l); cbn [bind] in S1; try discriminate. injection S1 as <- <-. exists []. rewrite app_nil_r. reflexivity.
      - destruct (rd cs o) as [c| |]; cbn [bind] in S1; try discriminate. destruct (setw c l v); cbn [bind] in S1; try discriminate. injection S1 as <- <-. exists []. rewrite app_nil_r. reflexivity.
      - destruct (b_todo t) as [|[o k] r]; injection S1 as <- <-; exists []; rewrite app_nil_r; reflexivity. }
    exists (m1 ++ m2). rewrite app_assoc. reflexivity.
Qed.
