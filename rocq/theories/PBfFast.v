(** An equivalent Blowfish on binary tries, so that concrete cases can be evaluated by the kernel. *)
From Coq Require Import FMapPositive.
From Verif Require Import Base PBlowfish PBlowfish2 PBlowfish3.
From Verif Require SBlowfish.
Local Open Scope N_scope.

Definition tab := PositiveMap.t N.
Definition idx (i : N) : positive := N.succ_pos i.
Definition get (T : tab) (i : N) : N := match PositiveMap.find (idx i) T with Some v => v | None => 0 end.
Definition put (T : tab) (i : N) (v : N) : tab := PositiveMap.add (idx i) v T.
Fixpoint fill (T : tab) (i : N) (l : list N) : tab := match l with [] => T | x :: l => fill (put T i x) (N.succ i) l end.
Definition rep (T : tab) (W : list N) : Prop := forall i, get T (N.of_nat i) = nth i W 0.

Lemma idx_inj i j : idx i = idx j -> i = j.
Proof. unfold idx. intros H. apply (f_equal Npos) in H. rewrite !N.succ_pos_spec in H. lia. Qed.
Lemma get_put T i j v : get (put T i v) j = if N.eq_dec i j then v else get T j.
Proof.
  unfold get, put. destruct (N.eq_dec i j) as [->|H]; [rewrite PositiveMap.gss; reflexivity|].
  rewrite PositiveMap.gso; [reflexivity|]. intros E. apply idx_inj in E. congruence.
Qed.
Lemma fill_get l : forall T i j, get (fill T i l) j = if N.ltb j i then get T j else
  match nth_error l (N.to_nat (j - i)) with Some v => v | None => get T j end.
Proof.
  induction l as [|x l IH]; intros T i j; cbn [fill].
  - destruct (j <? i); [reflexivity|]. destruct (N.to_nat (j - i)); reflexivity.
  - rewrite IH, get_put. destruct (N.ltb_spec j (N.succ i)), (N.ltb_spec j i); try lia.
    + destruct (N.eq_dec i j); [lia|reflexivity].
    + destruct (N.eq_dec i j); [|lia]. subst j. rewrite N.sub_diag. reflexivity.
    + destruct (N.eq_dec i j); [lia|]. replace (N.to_nat (j - i)) with (S (N.to_nat (j - N.succ i))) by lia. reflexivity.
Qed.
Lemma fill_rep l : rep (fill (PositiveMap.empty N) 0 l) l.
Proof.
  intros i. rewrite fill_get. destruct (N.ltb_spec (N.of_nat i) 0); [lia|]. rewrite N.sub_0_r, Nat2N.id.
  destruct (nth_error l i) eqn:E; [symmetry; apply (nth_error_nth _ _ _ E)|].
  unfold get. rewrite PositiveMap.gempty. apply nth_error_None in E. symmetry. apply nth_overflow. exact E.
Qed.

Definition fF (T : tab) (x : N) : N :=
  N.land (N.lxor (N.land (get T (18 + N.shiftr x 24) + get T (274 + N.land (N.shiftr x 16) 255)) (N.ones 32)) (get T (530 + N.land (N.shiftr x 8) 255))
    + get T (786 + N.land x 255)) (N.ones 32).
Fixpoint frounds (T : tab) (k : nat) (i : N) (l r : N) : N * N :=
  match k with
  | O => (l, r)
  | S k => let l := N.lxor l (get T i) in frounds T k (N.succ i) (N.lxor (fF T l) r) l
  end.
Definition fencrypt (T : tab) (b : N * N) : N * N :=
  let '(l, r) := frounds T 16 0 (fst b) (snd b) in (N.lxor r (get T 17), N.lxor l (get T 16)).
Fixpoint fexpand (n : nat) (i : N) (T : tab) (b : N * N) : tab :=
  match n with
  | O => T
  | S n => let b := fencrypt T b in let '(x, y) := b in fexpand n (i + 2) (put (put T i x) (N.succ i) y) (x, y)
  end.
Definition fsubkeys (key : list N) : tab := fexpand 521 0 (fill (PositiveMap.empty N) 0 (SBlowfish.mixed key)) (0, 0).

Lemma rep_get T W i j : rep T W -> i = N.of_nat j -> get T i = nth j W 0.
Proof. intros H ->. apply H. Qed.
Lemma quarter_land x k : N.of_nat (SBlowfish.quarter x k) = N.land (N.shiftr x (8 * N.of_nat (3 - k))) 255.
Proof.
  unfold SBlowfish.quarter. rewrite N2Nat.id. change 255 with (N.ones 8). rewrite N.land_ones, N.shiftr_div_pow2.
  change 256 with (2 ^ 8) at 1. rewrite <- N.pow_mul_r. reflexivity.
Qed.
Lemma fF_eq T W x : rep T W -> x < 2 ^ 32 -> fF T x = SBlowfish.F W x.
Proof.
  intros H Hx. unfold fF, SBlowfish.F, SBlowfish.sbox, SBlowfish.word. rewrite !N.land_ones.
  assert (Q : N.shiftr x 24 = N.land (N.shiftr x 24) 255).
  { change 255 with (N.ones 8). rewrite N.land_ones. symmetry. apply N.mod_small. rewrite N.shiftr_div_pow2.
    apply N.div_lt_upper_bound; [discriminate|]. exact Hx. }
  rewrite (rep_get T W (18 + N.shiftr x 24) (18 + 256 * 0 + SBlowfish.quarter x 0) H)
    by (rewrite Nat2N.inj_add, quarter_land, Q at 1; change (8 * N.of_nat (3 - 0)) with 24; lia).
  rewrite (rep_get T W (274 + N.land (N.shiftr x 16) 255) (18 + 256 * 1 + SBlowfish.quarter x 1) H)
    by (rewrite Nat2N.inj_add, quarter_land; change (8 * N.of_nat (3 - 1)) with 16; lia).
  rewrite (rep_get T W (530 + N.land (N.shiftr x 8) 255) (18 + 256 * 2 + SBlowfish.quarter x 2) H)
    by (rewrite Nat2N.inj_add, quarter_land; change (8 * N.of_nat (3 - 2)) with 8; lia).
  rewrite (rep_get T W (786 + N.land x 255) (18 + 256 * 3 + SBlowfish.quarter x 3) H)
    by (rewrite Nat2N.inj_add, quarter_land; change (8 * N.of_nat (3 - 3)) with 0; rewrite N.shiftr_0_r; lia).
  reflexivity.
Qed.

Lemma frounds_eq T W : rep T W -> words_ok W -> forall k i b, (i + k <= length W)%nat -> dword_ok b ->
  frounds T k (N.of_nat i) (fst b) (snd b) = fold_left (SBlowfish.round W) (firstn k (skipn i W)) b.
Proof.
  intros H HW. induction k as [|k IH]; intros i b Hi Hb; [destruct b; reflexivity|].
  cbn [frounds]. cbv zeta. rewrite (skipn_nth_cons W i 0) by lia. cbn [firstn fold_left].
  rewrite (H i). pose proof (word_lt W i HW) as Hw. unfold SBlowfish.word in Hw.
  assert (Hx : N.lxor (fst b) (nth i W 0) < 2 ^ 32) by (apply lxor_lt32; [apply Hb|exact Hw]).
  rewrite (fF_eq T W _ H Hx).
  rewrite <- Nat2N.inj_succ. rewrite <- (IH (S i)) by (try lia; apply round_ok; assumption). reflexivity.
Qed.
Lemma fencrypt_eq T W b : rep T W -> words_ok W -> (18 <= length W)%nat -> dword_ok b -> fencrypt T b = SBlowfish.encrypt W b.
Proof.
  intros H HW L Hb. unfold fencrypt, SBlowfish.encrypt, SBlowfish.crypt.
  pose proof (frounds_eq T W H HW 16 0 b ltac:(lia) Hb) as E. change (N.of_nat 0) with 0 in E. cbn [skipn] in E.
  rewrite E. destruct (fold_left (SBlowfish.round W) (firstn 16 W) b) as [x y].
  rewrite (rep_get T W 17 17 H eq_refl), (rep_get T W 16 16 H eq_refl). reflexivity.
Qed.
Lemma put_rep T W k x y : rep T W -> (2 * k + 1 < length W)%nat -> rep (put (put T (N.of_nat (2 * k)) x) (N.succ (N.of_nat (2 * k))) y) (SBlowfish.replace W k (x, y)).
Proof.
  intros H L i. destruct (split2 W (2 * k) L) as (p & a & b & q & -> & Lp). rewrite replace_app by exact Lp. cbn [fst snd].
  rewrite !get_put. destruct (N.eq_dec _ _) as [E|E]; [|destruct (N.eq_dec _ _) as [E2|E2]].
  - assert (i = S (length p)) as -> by lia. rewrite app_nth2 by lia. replace (S (length p) - length p)%nat with 1%nat by lia. reflexivity.
  - assert (i = length p) as -> by lia. rewrite app_nth2 by lia. rewrite Nat.sub_diag. reflexivity.
  - rewrite (H i). destruct (Nat.lt_ge_cases i (length p)); [rewrite !app_nth1 by assumption; reflexivity|].
    rewrite !app_nth2 by assumption. destruct (i - length p)%nat as [|[|j]] eqn:D; [lia|lia|reflexivity].
Qed.
Lemma replace_length W k b : (2 * k + 1 < length W)%nat -> length (SBlowfish.replace W k b) = length W.
Proof.
  intros L. destruct (split2 W (2 * k) L) as (p & x & y & q & -> & Lp). rewrite replace_app by exact Lp. rewrite !app_length. reflexivity.
Qed.
Lemma fexpand_rep n : forall k T W b, rep T W -> words_ok W -> dword_ok b -> (18 <= length W)%nat -> (2 * (k + n) <= length W)%nat ->
  rep (fexpand n (N.of_nat (2 * k)) T b) (SBlowfish.expand n k W b).
Proof.
  induction n as [|n IH]; intros k T W b H HW Hb L Lk; [exact H|]. cbn [fexpand SBlowfish.expand]. cbv zeta.
  rewrite (fencrypt_eq T W b) by assumption. pose proof (encrypt_ok W b HW Hb) as He. destruct (SBlowfish.encrypt W b) as [x y].
  replace (N.of_nat (2 * k) + 2) with (N.of_nat (2 * S k)) by lia.
  apply IH; [apply put_rep; [exact H|lia]|apply replace_ok; assumption|exact He|rewrite replace_length by lia; exact L|rewrite replace_length by lia; lia].
Qed.
Lemma mixed_length key : length (SBlowfish.mixed key) = 1042%nat.
Proof. unfold SBlowfish.mixed. rewrite app_length, map_length, seq_length. reflexivity. Qed.
Lemma mixed_ok key : key <> [] -> bytes_ok key -> words_ok (SBlowfish.mixed key).
Proof.
  intros H Hb. unfold SBlowfish.mixed, words_ok. apply Forall_app. split.
  - apply Forall_forall. intros w Hw. apply in_map_iff in Hw as (i & <- & _). apply lxor_lt32; [apply word_lt, pi_words_ok|apply key_word_lt; assumption].
  - apply words_skipn, pi_words_ok.
Qed.
Lemma subkeys_length key : length (SBlowfish.subkeys key) = 1042%nat.
Proof.
  unfold SBlowfish.subkeys.
  assert (X : forall n k W b, (2 * (k + n) <= length W)%nat -> length (SBlowfish.expand n k W b) = length W).
  { induction n as [|n IH]; intros k W b L; [reflexivity|]. cbn [SBlowfish.expand]. cbv zeta. rewrite IH; rewrite replace_length; lia. }
  rewrite X; rewrite mixed_length; lia.
Qed.
Lemma fsubkeys_rep key : key <> [] -> bytes_ok key -> rep (fsubkeys key) (SBlowfish.subkeys key).
Proof.
  intros H Hb. unfold fsubkeys, SBlowfish.subkeys. change 0 with (N.of_nat (2 * 0)) at 1.
  apply fexpand_rep; [apply fill_rep|apply mixed_ok; assumption|split; reflexivity|rewrite mixed_length; lia|rewrite mixed_length; lia].
Qed.
Lemma fast_encrypt key b : key <> [] -> bytes_ok key -> dword_ok b -> SBlowfish.encrypt (SBlowfish.subkeys key) b = fencrypt (fsubkeys key) b.
Proof.
  intros H Hb Hd. symmetry. apply fencrypt_eq; [apply fsubkeys_rep; assumption|apply subkeys_ok; assumption|rewrite subkeys_length; lia|exact Hd].
Qed.
