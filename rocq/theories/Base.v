(** Common vocabulary: outcomes, machine words, checked buffers. *)
From Coq Require Import String Ascii.
From Coq Require Export List Arith NArith ZArith Lia Bool.
From Coq Require Export ZifyBool ZifyNat ZifyN.
Export ListNotations.

Ltac Zify.zify_post_hook ::= Z.div_mod_to_equations.

Arguments N.add : simpl never.
Arguments N.mul : simpl never.
Arguments N.sub : simpl never.
Arguments N.div : simpl never.
Arguments N.modulo : simpl never.
Arguments N.pow : simpl never.
Arguments N.shiftl : simpl never.
Arguments N.shiftr : simpl never.
Arguments N.land : simpl never.
Arguments N.lor : simpl never.
Arguments N.lxor : simpl never.
Arguments N.eqb : simpl never.
Arguments N.ltb : simpl never.
Arguments N.leb : simpl never.
Arguments Nat.div : simpl never.
Arguments Nat.modulo : simpl never.

(** ** Outcomes: a value, undefined behaviour, or non-termination. *)
Inductive ub_kind :=
| OutOfBounds      (* access outside an object *)
| SignedOverflow   (* signed integer overflow *)
| DivByZero        (* division or remainder by zero *)
| Indeterminate    (* use of an uninitialised value that the C standard forbids *)
| DoubleFree       (* freeing a dead object / using a dead object *)
| NullDeref.       (* null pointer dereference *)

Inductive outcome (A : Type) :=
| Ret (a : A)
| UB (why : ub_kind)
| Hang.
Arguments Ret {A} a.
Arguments UB {A} why.
Arguments Hang {A}.

Definition bind {A B} (m : outcome A) (k : A -> outcome B) : outcome B :=
  match m with Ret a => k a | UB w => UB w | Hang => Hang end.
Notation "x <- m ;; k" := (bind m (fun x => k)) (at level 61, m at next level, right associativity).
Notation "' p <- m ;; k" := (bind m (fun x => match x with p => k end))
  (at level 61, p pattern, m at next level, right associativity).

Definition omap {A B} (f : A -> B) (m : outcome A) : outcome B :=
  match m with Ret a => Ret (f a) | UB w => UB w | Hang => Hang end.

(** ** Bytes and words *)
Definition byte := N.
Definition is_byte (b : N) : Prop := (b < 256)%N.
Definition bytes_ok (l : list N) : Prop := Forall is_byte l.
Definition isb (b : N) : bool := N.ltb b 256.

(** truncation to uint8_t / uint32_t / uint64_t *)
Definition u8 (x : N) : N := (x mod 2 ^ 8)%N.
Definition u16 (x : N) : N := (x mod 2 ^ 16)%N.
Definition u32 (x : N) : N := (x mod 2 ^ 32)%N.
Definition u64 (x : N) : N := (x mod 2 ^ 64)%N.

(** ** Checked buffers: a C array is the list of its elements. *)
Definition rd {A} (l : list A) (i : nat) : outcome A :=
  match nth_error l i with Some v => Ret v | None => UB OutOfBounds end.
Definition blit {A} (l : list A) (i : nat) (src : list A) : outcome (list A) :=
  if Nat.leb (i + length src) (length l)
  then Ret (firstn i l ++ src ++ skipn (i + length src) l)
  else UB OutOfBounds.
Definition wr {A} (l : list A) (i : nat) (v : A) : outcome (list A) := blit l i [v].

(** ** Characters *)
Definition chars (s : string) : list N :=
  map N_of_ascii (list_ascii_of_string s).
(** a C string: no NUL inside *)
Definition cstr (s : list N) : Prop := Forall (fun c => (0 < c < 256)%N) s.
(** The C view of a std::string's bytes: up to the first NUL. *)
Fixpoint upto_nul (s : list N) : list N :=
  match s with
  | [] => []
  | c :: r => if N.eqb c 0 then [] else c :: upto_nul r
  end.

(** ** Basic lemmas *)
Lemma bind_ret {A B} (a : A) (k : A -> outcome B) : bind (Ret a) k = k a.
Proof. reflexivity. Qed.

Lemma rd_app_mid {A} (p : list A) x q i : i = length p -> rd (p ++ x :: q) i = Ret x.
Proof. intros ->; unfold rd. rewrite nth_error_app2, Nat.sub_diag by lia. reflexivity. Qed.

Lemma rd_lt {A} (l : list A) i d : i < length l -> rd l i = Ret (nth i l d).
Proof. intros H; unfold rd. rewrite (nth_error_nth' l d H). reflexivity. Qed.

Lemma rd_ge {A} (l : list A) i : length l <= i -> rd l i = UB OutOfBounds.
Proof. intros H; unfold rd. apply nth_error_None in H. rewrite H. reflexivity. Qed.

Lemma blit_app {A} (p m q src : list A) i :
  i = length p -> length m = length src -> blit (p ++ m ++ q) i src = Ret (p ++ src ++ q).
Proof.
  intros -> Hm. unfold blit. rewrite !app_length.
  destruct (Nat.leb_spec (length p + length src) (length p + (length m + length q))); [|lia].
  rewrite firstn_app, Nat.sub_diag, firstn_all, firstn_O, app_nil_r.
  f_equal. f_equal. f_equal.
  rewrite skipn_app. rewrite (skipn_all2 p) by lia. cbn.
  replace (length p + length src - length p) with (length m) by lia.
  rewrite skipn_app, skipn_all, Nat.sub_diag. reflexivity.
Qed.

Lemma blit_ok {A} (l src : list A) i :
  i + length src <= length l ->
  blit l i src = Ret (firstn i l ++ src ++ skipn (i + length src) l).
Proof. intros H. unfold blit. destruct (Nat.leb_spec (i + length src) (length l)); [reflexivity|lia]. Qed.

Lemma blit_ub {A} (l src : list A) i :
  length l < i + length src -> blit l i src = UB OutOfBounds.
Proof. intros H. unfold blit. destruct (Nat.leb_spec (i + length src) (length l)); [lia|reflexivity]. Qed.

Lemma wr_app {A} (p : list A) x q i v : i = length p -> wr (p ++ x :: q) i v = Ret (p ++ v :: q).
Proof. intros H. unfold wr. change (x :: q) with ([x] ++ q). rewrite blit_app by auto. reflexivity. Qed.

Lemma wr_ub {A} (l : list A) i v : length l <= i -> wr l i v = UB OutOfBounds.
Proof. intros H. unfold wr. apply blit_ub. cbn. lia. Qed.

Lemma app_split_at {A} (l : list A) i : i < length l -> exists p x q, l = p ++ x :: q /\ length p = i.
Proof.
  intros H. exists (firstn i l).
  destruct (skipn i l) as [|x q] eqn:E.
  - apply (f_equal (@length A)) in E. rewrite skipn_length in E. cbn in E. lia.
  - exists x, q. rewrite <- E, firstn_skipn, firstn_length. split; [reflexivity|lia].
Qed.

Lemma skipn_add {A} m n (l : list A) : skipn n (skipn m l) = skipn (m + n) l.
Proof. revert l; induction m as [|m IH]; intros l; [reflexivity|]. destruct l; cbn; [destruct n; reflexivity|apply IH]. Qed.

Lemma Forall2_len {A B} (R : A -> B -> Prop) l l' : Forall2 R l l' -> length l = length l'.
Proof. induction 1; cbn; congruence. Qed.

Lemma map_repeat {A B} (f : A -> B) x n : map f (repeat x n) = repeat (f x) n.
Proof. induction n; cbn; congruence. Qed.

Lemma upto_nul_prefix l : firstn (length (upto_nul l)) l = upto_nul l.
Proof. induction l as [|a l IH]; [reflexivity|]. cbn. destruct (a =? 0)%N; cbn; congruence. Qed.
Lemma upto_nul_le l : length (upto_nul l) <= length l.
Proof. induction l as [|a l IH]; [cbn; lia|]. cbn. destruct (a =? 0)%N; cbn; lia. Qed.
