(** Specification side of C88: what a thread's calls do when no other thread runs, by the functions of MBlowfish. *)
From Verif Require Import Base MBlowfish MBfThreads.

(** one call on a context: the context after it, and the result *)
Definition one_call (c : bf_ctx) (k : bcall) : outcome (bf_ctx * bresult) :=
  match k with
  | BInit mem len => c <- blowfish_init c mem len ;; Ret (c, RNone)
  | BUnit false b => b <- encrypt_unit c b ;; Ret (c, RUnit b)
  | BUnit true b => b <- decrypt_unit c b ;; Ret (c, RUnit b)
  | BBuffer false unp input out => '(n, out) <- blowfish_encrypt c unp input out ;; Ret (c, RBuffer n out)
  | BBuffer true unp input out => '(n, out) <- blowfish_decrypt c unp input out ;; Ret (c, RBuffer n out)
  | BObject false unp d => s <- bf_object_encrypt c unp d ;; Ret (c, RData s)
  | BObject true unp d => s <- bf_object_decrypt c unp d ;; Ret (c, RData s)
  end.
(** the calls one after the other: the contexts after them, and the results in order *)
Fixpoint alone (cs : list bf_ctx) (calls : list (nat * bcall)) : outcome (list bf_ctx * list bresult) :=
  match calls with
  | [] => Ret (cs, [])
  | (o, k) :: r =>
      c <- rd cs o ;;
      '(c, x) <- one_call c k ;;
      '(cs, xs) <- alone (firstn o cs ++ c :: skipn (S o) cs) r ;;
      Ret (cs, x :: xs)
  end.
(** the contexts a thread uses, and those it initialises *)
Definition uses (calls : list (nat * bcall)) (o : nat) : Prop := exists k, In (o, k) calls.
Definition initialises (calls : list (nat * bcall)) (o : nat) : Prop := exists mem len, In (o, BInit mem len) calls.
(** no context that one thread initialises is used by another *)
Definition no_conflict (work : list (list (nat * bcall))) : Prop :=
  forall i j a b o, i <> j -> nth_error work i = Some a -> nth_error work j = Some b -> initialises a o -> ~ uses b o.
(** how often a thread takes a step *)
Definition steps_of (i : nat) (sched : list nat) : nat := count_occ Nat.eq_dec sched i.
