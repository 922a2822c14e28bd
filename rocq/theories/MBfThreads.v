(** Model of Blowfish contexts used by several threads (src/fishes/blowfish.c, blowfish.cpp; there are no locks). Every load and every store
    of one subkey word is one step; the order is that of the schedule. Within an expression whose operands C leaves unordered (the four
    loads in F) the loads are made from left to right. The block, the buffers and the arguments of a call belong to its thread. Definitions only. *)
From Verif Require Import Base MBlowfish.
Local Open Scope N_scope.

(** ** a call as the sequence of its accesses to the words of the context *)
Inductive loc := LP (i : nat) | LS (i j : nat).
(** ctx->P[i], ctx->S[i][j] *)
Definition getw (c : bf_ctx) (l : loc) : outcome N := match l with LP i => rd (bP c) i | LS i j => rdS c i (N.of_nat j) end.
Definition setw (c : bf_ctx) (l : loc) (v : N) : outcome bf_ctx := match l with LP i => wrP c i v | LS i j => wrS c i j v end.
(** what a call still has to do *)
Inductive prog (A : Type) :=
| PRet (r : outcome A)                    (* nothing: it returns, or what it does beside the context is undefined *)
| PGet (l : loc) (k : N -> prog A)        (* load a word, go on with its value *)
| PSet (l : loc) (v : N) (k : prog A).    (* store a word, go on *)
Arguments PRet {A}. Arguments PGet {A}. Arguments PSet {A}.
Fixpoint pbind {A B} (p : prog A) (f : A -> prog B) : prog B :=
  match p with
  | PRet r => match r with Ret a => f a | UB e => PRet (UB e) | Hang => PRet Hang end
  | PGet l k => PGet l (fun v => pbind (k v) f)
  | PSet l v k => PSet l v (pbind k f)
  end.
Notation "x <-- m ;;; k" := (pbind m (fun x => k)) (at level 61, m at next level, right associativity).
Notation "' p <-- m ;;; k" := (pbind m (fun p => k)) (at level 61, p pattern, m at next level, right associativity).
Definition load_word (l : loc) : prog N := PGet l (fun v => PRet (Ret v)).
Definition store_word (l : loc) (v : N) : prog unit := PSet l v (PRet (Ret tt)).

(** blowfish.c 154-157 *)
Definition p_F (x : N) : prog N :=
  let pd := x mod 256 in let pc := (x / 2 ^ 8) mod 256 in let pb := (x / 2 ^ 16) mod 256 in let pa := (x / 2 ^ 24) mod 256 in
  s0 <-- load_word (LS 0 (N.to_nat pa)) ;;; s1 <-- load_word (LS 1 (N.to_nat pb)) ;;;
  s2 <-- load_word (LS 2 (N.to_nat pc)) ;;; s3 <-- load_word (LS 3 (N.to_nat pd)) ;;;
  PRet (Ret (u32 (N.lxor (u32 (s0 + s1)) s2 + s3))).
(** blowfish.c 202-207, 220-225: one pass *)
Definition p_round (i : nat) (dp : dword) : prog dword :=
  p <-- load_word (LP i) ;;;
  f <-- p_F (N.lxor (fst dp) p) ;;;
  PRet (Ret (N.lxor (snd dp) f, N.lxor (fst dp) p)).
Fixpoint p_enc_rounds (k i : nat) (dp : dword) : prog dword :=
  match k with O => PRet (Ret dp) | S k => dp <-- p_round i dp ;;; p_enc_rounds k (S i) dp end.
Fixpoint p_dec_rounds (k : nat) (dp : dword) : prog dword :=
  match k with O => PRet (Ret dp) | S k => dp <-- p_round (k + 2) dp ;;; p_dec_rounds k dp end.
(** blowfish.c 199-215, 217-233; the swap exchanges the halves *)
Definition p_encrypt_unit (input : dword) : prog dword :=
  dp <-- p_enc_rounds 16 0 input ;;;
  p16 <-- load_word (LP 16) ;;; p17 <-- load_word (LP 17) ;;;
  PRet (Ret (N.lxor (snd dp) p17, N.lxor (fst dp) p16)).
Definition p_decrypt_unit (input : dword) : prog dword :=
  dp <-- p_dec_rounds 16 input ;;;
  p1 <-- load_word (LP 1) ;;; p0 <-- load_word (LP 0) ;;;
  PRet (Ret (N.lxor (snd dp) p0, N.lxor (fst dp) p1)).

(** blowfish.c 171: memcpy(ctx->S, S0, sizeof(ctx->S)), word by word *)
Fixpoint p_copy_row (i j : nat) (l : list N) : prog unit :=
  match l with [] => PRet (Ret tt) | v :: l => _ <-- store_word (LS i j) v ;;; p_copy_row i (S j) l end.
Fixpoint p_copy (i : nat) (rows : list (list N)) : prog unit :=
  match rows with [] => PRet (Ret tt) | l :: rows => _ <-- p_copy_row i 0 l ;;; p_copy (S i) rows end.
(** blowfish.c 173-182 *)
Fixpoint p_mix_loop (n i : nat) (mem : list N) (len : nat) (j : N) : prog unit :=
  match n with
  | O => PRet (Ret tt)
  | S n =>
      '(j, data) <-- PRet (key_loop 4 mem len j 0) ;;;
      p0 <-- PRet (rd P0 i) ;;;
      _ <-- store_word (LP i) (N.lxor p0 data) ;;;
      p_mix_loop n (S i) mem len j
  end.
(** blowfish.c 184-188 *)
Fixpoint p_p_loop (n i : nat) (dp : dword) : prog dword :=
  match n with
  | O => PRet (Ret dp)
  | S n =>
      dp <-- p_encrypt_unit dp ;;;
      _ <-- store_word (LP i) (fst dp) ;;;
      _ <-- store_word (LP (i + 1)) (snd dp) ;;;
      p_p_loop n (i + 2) dp
  end.
(** blowfish.c 190-196 *)
Fixpoint p_s_inner (n i j : nat) (dp : dword) : prog dword :=
  match n with
  | O => PRet (Ret dp)
  | S n =>
      dp <-- p_encrypt_unit dp ;;;
      _ <-- store_word (LS i j) (fst dp) ;;;
      _ <-- store_word (LS i (j + 1)) (snd dp) ;;;
      p_s_inner n i (j + 2) dp
  end.
Fixpoint p_s_outer (n i : nat) (dp : dword) : prog dword :=
  match n with
  | O => PRet (Ret dp)
  | S n => dp <-- p_s_inner 128 i 0 dp ;;; p_s_outer n (S i) dp
  end.
(** blowfish.c 165-197 [pgfe_blowfish_init] *)
Definition p_init (mem : list N) (len : nat) : prog unit :=
  _ <-- p_copy 0 S0 ;;;
  _ <-- p_mix_loop 18 0 mem len 0 ;;;
  dp <-- p_p_loop 9 0 (0, 0) ;;;
  _ <-- p_s_outer 4 0 dp ;;;
  PRet (Ret tt).

(** blowfish.c 235-270; the loads and stores of input, output and unit are the thread's own *)
Definition p_unit_call (f : dword -> prog dword) (unp : list N) : prog (list N) :=
  rgt <-- PRet (unle4 unp) ;;; lft <-- PRet (unle4 (skipn 4 unp)) ;;;
  dp <-- f (lft, rgt) ;;;
  PRet (Ret (le4 (snd dp) ++ le4 (fst dp))).
Fixpoint p_bf_loop (f : dword -> prog dword) (input : list N) (k i : nat) (unp out : list N) : prog (list N * list N) :=
  match k with
  | O => PRet (Ret (unp, out))
  | S k =>
      b <-- PRet (rd input i) ;;;
      unp <-- PRet (wr unp (7 - i mod 8) b) ;;;
      if Nat.eqb (i mod 8) 7 then
        unp <-- p_unit_call f unp ;;;
        out <-- PRet (store_loop 8 (i - 7) unp out) ;;;
        p_bf_loop f input k (S i) unp out
      else p_bf_loop f input k (S i) unp out
  end.
Definition p_bf_generic (f : dword -> prog dword) (unp input out : list N) : prog (nat * list N) :=
  let i := length input in
  '(unp, out) <-- p_bf_loop f input i 0 unp out ;;;
  if Nat.eqb (i mod 8) 0 then PRet (Ret (i, out))
  else
    let rem := (8 - i mod 8)%nat in
    unp <-- PRet (blit unp 0 (repeat 0 rem)) ;;;
    unp <-- p_unit_call f unp ;;;
    let i := (i + rem)%nat in
    out <-- PRet (store_loop 8 (i - 8) unp out) ;;;
    PRet (Ret (i, out)).
(** blowfish.cpp 29-63 with abstract_symmetric_crypter.cpp *)
Definition p_object_call (f : dword -> prog dword) (unp : list N) (d : data_arg) : prog (list N) :=
  seq <-- PRet (data_bytes d) ;;;
  let sz := (length seq + length seq mod 8)%nat in
  '(sz, output) <-- p_bf_generic f unp seq (repeat 0 sz) ;;;
  PRet (if Nat.leb sz (length output) then Ret (firstn sz output) else UB OutOfBounds).

(** ** threads *)
(** the calls: [mem], [len]: the key; [unp]: the bytes of the uninitialised local unit *)
Inductive bcall :=
| BInit (mem : list N) (len : nat)                     (* pgfe_blowfish_init *)
| BUnit (decrypt : bool) (block : dword)               (* pgfe_blowfish_encrypt_unit, _decrypt_unit *)
| BBuffer (decrypt : bool) (unp input out : list N)    (* pgfe_blowfish_encrypt, _decrypt *)
| BObject (decrypt : bool) (unp : list N) (d : data_arg).  (* Blowfish::encrypt, decrypt *)
(** what a call gives: nothing, a block, a length and a buffer, a SequentialData *)
Inductive bresult := RNone | RUnit (block : dword) | RBuffer (n : nat) (out : list N) | RData (d : list N).
Definition unit_prog (decrypt : bool) : dword -> prog dword := if decrypt then p_decrypt_unit else p_encrypt_unit.
Definition call_prog (k : bcall) : prog bresult :=
  match k with
  | BInit mem len => _ <-- p_init mem len ;;; PRet (Ret RNone)
  | BUnit d b => b <-- unit_prog d b ;;; PRet (Ret (RUnit b))
  | BBuffer d unp input out => '(n, out) <-- p_bf_generic (unit_prog d) unp input out ;;; PRet (Ret (RBuffer n out))
  | BObject d unp a => s <-- p_object_call (unit_prog d) unp a ;;; PRet (Ret (RData s))
  end.
(** a thread: the calls it still has to make, each on one of the contexts; where it is; the results so far *)
Record bthread := mkBT { b_todo : list (nat * bcall); b_at : option (nat * prog bresult); b_results : list bresult }.
Definition putb {A} (i : nat) (x : A) (l : list A) : list A := firstn i l ++ x :: skipn (S i) l.
(** one step of a thread: entering the next call, one access to the context, or returning *)
Definition bt_step (cs : list bf_ctx) (t : bthread) : outcome (list bf_ctx * bthread) :=
  match b_at t with
  | None => match b_todo t with [] => Ret (cs, t) | (o, k) :: r => Ret (cs, mkBT r (Some (o, call_prog k)) (b_results t)) end
  | Some (o, PRet r) => v <- r ;; Ret (cs, mkBT (b_todo t) None (b_results t ++ [v]))
  | Some (o, PGet l k) => c <- rd cs o ;; v <- getw c l ;; Ret (cs, mkBT (b_todo t) (Some (o, k v)) (b_results t))
  | Some (o, PSet l v k) => c <- rd cs o ;; c <- setw c l v ;; Ret (putb o c cs, mkBT (b_todo t) (Some (o, k)) (b_results t))
  end.
Definition bt_state := (list bf_ctx * list bthread)%type.
Definition bt_next (st : bt_state) (who : nat) : outcome bt_state :=
  let '(cs, ts) := st in
  match nth_error ts who with
  | None => Ret st
  | Some t => '(cs, t) <- bt_step cs t ;; Ret (cs, putb who t ts)
  end.
(** a schedule: the numbers of the threads that take the next step *)
Fixpoint bt_run (st : bt_state) (sched : list nat) : outcome bt_state :=
  match sched with [] => Ret st | k :: r => st <- bt_next st k ;; bt_run st r end.
Definition bt_start (cs : list bf_ctx) (work : list (list (nat * bcall))) : bt_state := (cs, map (fun w => mkBT w None []) work).
Definition bt_finished (t : bthread) : Prop := b_at t = None /\ b_todo t = [].
