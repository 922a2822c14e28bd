(** Specification side of C82: threads sharing a TOTP object. *)
From Verif Require Import Base MFront MHmac SHmac MOtp SOtp MOtpObj MTotpThreads.
Local Open Scope N_scope.

(** the times the clock shows during a schedule *)
Definition times (sched : list tchoice) : list Z := map tc_now sched.
(** the locals of a call, whatever they contain *)
Definition locals_any {garbage a} (D : nat) (e : locals garbage a) : Prop := ectx_ok (lo_ctx e) /\ eloc_ok (lo_loc e) /\ length (lo_out e) = D.
(** threads that only call generate *)
Definition generate_call {garbage a} (D : nat) (k : tcall garbage a) : Prop := exists e d, k = CGenerate e d /\ locals_any D e.
Definition only_generate {garbage a} (D : nat) (work : list (list (tcall garbage a))) : Prop := Forall (Forall (generate_call D)) work.
(** the results of a thread are those of its first calls, in order: each the one-time password for a counter satisfying [C] *)
Definition results_for {garbage a} (C : N -> Prop) (H : list N -> list N) (B : nat) (s : list N) (ks : list (tcall garbage a)) (t : tthread garbage a) : Prop :=
  exists first rest, ks = first ++ rest /\
    Forall2 (fun k r => exists e d c, k = CGenerate e d /\ C c /\ r = Otp (HOTP H B s c d)) first (tt_results t).
(** calls made one at a time: in every block of steps one thread makes exactly one call, from start to end. The log has, for
    every call, its number of digits, the times during the call, and its result. *)
Inductive one_at_a_time {garbage a} : tt_state garbage a -> list tchoice -> tt_state garbage a -> list (N * list Z * gen_result N) -> Prop :=
| oat_nil st : one_at_a_time st [] st []
| oat_call sh ts i t e d rest cs sh1 t1 r sched st2 log :
    nth_error ts i = Some t -> tt_at t = Idle -> tt_todo t = CGenerate e d :: rest ->
    Forall (fun c => tc_who c = i) cs ->
    tt_run (sh, ts) cs = Ret (sh1, firstn i ts ++ t1 :: skipn (S i) ts) -> tt_at t1 = Idle -> tt_results t1 = tt_results t ++ [r] ->
    one_at_a_time (sh1, firstn i ts ++ t1 :: skipn (S i) ts) sched st2 log ->
    one_at_a_time (sh, ts) (cs ++ sched) st2 ((d, times cs, r) :: log).
