(** Model of one TOTP object shared by threads that call generate and set_secret without any lock (src/otp/totp.cpp, hotp.cpp; the classes have
    no mutex of their own for these members). Simplified: every access to a member takes effect at once and in one piece, in the order
    of the schedule (to the C++ standard a schedule with conflicting accesses is a data race and undefined altogether). Definitions only. *)
From Verif Require Import Base MFront MHmac MOtp MOtpObj.
Local Open Scope N_scope.

(** the members; [sh_gen] tells which SequentialData the pointer [secret] (hotp.hpp 25) refers to: set_secret deletes the old one *)
Record shared := mkShared { sh_gen : nat; sh_obj : totp_obj }.
Inductive tcall (garbage : option N) (a : alg_choice) :=
| CGenerate (e : locals garbage a) (digit_count : N)
| CSetSecret (seq : list N).
Arguments CGenerate {garbage a}. Arguments CSetSecret {garbage a}.
(** Where a thread is inside TOTP::generate; [e], [d]: the uninitialised locals and the argument of the call. Operands whose
    order of evaluation is unspecified are filled in one by one, in the order of the schedule. *)
Inductive place (garbage : option N) (a : alg_choice) :=
| Idle
| AtRemaining (e : locals garbage a) (d : N) (delta now update : option Z)            (* 69: delta - (curtime() - _update_time), then the test 73 *)
| AtClock (e : locals garbage a) (d : N)                                              (* 64: curtime() *)
| AtSetUpdate (e : locals garbage a) (d : N) (now : Z)                                (* 64: _update_time = *)
| AtArgs (e : locals garbage a) (d : N) (update : option Z) (interval : option N) (initial : option Z)   (* 65: arguments of calc_periodic_counter *)
| AtSetDelta (e : locals garbage a) (d : N) (counter : N) (delta : Z)                 (* totp-internal.c 8: *delta_out = *)
| AtSetCounter (e : locals garbage a) (d : N) (counter : N)                           (* 65: set_counter, hotp.cpp 70 *)
| AtCheck (e : locals garbage a) (d : N)                                              (* hotp.cpp 74: if (!secret.get()) *)
| AtHotpArgs (e : locals garbage a) (d : N) (p len : option nat) (counter : option N) (* hotp.cpp 78: secret->to_pgfe_seq(), secret->length(), co *)
| AtCompute (e : locals garbage a) (d : N) (p len : nat) (counter : N).               (* inside pgfe_hotp_generic *)
Arguments Idle {garbage a}. Arguments AtRemaining {garbage a}. Arguments AtClock {garbage a}. Arguments AtSetUpdate {garbage a}. Arguments AtArgs {garbage a}.
Arguments AtSetDelta {garbage a}. Arguments AtSetCounter {garbage a}. Arguments AtCheck {garbage a}. Arguments AtHotpArgs {garbage a}. Arguments AtCompute {garbage a}.
(** calls still to make, the place, the results of the generate calls so far *)
Record tthread (garbage : option N) (a : alg_choice) := mkTT { tt_todo : list (tcall garbage a); tt_at : place garbage a; tt_results : list (gen_result N) }.
Arguments mkTT {garbage a}. Arguments tt_todo {garbage a}. Arguments tt_at {garbage a}. Arguments tt_results {garbage a}.
(** a step: which thread, which operand it evaluates (if it has a choice), what the clock shows *)
Record tchoice := mkTC { tc_who : nat; tc_pick : nat; tc_now : Z }.

(** fill in one operand (once) *)
Definition fill {A} (o : option A) (v : A) : option A := match o with None => Some v | Some x => Some x end.
Definition with_update (t : totp_obj) (u : Z) : totp_obj := mkTotp (hotp_part t) (interval_ t) (initial_time_ t) u (delta_ t).
Definition with_delta (t : totp_obj) (d : Z) : totp_obj := mkTotp (hotp_part t) (interval_ t) (initial_time_ t) (update_time_ t) d.
Definition with_co (t : totp_obj) (c : N) : totp_obj :=
  mkTotp (mkHotp (secret (hotp_part t)) c (base32 (hotp_part t))) (interval_ t) (initial_time_ t) (update_time_ t) (delta_ t).
Definition with_secret (t : totp_obj) (s : list N) : totp_obj :=
  mkTotp (set_secret (hotp_part t) s) (interval_ t) (initial_time_ t) (update_time_ t) (delta_ t).
(** the secret the pointer [p] refers to, cut at [len]; a deleted one cannot be read *)
Definition read_secret (s : shared) (p len : nat) : outcome (list N) :=
  if Nat.eqb p (sh_gen s) then
    match secret (hotp_part (sh_obj s)) with
    | Some b => if Nat.leb len (length b) then Ret (firstn len b) else UB OutOfBounds
    | None => UB NullDeref
    end
  else UB DoubleFree.

(** totp.cpp 63-75, hotp.cpp 43-45, 69-79, totp-internal.c 3-11: one step of a thread *)
Definition tt_step {garbage a} (s : shared) (t : tthread garbage a) (pick : nat) (now : Z) : outcome (shared * tthread garbage a) :=
  let o := sh_obj s in
  let go p := Ret (s, mkTT (tt_todo t) p (tt_results t)) in
  let write o' p := Ret (mkShared (sh_gen s) o', mkTT (tt_todo t) p (tt_results t)) in
  let finish r := Ret (s, mkTT (tt_todo t) Idle (tt_results t ++ [r])) in
  match tt_at t with
  | Idle =>
      match tt_todo t with
      | [] => Ret (s, t)
      | CGenerate e d :: r => Ret (s, mkTT r (AtRemaining e d None None None) (tt_results t))
      | CSetSecret b :: r => Ret (mkShared (S (sh_gen s)) (with_secret o b), mkTT r Idle (tt_results t))
      end
  | AtRemaining e d (Some dl) (Some n) (Some u) =>
      x <- time_sub n u ;; r <- time_sub dl x ;;
      if (r <=? 0)%Z then go (AtClock e d) else go (AtCheck e d)
  | AtRemaining e d dl n u =>
      match pick with
      | O => go (AtRemaining e d (fill dl (delta_ o)) n u)
      | 1%nat => go (AtRemaining e d dl (fill n now) u)
      | _ => go (AtRemaining e d dl n (fill u (update_time_ o)))
      end
  | AtClock e d => go (AtSetUpdate e d now)
  | AtSetUpdate e d n => write (with_update o n) (AtArgs e d None None None)
  | AtArgs e d (Some u) (Some iv) (Some t0) =>
      '(c, dl) <- calc_periodic_counter u iv t0 true ;;
      match dl with Some dl => go (AtSetDelta e d c dl) | None => go (AtSetCounter e d c) end
  | AtArgs e d u iv t0 =>
      match pick with
      | O => go (AtArgs e d (fill u (update_time_ o)) iv t0)
      | 1%nat => go (AtArgs e d u (fill iv (interval_ o)) t0)
      | _ => go (AtArgs e d u iv (fill t0 (initial_time_ o)))
      end
  | AtSetDelta e d c dl => write (with_delta o dl) (AtSetCounter e d c)
  | AtSetCounter e d c => write (with_co o c) (AtCheck e d)
  | AtCheck e d => match secret (hotp_part o) with None => finish NotInitialized | Some _ => go (AtHotpArgs e d None None None) end
  | AtHotpArgs e d (Some p) (Some len) (Some c) => go (AtCompute e d p len c)
  | AtHotpArgs e d p len c =>
      match pick with
      | O => go (AtHotpArgs e d (fill p (sh_gen s)) len c)
      | 1%nat => go (AtHotpArgs e d p (fill len match secret (hotp_part o) with Some b => length b | None => O end) c)
      | _ => go (AtHotpArgs e d p len (fill c (co (hotp_part o))))
      end
  | AtCompute e d p len c =>
      b <- read_secret s p len ;;
      v <- hotp_generic garbage a (lo_ctx e) (lo_loc e) (lo_out e) b c d ;;
      finish (Otp v)
  end.
Definition tt_state garbage a := (shared * list (tthread garbage a))%type.
Definition tt_next {garbage a} (st : tt_state garbage a) (ch : tchoice) : outcome (tt_state garbage a) :=
  let '(s, ts) := st in
  match nth_error ts (tc_who ch) with
  | None => Ret st
  | Some t => '(s, t) <- tt_step s t (tc_pick ch) (tc_now ch) ;; Ret (s, firstn (tc_who ch) ts ++ t :: skipn (S (tc_who ch)) ts)
  end.
Fixpoint tt_run {garbage a} (st : tt_state garbage a) (sched : list tchoice) : outcome (tt_state garbage a) :=
  match sched with [] => Ret st | ch :: r => st <- tt_next st ch ;; tt_run st r end.
(** an object, and threads before their first call *)
Definition tt_start {garbage a} (o : totp_obj) (work : list (list (tcall garbage a))) : tt_state garbage a :=
  (mkShared 0 o, map (fun ks => mkTT ks Idle []) work).
