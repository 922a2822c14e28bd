(** Model of the classes HOTP and TOTP (src/otp/abstract_otp.cpp, hotp.cpp, totp.cpp and their headers). Definitions only. *)
From Verif Require Import Base MFront MHmac MBase MCppBase MOtp.
Local Open Scope N_scope.

(** hotp.hpp 22-32. digsz and blocksz (hotp.hpp 26, set by after_change_alg, hotp.cpp 39-41) are never read and are left out; cur_alg is the
    constructor's argument for the whole life of the object (select_algorithm is protected and called by the
    constructors only; its comparison with the uninitialised cur_alg changes nothing here, as only digsz and
    blocksz depend on it). [secret] None: the null unique_ptr. *)
Record hotp_obj := mkHotp { secret : option (list N); co : N; base32 : object }.
(** A new object: co is uninitialised, [co0] stands for its contents (abstract: reading it is taken as reading any value) *)
Definition new_hotp (co0 : N) : hotp_obj := mkHotp None co0 new_object.
(** hotp.cpp 43-45 (allocation failures are not modelled here) *)
Definition set_secret (h : hotp_obj) (seq : list N) : hotp_obj := mkHotp (Some seq) (co h) (base32 h).
(** abstract_otp.cpp 14-16 *)
Definition set_secret_cstr (h : hotp_obj) (mem : list N) : outcome hotp_obj := s <- c_string mem ;; Ret (set_secret h s).
(** abstract_otp.cpp 22-25: set_secret(sd.to_pgfe_seq(sz), sz) with size_t sz uninitialised. The order of evaluation
    of the two arguments is unspecified: [ltr] true, the first one (which stores the length in sz) comes first; false, sz
    is read before anything was stored in it. *)
Definition set_secret_sd (ltr : bool) (h : hotp_obj) (sd : list N) : outcome hotp_obj :=
  if ltr then Ret (set_secret h sd) else UB Indeterminate.
(** hotp.cpp 85-93: one call of Base32::decode on the member, run to its end with nothing in between (decode does not use [stk]). *)
Definition idle : stack := mkStack (fun _ => [0]) (fun _ => repeat 0 100).
Definition base32_decode (o : object) (k : call) : outcome (object * list N) :=
  s <- run (CBase32 false) (o, [mkThread [k] Outside []]) (repeat (mkChoice 0 true idle) 7) ;;
  match s with
  | (o, [mkThread [] Outside [Value v]]) => Ret (o, v)
  | _ => Hang   (* the member's mutex is held *)
  end.
Definition set_secret_base32 (ltr : bool) (h : hotp_obj) (k : call) : outcome hotp_obj :=
  '(o, v) <- base32_decode (base32 h) k ;;
  set_secret_sd ltr (mkHotp (secret h) (co h) o) v.

(** The calls that change a HOTP object. hotp.cpp 43-72, 85-93. *)
Inductive set_call :=
| SetSecret (seq : list N)
| SetSecretCstr (mem : list N) (is_base32 : bool)
| SetSecretStr (s : list N) (is_base32 : bool)
| SetSecretSD (s : list N)
| SetSecretFromBase32Cstr (mem : list N)
| SetSecretFromBase32Str (s : list N)
| SetCounter (c : N).
Definition do_set (ltr : bool) (h : hotp_obj) (k : set_call) : outcome hotp_obj :=
  match k with
  | SetSecret s => Ret (set_secret h s)
  | SetSecretCstr m is_base32 => if is_base32 then set_secret_base32 ltr h (DecodeCstr m) else set_secret_cstr h m
  | SetSecretStr s is_base32 => if is_base32 then set_secret_base32 ltr h (DecodeStr s) else Ret (set_secret h s)   (* abstract_otp.cpp 18-20 *)
  | SetSecretSD s => set_secret_sd ltr h s
  | SetSecretFromBase32Cstr m => set_secret_base32 ltr h (DecodeCstr m)
  | SetSecretFromBase32Str s => set_secret_base32 ltr h (DecodeStr s)
  | SetCounter c => Ret (mkHotp (secret h) c (base32 h))
  end.
Fixpoint do_sets (ltr : bool) (h : hotp_obj) (ks : list set_call) : outcome hotp_obj :=
  match ks with [] => Ret h | k :: ks => h <- do_set ltr h k ;; do_sets ltr h ks end.

(** what a generate call gives: a value or NotInitializedException *)
Inductive gen_result (A : Type) := Otp (v : A) | NotInitialized.
Arguments Otp {A}. Arguments NotInitialized {A}.
(** the uninitialised locals used by one call of pgfe_hotp_generic *)
Record locals (garbage : option N) (a : alg_choice) := mkLocals {
  lo_ctx : ectx (sp_case garbage a); lo_loc : eloc (sp_case garbage a); lo_out : list N }.
Arguments mkLocals {garbage a}. Arguments lo_ctx {garbage a}. Arguments lo_loc {garbage a}. Arguments lo_out {garbage a}.
(** hotp.cpp 73-79 *)
Definition hotp_generate {garbage a} (e : locals garbage a) (h : hotp_obj) (digit_count : N) : outcome (gen_result N) :=
  match secret h with
  | None => Ret NotInitialized
  | Some s => v <- hotp_generic garbage a (lo_ctx e) (lo_loc e) (lo_out e) s (co h) digit_count ;; Ret (Otp v)
  end.
(** hotp.cpp 81-83, abstract_otp.cpp 27-34 (generate is virtual and const; TOTP::generate is not const and does not override it) *)
Definition hotp_generate_str {garbage a} (e : locals garbage a) (h : hotp_obj) (digit_count : N) : outcome (gen_result (list N)) :=
  r <- hotp_generate e h digit_count ;;
  match r with
  | NotInitialized => Ret NotInitialized
  | Otp v => s <- otp_str v digit_count ;; Ret (Otp s)
  end.

(** ** TOTP: totp.hpp 21-30 *)
Record totp_obj := mkTotp { hotp_part : hotp_obj; interval_ : N; initial_time_ : Z; update_time_ : Z; delta_ : Z }.
(** totp.cpp 17-41: the constructors set the interval; the member initialisers give 0 to the times *)
Definition new_totp (co0 : N) (interval : N) : totp_obj := mkTotp (new_hotp co0) interval 0 0 0.
(** totp.cpp 43-45, 55-57 *)
Definition set_interval (t : totp_obj) (interval : N) : totp_obj := mkTotp (hotp_part t) interval (initial_time_ t) (update_time_ t) (delta_ t).
Definition set_initial_time (t : totp_obj) (t0 : Z) : totp_obj := mkTotp (hotp_part t) (interval_ t) t0 (update_time_ t) (delta_ t).
(** totp.cpp 63-66; [now] is what time(NULL) returns *)
Definition update_counter (t : totp_obj) (now : Z) : outcome totp_obj :=
  '(c, d) <- calc_periodic_counter now (interval_ t) (initial_time_ t) true ;;
  Ret (mkTotp (mkHotp (secret (hotp_part t)) c (base32 (hotp_part t))) (interval_ t) (initial_time_ t) now (match d with Some d => d | None => delta_ t end)).
(** totp.cpp 68-70 *)
Definition remaining_time (t : totp_obj) (now : Z) : outcome Z :=
  e <- time_sub now (update_time_ t) ;; time_sub (delta_ t) e.
(** totp.cpp 72-80: the object after the counter was brought up to date; [now1], [now2]: the first and the
    second clock reading (the second is made only if the counter is updated) *)
Definition refresh (t : totp_obj) (now1 now2 : Z) : outcome totp_obj :=
  r <- remaining_time t now1 ;;
  if (r <=? 0)%Z then update_counter t now2 else Ret t.
Definition totp_generate {garbage a} (e : locals garbage a) (t : totp_obj) (now1 now2 : Z) (digit_count : N) : outcome (totp_obj * gen_result N) :=
  t <- refresh t now1 now2 ;;
  r <- hotp_generate e (hotp_part t) digit_count ;; Ret (t, r).
Definition totp_generate_str {garbage a} (e : locals garbage a) (t : totp_obj) (now1 now2 : Z) (digit_count : N) : outcome (totp_obj * gen_result (list N)) :=
  t <- refresh t now1 now2 ;;
  r <- hotp_generate_str e (hotp_part t) digit_count ;; Ret (t, r).
(** calls on a TOTP object *)
Inductive totp_call (garbage : option N) (a : alg_choice) :=
| TSet (k : set_call)
| TSetInterval (i : N)
| TSetInitialTime (t0 : Z)
| TGenerate (e : locals garbage a) (now1 now2 : Z) (digit_count : N)
| TGenerateStr (e : locals garbage a) (now1 now2 : Z) (digit_count : N).
Arguments TSet {garbage a}. Arguments TSetInterval {garbage a}. Arguments TSetInitialTime {garbage a}. Arguments TGenerate {garbage a}. Arguments TGenerateStr {garbage a}.
Definition totp_do {garbage a} (ltr : bool) (t : totp_obj) (k : totp_call garbage a) : outcome totp_obj :=
  match k with
  | TSet k => h <- do_set ltr (hotp_part t) k ;; Ret (mkTotp h (interval_ t) (initial_time_ t) (update_time_ t) (delta_ t))
  | TSetInterval i => Ret (set_interval t i)
  | TSetInitialTime t0 => Ret (set_initial_time t t0)
  | TGenerate e n1 n2 d => omap fst (totp_generate e t n1 n2 d)
  | TGenerateStr e n1 n2 d => omap fst (totp_generate_str e t n1 n2 d)
  end.
Fixpoint totp_run {garbage a} (ltr : bool) (t : totp_obj) (ks : list (totp_call garbage a)) : outcome totp_obj :=
  match ks with [] => Ret t | k :: ks => t <- totp_do ltr t k ;; totp_run ltr t ks end.
