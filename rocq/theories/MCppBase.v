(** Model of the C++ classes Base16, Base32, Base64 (src/base_encoding/abstract_base_encoding.cpp,
    base16.cpp, base32.cpp, base64.cpp, and their headers), as used by any number of threads. Definitions only. *)
From Verif Require Import Base MBase MCppSize.

(** the constructors: base16.cpp 28-30, base32.cpp 34-37 (hex_mode), base64.cpp 33-36 (url_safe_mode) *)
Inductive base_class := CBase16 | CBase32 (hexm : bool) | CBase64 (url_safe_mode : bool).
(** base16.cpp 14-17, base32.cpp 14-23, base64.cpp 14-22 [init_base_function] *)
Definition encode_f (c : base_class) : stack -> list N -> list N -> outcome (nat * list N) :=
  match c with
  | CBase16 => encode_base16
  | CBase32 hexm => if hexm then encode_base32hex else encode_base32
  | CBase64 url => if url then encode_base64_url else encode_base64
  end.
Definition decode_f (c : base_class) : list N -> list N -> outcome (nat * list N) :=
  match c with
  | CBase16 => decode_base16
  | CBase32 hexm => if hexm then decode_base32hex else decode_base32
  | CBase64 _ => decode_base64
  end.
(** base16.cpp 19-26, base32.cpp 25-32, base64.cpp 24-31 [init_size] *)
Definition bitsz (c : base_class) : Z :=
  Z.of_nat (bit_size match c with CBase16 => base16_params | CBase32 _ => base32_params | CBase64 _ => base64_params end).

(** The shared object: abstract_base_encoding.hpp 31-35. A mutex is held or not. *)
Record object := mkObj {
  en_cache : list N; encsz : Z; enc_locked : bool;
  de_cache : list N; decsz : Z; dec_locked : bool }.
(** a new object: make_unique<T[]>(n) zero-initialises *)
Definition new_object : object := mkObj (repeat 0%N 128) 127 false (repeat 0%N 64) 64 false.

(** A call of a public function. abstract_base_encoding.cpp: encode of pointer and length 23-39 and the
    overloads 41-51 for C strings (strlen), std::string and SequentialData (their length()); decode of a C
    string 53-70 and the overload 72-74 for std::string, which passes c_str(). [mem]: the memory the string starts in, terminator included. *)
Inductive call :=
| Encode (data : list N) | EncodeCstr (mem : list N) | EncodeStr (s : list N) | EncodeSD (s : list N)
| DecodeCstr (mem : list N) | DecodeStr (s : list N).
(** what a call does after the argument conversion (41-51, 72-74): encode these bytes / decode the string
    starting at this memory. strlen of memory without NUL is out of bounds. *)
Inductive job := JEnc (data : list N) | JDec (text : list N).
Definition c_string (mem : list N) : outcome (list N) :=
  if Nat.eqb (length (upto_nul mem)) (length mem) then UB OutOfBounds else Ret (upto_nul mem).
Definition job_of (k : call) : outcome job :=
  match k with
  | Encode d => Ret (JEnc d)
  | EncodeCstr m => s <- c_string m ;; Ret (JEnc s)
  | EncodeStr s => Ret (JEnc s)
  | EncodeSD s => Ret (JEnc s)
  | DecodeCstr m => s <- c_string m ;; Ret (JDec s)
  | DecodeStr s => s <- c_string (s ++ [0%N]) ;; Ret (JDec s)
  end.

(** Where a thread is inside encode/decode; every constructor is a point between two steps, at which
    any other thread may run. *)
Inductive place :=
| Outside                                   (* not in a call *)
| AtLock (j : job) (sz : Z)                 (* sz computed, lock() not yet acquired (26 / 57) *)
| AtCheck (j : job) (sz : Z)                (* mutex held; about to test and reallocate (27-30 / 58-61) *)
| AtCall (j : job)                          (* about to call encode_f / decode_f (32-33 / 63-64) *)
| AtTerminator (j : job) (n : nat)          (* about to write the terminator (34 / 65) *)
| AtCopy (j : job) (n : nat)                (* about to build the result (36 / 67) *)
| AtUnlock (j : job) (s : list N).          (* about to unlock (37 / 68) *)
(** what a finished call produced: a value, or an exception (std::bad_alloc) seen by the caller *)
Inductive result := Value (s : list N) | Threw.
Record thread := mkThread { todo : list call; at_ : place; results : list result }.

(** a step of a thread: it cannot run (the mutex is held), or it runs, or it does something undefined *)
Inductive tstep := Blocked | Next (o : object) (t : thread) | Fault (w : ub_kind).
Definition done (t : thread) (r : result) : thread := mkThread (todo t) Outside (results t ++ [r]).
Definition go (t : thread) (p : place) : thread := mkThread (todo t) p (results t).
Definition lift {A} (m : outcome A) (k : A -> tstep) : tstep :=
  match m with Ret a => k a | UB w => Fault w | Hang => Blocked end.

(** [mem_ok]: whether an allocation made in this step succeeds; [st]: the stack used by encode_f. A failed allocation throws
    std::bad_alloc out of the function; nothing unlocks the mutex. *)
Definition step_thread (c : base_class) (mem_ok : bool) (st : stack) (o : object) (t : thread) : tstep :=
  match at_ t with
  | Outside =>
      match todo t with
      | [] => Blocked
      | k :: ks =>
          lift (job_of k) (fun j =>
            match match j with JEnc d => enc_space (bitsz c) (Z.of_nat (length d)) | JDec s => dec_space (bitsz c) (Z.of_nat (length s)) end with
            | Some sz => Next o (mkThread ks (AtLock j sz) (results t))
            | None => Fault SignedOverflow
            end)
      end
  | AtLock (JEnc d) sz =>
      if enc_locked o then Blocked
      else Next (mkObj (en_cache o) (encsz o) true (de_cache o) (decsz o) (dec_locked o)) (go t (AtCheck (JEnc d) sz))
  | AtLock (JDec s) sz =>
      if dec_locked o then Blocked
      else Next (mkObj (en_cache o) (encsz o) (enc_locked o) (de_cache o) (decsz o) true) (go t (AtCheck (JDec s) sz))
  | AtCheck (JEnc d) sz =>
      if (encsz o <=? sz)%Z then
        if mem_ok then Next (mkObj (repeat 0%N (Z.to_nat (sz + 1))) sz (enc_locked o) (de_cache o) (decsz o) (dec_locked o)) (go t (AtCall (JEnc d)))
        else Next o (done t Threw)
      else Next o (go t (AtCall (JEnc d)))
  | AtCheck (JDec s) sz =>
      if (decsz o <=? sz)%Z then
        if mem_ok then Next (mkObj (en_cache o) (encsz o) (enc_locked o) (repeat 0%N (Z.to_nat sz)) sz (dec_locked o)) (go t (AtCall (JDec s)))
        else Next o (done t Threw)
      else Next o (go t (AtCall (JDec s)))
  | AtCall (JEnc d) =>
      lift (encode_f c st d (en_cache o)) (fun '(n, e) =>
        Next (mkObj e (encsz o) (enc_locked o) (de_cache o) (decsz o) (dec_locked o)) (go t (AtTerminator (JEnc d) n)))
  | AtCall (JDec s) =>
      lift (decode_f c s (de_cache o)) (fun '(n, e) =>
        Next (mkObj (en_cache o) (encsz o) (enc_locked o) e (decsz o) (dec_locked o)) (go t (AtTerminator (JDec s) n)))
  | AtTerminator (JEnc d) n =>
      lift (wr (en_cache o) n 0%N) (fun e =>
        Next (mkObj e (encsz o) (enc_locked o) (de_cache o) (decsz o) (dec_locked o)) (go t (AtCopy (JEnc d) n)))
  | AtTerminator (JDec s) n =>
      lift (wr (de_cache o) n 0%N) (fun e =>
        Next (mkObj (en_cache o) (encsz o) (enc_locked o) e (decsz o) (dec_locked o)) (go t (AtCopy (JDec s) n)))
  | AtCopy (JEnc d) n =>      (* std::string str(p): up to the NUL *)
      if mem_ok then lift (c_string (en_cache o)) (fun s => Next o (go t (AtUnlock (JEnc d) s)))
      else Next o (done t Threw)
  | AtCopy (JDec x) n =>      (* SequentialData sd(p, sz): sz bytes *)
      if mem_ok then
        if Nat.leb n (length (de_cache o)) then Next o (go t (AtUnlock (JDec x) (firstn n (de_cache o)))) else Fault OutOfBounds
      else Next o (done t Threw)
  | AtUnlock (JEnc _) s =>
      Next (mkObj (en_cache o) (encsz o) false (de_cache o) (decsz o) (dec_locked o)) (done t (Value s))
  | AtUnlock (JDec _) s =>
      Next (mkObj (en_cache o) (encsz o) (enc_locked o) (de_cache o) (decsz o) false) (done t (Value s))
  end.

(** A schedule: which thread runs next, and what the environment does in that step. *)
Record choice := mkChoice { who : nat; mem_ok : bool; stk : stack }.
Definition state := (object * list thread)%type.
Definition step (c : base_class) (s : state) (ch : choice) : outcome state :=
  let '(o, ts) := s in
  match nth_error ts (who ch) with
  | None => Ret s
  | Some t =>
      match step_thread c (mem_ok ch) (stk ch) o t with
      | Blocked => Ret s
      | Next o t => Ret (o, firstn (who ch) ts ++ t :: skipn (S (who ch)) ts)
      | Fault w => UB w
      end
  end.
Fixpoint run (c : base_class) (s : state) (sched : list choice) : outcome state :=
  match sched with [] => Ret s | ch :: r => s <- step c s ch ;; run c s r end.
(** the threads before their first call *)
Definition start (work : list (list call)) : state := (new_object, map (fun ks => mkThread ks Outside []) work).
