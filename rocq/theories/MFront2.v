(** Model of pgfe_*_encode_f (src/hashes/templates.h) one fread at a time, for streams on which reads can fail. *)
From Verif Require Import Base MSha MFront.
Local Open Scope N_scope.

(** A stream, as this code can observe it: what the successive calls fread(buf, 1, 1024, fp) deliver. A result shorter
    than 1024 bytes means end of file or a read error (the code asks neither feof nor ferror); after the listed
    results nothing more comes. *)
Definition stream := list (list N).
Definition fread_ok (s : stream) : Prop := Forall (fun r => (length r <= 1024)%nat) s.

(** templates.h 37-40, 91-94: do { size = fread(...); update } while (size >= 1024). Returns also what is left of the stream. *)
Fixpoint read_loop (I : hash_impl) (c : ictx I) (s : stream) : outcome (ictx I * stream) :=
  match s with
  | [] => c <- iupdate I c [] ;; Ret (c, [])
  | r :: s => c <- iupdate I c r ;; if Nat.leb 1024 (length r) then read_loop I c s else Ret (c, s)
  end.
(** templates.h 29-43, 83-97 [pgfe_*_encode_f] on a stream; [g]: contents of the uninitialised local context *)
Definition encode_stream (I : hash_impl) (g : ictx I) (s : stream) (out : list N) : outcome (list N * stream) :=
  '(c, s) <- read_loop I (iinit I g) s ;;
  '(_, out) <- idigest I c out ;;
  Ret (out, s).
