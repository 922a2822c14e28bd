(** What the C++ base encoding objects must do, in terms of the C functions. *)
From Verif Require Import Base MBase SRfc4648 PropBase MCppBase.

Definition api_of (c : base_class) : api :=
  match c with CBase16 => B16 | CBase32 false => B32 | CBase32 true => B32hex | CBase64 false => B64 | CBase64 true => B64url end.
(** [s] is the text the C encoder produces from [x], whatever large enough buffer and stack it is given *)
Definition c_encodes (a : api) (x s : list N) : Prop :=
  forall st out, slack a st -> length s < length out -> exists tl, encode a st x out = Ret (length s, s ++ 0%N :: tl).
(** [s] are the bytes the C decoder produces from the text [t], whatever large enough buffer it is given *)
Definition c_decodes (a : api) (t s : list N) : Prop :=
  forall out, unit_space a (length t) + 1 <= length out -> exists tl, decode a t out = Ret (length s, s ++ 0%N :: tl).
(** the value a call must return. Decoding uses a std::string only up to its first NUL; encoding uses all of it. *)
Definition call_value (c : base_class) (k : call) (s : list N) : Prop :=
  match k with
  | Encode d | EncodeStr d | EncodeSD d => c_encodes (api_of c) d s
  | EncodeCstr m => c_encodes (api_of c) (upto_nul m) s
  | DecodeCstr m | DecodeStr m => c_decodes (api_of c) (upto_nul m) s
  end.
(** sound arguments: bytes, terminated strings, non-empty text to decode (C12), lengths below 2^62 *)
Definition call_ok (k : call) : Prop :=
  match k with
  | Encode d | EncodeStr d | EncodeSD d => bytes_ok d /\ (Z.of_nat (length d) < 2 ^ 62)%Z
  | EncodeCstr m => In 0%N m /\ bytes_ok m /\ (Z.of_nat (length m) < 2 ^ 62)%Z
  | DecodeCstr m => In 0%N m /\ upto_nul m <> [] /\ (Z.of_nat (length m) < 2 ^ 62)%Z
  | DecodeStr m => upto_nul m <> [] /\ (Z.of_nat (length m) < 2 ^ 62)%Z
  end.
(** inside the critical section of encode / decode *)
Definition job_at (p : place) : option job :=
  match p with
  | AtCheck j _ | AtCall j | AtTerminator j _ | AtCopy j _ | AtUnlock j _ => Some j
  | _ => None
  end.
Definition encoding (t : thread) : Prop := exists d, job_at (at_ t) = Some (JEnc d).
Definition decoding (t : thread) : Prop := exists s, job_at (at_ t) = Some (JDec s).
(** every thread has made all its calls *)
Definition finished (ts : list thread) : Prop := Forall (fun t => todo t = [] /\ at_ t = Outside) ts.
(** the two halves of the object, each with its own mutex *)
Inductive side := Enc | Dec.
Definition locked (sd : side) (o : object) : bool := match sd with Enc => enc_locked o | Dec => dec_locked o end.
Definition inside (sd : side) (t : thread) : Prop := match sd with Enc => encoding t | Dec => decoding t end.
Definition uses (sd : side) (k : call) : Prop :=
  match sd, k with
  | Enc, (Encode _ | EncodeCstr _ | EncodeStr _ | EncodeSD _) | Dec, (DecodeCstr _ | DecodeStr _) => True
  | _, _ => False
  end.
(** a mutex is held although no thread is inside the section it protects *)
Definition leaked (sd : side) (s : state) : Prop :=
  locked sd (fst s) = true /\ forall i t, nth_error (snd s) i = Some t -> ~ inside sd t.
