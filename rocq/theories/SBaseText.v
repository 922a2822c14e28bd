(** Specification side of C61-C63: what a base16/32/32hex/64/64url text means, for any text; independent of the model. *)
From Coq Require Import String.
From Verif Require Import Base SRfc4648 SHex.

(** the value of a character: its place in the alphabet. Both letter cases of base16/32/32hex, both alphabets of base64;
    '=' counts as zero in base32 and base64. [None]: not part of the alphabet, to be skipped. *)
Definition first_of {A} (x y : option A) : option A := match x with Some _ => x | None => y end.
Definition char_value (c : rfc_coding) (alternative : list N) (pads : bool) (ch : N) : option N :=
  first_of (index_of ch (symbols c)) (first_of (index_of ch alternative) (if (pads && (ch =? pad_symbol)%N)%bool then Some 0%N else None)).

(** the number written by digits of [w] bits, most significant first, and the [n] big-endian bytes of a number *)
Definition number (w : nat) (ds : list N) : N := fold_left (fun v d => (v * 2 ^ N.of_nat w + d)%N) ds 0%N.
Definition octets_of (n : nat) (v : N) : list N := map (fun j => (v / 256 ^ N.of_nat (n - 1 - j)) mod 256)%N (seq 0 n).

(** cut in pieces of n *)
Fixpoint pieces {A} (fuel n : nat) (l : list A) : list (list A) :=
  match l, fuel with
  | [], _ => []
  | _, O => []
  | _, S fuel => firstn n l :: pieces fuel n (skipn n l)
  end.
(** the bytes of one quantum of digits, a short one being completed with zero digits *)
Definition unit_of (c : rfc_coding) (ds : list N) : list N :=
  octets_of (octets c) (number (width c) (ds ++ repeat 0%N (quantum c - length ds))).
(** all units of a text: its digits in groups of [quantum]. Characters after the last complete group start another unit
    even if none of them is a digit. *)
Definition digits_in (val : N -> option N) (t : list N) : list N :=
  flat_map (fun ch => match val ch with Some d => [d] | None => [] end) t.
Definition text_units (c : rfc_coding) (val : N -> option N) (t : list N) : list (list N) :=
  let ds := digits_in val t in
  map (unit_of c) (pieces (length ds) (quantum c) ds) ++
  (if (Nat.eqb (length ds mod quantum c) 0 && match val (last t 0%N) with Some _ => false | None => true end)%bool then [unit_of c []] else []).
(** the decoded bytes: everything, the last unit ending before its first zero byte *)
Definition text_bytes (c : rfc_coding) (val : N -> option N) (t : list N) : list N :=
  let us := text_units c val t in concat (removelast us) ++ upto_nul (last us []).

(** data filled up with zero bytes to whole units *)
Definition filled (c : rfc_coding) (x : list N) : list N :=
  x ++ repeat 0%N ((octets c - length x mod octets c) mod octets c).
