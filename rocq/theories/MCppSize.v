(** Model of the cache sizes computed in src/base_encoding/abstract_base_encoding.cpp 24 and 54-55, in
    IEEE 754 binary64 arithmetic (Flocq's executable BinarySingleNaN operations, rounding to nearest even). *)
From Coq Require Import ZArith NArith.
From Flocq Require Import Core IEEE754.BinarySingleNaN.

Notation binary64 := (binary_float 53 1024).
Definition b64_gt : Prec_gt_0 53 := eq_refl.
Definition b64_lt : Prec_lt_emax 53 1024 := eq_refl.
(** conversion of a size_t (or of a small integer) to double *)
Definition of_int (z : Z) : binary64 := binary_normalize 53 1024 b64_gt b64_lt mode_NE z 0 false.
Definition dmul (x y : binary64) : binary64 := @Bmult 53 1024 b64_gt b64_lt mode_NE x y.
Definition ddiv (x y : binary64) : binary64 := @Bdiv 53 1024 b64_gt b64_lt mode_NE x y.
(** (size_t)ceil(x) for a finite double; an infinity or NaN has no conversion *)
Definition ceil_size (x : binary64) : option Z :=
  match x with
  | B754_zero _ => Some 0%Z
  | B754_finite s m e _ =>
      let v := cond_Zopp s (Zpos m) in
      Some (if Z.leb 0 e then v * 2 ^ e else - ((- v) / 2 ^ (- e)))%Z
  | _ => None
  end.
(** abstract_base_encoding.cpp 14 PGFE_SPACE_MULTIPLE: the literal 1.2, the double nearest to 12/10 *)
Definition SPACE_MULTIPLE : binary64 := ddiv (of_int 12) (of_int 10).

(** abstract_base_encoding.cpp 24: sz of encode, for a data length and the object's bitsz.
    to_bit(sizeof(pgfe_encode_t)) is 8. [None]: the conversion to size_t is undefined. *)
Definition enc_space (bitsz : Z) (len : Z) : option Z :=
  ceil_size (dmul (dmul (of_int len) (ddiv (of_int 8) (of_int bitsz))) SPACE_MULTIPLE).
(** abstract_base_encoding.cpp 54-55: sz of decode, for a text length *)
Definition dec_space (bitsz : Z) (len : Z) : option Z :=
  ceil_size (dmul (dmul (of_int len) (ddiv (of_int bitsz) (of_int 8))) SPACE_MULTIPLE).
