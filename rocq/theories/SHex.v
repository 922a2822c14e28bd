(** Specification of hexadecimal text, independent of the model. *)
From Coq Require Import String.
From Verif Require Import Base.
Local Open Scope N_scope.

Definition lower_digits : list N := chars "0123456789abcdef".
Definition upper_digits : list N := chars "0123456789ABCDEF".

(** position of a character in a digit table *)
Fixpoint index_of (c : N) (l : list N) : option N :=
  match l with
  | [] => None
  | d :: r => if c =? d then Some 0 else option_map N.succ (index_of c r)
  end.
(** the value of a hexadecimal digit, either letter case *)
Definition digit_value (c : N) : option N :=
  match index_of c lower_digits with
  | Some v => Some v
  | None => index_of c upper_digits
  end.
Definition is_hex_digit (c : N) : bool :=
  match digit_value c with Some _ => true | None => false end.

(** lower-case hexadecimal text of a byte sequence: two digits per byte, high nibble first *)
Definition hex_text (x : list N) : list N :=
  flat_map (fun b => [nth (N.to_nat (b / 16)) lower_digits 0; nth (N.to_nat (b mod 16)) lower_digits 0]) x.

(** the number denoted by a digit string *)
Definition dval (c : N) : N := match digit_value c with Some v => v | None => 0 end.
Definition text_value (s : list N) : N := fold_left (fun a c => 16 * a + dval c) s 0.
(** the number denoted by big-endian bytes *)
Definition be_value (l : list N) : N := fold_left (fun a b => 256 * a + b) l 0.

(** ASCII upper-casing *)
Definition upcase (c : N) : N := if (97 <=? c) && (c <=? 122) then c - 32 else c.

(** "0x"-style prefix: the second character is x or X *)
Definition drop_prefix (s : list N) : list N :=
  match s with
  | _ :: c :: r => if (c =? 120) || (c =? 88) then r else s
  | _ => s
  end.
(** what a cleaned string must be *)
Definition cleaned (s : list N) : list N := filter is_hex_digit (drop_prefix s).

(** optional affixes around a pure digit string *)
Definition affixed (pre suf : bool) (p x h : N) (s : list N) : list N :=
  (if pre then [p; x] else []) ++ s ++ (if suf then [h] else []).
(** a text equal to [t] up to upper-casing some characters *)
Definition same_upto_case (t t' : list N) : Prop := Forall2 (fun c c' => c' = c \/ c' = upcase c) t t'.
