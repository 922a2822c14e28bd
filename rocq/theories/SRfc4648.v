(** RFC 4648 specification, written from the RFC; independent of the model. *)
From Coq Require Import String.
From Verif Require Import Base.

(** bits of a byte, most significant first *)
Definition byte_bits (b : N) : list bool := map (fun i => N.testbit b (N.of_nat i)) [7;6;5;4;3;2;1;0].
(** value of a bit string, most significant first *)
Definition bits_value (bs : list bool) : N :=
  fold_left (fun a (b : bool) => (2 * a + (if b then 1 else 0))%N) bs 0%N.

(** cut a bit string in groups of [w] bits, filling the last group with zero bits *)
Fixpoint groups (fuel w : nat) (bs : list bool) : list (list bool) :=
  match bs, fuel with
  | [], _ => []
  | _, O => []
  | _, S fuel => (firstn w bs ++ repeat false (w - length bs)) :: groups fuel w (skipn w bs)
  end.
Definition bit_groups (w : nat) (x : list N) : list (list bool) :=
  let bs := flat_map byte_bits x in groups (length bs) w bs.

(** An RFC 4648 encoding: bits per symbol, symbols per quantum, bytes per quantum, alphabet. *)
Record rfc_coding := mkCoding { width : nat; quantum : nat; octets : nat; symbols : list N }.

Definition pad_symbol : N := 61. (* '=' *)
(** the data symbols of the encoding of [x] *)
Definition rfc_data (c : rfc_coding) (x : list N) : list N :=
  map (fun g => nth (N.to_nat (bits_value g)) (symbols c) 0%N) (bit_groups (width c) x).
(** the padding: as many '=' as needed to fill the final quantum *)
Definition rfc_padding (c : rfc_coding) (x : list N) : list N :=
  let n := length (rfc_data c x) in
  repeat pad_symbol ((quantum c - n mod quantum c) mod quantum c).
Definition rfc_encode (c : rfc_coding) (x : list N) : list N := rfc_data c x ++ rfc_padding c x.

(** RFC 4648 tables 1-5 *)
Definition Base64 := mkCoding 6 4 3 (chars "ABCDEFGHIJKLMNOPQRSTUVWXYZabcdefghijklmnopqrstuvwxyz0123456789+/").
Definition Base64url := mkCoding 6 4 3 (chars "ABCDEFGHIJKLMNOPQRSTUVWXYZabcdefghijklmnopqrstuvwxyz0123456789-_").
Definition Base32 := mkCoding 5 8 5 (chars "ABCDEFGHIJKLMNOPQRSTUVWXYZ234567").
Definition Base32hex := mkCoding 5 8 5 (chars "0123456789ABCDEFGHIJKLMNOPQRSTUV").
Definition Base16 := mkCoding 4 2 1 (chars "0123456789ABCDEF").

(** the symbol of value zero *)
Definition zero_symbol (c : rfc_coding) : N := nth 0 (symbols c) 0%N.
(** the number of bytes in front of the final (possibly partial) quantum *)
Definition before_last (c : rfc_coding) (x : list N) : nat := octets c * ((length x - 1) / octets c).

(** RFC 4648 section 10 test vectors (sanity of the specification) *)
Example rfc_vectors :
  rfc_encode Base64 (chars "foobar") = chars "Zm9vYmFy" /\
  rfc_encode Base64 (chars "fooba") = chars "Zm9vYmE=" /\
  rfc_encode Base64 (chars "foob") = chars "Zm9vYg==" /\
  rfc_encode Base32 (chars "foobar") = chars "MZXW6YTBOI======" /\
  rfc_encode Base32 (chars "fooba") = chars "MZXW6YTB" /\
  rfc_encode Base32 (chars "fo") = chars "MZXQ====" /\
  rfc_encode Base32hex (chars "foob") = chars "CPNMUOG=" /\
  rfc_encode Base16 (chars "foobar") = chars "666F6F626172" /\
  rfc_encode Base64 [] = [].
Proof. repeat split; vm_compute; reflexivity. Qed.

(** What libpgfe produces instead of the RFC text when the input ends in a partial quantum:
    trailing zero symbols of the final quantum are overwritten by '='. *)
Fixpoint strip_zero_rev (z : N) (rev_s : list N) : list N :=
  match rev_s with
  | [] => []
  | c :: r => if (c =? z)%N then pad_symbol :: strip_zero_rev z r else c :: r
  end.
Definition blank_trailing (z : N) (s : list N) : list N := rev (strip_zero_rev z (rev s)).
Definition lib_text (c : rfc_coding) (x : list N) : list N :=
  let k := octets c * (length x / octets c) in
  let full := firstn k x in
  let part := skipn k x in
  rfc_data c full ++
  match part with
  | [] => []
  | _ => blank_trailing (zero_symbol c) (rfc_data c part) ++ rfc_padding c part
  end.
