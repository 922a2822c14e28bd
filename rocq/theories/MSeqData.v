(** Model of class SequentialData (include/libpgfe/sequential_data.hpp, src/core/sequential_data.cpp), of the calls
    that hand one over with its length (abstract_encoder.hpp, hmac_encoder.cpp, abstract_otp.cpp), of utils.cpp, and of the
    names and sizes of generic.hpp and generic.cpp. Definitions only. *)
From Coq Require Import String.
From Verif Require Import Base MUtils MFront MHmac MKeccak MHashEnc MCppBase MOtpObj.
Local Open Scope N_scope.

(** ** std::basic_string<pgfe_encode_t> (C++ standard library) *)
(** The contents: any bytes, fewer than 2^63. c_str() points to them followed by one zero. *)
Definition npos : N := 2 ^ 64 - 1.
Definition c_str (s : list N) : list N := s ++ [0].
(** find_first_not_of(p): [set] is the NUL-terminated sequence at p *)
Fixpoint first_not_of (s set : list N) (i : N) : N :=
  match s with [] => npos | c :: s => if existsb (N.eqb c) set then first_not_of s set (i + 1) else i end.
Definition find_first_not_of (s mem : list N) : N := first_not_of s (upto_nul mem) 0.
(** find_last_not_of(p) *)
Fixpoint last_not_of (s set : list N) (i : N) (found : N) : N :=
  match s with [] => found | c :: s => last_not_of s set (i + 1) (if existsb (N.eqb c) set then found else i) end.
Definition find_last_not_of (s mem : list N) : N := last_not_of s (upto_nul mem) 0 npos.
(** erase(pos, n); [None]: std::out_of_range is thrown *)
Definition erase (s : list N) (pos n : N) : option (list N) :=
  if N.of_nat (length s) <? pos then None
  else Some (firstn (N.to_nat pos) s ++ skipn (N.to_nat (N.min n (N.of_nat (length s) - pos))) (skipn (N.to_nat pos) s)).

(** ** SequentialData: an object is its contents; ws is the same in all of them *)
(** sequential_data.hpp 29 *)
Definition ws : list N := [0].
(** sequential_data.cpp 17-22: copies (the "move" constructor copies, too) *)
Definition sd_copy (s : list N) : list N := s.
(** sequential_data.cpp 24; [mem]: what is at the pointer *)
Definition sd_new (mem : list N) (size : N) : outcome (list N) := grab (N.to_nat size) mem.
(** sequential_data.cpp 26 *)
Definition sd_cstr (mem : list N) : outcome (list N) := s <- c_string mem ;; sd_new mem (N.of_nat (length s)).
(** sequential_data.cpp 28-29 *)
Definition sd_str (s : list N) : outcome (list N) := sd_new (c_str s) (N.of_nat (length s)).
(** sequential_data.cpp 31-33; operator<< (sequential_data.hpp 54-57) prints this *)
Definition to_str (s : list N) (auto_hex : bool) : outcome (list N) := grab (length s) (c_str s).
(** sequential_data.cpp 35-41; [garbage]: the uninitialised array hex_str; the size computation does not wrap for
    strings shorter than 2^63 *)
Definition hex_str (s garbage : list N) : outcome (list N) :=
  '(_, h) <- to_hex s (firstn (length s * 2 + 1) garbage) ;; c_string h.
(** sequential_data.cpp 47-50: the pointer and the length stored *)
Definition to_pgfe_seq (s : list N) : list N * N := (c_str s, N.of_nat (length s)).
(** sequential_data.cpp 75-77, 79-81, 70-73. The additions are of size_t. *)
Definition trim_left_ (s : list N) : option (list N) := erase s 0 (find_first_not_of s ws).
Definition trim_right_ (s : list N) : option (list N) := erase s (u64 (find_last_not_of s ws + 1)) (N.of_nat (length s)).
Definition trim_ (s : list N) : option (list N) := match trim_left_ s with Some s => trim_right_ s | None => None end.
(** sequential_data.cpp 52-68: the same on a copy *)
Definition trim (s : list N) : option (list N) := trim_ (sd_copy s).
Definition trim_left (s : list N) : option (list N) := trim_left_ (sd_copy s).
Definition trim_right (s : list N) : option (list N) := trim_right_ (sd_copy s).
(** utils.cpp 17-19, 21-23, 25-27 (allocation failure aside) *)
Definition to_sequential_data (mem : list N) (size : N) : outcome (list N) := sd_new mem size.
Definition to_sequential_data_cstr (mem : list N) : outcome (list N) := sd_cstr mem.
Definition to_sequential_data_str (s : list N) : outcome (list N) := sd_str s.
(** utils.cpp 29-37 with the array h_out of the size it declares; [garbage]: its contents. MUtils.from_hex_string is the body. *)
Definition from_hex_cstr (mem garbage : list N) : outcome (list N) :=
  s <- c_string mem ;;
  from_hex_string s (skipn (length s + 1) mem) (firstn (length s / 2 + length s mod 2 + 1) garbage).
(** utils.cpp 39-41 *)
Definition from_hex_str (s garbage : list N) : outcome (list N) := from_hex_cstr (c_str s) garbage.

(** ** f(sd.to_pgfe_seq(sz), sz) with size_t sz uninitialised *)
(** The order in which the two arguments are evaluated is unspecified. *)
Inductive arg_order := LeftToRight | RightToLeft.
(** what f gets to read: [sz0] is what the variable sz holds before (None: reading it is undefined) *)
Definition pass_sd (order : arg_order) (sz0 : option N) (sd : list N) : outcome (list N) :=
  match order with
  | LeftToRight => let '(mem, n) := to_pgfe_seq sd in grab (N.to_nat n) mem
  | RightToLeft => match sz0 with None => UB Indeterminate | Some n => grab (N.to_nat n) (c_str sd) end
  end.
(** hmac_encoder.cpp 75-78, and the constructor 53-56 *)
Definition enc_set_key_sd (order : arg_order) (sz0 : option N) (o : option hash_impl) (e : encoder o) (sd : list N) : outcome (encoder o) :=
  k <- pass_sd order sz0 sd ;; enc_set_key o e k.
(** abstract_encoder.hpp 36-39, reached from hmac_encoder.cpp 93-95 *)
Definition enc_update_sd (order : arg_order) (sz0 : option N) (o : option hash_impl) (e : encoder o) (sd : list N) : outcome (encoder o) :=
  d <- pass_sd order sz0 sd ;; enc_update o e d.
(** abstract_encoder.hpp 36-39, reached from hash_encoder.cpp 96-98 *)
Definition he_feed_sd (order : arg_order) (sz0 : option N) (garbage : option N) (h : heap) (e : henc) (sd : list N) : outcome heap :=
  d <- pass_sd order sz0 sd ;; he_feed garbage h e d.
(** abstract_otp.cpp 22-25 *)
Definition otp_set_secret_sd (order : arg_order) (sz0 : option N) (h : hotp_obj) (sd : list N) : outcome hotp_obj :=
  k <- pass_sd order sz0 sd ;; Ret (set_secret h k).

(** ** Names (generic.hpp 23-56) *)
Definition option_map_table : list (list N * alg_choice) :=
  [(chars "sha1", A_SHA1); (chars "SHA1", A_SHA1);
   (chars "sha224", A_SHA224); (chars "SHA224", A_SHA224);
   (chars "sha256", A_SHA256); (chars "SHA256", A_SHA256);
   (chars "sha384", A_SHA384); (chars "SHA384", A_SHA384);
   (chars "sha512", A_SHA512); (chars "SHA512", A_SHA512);
   (chars "sha512_224", A_SHA512_224); (chars "SHA512_224", A_SHA512_224);
   (chars "sha512_256", A_SHA512_256); (chars "SHA512_256", A_SHA512_256);
   (chars "sha3_224", A_SHA3_224); (chars "SHA3_224", A_SHA3_224);
   (chars "sha3_256", A_SHA3_256); (chars "SHA3_256", A_SHA3_256);
   (chars "sha3_384", A_SHA3_384); (chars "SHA3_384", A_SHA3_384);
   (chars "sha3_512", A_SHA3_512); (chars "SHA3_512", A_SHA3_512);
   (chars "shake128", A_SHAKE128); (chars "SHAKE128", A_SHAKE128);
   (chars "rawshake128", A_RawSHAKE128); (chars "RawSHAKE128", A_RawSHAKE128);
   (chars "shake256", A_SHAKE256); (chars "SHAKE256", A_SHAKE256);
   (chars "rawshake256", A_RawSHAKE256); (chars "RawSHAKE256", A_RawSHAKE256);
   (chars "md5", A_MD5); (chars "MD5", A_MD5)].
Fixpoint same_bytes (x y : list N) : bool :=
  match x, y with [], [] => true | a :: x, b :: y => (a =? b) && same_bytes x y | _, _ => false end.
(** std::unordered_map built from a list: of two equal keys the first counts; at() throws std::out_of_range ([None])
    when there is none *)
Fixpoint map_at {K V} (eq : K -> K -> bool) (t : list (K * V)) (k : K) : option V :=
  match t with [] => None | (x, v) :: t => if eq x k then Some v else map_at eq t k end.
(** generic.cpp 22-24 *)
Definition algstr (s : list N) : option alg_choice := map_at same_bytes option_map_table s.
(** generic.cpp 17-20: the std::string ends before the first NUL *)
Definition algstr_cstr (mem : list N) : outcome (option alg_choice) := s <- c_string mem ;; Ret (algstr s).
(** generic.hpp 101-103: operator"" _pgfe_alg; a literal is stored with a terminating NUL. The size is not used. *)
Definition pgfe_alg_literal (lit : list N) (size : N) : outcome (option alg_choice) := algstr_cstr (lit ++ [0]).

(** ** Sizes (generic.hpp 58-75, 77-94): the maps, by the macros' values (hashes/md5.h 19-20, sha1.h 19-20, sha2.h 20-33, sha3.h 39-55) *)
Definition digest_length_table : list (alg_choice * N) :=
  [(A_SHA1, 20); (A_SHA224, 28); (A_SHA256, 32); (A_SHA384, 48); (A_SHA512, 64); (A_SHA512_224, 28); (A_SHA512_256, 32);
   (A_SHA3_224, 28); (A_SHA3_256, 32); (A_SHA3_384, 48); (A_SHA3_512, 64); (A_MD5, 16);
   (A_SHAKE128, 32); (A_RawSHAKE128, 32); (A_SHAKE256, 64); (A_RawSHAKE256, 64)].
Definition block_length_table : list (alg_choice * N) :=
  [(A_SHA1, 64); (A_SHA224, 64); (A_SHA256, 64); (A_SHA384, 128); (A_SHA512, 128); (A_SHA512_224, 128); (A_SHA512_256, 128);
   (A_SHA3_224, 144); (A_SHA3_256, 136); (A_SHA3_384, 104); (A_SHA3_512, 72); (A_MD5, 64);
   (A_SHAKE128, 168); (A_RawSHAKE128, 168); (A_SHAKE256, 136); (A_RawSHAKE256, 136)].
Definition same_alg (a b : alg_choice) : bool := alg_code a =? alg_code b.
Definition digest_length (a : alg_choice) : option N := map_at same_alg digest_length_table a.
Definition block_length (a : alg_choice) : option N := map_at same_alg block_length_table a.
