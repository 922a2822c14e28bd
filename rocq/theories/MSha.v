(** Model of src/hashes/templates.h (SHA_INIT, SHA_UPDATE, SHA_DIGEST), sha1.c, sha2-backend.{h,c},
    sha224.c, sha256.c, sha384.c, sha512.c. Definitions only. *)
From Verif Require Import Base.
Local Open Scope N_scope.

(** generic-internal.h 32-34: circular shifts of a [w]-bit unsigned value (left operand truncated by
    the type; [to_bit(sizeof n)] = w) *)
Definition trunc (w x : N) : N := N.land x (N.ones w).
Definition clshift (w n c : N) : N := N.lor (trunc w (N.shiftl n c)) (N.shiftr n (w - c)).
Definition crshift (w n c : N) : N := N.lor (N.shiftr n c) (trunc w (N.shiftl n (w - c))).
(** bitwise complement of a [w]-bit unsigned value *)
Definition bnot (w x : N) : N := N.lxor x (2 ^ w - 1).

(** sha-internal.h 19-20 *)
Definition sha_ch (x y z : N) : N := N.lxor (N.land x (N.lxor y z)) z.
Definition sha_maj (x y z : N) : N := N.lor (N.land x (N.lor y z)) (N.land y z).

(** sha2-backend.h 21-29 *)
Definition sha256_SIGMA0 (x : N) := N.lxor (N.lxor (crshift 32 x 2) (crshift 32 x 13)) (crshift 32 x 22).
Definition sha256_SIGMA1 (x : N) := N.lxor (N.lxor (crshift 32 x 6) (crshift 32 x 11)) (crshift 32 x 25).
Definition sha256_sigma0 (x : N) := N.lxor (N.lxor (crshift 32 x 7) (crshift 32 x 18)) (N.shiftr x 3).
Definition sha256_sigma1 (x : N) := N.lxor (N.lxor (crshift 32 x 17) (crshift 32 x 19)) (N.shiftr x 10).
Definition sha512_SIGMA0 (x : N) := N.lxor (N.lxor (crshift 64 x 28) (crshift 64 x 34)) (crshift 64 x 39).
Definition sha512_SIGMA1 (x : N) := N.lxor (N.lxor (crshift 64 x 14) (crshift 64 x 18)) (crshift 64 x 41).
Definition sha512_sigma0 (x : N) := N.lxor (N.lxor (crshift 64 x 1) (crshift 64 x 8)) (N.shiftr x 7).
Definition sha512_sigma1 (x : N) := N.lxor (N.lxor (crshift 64 x 19) (crshift 64 x 61)) (N.shiftr x 6).

(** struct pgfe_sha1_ctx (sha1.h 23-29), pgfe_sha256_ctx, pgfe_sha512_ctx (sha2.h 43-57) *)
Record sha_ctx := mkSha { state : list N; len_low : N; len_high : N; index : nat; block : list N }.

(** Message word i of a block: big-endian load of 4 bytes (sha1.c 28-33, sha2-backend.c 32-37; the
    indices are constants below the block size) or 8 bytes (sha2-backend.c 144-150). *)
Definition load32 (b : list N) (i : nat) : N :=
  N.lor (N.lor (N.lor (trunc 32 (N.shiftl (nth (4 * i) b 0) 24)) (trunc 32 (N.shiftl (nth (4 * i + 1) b 0) 16)))
        (trunc 32 (N.shiftl (nth (4 * i + 2) b 0) 8))) (nth (4 * i + 3) b 0).
Definition load64 (b : list N) (i : nat) : N :=
  fold_left (fun a j => N.lor a (trunc 64 (N.shiftl (nth (8 * i + j) b 0) (56 - 8 * N.of_nat j)))) (seq 0 8) 0.

(** sha1.c 35-37: ws[i] for 16 <= i < 80; ws[] is kept as the list of the cells written so far *)
Definition sha1_expand (ws : list N) (i : nat) : list N :=
  ws ++ [clshift 32 (N.lxor (N.lxor (N.lxor (nth (i - 3) ws 0) (nth (i - 8) ws 0)) (nth (i - 14) ws 0)) (nth (i - 16) ws 0)) 1].
(** sha1.c 45-79: one iteration of one of the four round loops; [f] and [k] are the loop's function and constant.
    Unsigned additions wrap; the sum is truncated once. *)
Definition sha1_step (f : N -> N -> N -> N) (k : N) (ws : list N) (v : list N) (i : nat) : list N :=
  match v with
  | [A; B; C; D; E] =>
      let tmp := trunc 32 (clshift 32 A 5 + f B C D + E + nth i ws 0 + k) in
      [tmp; A; clshift 32 B 30; C; D]
  | _ => v
  end.
(** sha1.c 23 *)
Definition sha1_k : list N := [0x5A827999; 0x6ED9EBA1; 0x8F1BBCDC; 0xCA62C1D6].
(** sha1.c 46, 55, 64, 73 *)
Definition sha1_f0 (B C D : N) := N.lor (N.land B C) (N.land (bnot 32 B) D).
Definition sha1_f1 (B C D : N) := N.lxor (N.lxor B C) D.
Definition sha1_f2 (B C D : N) := N.lor (N.lor (N.land B C) (N.land B D)) (N.land C D).
(** adding the working variables to the state (sha1.c 81-85, sha2-backend.c 65-72, 180-187) *)
Definition add_back (w : N) (s v : list N) : list N := map (fun p => trunc w (fst p + snd p)) (combine s v).
(** sha1.c 21-88 [sha1_process_block], effect on the state *)
Definition sha1_process (s b : list N) : list N :=
  let ws := fold_left sha1_expand (seq 16 64) (map (load32 b) (seq 0 16)) in
  let v := fold_left (sha1_step sha1_f0 (nth 0 sha1_k 0) ws) (seq 0 20) s in
  let v := fold_left (sha1_step sha1_f1 (nth 1 sha1_k 0) ws) (seq 20 20) v in
  let v := fold_left (sha1_step sha1_f2 (nth 2 sha1_k 0) ws) (seq 40 20) v in
  let v := fold_left (sha1_step sha1_f1 (nth 3 sha1_k 0) ws) (seq 60 20) v in
  add_back 32 s v.

(** sha2-backend.c 18-27 *)
Definition sha256_K : list N :=
  [0x428a2f98; 0x71374491; 0xb5c0fbcf; 0xe9b5dba5; 0x3956c25b; 0x59f111f1; 0x923f82a4; 0xab1c5ed5;
   0xd807aa98; 0x12835b01; 0x243185be; 0x550c7dc3; 0x72be5d74; 0x80deb1fe; 0x9bdc06a7; 0xc19bf174;
   0xe49b69c1; 0xefbe4786; 0x0fc19dc6; 0x240ca1cc; 0x2de92c6f; 0x4a7484aa; 0x5cb0a9dc; 0x76f988da;
   0x983e5152; 0xa831c66d; 0xb00327c8; 0xbf597fc7; 0xc6e00bf3; 0xd5a79147; 0x06ca6351; 0x14292967;
   0x27b70a85; 0x2e1b2138; 0x4d2c6dfc; 0x53380d13; 0x650a7354; 0x766a0abb; 0x81c2c92e; 0x92722c85;
   0xa2bfe8a1; 0xa81a664b; 0xc24b8b70; 0xc76c51a3; 0xd192e819; 0xd6990624; 0xf40e3585; 0x106aa070;
   0x19a4c116; 0x1e376c08; 0x2748774c; 0x34b0bcb5; 0x391c0cb3; 0x4ed8aa4a; 0x5b9cca4f; 0x682e6ff3;
   0x748f82ee; 0x78a5636f; 0x84c87814; 0x8cc70208; 0x90befffa; 0xa4506ceb; 0xbef9a3f7; 0xc67178f2].
(** sha2-backend.c 120-139: 32-bit halves, low half first *)
Definition sha512_K32 : list N :=
  [0xD728AE22; 0x428A2F98; 0x23EF65CD; 0x71374491; 0xEC4D3B2F; 0xB5C0FBCF; 0x8189DBBC; 0xE9B5DBA5;
   0xF348B538; 0x3956C25B; 0xB605D019; 0x59F111F1; 0xAF194F9B; 0x923F82A4; 0xDA6D8118; 0xAB1C5ED5;
   0xA3030242; 0xD807AA98; 0x45706FBE; 0x12835B01; 0x4EE4B28C; 0x243185BE; 0xD5FFB4E2; 0x550C7DC3;
   0xF27B896F; 0x72BE5D74; 0x3B1696B1; 0x80DEB1FE; 0x25C71235; 0x9BDC06A7; 0xCF692694; 0xC19BF174;
   0x9EF14AD2; 0xE49B69C1; 0x384F25E3; 0xEFBE4786; 0x8B8CD5B5; 0x0FC19DC6; 0x77AC9C65; 0x240CA1CC;
   0x592B0275; 0x2DE92C6F; 0x6EA6E483; 0x4A7484AA; 0xBD41FBD4; 0x5CB0A9DC; 0x831153B5; 0x76F988DA;
   0xEE66DFAB; 0x983E5152; 0x2DB43210; 0xA831C66D; 0x98FB213F; 0xB00327C8; 0xBEEF0EE4; 0xBF597FC7;
   0x3DA88FC2; 0xC6E00BF3; 0x930AA725; 0xD5A79147; 0xE003826F; 0x06CA6351; 0x0A0E6E70; 0x14292967;
   0x46D22FFC; 0x27B70A85; 0x5C26C926; 0x2E1B2138; 0x5AC42AED; 0x4D2C6DFC; 0x9D95B3DF; 0x53380D13;
   0x8BAF63DE; 0x650A7354; 0x3C77B2A8; 0x766A0ABB; 0x47EDAEE6; 0x81C2C92E; 0x1482353B; 0x92722C85;
   0x4CF10364; 0xA2BFE8A1; 0xBC423001; 0xA81A664B; 0xD0F89791; 0xC24B8B70; 0x0654BE30; 0xC76C51A3;
   0xD6EF5218; 0xD192E819; 0x5565A910; 0xD6990624; 0x5771202A; 0xF40E3585; 0x32BBD1B8; 0x106AA070;
   0xB8D2D0C8; 0x19A4C116; 0x5141AB53; 0x1E376C08; 0xDF8EEB99; 0x2748774C; 0xE19B48A8; 0x34B0BCB5;
   0xC5C95A63; 0x391C0CB3; 0xE3418ACB; 0x4ED8AA4A; 0x7763E373; 0x5B9CCA4F; 0xD6B2B8A3; 0x682E6FF3;
   0x5DEFB2FC; 0x748F82EE; 0x43172F60; 0x78A5636F; 0xA1F0AB72; 0x84C87814; 0x1A6439EC; 0x8CC70208;
   0x23631E28; 0x90BEFFFA; 0xDE82BDE9; 0xA4506CEB; 0xB2C67915; 0xBEF9A3F7; 0xE372532B; 0xC67178F2;
   0xEA26619C; 0xCA273ECE; 0x21C0C207; 0xD186B8C7; 0xCDE0EB1E; 0xEADA7DD6; 0xEE6ED178; 0xF57D4F7F;
   0x72176FBA; 0x06F067AA; 0xA2C898A6; 0x0A637DC5; 0xBEF90DAE; 0x113F9804; 0x131C471B; 0x1B710B35;
   0x23047D84; 0x28DB77F5; 0x40C72493; 0x32CAAB7B; 0x15C9BEBC; 0x3C9EBE0A; 0x9C100D4C; 0x431D67C4;
   0xCB3E42B6; 0x4CC5D4BE; 0xFC657E2A; 0x597F299C; 0x3AD6FAEC; 0x5FCB6FAB; 0x4A475817; 0x6C44198C].
(** [memcpy] of two consecutive 32-bit halves to a 64-bit word on a little-endian machine
    (sha2-backend.c 166; sha384.c 28, sha512.c 35) *)
Fixpoint pair_words (l : list N) : list N :=
  match l with lo :: hi :: r => (lo + 2 ^ 32 * hi) :: pair_words r | _ => [] end.
Definition sha512_K : list N := pair_words sha512_K32.

(** sha2-backend.c 39-41, 152-154 *)
Definition sha2_expand (w : N) (s0 s1 : N -> N) (ws : list N) (i : nat) : list N :=
  ws ++ [trunc w (s1 (nth (i - 2) ws 0) + nth (i - 7) ws 0 + s0 (nth (i - 15) ws 0) + nth (i - 16) ws 0)].
(** sha2-backend.c 52-63, 165-178: one round *)
Definition sha2_step (w : N) (S0 S1 : N -> N) (K ws : list N) (v : list N) (i : nat) : list N :=
  match v with
  | [A; B; C; D; E; F; G; H] =>
      let tmp1 := trunc w (H + S1 E + sha_ch E F G + nth i K 0 + nth i ws 0) in
      let tmp2 := trunc w (S0 A + sha_maj A B C) in
      [trunc w (tmp1 + tmp2); A; B; C; trunc w (D + tmp1); E; F; G]
  | _ => v
  end.
(** sha2-backend.c 17-75 [sha256_process_block], effect on the state *)
Definition sha256_process (s b : list N) : list N :=
  let ws := fold_left (sha2_expand 32 sha256_sigma0 sha256_sigma1) (seq 16 48) (map (load32 b) (seq 0 16)) in
  add_back 32 s (fold_left (sha2_step 32 sha256_SIGMA0 sha256_SIGMA1 sha256_K ws) (seq 0 64) s).
(** sha2-backend.c 119-190 [sha384n512_process_block], effect on the state *)
Definition sha512_process (s b : list N) : list N :=
  let ws := fold_left (sha2_expand 64 sha512_sigma0 sha512_sigma1) (seq 16 64) (map (load64 b) (seq 0 16)) in
  add_back 64 s (fold_left (sha2_step 64 sha512_SIGMA0 sha512_SIGMA1 sha512_K ws) (seq 0 80) s).

(** sha1.c 16 *)
Definition sha1_H0 : list N :=
  [0x67452301; 0xEFCDAB89; 0x98BADCFE; 0x10325476; 0xC3D2E1F0].
(** sha224.c 15-17 *)
Definition sha224_H0 : list N :=
  [0xC1059ED8; 0x367CD507; 0x3070DD17; 0xF70E5939; 0xFFC00B31; 0x68581511; 0x64F98FA7; 0xBEFA4FA4].
(** sha256.c 15-17 *)
Definition sha256_H0 : list N :=
  [0x6A09E667; 0xBB67AE85; 0x3C6EF372; 0xA54FF53A; 0x510E527F; 0x9B05688C; 0x1F83D9AB; 0x5BE0CD19].
(** sha384.c 15-18 (halves) *)
Definition sha384_H0 : list N :=
  pair_words [0xC1059ED8; 0xCBBB9D5D; 0x367CD507; 0x629A292A; 0x3070DD17; 0x9159015A; 0xF70E5939; 0x152FECD8;
   0xFFC00B31; 0x67332667; 0x68581511; 0x8EB44A87; 0x64F98FA7; 0xDB0C2E0D; 0xBEFA4FA4; 0x47B5481D].
(** sha512.c 15-18 (halves) *)
Definition sha512_H0 : list N :=
  pair_words [0xF3BCC908; 0x6A09E667; 0x84CAA73B; 0xBB67AE85; 0xFE94F82B; 0x3C6EF372; 0x5F1D36F1; 0xA54FF53A;
   0xADE682D1; 0x510E527F; 0x2B3E6C1F; 0x9B05688C; 0xFB41BD6B; 0x1F83D9AB; 0x137E2179; 0x5BE0CD19].
(** sha512.c 20-23 (halves) *)
Definition sha512_224_H0 : list N :=
  pair_words [0x19544DA2; 0x8C3D37C8; 0x89DCD4D6; 0x73E19966; 0x32FF9C82; 0x1DFAB7AE; 0x582F9FCF; 0x679DD514;
   0x7BD44DA8; 0x0F6D2B69; 0x04C48942; 0x77E36F73; 0x6A1D36C8; 0x3F9D85A8; 0x91D692A1; 0x1112E6AD].
(** sha512.c 25-28 (halves) *)
Definition sha512_256_H0 : list N :=
  pair_words [0xFC2BF72C; 0x22312194; 0xC84C64C2; 0x9F555FA3; 0x6F53B151; 0x2393B86B; 0x5940EABD; 0x96387719;
   0xA88EFFE3; 0x96283EE2; 0x53863992; 0xBE5E1E25; 0x2C85B8AA; 0x2B0199FC; 0x81C52CA2; 0x0EB72DDC].

(** What differs between the instances of the template / the two SHA-2 back ends. *)
Record sha_alg := mkAlg {
  word_bytes : nat;                           (* 4 or 8; block = 16 words, each length half = 1 word *)
  process : list N -> list N -> list N;
  H0 : list N;
  digest_bytes : nat;
  wipes : bool }.                             (* SHA_DIGEST wipes block and length (SHA-1 only) *)
Definition alg_sha1 := mkAlg 4 sha1_process sha1_H0 20 true.
Definition alg_sha224 := mkAlg 4 sha256_process sha224_H0 28 false.
Definition alg_sha256 := mkAlg 4 sha256_process sha256_H0 32 false.
Definition alg_sha384 := mkAlg 8 sha512_process sha384_H0 48 false.
Definition alg_sha512 := mkAlg 8 sha512_process sha512_H0 64 false.
Definition alg_sha512_224 := mkAlg 8 sha512_process sha512_224_H0 28 false.
Definition alg_sha512_256 := mkAlg 8 sha512_process sha512_256_H0 32 false.
Definition block_bytes (a : sha_alg) : nat := 16 * word_bytes a.
Definition word_bits (a : sha_alg) : N := 8 * N.of_nat (word_bytes a).

(** templates.h 125-133 [SHA_INIT]; sha384.c 22-29; sha512.c 30-37 ([block] keeps its contents) *)
Definition sha_init (a : sha_alg) (c : sha_ctx) : sha_ctx := mkSha (H0 a) 0 0 0 (block c).

(** [name##_process_block(ctx)]: state, and index = 0 *)
Definition process_block (a : sha_alg) (c : sha_ctx) : sha_ctx :=
  mkSha (process a (state c) (block c)) (len_low c) (len_high c) 0 (block c).

Definition INT_MAX : N := 2 ^ 31 - 1.
(** templates.h 142-154 (32-bit lengths) and sha2-backend.c 198-214 (64-bit lengths): the update
    loop; [i] is the int loop counter, [corrupt] the flag. *)
Fixpoint sha_update_loop (a : sha_alg) (c : sha_ctx) (inp : list N) (i : N) (corrupt : bool) : outcome sha_ctx :=
  match inp with
  | [] => Ret c
  | b :: r =>
      if corrupt then Ret c else
      blk <- wr (block c) (index c) b ;;
      let low := trunc (word_bits a) (len_low c + 8) in
      let wrapped := low <? len_low c in
      let high := if wrapped then trunc (word_bits a) (len_high c + 1) else len_high c in
      let corrupt := wrapped && (high =? 0) in
      let c := mkSha (state c) low high (S (index c)) blk in
      let c := if negb corrupt && Nat.eqb (index c) (block_bytes a) then process_block a c else c in
      if i =? INT_MAX then UB SignedOverflow else sha_update_loop a c r (i + 1) corrupt
  end.
(** templates.h 135-155 [SHA_UPDATE]; sha2-backend.c 192-215 *)
Definition sha_update (a : sha_alg) (c : sha_ctx) (inp : list N) : outcome sha_ctx :=
  sha_update_loop a c inp 0 false.

(** the bytes of a length half, most significant first (sha1.c 104-112, sha2-backend.c 91-99, 231-246) *)
Definition len_bytes (a : sha_alg) (v : N) : list N :=
  map (fun j => u8 (N.shiftr v (8 * N.of_nat (word_bytes a - 1 - j)))) (seq 0 (word_bytes a)).
(** sha1.c 90-115 [sha1_padding], sha2-backend.c 77-102 [sha224n256_padding], 217-249 [sha384n512_padding] *)
Definition sha_padding (a : sha_alg) (c : sha_ctx) : outcome sha_ctx :=
  let lenpos := (block_bytes a - 2 * word_bytes a)%nat in
  blk <- wr (block c) (index c) 0x80 ;;
  let idx := S (index c) in
  c <- (if Nat.ltb lenpos idx then
          blk <- blit blk idx (repeat 0 (block_bytes a - idx)) ;;
          Ret (process_block a (mkSha (state c) (len_low c) (len_high c) (block_bytes a) blk))
        else if Nat.ltb idx lenpos then
          blk <- blit blk idx (repeat 0 (lenpos - idx)) ;;
          Ret (mkSha (state c) (len_low c) (len_high c) lenpos blk)
        else Ret (mkSha (state c) (len_low c) (len_high c) idx blk)) ;;
  blk <- blit (block c) lenpos (len_bytes a (len_high c) ++ len_bytes a (len_low c)) ;;
  Ret (process_block a (mkSha (state c) (len_low c) (len_high c) (index c) blk)).

(** output[i] = (uint8_t)(state[i / wb] >> 8 * (wb-1 - i % wb)) (templates.h 170-172,
    sha2-backend.c 112-114, 258-260) *)
Definition out_byte (a : sha_alg) (s : list N) (i : nat) : N :=
  u8 (N.shiftr (nth (i / word_bytes a) s 0) (8 * N.of_nat (word_bytes a - 1 - i mod word_bytes a))).
(** templates.h 157-173 [SHA_DIGEST], sha2-backend.c 104-115, 251-261. The stores output[0..n-1]
    are modelled by one checked [blit]. *)
Definition sha_digest (a : sha_alg) (c : sha_ctx) (out : list N) : outcome (sha_ctx * list N) :=
  c <- sha_padding a c ;;
  let c := if wipes a then mkSha (state c) 0 0 (index c) (repeat 0 (block_bytes a)) else c in
  out <- blit out 0 (map (out_byte a (state c)) (seq 0 (digest_bytes a))) ;;
  Ret (c, out).
