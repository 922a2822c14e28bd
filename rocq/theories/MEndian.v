(** The places of the library whose result depends on the byte order of the machine, with the byte order as a parameter: the SHA-384/512
    tables (sha384.c, sha512.c, sha2-backend.c), the Keccak lanes (keccak-backend.c), the HOTP counter (hotp.c) and Blowfish (blowfish.c).
    The other models take the machine to be little-endian (README.md 23-25). Definitions only. *)
From Verif Require Import Base MSha MFront MKeccak MHmac MOtp MBlowfish.
Local Open Scope N_scope.

Inductive order := LittleEndian | BigEndian.
(** the bytes of an [n]-byte unsigned integer in memory, lowest address first *)
Definition int_bytes (o : order) (n : nat) (v : N) : list N :=
  match o with LittleEndian => le_bytes n v | BigEndian => rev (le_bytes n v) end.
(** the integer whose bytes in memory these are *)
Definition int_value (o : order) (l : list N) : N :=
  match o with LittleEndian => lane_of l | BigEndian => lane_of (rev l) end.

(** ** SHA-384, SHA-512, SHA-512/224, SHA-512/256 *)
(** memcpy of an array of 32-bit words over an array of 64-bit words: sha2-backend.c 166 (K), sha384.c 29, sha512.c 36 (H0) *)
Fixpoint paired (o : order) (l : list N) : list N :=
  match l with a :: b :: r => int_value o (int_bytes o 4 a ++ int_bytes o 4 b) :: paired o r | _ => [] end.
(** sha2-backend.c 119-190 *)
Definition sha512_process_on (o : order) (s b : list N) : list N :=
  let ws := fold_left (sha2_expand 64 sha512_sigma0 sha512_sigma1) (seq 16 64) (map (load64 b) (seq 0 16)) in
  add_back 64 s (fold_left (sha2_step 64 sha512_SIGMA0 sha512_SIGMA1 (paired o sha512_K32) ws) (seq 0 80) s).
(** sha384.c 15-18, 29 *)
Definition sha384_H0_32 : list N :=
  [0xC1059ED8; 0xCBBB9D5D; 0x367CD507; 0x629A292A; 0x3070DD17; 0x9159015A; 0xF70E5939; 0x152FECD8;
   0xFFC00B31; 0x67332667; 0x68581511; 0x8EB44A87; 0x64F98FA7; 0xDB0C2E0D; 0xBEFA4FA4; 0x47B5481D].
(** sha512.c 15-18, 36 *)
Definition sha512_H0_32 : list N :=
  [0xF3BCC908; 0x6A09E667; 0x84CAA73B; 0xBB67AE85; 0xFE94F82B; 0x3C6EF372; 0x5F1D36F1; 0xA54FF53A;
   0xADE682D1; 0x510E527F; 0x2B3E6C1F; 0x9B05688C; 0xFB41BD6B; 0x1F83D9AB; 0x137E2179; 0x5BE0CD19].
(** sha512.c 20-23, 36 *)
Definition sha512_224_H0_32 : list N :=
  [0x19544DA2; 0x8C3D37C8; 0x89DCD4D6; 0x73E19966; 0x32FF9C82; 0x1DFAB7AE; 0x582F9FCF; 0x679DD514;
   0x7BD44DA8; 0x0F6D2B69; 0x04C48942; 0x77E36F73; 0x6A1D36C8; 0x3F9D85A8; 0x91D692A1; 0x1112E6AD].
(** sha512.c 25-28, 36 *)
Definition sha512_256_H0_32 : list N :=
  [0xFC2BF72C; 0x22312194; 0xC84C64C2; 0x9F555FA3; 0x6F53B151; 0x2393B86B; 0x5940EABD; 0x96387719;
   0xA88EFFE3; 0x96283EE2; 0x53863992; 0xBE5E1E25; 0x2C85B8AA; 0x2B0199FC; 0x81C52CA2; 0x0EB72DDC].
Definition alg_sha384_on (o : order) : sha_alg := mkAlg 8 (sha512_process_on o) (paired o sha384_H0_32) 48 false.
Definition alg_sha512_on (o : order) : sha_alg := mkAlg 8 (sha512_process_on o) (paired o sha512_H0_32) 64 false.
Definition alg_sha512_224_on (o : order) : sha_alg := mkAlg 8 (sha512_process_on o) (paired o sha512_224_H0_32) 28 false.
Definition alg_sha512_256_on (o : order) : sha_alg := mkAlg 8 (sha512_process_on o) (paired o sha512_256_H0_32) 32 false.

(** ** Keccak: as in MKeccak.v, with the two memcpy's between bytes and 64-bit lanes (keccak-backend.c 94, 120) in the machine's order *)
(** keccak-backend.c 86-105 [seq_to_state]: xor the first [lanes] (1..25) little-endian lanes of the input *)
Definition seq_to_state_on (o : order) (input : list N) (A : list N) (lanes : nat) : outcome (list N) :=
  if Nat.ltb (length input) (8 * lanes) then UB OutOfBounds
  else Ret (map (fun i => if Nat.ltb i lanes then N.lxor (nth i A 0) (int_value o (firstn 8 (skipn (8 * i) input))) else nth i A 0) (seq 0 25)).
(** keccak-backend.c 113-130 [state_to_seq]: the bytes of the first [lanes] lanes *)
Definition state_to_seq_on (o : order) (A : list N) (lanes : nat) : list N := flat_map (int_bytes o 8) (firstn lanes A).

(** keccak-backend.c 132-136 *)
Definition k_absorb_on (o : order) (st input : list N) (lanes nr : nat) : outcome (list N) :=
  st <- seq_to_state_on o input st lanes ;; Ret (k_permutation st nr).
(** keccak-backend.c 138-141 *)
Definition absorb_queue_on (o : order) (c : kctx) : outcome kctx :=
  st <- k_absorb_on o (kst c) (queue c) (N.to_nat (rate c / 64)) (nr c) ;; Ret (kset c st (queue c) 0).

(** keccak-backend.c 143-162 [padding] *)
Definition k_padding_on (o : order) (c : kctx) : outcome kctx :=
  c <- (if inq c + 1 =? rate c then
          q <- k_or (queue c) (inq c / 8) (N.shiftl 1 (inq c mod 8)) ;;
          c <- absorb_queue_on o (kset c (kst c) q (inq c)) ;;
          q <- blit (queue c) 0 (repeat 0 (N.to_nat (rate c / 8))) ;;
          Ret (kset c (kst c) q (inq c))
        else
          let from := (inq c + 7) / 8 in
          q <- blit (queue c) (N.to_nat from) (repeat 0 (N.to_nat (rate c / 8 - from))) ;;
          q <- k_or q (inq c / 8) (N.shiftl 1 (inq c mod 8)) ;;
          Ret (kset c (kst c) q (inq c))) ;;
  q <- k_or (queue c) ((rate c - 1) / 8) (N.shiftl 1 ((rate c - 1) mod 8)) ;;
  c <- absorb_queue_on o (kset c (kst c) q (inq c)) ;;
  q <- blit (queue c) 0 (state_to_seq_on o (kst c) (N.to_nat (rate c / 64))) ;;
  Ret (mkK (kst c) q (rate c) (inq c) (outlen c) (nr c) true (rate c) (ap c) (aplen c) (apadded c)).

(** keccak-backend.c 179-181: absorb [n] consecutive blocks *)
Fixpoint absorb_blocks_on (o : order) (n : nat) (st data : list N) (rate : N) (nr : nat) : outcome (list N) :=
  match n with
  | O => Ret st
  | S n => st <- k_absorb_on o st data (N.to_nat (rate / 64)) nr ;; absorb_blocks_on o n st (skipn (N.to_nat (rate / 8)) data) rate nr
  end.
(** keccak-backend.c 174-206: the absorb loop; [bl] = bit_len, [i] the bits consumed *)
Fixpoint absorb_loop_on (o : order) (fuel : nat) (c : kctx) (inp : list N) (bl i : N) : outcome kctx :=
  if bl <=? i then Ret c else
  match fuel with
  | O => Hang
  | S fuel =>
      if (inq c =? 0) && (rate c <=? bl) && (i <=? bl - rate c) then
        let wb := (bl - i) / rate c in
        st <- absorb_blocks_on o (N.to_nat wb) (kst c) (skipn (N.to_nat (i / 8)) inp) (rate c) (nr c) ;;
        absorb_loop_on o fuel (kset c st (queue c) (inq c)) inp bl (u64 (i + wb * rate c))
      else
        let pb := u32 (bl - i) in
        let pb := if rate c <? u32 (pb + inq c) then u32 (rate c + 2 ^ 32 - inq c) else pb in
        let pbyte := pb mod 8 in
        let pb := pb - pbyte in
        src <- grab (N.to_nat (pb / 8)) (skipn (N.to_nat (i / 8)) inp) ;;
        q <- blit (queue c) (N.to_nat (inq c / 8)) src ;;
        let c := kset c (kst c) q (u32 (inq c + pb)) in
        let i := i + pb in
        c <- (if inq c =? rate c then absorb_queue_on o c else Ret c) ;;
        if pbyte =? 0 then absorb_loop_on o fuel c inp bl i
        else
          b <- rd inp (N.to_nat (i / 8)) ;;
          q <- wr (queue c) (N.to_nat (inq c / 8)) (N.land b (u8 (N.shiftl 1 pbyte - 1))) ;;
          absorb_loop_on o fuel (kset c (kst c) q (u32 (inq c + pbyte))) inp bl (i + pbyte)
  end.
(** keccak-backend.c 164-209 [keccak_absorb_b1600]. Every iteration that makes progress consumes at
    least one byte of the input, so [length inp + 1] iterations are enough. *)
Definition keccak_absorb_on (o : order) (c : kctx) (inp : list N) (bl : N) : outcome kctx :=
  if negb (inq c mod 8 =? 0) || squeezing c then Ret c
  else absorb_loop_on o (S (length inp)) c inp bl 0.
(** to_bit((uint64_t)length): sha3-256.c 26, shake.c 27 *)
Definition keccak_update_on (o : order) (c : kctx) (inp : list N) : outcome kctx :=
  keccak_absorb_on o c inp (u64 (8 * N.of_nat (length inp))).

(** keccak-backend.c 224-239: the squeeze loop *)
Fixpoint squeeze_loop_on (o : order) (fuel : nat) (c : kctx) (out : list N) (bl i : N) : outcome (kctx * list N) :=
  if bl <=? i then Ret (c, out) else
  match fuel with
  | O => Hang
  | S fuel =>
      c <- (if squeezable c =? 0 then
              let st := k_permutation (kst c) (nr c) in
              q <- blit (queue c) 0 (state_to_seq_on o st (N.to_nat (rate c / 64))) ;;
              Ret (mkK st q (rate c) (inq c) (outlen c) (nr c) (squeezing c) (rate c) (ap c) (aplen c) (apadded c))
            else Ret c) ;;
      let pb := if bl - i <? squeezable c then u32 (bl - i) else squeezable c in
      src <- grab (N.to_nat (pb / 8)) (skipn (N.to_nat ((rate c - squeezable c) / 8)) (queue c)) ;;
      out <- blit out (N.to_nat (i / 8)) src ;;
      squeeze_loop_on o fuel
        (mkK (kst c) (queue c) (rate c) (inq c) (outlen c) (nr c) (squeezing c) (squeezable c - pb) (ap c) (aplen c) (apadded c))
        out bl (i + pb)
  end.
(** keccak-backend.c 211-242 [keccak_squeeze_b1600]. Each iteration produces a whole block or ends
    the loop; with an initial partial block, out_length / 64 + 2 iterations are enough. *)
Definition keccak_squeeze_on (o : order) (c : kctx) (out : list N) : outcome (kctx * list N) :=
  let bl := outlen c in
  c <- (if negb (aplen c =? 0) && negb (apadded c) then
          c <- keccak_absorb_on o c [ap c] (aplen c) ;;
          Ret (mkK (kst c) (queue c) (rate c) (inq c) (outlen c) (nr c) (squeezing c) (squeezable c) (ap c) (aplen c) true)
        else Ret c) ;;
  c <- (if squeezing c then Ret c else k_padding_on o c) ;;
  squeeze_loop_on o (N.to_nat (bl / 64) + 2) c out bl 0.
(** shake.c 30-33: set out_length (size_t to uint32_t), then squeeze *)
Definition shake_digest_on (o : order) (bits : N) (c : kctx) (out : list N) : outcome (kctx * list N) :=
  keccak_squeeze_on o (mkK (kst c) (queue c) (rate c) (inq c) (u32 bits) (nr c) (squeezing c) (squeezable c) (ap c) (aplen c) (apadded c)) out.

(** sha3-224.c, sha3-256.c, sha3-384.c, sha3-512.c *)
Definition sha3_impl_on (o : order) (capacity out : N) : hash_impl :=
  mkImpl kctx kshape (keccak_init capacity out 2 2) (keccak_update_on o) (keccak_squeeze_on o) (N.to_nat ((1600 - capacity) / 8)) (N.to_nat (out / 8)).
(** shake.c *)
Definition xof_impl_on (o : order) (capacity ap aplen bits : N) : hash_impl :=
  mkImpl kctx kshape (keccak_init capacity 0 ap aplen) (keccak_update_on o) (shake_digest_on o bits) (N.to_nat ((1600 - capacity) / 8)) (N.to_nat (bits / 8)).

(** ** HOTP: hotp.c 31-53 with an algorithm whose code does not look at the byte order (md5.c, sha1.c and sha2-backend.c 17-115 load and
    store with shifts only): the memcpy at line 42 stores the counter in the machine's order *)
Definition shifts_only (a : alg_choice) : Prop := a = A_MD5 \/ a = A_SHA1 \/ a = A_SHA224 \/ a = A_SHA256.
Definition hotp_generic_on (o : order) (garbage : option N) (a : alg_choice) (g : ectx (sp_case garbage a)) (l : eloc (sp_case garbage a))
    (out_hash : list N) (secret : list N) (counter : N) (digit_c : N) : outcome N :=
  let counter_h := int_bytes o 8 counter in
  counter_h <- reverse counter_h 0 7 ;;
  out_hash <- pgfe_hmac garbage a g l secret counter_h out_hash ;;
  result <- dynamically_truncate out_hash (digest_size a) ;;
  if digit_c <? OTP_DIGIT_MAX_LIMIT
  then p <- rd DIGITS_POW (N.to_nat digit_c) ;; Ret (result mod p)
  else Ret result.

(** ** Blowfish *)
(** blowfish.c 148-157: struct __blowfish_numparts { d, c, b, a } laid over the bytes of x *)
Definition F_on (o : order) (c : bf_ctx) (x : N) : outcome N :=
  let m := int_bytes o 4 x in
  pa <- rd m 3 ;; s0 <- rdS c 0 pa ;;
  pb <- rd m 2 ;; s1 <- rdS c 1 pb ;;
  pc <- rd m 1 ;; s2 <- rdS c 2 pc ;;
  pd <- rd m 0 ;; s3 <- rdS c 3 pd ;;
  Ret (u32 (N.lxor (u32 (s0 + s1)) s2 + s3)).
(** one pass of the loops at blowfish.c 202-207 and 220-225: [i] is the index into P *)
Definition bf_round_on (o : order) (c : bf_ctx) (i : nat) (dp : dword) : outcome dword :=
  let '(lft, rgt) := dp in
  p <- rd (bP c) i ;;
  let lft := N.lxor lft p in
  f <- F_on o c lft ;;
  let rgt := N.lxor rgt f in
  Ret (rgt, lft).   (* __uint32_swap *)
(** for (i = 0; i < 16; i++): [k] passes lft, at index [i] *)
Fixpoint enc_rounds_on (o : order) (c : bf_ctx) (k i : nat) (dp : dword) : outcome dword :=
  match k with O => Ret dp | S k => dp <- bf_round_on o c i dp ;; enc_rounds_on o c k (S i) dp end.
(** for (i = 17; i > 1; i--): [k] passes left, at index [k] + 1 *)
Fixpoint dec_rounds_on (o : order) (c : bf_ctx) (k : nat) (dp : dword) : outcome dword :=
  match k with O => Ret dp | S k => dp <- bf_round_on o c (k + 2) dp ;; dec_rounds_on o c k dp end.
(** blowfish.c 199-215 [pgfe_blowfish_encrypt_unit] *)
Definition encrypt_unit_on (o : order) (c : bf_ctx) (input : dword) : outcome dword :=
  dp <- enc_rounds_on o c 16 0 input ;;
  let '(rgt, lft) := dp in          (* __uint32_swap *)
  p16 <- rd (bP c) 16 ;;
  p17 <- rd (bP c) 17 ;;
  Ret (N.lxor lft p17, N.lxor rgt p16).
(** blowfish.c 217-233 [pgfe_blowfish_decrypt_unit] *)
Definition decrypt_unit_on (o : order) (c : bf_ctx) (input : dword) : outcome dword :=
  dp <- dec_rounds_on o c 16 input ;;
  let '(rgt, lft) := dp in
  p1 <- rd (bP c) 1 ;;
  p0 <- rd (bP c) 0 ;;
  Ret (N.lxor lft p0, N.lxor rgt p1).

(** ** blowfish.c 165-197 [pgfe_blowfish_init] *)
(** 184-188; [n] passes left *)
Fixpoint p_loop_on (o : order) (n i : nat) (c : bf_ctx) (dp : dword) : outcome (bf_ctx * dword) :=
  match n with
  | O => Ret (c, dp)
  | S n =>
      dp <- encrypt_unit_on o c dp ;;
      c <- wrP c i (fst dp) ;;
      c <- wrP c (i + 1) (snd dp) ;;
      p_loop_on o n (i + 2) c dp
  end.
(** 191-195 *)
Fixpoint s_inner_on (o : order) (n i j : nat) (c : bf_ctx) (dp : dword) : outcome (bf_ctx * dword) :=
  match n with
  | O => Ret (c, dp)
  | S n =>
      dp <- encrypt_unit_on o c dp ;;
      c <- wrS c i j (fst dp) ;;
      c <- wrS c i (j + 1) (snd dp) ;;
      s_inner_on o n i (j + 2) c dp
  end.
(** 190-196 *)
Fixpoint s_outer_on (o : order) (n i : nat) (c : bf_ctx) (dp : dword) : outcome (bf_ctx * dword) :=
  match n with
  | O => Ret (c, dp)
  | S n => '(c, dp) <- s_inner_on o 128 i 0 c dp ;; s_outer_on o n (S i) c dp
  end.
(** [c]: the uninitialised context; the static S_size is sizeof(ctx->S), so memcpy fills all of S *)
Definition blowfish_init_on (o : order) (c : bf_ctx) (mem : list N) (len : nat) : outcome bf_ctx :=
  let c := mkBf (bP c) S0 in
  c <- mix_loop 18 0 mem len 0 c ;;
  '(c, dp) <- p_loop_on o 9 0 c (0, 0) ;;
  '(c, dp) <- s_outer_on o 4 0 c dp ;;
  Ret c.

(** ** blowfish.c 235-270 [__blowfish_en_decrypt_generic] *)
(** the 8 bytes of a pgfe_fake_uint64_t { right, left } (generic.h 46-50) *)
Definition unit_call_on (o : order) (f : dword -> outcome dword) (unp : list N) : outcome (list N) :=
  rgt <- grab 4 unp ;; lft <- grab 4 (skipn 4 unp) ;;
  '(lft, rgt) <- f (int_value o lft, int_value o rgt) ;;
  Ret (int_bytes o 4 rgt ++ int_bytes o 4 lft).
(** 243-255: [k] passes left *)
Fixpoint bf_loop_on (o : order) (f : dword -> outcome dword) (input : list N) (k i : nat) (unp out : list N) : outcome (list N * list N) :=
  match k with
  | O => Ret (unp, out)
  | S k =>
      b <- rd input i ;;
      unp <- wr unp (7 - i mod 8) b ;;
      if Nat.eqb (i mod 8) 7 then
        unp <- unit_call_on o f unp ;;
        out <- store_loop 8 (i - 7) unp out ;;
        bf_loop_on o f input k (S i) unp out
      else bf_loop_on o f input k (S i) unp out
  end.
(** [unp]: the bytes of the uninitialised local unit *)
Definition bf_generic_on (o : order) (f : dword -> outcome dword) (unp input out : list N) : outcome (nat * list N) :=
  let i := length input in
  '(unp, out) <- bf_loop_on o f input i 0 unp out ;;
  if Nat.eqb (i mod 8) 0 then Ret (i, out)
  else
    let rem := (8 - i mod 8)%nat in
    unp <- blit unp 0 (repeat 0 rem) ;;
    unp <- unit_call_on o f unp ;;
    let i := (i + rem)%nat in
    out <- store_loop 8 (i - 8) unp out ;;
    Ret (i, out).
(** blowfish.c 272-282 *)
Definition blowfish_encrypt_on (o : order) (c : bf_ctx) (unp input out : list N) : outcome (nat * list N) := bf_generic_on o (encrypt_unit_on o c) unp input out.
Definition blowfish_decrypt_on (o : order) (c : bf_ctx) (unp input out : list N) : outcome (nat * list N) := bf_generic_on o (decrypt_unit_on o c) unp input out.

