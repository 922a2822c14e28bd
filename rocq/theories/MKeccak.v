(** Model of src/hashes/keccak-backend.c, sha3-{224,256,384,512}.c, shake.c. Definitions only. *)
From Verif Require Import Base MSha MFront.
Local Open Scope N_scope.

(** keccak-backend.c 13-15, 17-23, 25-27 *)
Definition k_r : list N := [1; 3; 6; 10; 15; 21; 28; 36; 45; 55; 2; 14; 27; 41; 56; 8; 25; 43; 62; 18; 39; 61; 20; 44].
Definition k_RC : list N :=
  [0x0000000000000001; 0x0000000000008082; 0x800000000000808a; 0x8000000080008000; 0x000000000000808b;
   0x0000000080000001; 0x8000000080008081; 0x8000000000008009; 0x000000000000008a; 0x0000000000000088;
   0x0000000080008009; 0x000000008000000a; 0x000000008000808b; 0x800000000000008b; 0x8000000000008089;
   0x8000000000008003; 0x8000000000008002; 0x8000000000000080; 0x000000000000800a; 0x800000008000000a;
   0x8000000080008081; 0x8000000000008080; 0x0000000080000001; 0x8000000080008008].
Definition k_piln : list nat :=
  [10; 7; 11; 17; 18; 3; 5; 16; 8; 21; 24; 4; 15; 23; 19; 13; 12; 2; 20; 14; 22; 9; 6; 1]%nat.

(** pgfe_keccak_bitcube_t (sha3.h 21-23): A[x][y], kept as the list of 25 lanes in the order of
    the standard's strings, A[x][y] at position 5y+x (the C layout is 5x+y; only A[x][y] accesses occur) *)
Definition lane (A : list N) (x y : nat) : N := nth (5 * y + x) A 0.
Definition cube (f : nat -> nat -> N) : list N := map (fun i => f (i mod 5)%nat (i / 5)%nat) (seq 0 25).

(** keccak-backend.c 36-46: theta *)
Definition k_C (A : list N) (x : nat) : N :=
  N.lxor (N.lxor (N.lxor (N.lxor (lane A x 0) (lane A x 1)) (lane A x 2)) (lane A x 3)) (lane A x 4).
Definition k_theta (A : list N) : list N :=
  cube (fun x y => N.lxor (lane A x y) (N.lxor (k_C A ((x + 4) mod 5)) (clshift 64 (k_C A ((x + 1) mod 5)) 1))).
(** keccak-backend.c 48-55: rho and pi in place; t and A are the loop state, the lane A[j%5][j/5]
    is at position j *)
Definition k_rhopi_step (s : N * list N) (x : nat) : N * list N :=
  let '(t, A) := s in
  let j := nth x k_piln 0%nat in
  (nth j A 0, firstn j A ++ clshift 64 t (nth x k_r 0) :: skipn (S j) A).
Definition k_rhopi (A : list N) : list N := snd (fold_left k_rhopi_step (seq 0 24) (lane A 1 0, A)).
(** keccak-backend.c 57-65: chi; the copy C[] of the row makes the in-place update pointwise *)
Definition k_chi (A : list N) : list N :=
  cube (fun x y => N.lxor (lane A x y) (N.land (bnot 64 (lane A ((x + 1) mod 5) y)) (lane A ((x + 2) mod 5) y))).
(** keccak-backend.c 67-68: iota *)
Definition k_iota (rc : N) (A : list N) : list N :=
  match A with a :: r => N.lxor a rc :: r | [] => [] end.
(** keccak-backend.c 29-68 [transform] *)
Definition k_transform (A : list N) (rc : N) : list N := k_iota rc (k_chi (k_rhopi (k_theta A))).
(** keccak-backend.c 107-111 [permutation]; nr = 24, RC[i] in range *)
Definition k_permutation (A : list N) (nr : nat) : list N :=
  fold_left (fun A i => k_transform A (nth i k_RC 0)) (seq 0 nr) A.

(** a 64-bit lane in memory on a little-endian machine *)
Definition lane_of (b : list N) : N := fold_right (fun x acc => x + 256 * acc) 0 b.
Definition bytes_of_lane (v : N) : list N := map (fun i => u8 (N.shiftr v (8 * N.of_nat i))) (seq 0 8).
(** keccak-backend.c 86-105 [seq_to_state]: xor the first [lanes] (1..25) little-endian lanes of the input *)
Definition seq_to_state (input : list N) (A : list N) (lanes : nat) : outcome (list N) :=
  if Nat.ltb (length input) (8 * lanes) then UB OutOfBounds
  else Ret (map (fun i => if Nat.ltb i lanes then N.lxor (nth i A 0) (lane_of (firstn 8 (skipn (8 * i) input))) else nth i A 0) (seq 0 25)).
(** keccak-backend.c 113-130 [state_to_seq]: the bytes of the first [lanes] lanes *)
Definition state_to_seq (A : list N) (lanes : nat) : list N := flat_map bytes_of_lane (firstn lanes A).

(** struct pgfe_keccak_sponge_ctx (sha3.h 26-37) *)
Record kctx := mkK { kst : list N; queue : list N; rate : N; inq : N; outlen : N; nr : nat;
  squeezing : bool; squeezable : N; ap : N; aplen : N; apadded : bool }.
Definition kset (c : kctx) (st q : list N) (inq : N) : kctx :=
  mkK st q (rate c) inq (outlen c) (nr c) (squeezing c) (squeezable c) (ap c) (aplen c) (apadded c).

(** keccak-backend.c 70-84 [keccak_init] (failure leaves the context alone), followed by the
    algorithm's settings: sha3-256.c 18-23 and siblings, shake.c 20-24, 43-47, 63-67, 86-90.
    [out] = 0 for the XOFs (left 0 by the memset). The field [capacity] is never read and is omitted. *)
Definition keccak_init (capacity out ap aplen : N) (c : kctx) : kctx :=
  let r := u32 (1600 + 2 ^ 32 - capacity) in
  if (1600 <=? r) || negb (r mod 64 =? 0)
  then mkK (kst c) (queue c) (rate c) (inq c) out (nr c) (squeezing c) (squeezable c) ap aplen (apadded c)
  else mkK (repeat 0 25) (repeat 0 192) r 0 out 24 false 0 ap aplen false.

(** keccak-backend.c 132-136 *)
Definition k_absorb (st input : list N) (lanes nr : nat) : outcome (list N) :=
  st <- seq_to_state input st lanes ;; Ret (k_permutation st nr).
(** keccak-backend.c 138-141 *)
Definition absorb_queue (c : kctx) : outcome kctx :=
  st <- k_absorb (kst c) (queue c) (N.to_nat (rate c / 64)) (nr c) ;; Ret (kset c st (queue c) 0).

(** keccak-backend.c 143-162 [padding] *)
Definition k_or (q : list N) (i : N) (v : N) : outcome (list N) :=
  b <- rd q (N.to_nat i) ;; wr q (N.to_nat i) (u8 (N.lor b v)).
Definition k_padding (c : kctx) : outcome kctx :=
  c <- (if inq c + 1 =? rate c then
          q <- k_or (queue c) (inq c / 8) (N.shiftl 1 (inq c mod 8)) ;;
          c <- absorb_queue (kset c (kst c) q (inq c)) ;;
          q <- blit (queue c) 0 (repeat 0 (N.to_nat (rate c / 8))) ;;
          Ret (kset c (kst c) q (inq c))
        else
          let from := (inq c + 7) / 8 in
          q <- blit (queue c) (N.to_nat from) (repeat 0 (N.to_nat (rate c / 8 - from))) ;;
          q <- k_or q (inq c / 8) (N.shiftl 1 (inq c mod 8)) ;;
          Ret (kset c (kst c) q (inq c))) ;;
  q <- k_or (queue c) ((rate c - 1) / 8) (N.shiftl 1 ((rate c - 1) mod 8)) ;;
  c <- absorb_queue (kset c (kst c) q (inq c)) ;;
  q <- blit (queue c) 0 (state_to_seq (kst c) (N.to_nat (rate c / 64))) ;;
  Ret (mkK (kst c) q (rate c) (inq c) (outlen c) (nr c) true (rate c) (ap c) (aplen c) (apadded c)).

(** keccak-backend.c 179-181: absorb [n] consecutive blocks *)
Fixpoint absorb_blocks (n : nat) (st data : list N) (rate : N) (nr : nat) : outcome (list N) :=
  match n with
  | O => Ret st
  | S n => st <- k_absorb st data (N.to_nat (rate / 64)) nr ;; absorb_blocks n st (skipn (N.to_nat (rate / 8)) data) rate nr
  end.
(** the first [n] bytes of a region *)
Definition grab (n : nat) (l : list N) : outcome (list N) :=
  if Nat.ltb (length l) n then UB OutOfBounds else Ret (firstn n l).
(** keccak-backend.c 174-206: the absorb loop; [bl] = bit_len, [i] the bits consumed *)
Fixpoint absorb_loop (fuel : nat) (c : kctx) (inp : list N) (bl i : N) : outcome kctx :=
  if bl <=? i then Ret c else
  match fuel with
  | O => Hang
  | S fuel =>
      if (inq c =? 0) && (rate c <=? bl) && (i <=? bl - rate c) then
        let wb := (bl - i) / rate c in
        st <- absorb_blocks (N.to_nat wb) (kst c) (skipn (N.to_nat (i / 8)) inp) (rate c) (nr c) ;;
        absorb_loop fuel (kset c st (queue c) (inq c)) inp bl (u64 (i + wb * rate c))
      else
        let pb := u32 (bl - i) in
        let pb := if rate c <? u32 (pb + inq c) then u32 (rate c + 2 ^ 32 - inq c) else pb in
        let pbyte := pb mod 8 in
        let pb := pb - pbyte in
        src <- grab (N.to_nat (pb / 8)) (skipn (N.to_nat (i / 8)) inp) ;;
        q <- blit (queue c) (N.to_nat (inq c / 8)) src ;;
        let c := kset c (kst c) q (u32 (inq c + pb)) in
        let i := i + pb in
        c <- (if inq c =? rate c then absorb_queue c else Ret c) ;;
        if pbyte =? 0 then absorb_loop fuel c inp bl i
        else
          b <- rd inp (N.to_nat (i / 8)) ;;
          q <- wr (queue c) (N.to_nat (inq c / 8)) (N.land b (u8 (N.shiftl 1 pbyte - 1))) ;;
          absorb_loop fuel (kset c (kst c) q (u32 (inq c + pbyte))) inp bl (i + pbyte)
  end.
(** keccak-backend.c 164-209 [keccak_absorb_b1600]. Every iteration that makes progress consumes at
    least one byte of the input, so [length inp + 1] iterations are enough. *)
Definition keccak_absorb (c : kctx) (inp : list N) (bl : N) : outcome kctx :=
  if negb (inq c mod 8 =? 0) || squeezing c then Ret c
  else absorb_loop (S (length inp)) c inp bl 0.
(** to_bit((uint64_t)length): sha3-256.c 26, shake.c 27 *)
Definition keccak_update (c : kctx) (inp : list N) : outcome kctx :=
  keccak_absorb c inp (u64 (8 * N.of_nat (length inp))).

(** keccak-backend.c 224-239: the squeeze loop *)
Fixpoint squeeze_loop (fuel : nat) (c : kctx) (out : list N) (bl i : N) : outcome (kctx * list N) :=
  if bl <=? i then Ret (c, out) else
  match fuel with
  | O => Hang
  | S fuel =>
      c <- (if squeezable c =? 0 then
              let st := k_permutation (kst c) (nr c) in
              q <- blit (queue c) 0 (state_to_seq st (N.to_nat (rate c / 64))) ;;
              Ret (mkK st q (rate c) (inq c) (outlen c) (nr c) (squeezing c) (rate c) (ap c) (aplen c) (apadded c))
            else Ret c) ;;
      let pb := if bl - i <? squeezable c then u32 (bl - i) else squeezable c in
      src <- grab (N.to_nat (pb / 8)) (skipn (N.to_nat ((rate c - squeezable c) / 8)) (queue c)) ;;
      out <- blit out (N.to_nat (i / 8)) src ;;
      squeeze_loop fuel
        (mkK (kst c) (queue c) (rate c) (inq c) (outlen c) (nr c) (squeezing c) (squeezable c - pb) (ap c) (aplen c) (apadded c))
        out bl (i + pb)
  end.
(** keccak-backend.c 211-242 [keccak_squeeze_b1600]. Each iteration produces a whole block or ends
    the loop; with an initial partial block, out_length / 64 + 2 iterations are enough. *)
Definition keccak_squeeze (c : kctx) (out : list N) : outcome (kctx * list N) :=
  let bl := outlen c in
  c <- (if negb (aplen c =? 0) && negb (apadded c) then
          c <- keccak_absorb c [ap c] (aplen c) ;;
          Ret (mkK (kst c) (queue c) (rate c) (inq c) (outlen c) (nr c) (squeezing c) (squeezable c) (ap c) (aplen c) true)
        else Ret c) ;;
  c <- (if squeezing c then Ret c else k_padding c) ;;
  squeeze_loop (N.to_nat (bl / 64) + 2) c out bl 0.
(** shake.c 30-33: set out_length (size_t to uint32_t), then squeeze *)
Definition shake_digest (bits : N) (c : kctx) (out : list N) : outcome (kctx * list N) :=
  keccak_squeeze (mkK (kst c) (queue c) (rate c) (inq c) (u32 bits) (nr c) (squeezing c) (squeezable c) (ap c) (aplen c) (apadded c)) out.

(** The instances. The struct has fixed-size arrays; the other fields are scalars. *)
Definition kshape (c : kctx) : Prop := length (kst c) = 25%nat /\ length (queue c) = 192%nat.
(** sha3-224.c, sha3-256.c, sha3-384.c, sha3-512.c; block sizes sha3.h 48-51 *)
Definition sha3_impl (capacity out : N) : hash_impl :=
  mkImpl kctx kshape (keccak_init capacity out 2 2) keccak_update keccak_squeeze (N.to_nat ((1600 - capacity) / 8)) (N.to_nat (out / 8)).
Definition impl_sha3_224 := sha3_impl 448 224.
Definition impl_sha3_256 := sha3_impl 512 256.
Definition impl_sha3_384 := sha3_impl 768 384.
Definition impl_sha3_512 := sha3_impl 1024 512.
(** shake.c; [bits] is the output bit length passed to digest *)
Definition xof_impl (capacity ap aplen bits : N) : hash_impl :=
  mkImpl kctx kshape (keccak_init capacity 0 ap aplen) keccak_update (shake_digest bits) (N.to_nat ((1600 - capacity) / 8)) (N.to_nat (bits / 8)).
Definition impl_shake128 := xof_impl 256 15 4.
Definition impl_shake256 := xof_impl 512 15 4.
Definition impl_rawshake128 := xof_impl 256 3 2.
Definition impl_rawshake256 := xof_impl 512 3 2.
