(** Specification side of C79: length extension of an iterated hash function. *)
From Verif Require SMd5.
From Verif Require Import Base SHex SFips180 SShaLib MSha MFront MMd5 SHash.
Local Open Scope N_scope.

(** an iterated hash function of the library that outputs its whole last chaining value: code, pieces and messages accepted, bytes of a
    block, of the length field and of a word, byte order (representation and value), compression function, padding *)
Record iter := mkIter {
  it_code : hash_impl; it_piece : list N -> Prop; it_total : list N -> Prop;
  it_block : nat; it_field : nat; it_word : nat;
  it_bytes : nat -> N -> list N; it_value : list N -> N;
  it_compress : list N -> list N -> list N;
  it_pad : nat -> nat -> (N -> list N) -> list N -> list N }.
Definition iter_md5 garbage : iter := mkIter (md5_impl garbage) (fun p => bytes_ok p /\ p <> []) (fun _ => True) 64 8 4 SMd5.le_bytes SMd5.le_value SMd5.md5_compress padded.
Definition iter_sha1 : iter := mkIter (sha_impl alg_sha1) int_piece (bits_below 64) 64 8 4 be_bytes be_value sha1_compress lib_padded.
Definition iter_sha256 : iter := mkIter (sha_impl alg_sha256) int_piece (bits_below 64) 64 8 4 be_bytes be_value (sha2_compress sha2_32) lib_padded.
Definition iter_sha512 : iter := mkIter (sha_impl alg_sha512) int_piece (bits_below 128) 128 16 8 be_bytes be_value (sha2_compress sha2_64) lib_padded.
Inductive extendable : iter -> Prop :=
| ex_md5 garbage : extendable (iter_md5 garbage) | ex_sha1 : extendable iter_sha1 | ex_sha256 : extendable iter_sha256 | ex_sha512 : extendable iter_sha512.

(** the standards' padding of a message of [len] bytes: 0x80, zeros, the length in bits. It depends on the length only. *)
Definition glue (A : iter) (len : nat) : list N :=
  0x80 :: repeat 0 (pad_zeros (it_block A) (it_field A) len) ++ it_bytes A (it_field A) (8 * N.of_nat len).
(** the message as the library pads it *)
Definition padded_by (A : iter) (m : list N) : list N := it_pad A (it_block A) (it_field A) (it_bytes A (it_field A)) m.

(** What can be computed from the digest [d] of an unknown message, its length [len] and a text [x] of one's own: go on with the compression
    function from the words of [d], over [x], padded as the end of a message of the total length. *)
Definition extension (A : iter) (d : list N) (len : nat) (x : list N) : list N :=
  let total := (len + length (glue A len) + length x)%nat in
  flat_map (it_bytes A (it_word A))
    (fold_left (it_compress A)
      (pieces (it_block A) (it_pad A (it_block A) (it_field A) (fun _ => it_bytes A (it_field A) (8 * N.of_nat total)) x))
      (map (it_value A) (pieces (it_word A) d))).
