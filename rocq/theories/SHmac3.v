(** Specification for C76: what equal HMAC tags reveal. *)
From Verif Require Import Base SFips180 MFront SHash MHmac SHmac SMerkle.
Local Open Scope N_scope.

(** the key as HMAC with block size [B] sees it: its first B bytes, continued with zeros *)
Definition key_bytes (B : nat) (k : list N) : list N := map (fun i => nth i k 0) (seq 0 B).
(** what the inner hash function is applied to, and what the outer one is applied to when the inner digest is [h] *)
Definition inner_text (B : nat) (k m : list N) : list N := map (fun x => N.lxor x 0x36) (key_bytes B k) ++ m.
Definition outer_text (B : nat) (k h : list N) : list N := map (fun x => N.lxor x 0x5c) (key_bytes B k) ++ h.
(** two different texts with the same hash *)
Definition hash_collision (H : list N -> list N) (x x' : list N) : Prop := x <> x' /\ H x = H x'.
(** the same, traced to the compression function: a collision of it, or two different last chaining values that the
    cutting of the digest identifies *)
Definition traced (comp : list N -> list N -> list N) (iv : list N) (blocks : list N -> list (list N)) (whole : bool) (x x' : list N) : Prop :=
  collide comp iv (blocks x) (blocks x') \/ (whole = false /\ fold_left comp (blocks x) iv <> fold_left comp (blocks x') iv).
