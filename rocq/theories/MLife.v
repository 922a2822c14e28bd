(** Model of the SequentialData objects that HashEncoder::get_digest returns pointers to: the member
    [std::unique_ptr<SequentialData> out] (hash_encoder.hpp 30) owns one, get_digest (hash_encoder.cpp 124-125) assigns a new one,
    the object's destructor frees the last. Definitions only. *)
From Verif Require Import Base MFront MHmac MHashEnc.
Local Open Scope N_scope.

(** [l_sd]: every SequentialData allocated by get_digest, in order, with its contents ([None]: freed). [l_out]: for every object the
    SequentialData its member [out] owns ([None]: null). [l_read]: what the program read through such pointers, latest first. *)
Record life := mkLife { l_he : he_state; l_sd : list (option (list N)); l_out : list (option nat); l_read : list (list N) }.
Definition life_start : life := mkLife he_start [] [] [].
(** the destructor of a unique_ptr, or the assignment to one, frees what it owned; freeing twice is undefined *)
Definition sd_free (sd : list (option (list N))) (o : option nat) : outcome (list (option (list N))) :=
  match o with
  | None => Ret sd
  | Some p => match nth_error sd p with Some (Some _) => Ret (firstn p sd ++ None :: skipn (S p) sd) | _ => UB DoubleFree end
  end.
Definition out_of (s : life) (i : nat) : option nat := match nth_error (l_out s) i with Some o => o | None => None end.
Definition set_out (l : list (option nat)) (i : nat) (o : option nat) : list (option nat) := firstn i l ++ o :: skipn (S i) l.
Inductive life_op :=
| LCall (o : he_op)      (* a call on an encoder *)
| LRead (p : nat).       (* reading the whole SequentialData through the pointer the p-th get_digest returned *)
Definition life_step (garbage : option N) (s : life) (op : life_op) : outcome life :=
  match op with
  | LRead p => match nth_error (l_sd s) p with
               | Some (Some d) => Ret (mkLife (l_he s) (l_sd s) (l_out s) (d :: l_read s))
               | Some None => UB DoubleFree
               | None => Ret s                     (* no such pointer: cannot be written *)
               end
  | LCall o =>
      h <- he_step garbage (l_he s) o ;;
      match o with
      | OpNew _ _ _ => Ret (mkLife h (l_sd s) (l_out s ++ [None]) (l_read s))
      | OpDigest i _ _ =>
          match obj_of (l_he s) i, s_res h with
          | Some _, d :: _ =>
              (* hash_encoder.cpp 124: make_unique first, then the assignment deletes the old one *)
              sd <- sd_free (l_sd s ++ [Some d]) (out_of s i) ;;
              Ret (mkLife h sd (set_out (l_out s) i (Some (length (l_sd s)))) (l_read s))
          | _, _ => Ret (mkLife h (l_sd s) (l_out s) (l_read s))
          end
      | OpDestroy i =>
          match obj_of (l_he s) i with
          | Some _ => sd <- sd_free (l_sd s) (out_of s i) ;; Ret (mkLife h sd (set_out (l_out s) i None) (l_read s))
          | None => Ret (mkLife h (l_sd s) (l_out s) (l_read s))
          end
      | _ => Ret (mkLife h (l_sd s) (l_out s) (l_read s))
      end
  end.
Fixpoint life_run (garbage : option N) (s : life) (ops : list life_op) : outcome life :=
  match ops with [] => Ret s | o :: ops => s <- life_step garbage s o ;; life_run garbage s ops end.
