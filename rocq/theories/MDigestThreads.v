(** Model of get_digest of HashEncoder (hash_encoder.cpp 100-125) and HMACEncoder (hmac_encoder.cpp 19-24, 97-100) called by several threads:
    the library takes no lock, and each object owns its last digest through a std::unique_ptr (hash_encoder.hpp 30, hmac_encoder.hpp:
    [std::unique_ptr<SequentialData> output]). Simplified, in favour of the program: every other call (update, reset, and the digest
    function that get_digest runs first) takes effect at once and in one piece; memory accesses take effect in the order of the schedule
    (to the C++ standard conflicting accesses are a data race, undefined altogether). Definitions only. *)
From Verif Require Import Base MFront MHmac MHmac2 MHashEnc.
Local Open Scope N_scope.

(** the two classes: the state of all objects but the digest members; [k_do]: update or reset; [k_digest]: get_digest up to the
    computed bytes ([None]: no such object), hash_encoder.cpp 101-122; [k_obj]: the object of a get_digest call *)
Record digester := mkKind { k_state : Type; k_call : Type; k_get : Type; k_do : k_state -> k_call -> outcome k_state;
  k_obj : k_get -> nat; k_digest : k_state -> k_get -> outcome (k_state * option (list N)) }.
(** HashEncoder (hash_encoder.cpp), by the calls of MHashEnc.v; objects are made before the threads start and destroyed after they end *)
Inductive hash_call := HReset (i : nat) (al : allocation) | HUpdate (i : nat) (data : list N) | HCstr (i : nat) (mem : list N).
Definition hash_op (c : hash_call) : he_op := match c with HReset i al => OpReset i al | HUpdate i d => OpUpdate i d | HCstr i m => OpCstr i m end.
Record hash_get := mkHG { hg_obj : nat; hg_bits : N; hg_junk : N -> N }.
Definition hash_kind (garbage : option N) : digester :=
  {| k_state := he_state; k_call := hash_call; k_get := hash_get; k_do := fun s c => he_step garbage s (hash_op c); k_obj := hg_obj;
     k_digest := fun s g => match obj_of s (hg_obj g) with
       | None => Ret (s, None)
       | Some _ => s' <- he_step garbage s (OpDigest (hg_obj g) (hg_bits g) (hg_junk g)) ;; Ret (s', hd_error (s_res s'))
       end |}.
(** HMACEncoder (hmac_encoder.cpp) of one of the twelve supported algorithms [J]; all objects of the program use the same one *)
Inductive hmac_call := MUpdate (i : nat) (data : list N) | MCstr (i : nat) (mem : list N) | MReset (i : nat).
Record hmac_get (J : hash_impl) := mkMG { mg_obj : nat; mg_locals : eloc (Some J); mg_out : list N }.
Arguments mg_obj {J}. Arguments mg_locals {J}. Arguments mg_out {J}.
Definition set_enc {J} (s : list (encoder (Some J))) (i : nat) (e : encoder (Some J)) : list (encoder (Some J)) := firstn i s ++ e :: skipn (S i) s.
Definition on_enc {J} (s : list (encoder (Some J))) (i : nat) (f : encoder (Some J) -> outcome (encoder (Some J))) : outcome (list (encoder (Some J))) :=
  match nth_error s i with None => Ret s | Some e => e <- f e ;; Ret (set_enc s i e) end.
Definition hmac_kind (J : hash_impl) : digester :=
  {| k_state := list (encoder (Some J)); k_call := hmac_call; k_get := hmac_get J;
     k_do := fun s c => match c with
       | MUpdate i d => on_enc s i (fun e => enc_update (Some J) e d)
       | MCstr i m => on_enc s i (fun e => enc_update_cstr (Some J) e m)
       | MReset i => on_enc s i (fun e => Ret (enc_reset (Some J) e)) end;
     k_obj := mg_obj;
     k_digest := fun s g => match nth_error s (mg_obj g) with
       | None => Ret (s, None)
       | Some e => '(e, d) <- enc_digest (Some J) (mg_out g) (mg_locals g) e ;; Ret (set_enc s (mg_obj g) e, d)
       end |}.

Section Threads.
Context (K : digester).
(** a thread's program: other calls; get_digest, which leaves it with a pointer; reading the SequentialData at the pointer it got last *)
Inductive g_op := GDo (c : k_call K) | GGet (g : k_get K) | GRead.
(** where a thread is in get_digest, [i] its object: computed the bytes [d]; made the SequentialData number [p] (std::make_unique);
    the assignment to the unique_ptr read the old pointer, stored the new one, is about to delete what was at the old one;
    about to read the member again and return it *)
Inductive g_place := GIdle | GMake (i : nat) (d : list N) | GAssign (i p : nat) | GStore (i p : nat) (old : option nat) | GFree (i : nat) (old : option nat) | GReturn (i : nat).
Record g_thread := mkGT { g_todo : list g_op; g_at : g_place; g_last : option nat; g_seen : list (list N) }.
(** the objects; every SequentialData made, in order, with its contents ([None]: deleted); the digest member of each object; the threads *)
Record g_state := mkGS { g_objs : k_state K; g_sd : list (option (list N)); g_out : nat -> option nat; g_threads : list g_thread }.
Definition set_member (f : nat -> option nat) (i : nat) (v : option nat) : nat -> option nat := fun j => if Nat.eqb j i then v else f j.
Definition set_thread (l : list g_thread) (k : nat) (t : g_thread) : list g_thread := firstn k l ++ t :: skipn (S k) l.
(** deleting what a pointer points to *)
Definition sd_delete (sd : list (option (list N))) (o : option nat) : outcome (list (option (list N))) :=
  match o with
  | None => Ret sd
  | Some p => match nth_error sd p with Some (Some _) => Ret (firstn p sd ++ None :: skipn (S p) sd) | _ => UB DoubleFree end
  end.
(** one step of thread [k], which is [t] *)
Definition g_step (s : g_state) (k : nat) (t : g_thread) : outcome g_state :=
  let fin h sd out t := Ret (mkGS h sd out (set_thread (g_threads s) k t)) in
  let go sd out p := fin (g_objs s) sd out (mkGT (g_todo t) p (g_last t) (g_seen t)) in
  match g_at t with
  | GIdle =>
      match g_todo t with
      | [] => Ret s
      | GDo c :: r => h <- k_do K (g_objs s) c ;; fin h (g_sd s) (g_out s) (mkGT r GIdle (g_last t) (g_seen t))
      | GGet g :: r =>
          '(h, d) <- k_digest K (g_objs s) g ;;
          fin h (g_sd s) (g_out s) (mkGT r (match d with Some d => GMake (k_obj K g) d | None => GIdle end) (g_last t) (g_seen t))
      | GRead :: r =>
          match g_last t with
          | None => fin (g_objs s) (g_sd s) (g_out s) (mkGT r GIdle None (g_seen t))     (* no pointer yet: cannot be written *)
          | Some p => match nth_error (g_sd s) p with
                      | Some (Some d) => fin (g_objs s) (g_sd s) (g_out s) (mkGT r GIdle (Some p) (g_seen t ++ [d]))
                      | _ => UB DoubleFree
                      end
          end
      end
  (* hash_encoder.cpp 124, hmac_encoder.cpp 23: std::make_unique *)
  | GMake i d => go (g_sd s ++ [Some d]) (g_out s) (GAssign i (length (g_sd s)))
  (* the same line: the assignment (unique_ptr::reset) reads the old pointer, stores the new one, deletes the old SequentialData *)
  | GAssign i p => go (g_sd s) (g_out s) (GStore i p (g_out s i))
  | GStore i p old => go (g_sd s) (set_member (g_out s) i (Some p)) (GFree i old)
  | GFree i old => sd <- sd_delete (g_sd s) old ;; go sd (g_out s) (GReturn i)
  (* hash_encoder.cpp 125, hmac_encoder.cpp 99: return out.get() *)
  | GReturn i => fin (g_objs s) (g_sd s) (g_out s) (mkGT (g_todo t) GIdle (g_out s i) (g_seen t))
  end.
Definition g_next (s : g_state) (k : nat) : outcome g_state := match nth_error (g_threads s) k with None => Ret s | Some t => g_step s k t end.
Fixpoint g_run (s : g_state) (sched : list nat) : outcome g_state := match sched with [] => Ret s | k :: r => s <- g_next s k ;; g_run s r end.
(** threads before their first call *)
Definition g_start (h : k_state K) (sd : list (option (list N))) (out : nat -> option nat) (work : list (list g_op)) : g_state :=
  mkGS h sd out (map (fun ops => mkGT ops GIdle None []) work).
End Threads.
Arguments GDo {K}. Arguments GGet {K}. Arguments GRead {K}. Arguments mkGT {K}. Arguments mkGS {K}. Arguments g_todo {K}. Arguments g_at {K}. Arguments g_last {K}. Arguments g_seen {K}.
Arguments g_objs {K}. Arguments g_sd {K}. Arguments g_out {K}. Arguments g_threads {K}. Arguments g_run {K}. Arguments g_next {K}. Arguments g_step {K}. Arguments g_start {K}. Arguments set_thread {K}.
