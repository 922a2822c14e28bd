(** Specification side of C90: threads whose calls are indivisible and get digests by value. *)
From Verif Require Import Base MDigestThreads.
Local Open Scope N_scope.

Section Values.
Context (K : digester).
(** a thread: what it still has to do; the digest it got last; the digests it has read *)
Record v_thread := mkVT { v_todo : list (g_op K); v_last : option (list N); v_seen : list (list N) }.
Definition v_state := (k_state K * list v_thread)%type.
Definition v_step (h : k_state K) (t : v_thread) : outcome (k_state K * v_thread) :=
  match v_todo t with
  | [] => Ret (h, t)
  | GDo c :: r => h <- k_do K h c ;; Ret (h, mkVT r (v_last t) (v_seen t))
  | GGet g :: r => '(h, d) <- k_digest K h g ;; Ret (h, mkVT r (match d with Some d => Some d | None => v_last t end) (v_seen t))
  | GRead :: r => Ret (h, mkVT r (v_last t) (v_seen t ++ match v_last t with Some d => [d] | None => [] end))
  end.
Definition v_next (s : v_state) (k : nat) : outcome v_state :=
  let '(h, ts) := s in match nth_error ts k with None => Ret s | Some t => '(h, t) <- v_step h t ;; Ret (h, firstn k ts ++ t :: skipn (S k) ts) end.
Fixpoint v_run (s : v_state) (sched : list nat) : outcome v_state := match sched with [] => Ret s | k :: r => s <- v_next s k ;; v_run s r end.
Definition v_start (h : k_state K) (work : list (list (g_op K))) : v_state := (h, map (fun ops => mkVT ops None []) work).
End Values.
Arguments mkVT {K}. Arguments v_todo {K}. Arguments v_last {K}. Arguments v_seen {K}. Arguments v_run {K}. Arguments v_next {K}. Arguments v_step {K}. Arguments v_start {K}.

(** the digest members in order: each null or owning a digest that has not been deleted and that no other member owns *)
Definition members_ok (sd : list (option (list N))) (out : nat -> option nat) : Prop :=
  (forall i p, out i = Some p -> exists d, nth_error sd p = Some (Some d)) /\ (forall i j p, out i = Some p -> out j = Some p -> i = j).
(** every digest that has not been deleted is owned by an object *)
Definition no_orphan (sd : list (option (list N))) (out : nat -> option nat) : Prop := forall p d, nth_error sd p = Some (Some d) -> exists i, out i = Some p.
(** object [i] is asked for digests by thread [who i] only *)
Definition separate {K} (who : nat -> nat) (work : list (list (g_op K))) : Prop :=
  forall k ops g, nth_error work k = Some ops -> In (GGet g) ops -> who (k_obj K g) = k.

(** ** Objects shared under a lock: each time a thread holds it, it makes some calls, asks for a digest and reads it *)
Section Locked.
Context (K : digester).
Definition section := (list (k_call K) * k_get K)%type.
Definition section_ops (x : section) : list (g_op K) := map GDo (fst x) ++ [GGet (snd x); GRead].
Record l_state := mkLS { l_objs : k_state K; l_todo : list (list section); l_got : list (list (list N)) }.
Fixpoint do_all (h : k_state K) (cs : list (k_call K)) : outcome (k_state K) := match cs with [] => Ret h | c :: cs => h <- k_do K h c ;; do_all h cs end.
(** the threads in [order] take the lock one after the other; each adds the digest of its section to what it has got *)
Fixpoint l_run (s : l_state) (order : list nat) : outcome l_state :=
  match order with
  | [] => Ret s
  | k :: order =>
      match nth_error (l_todo s) k, nth_error (l_got s) k with
      | Some ((cs, g) :: r), Some got =>
          h <- do_all (l_objs s) cs ;; '(h, d) <- k_digest K h g ;;
          match d with
          | Some d => l_run (mkLS h (firstn k (l_todo s) ++ r :: skipn (S k) (l_todo s)) (firstn k (l_got s) ++ (got ++ [d]) :: skipn (S k) (l_got s))) order
          | None => UB OutOfBounds        (* the section asks an object that does not exist *)
          end
      | _, _ => l_run s order
      end
  end.
(** the schedule in which each of these threads makes all the steps of its section without another in between: one for each call,
    six in get_digest, one for the read *)
Fixpoint turns (todo : list (list section)) (order : list nat) : list nat :=
  match order with
  | [] => []
  | k :: order => match nth_error todo k with
                  | Some ((cs, g) :: r) => repeat k (length cs + 7) ++ turns (firstn k todo ++ r :: skipn (S k) todo) order
                  | _ => turns todo order
                  end
  end.
End Locked.
Arguments section_ops {K}. Arguments mkLS {K}. Arguments l_objs {K}. Arguments l_todo {K}. Arguments l_got {K}. Arguments l_run {K}. Arguments turns {K}. Arguments do_all {K}.

(** ** Histories: what was done in what order, by which thread, and the digest computed ([None]: no get_digest call, or no such object) *)
Record entry (K : digester) := mkEntry { en_thread : nat; en_op : g_op K; en_digest : option (list N) }.
Arguments mkEntry {K}. Arguments en_thread {K}. Arguments en_op {K}. Arguments en_digest {K}.
Definition of_thread {K} (k : nat) (log : list (entry K)) : list (entry K) := filter (fun x => Nat.eqb (en_thread x) k) log.
(** what a thread reads: each time the digest of its last get_digest call *)
Fixpoint reads_of {K} (last : option (list N)) (log : list (entry K)) : list (list N) :=
  match log with
  | [] => []
  | x :: log => match en_op x with
                | GDo _ => reads_of last log
                | GGet _ => reads_of (match en_digest x with Some d => Some d | None => last end) log
                | GRead => match last with Some d => [d] | None => [] end ++ reads_of last log
                end
  end.
(** HashEncoder: the calls of MHashEnc.v *)
Definition encoder_calls {garbage} (o : g_op (hash_kind garbage)) : list MHashEnc.he_op :=
  match o with GDo c => [hash_op c] | GGet g => [MHashEnc.OpDigest (hg_obj g) (hg_bits g) (hg_junk g)] | GRead => [] end.
(** HMACEncoder: the calls of MHmac2.v on object [i], and the digests computed by them *)
Definition calls_on {J} (i : nat) (o : g_op (hmac_kind J)) : list (MHmac2.enc_call (Some J)) :=
  match o with
  | GDo (MUpdate j d) => if Nat.eqb j i then [MHmac2.CUpdate d] else []
  | GDo (MCstr j m) => if Nat.eqb j i then [MHmac2.CCstr m] else []
  | GDo (MReset j) => if Nat.eqb j i then [MHmac2.CReset] else []
  | GGet g => if Nat.eqb (mg_obj g) i then [MHmac2.CDigest (mg_locals g) (mg_out g)] else []
  | GRead => []
  end.
Definition digests_on {J} (i : nat) (x : entry (hmac_kind J)) : list (option (list N)) :=
  match en_op x with GGet g => if Nat.eqb (mg_obj g) i then [en_digest x] else [] | _ => [] end.
