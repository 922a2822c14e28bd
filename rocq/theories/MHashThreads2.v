(** Model of MD5 and Keccak (SHA-3, SHAKE) contexts fed by several threads (md5.c 32-64, keccak-backend.c 164-209). As in
    MHashThreads every statement takes effect at once. The machine (threads, schedules) is the same for both. Definitions only. *)
From Verif Require Import Base MSha MFront MMd5 MKeccak.
Local Open Scope N_scope.

(** one update function, statement by statement: the places inside it, the place after the call with given data, and
    the effect of the next statement ([None]: it returned) *)
Record updater := mkUpd { u_ctx : Type; u_place : Type; u_begin : list N -> u_place; u_step : u_ctx -> u_place -> outcome (u_ctx * option u_place) }.
(** a thread: the object it feeds, the calls it still has to make, the place inside the current one *)
Record gthread (U : updater) := mkGT { gt_obj : nat; gt_todo : list (list N); gt_at : option (u_place U) }.
Arguments mkGT {U}. Arguments gt_obj {U}. Arguments gt_todo {U}. Arguments gt_at {U}.
Definition gt_step (U : updater) (c : u_ctx U) (t : gthread U) : outcome (u_ctx U * gthread U) :=
  match gt_at t with
  | None => match gt_todo t with [] => Ret (c, t) | p :: r => Ret (c, mkGT (gt_obj t) r (Some (u_begin U p))) end
  | Some p => '(c, o) <- u_step U c p ;; Ret (c, mkGT (gt_obj t) (gt_todo t) o)
  end.
Definition gt_state (U : updater) := (list (u_ctx U) * list (gthread U))%type.
(** list element i replaced *)
Definition putg {A} (i : nat) (x : A) (l : list A) : list A := firstn i l ++ x :: skipn (S i) l.
(** a schedule: the numbers of the threads that take the next step *)
Definition gt_next (U : updater) (st : gt_state U) (who : nat) : outcome (gt_state U) :=
  let '(cs, ts) := st in
  match nth_error ts who with
  | None => Ret st
  | Some t => match nth_error cs (gt_obj t) with
              | None => Ret st
              | Some c => '(c, t') <- gt_step U c t ;; Ret (putg (gt_obj t) c cs, putg who t' ts)
              end
  end.
Fixpoint gt_run (U : updater) (st : gt_state U) (sched : list nat) : outcome (gt_state U) :=
  match sched with [] => Ret st | k :: r => st <- gt_next U st k ;; gt_run U st r end.
Definition gt_start (U : updater) (cs : list (u_ctx U)) (work : list (nat * list (list N))) : gt_state U :=
  (cs, map (fun w => mkGT (fst w) (snd w) None) work).
Definition gt_finished {U} (t : gthread U) : Prop := gt_at t = None /\ gt_todo t = [].

(** md5.c 32-64. [wl]: the local written_len, uninitialised before the first round; offset is a local as well *)
Inductive mplace :=
| MTop (rest : list N) (wl : option nat)            (* loop condition; offset = ctx->block_len & 0x3F; written_len = ...; break *)
| MCopy (rest : list N) (off wr : nat)              (* memcpy(ctx->block + offset, p, written_len) *)
| MCount (rest : list N) (wr : nat)                 (* ctx->block_len += written_len *)
| MTransform (rest : list N) (wr : nat)             (* md5_transform(ctx->state, ctx->block); p += written_len *)
| MTail (rest : list N) (off : nat) (rem : N)       (* the last memcpy *)
| MTailCount (n : nat) (rem : N)                    (* ctx->block_len += written_len; remainder -= written_len *)
| MEnd (rem : N).                                   (* if (!remainder) md5_transform *)
Definition md5_ustep (garbage : option N) (c : md5_ctx) (p : mplace) : outcome (md5_ctx * option mplace) :=
  match p with
  | MTop [] wl => r <- match wl with Some w => Ret (N.of_nat w) | None => match garbage with Some v => Ret v | None => UB Indeterminate end end ;;
                  Ret (c, Some (MEnd r))
  | MTop rest wl =>
      let off := N.to_nat (u8 (N.land (block_len c) 0x3F)) in
      let wr := (64 - off)%nat in
      if Nat.ltb (length rest) wr then Ret (c, Some (MTail rest off (N.of_nat wr))) else Ret (c, Some (MCopy rest off wr))
  | MCopy rest off wr => blk <- blit (mblock c) off (firstn wr rest) ;; Ret (mkMd5 (mstate c) (block_len c) blk, Some (MCount rest wr))
  | MCount rest wr => Ret (mkMd5 (mstate c) (u64 (block_len c + N.of_nat wr)) (mblock c), Some (MTransform rest wr))
  | MTransform rest wr => Ret (mkMd5 (md5_transform (mstate c) (mblock c)) (block_len c) (mblock c), Some (MTop (skipn wr rest) (Some wr)))
  | MTail rest off rem => blk <- blit (mblock c) off rest ;; Ret (mkMd5 (mstate c) (block_len c) blk, Some (MTailCount (length rest) rem))
  | MTailCount n rem => Ret (mkMd5 (mstate c) (u64 (block_len c + N.of_nat n)) (mblock c), Some (MEnd (rem - N.of_nat n)))
  | MEnd rem => Ret (if rem =? 0 then mkMd5 (md5_transform (mstate c) (mblock c)) (block_len c) (mblock c) else c, None)
  end.
Definition md5_updater (garbage : option N) : updater := mkUpd md5_ctx mplace (fun p => MTop p None) (md5_ustep garbage).

(** keccak-backend.c 164-209, sha3-256.c 26: inp the whole input, i the bits consumed *)
Inductive kplace :=
| KStart (inp : list N)                                          (* if (bit_rem(ctx->inqueue_bits) || ctx->squeezing) return *)
| KLoop (inp : list N) (i : N)                                   (* loop condition, branch, whole_blocks or partial_block *)
| KBlocks (inp : list N) (n : nat) (data : list N) (i wb : N)    (* one call of absorb; n blocks to go *)
| KCopy (inp : list N) (i pb pbyte : N)                          (* memcpy(ctx->data_queue + to_byte(ctx->inqueue_bits), ...) *)
| KAdd (inp : list N) (i pb pbyte : N)                           (* ctx->inqueue_bits += partial_block; i += partial_block *)
| KFull (inp : list N) (i pbyte : N)                             (* if (ctx->inqueue_bits == ctx->rate) absorb_queue(ctx) *)
| KByte (inp : list N) (i pbyte : N).                            (* if (partial_byte) ... *)
Definition keccak_ustep (c : kctx) (p : kplace) : outcome (kctx * option kplace) :=
  match p with
  | KStart inp => Ret (c, if negb (inq c mod 8 =? 0) || squeezing c then None else Some (KLoop inp 0))
  | KLoop inp i =>
      let bl := u64 (8 * N.of_nat (length inp)) in
      if bl <=? i then Ret (c, None) else
      if (inq c =? 0) && (rate c <=? bl) && (i <=? bl - rate c) then
        let wb := (bl - i) / rate c in Ret (c, Some (KBlocks inp (N.to_nat wb) (skipn (N.to_nat (i / 8)) inp) i wb))
      else
        let pb := u32 (bl - i) in
        let pb := if rate c <? u32 (pb + inq c) then u32 (rate c + 2 ^ 32 - inq c) else pb in
        let pbyte := pb mod 8 in
        Ret (c, Some (KCopy inp i (pb - pbyte) pbyte))
  | KBlocks inp O _ i wb => Ret (c, Some (KLoop inp (u64 (i + wb * rate c))))
  | KBlocks inp (S n) data i wb =>
      st <- k_absorb (kst c) data (N.to_nat (rate c / 64)) (nr c) ;;
      Ret (kset c st (queue c) (inq c), Some (KBlocks inp n (skipn (N.to_nat (rate c / 8)) data) i wb))
  | KCopy inp i pb pbyte =>
      src <- grab (N.to_nat (pb / 8)) (skipn (N.to_nat (i / 8)) inp) ;;
      q <- blit (queue c) (N.to_nat (inq c / 8)) src ;; Ret (kset c (kst c) q (inq c), Some (KAdd inp i pb pbyte))
  | KAdd inp i pb pbyte => Ret (kset c (kst c) (queue c) (u32 (inq c + pb)), Some (KFull inp (i + pb) pbyte))
  | KFull inp i pbyte => c <- (if inq c =? rate c then absorb_queue c else Ret c) ;; Ret (c, Some (KByte inp i pbyte))
  | KByte inp i pbyte =>
      if pbyte =? 0 then Ret (c, Some (KLoop inp i))
      else
        b <- rd inp (N.to_nat (i / 8)) ;;
        q <- wr (queue c) (N.to_nat (inq c / 8)) (N.land b (u8 (N.shiftl 1 pbyte - 1))) ;;
        Ret (kset c (kst c) q (u32 (inq c + pbyte)), Some (KLoop inp (i + pbyte)))
  end.
Definition keccak_updater : updater := mkUpd kctx kplace KStart keccak_ustep.
