(** Property theorems C17, C18: MD5. The RFC function is in SMd5.v, [streams] in SHash.v. *)
From Coq Require Import String.
From Verif Require Import Base SHex SFips180 SMd5 MSha MFront MMd5 SHash PWords PSha PShaInst PMd5.
Local Open Scope N_scope.

(** ** C17: any message in non-empty pieces, no length limit; the value read from the
    uninitialised variable is irrelevant ([garbage] arbitrary, or [None]: reading it would be undefined) *)
Theorem C17_md5_rfc1321 : forall garbage,
  streams (md5_impl garbage) (fun p => bytes_ok p /\ p <> []) (fun _ => True) MD5.
Proof.
  intros g0 g ps out Hg HP _ Ho. 
  destruct (md5_updates_fed g0 ps [] (md5_init g)) as (c & E & Hf).
  { apply fedm_init. exact Hg. }
  { eapply Forall_impl; [|exact HP]. intros p [_ H]. exact H. }
  assert (B : bytes_ok (concat ps)).
  { clear -HP. induction HP as [|p ps [Hp _] _ IH]; cbn; [constructor|apply Forall_app; auto]. }
  destruct (md5_digest_fed g0 _ c out Hf B Ho) as (c' & Ed & L & L16). exists c, c'. auto.
Qed.

(** ** C18: zero-length updates *)
Lemma update_empty garbage c : md5_update garbage c [] =
  match garbage with
  | None => UB Indeterminate
  | Some v => if v =? 0 then Ret (mkMd5 (md5_transform (mstate c) (mblock c)) (block_len c) (mblock c)) else Ret c
  end.
Proof. destruct garbage as [v|]; reflexivity. Qed.

Theorem C18_empty_update_undefined : forall c, md5_update None c [] = UB Indeterminate.
Proof. reflexivity. Qed.
Theorem C18_empty_update_zero : forall c, length (mstate c) = 4%nat -> length (mblock c) = 64%nat -> bytes_ok (mblock c) ->
  md5_update (Some 0) c [] = Ret (mkMd5 (md5_compress (mstate c) (mblock c)) (block_len c) (mblock c)).
Proof. intros c H1 H2 H3. rewrite update_empty, md5_transform_eq by assumption. reflexivity. Qed.
Theorem C18_empty_update_nonzero : forall c v, v <> 0 -> md5_update (Some v) c [] = Ret c.
Proof. intros c v Hv. rewrite update_empty. apply N.eqb_neq in Hv. rewrite Hv. reflexivity. Qed.

(** when the garbage happens not to be 0, empty pieces are harmless *)
Theorem C18_streams_nonzero : forall v, v <> 0 -> streams (md5_impl (Some v)) bytes_ok (fun _ => True) MD5.
Proof.
  intros v Hv g ps out Hg HP HT Ho.
  set (qs := filter (fun p => match p with [] => false | _ => true end) ps).
  assert (Q : forall c, updates (md5_impl (Some v)) c ps = updates (md5_impl (Some v)) c qs /\ concat ps = concat qs).
  { clear -Hv. unfold qs. induction ps as [|p ps IH]; intros c; [auto|]. cbn [filter]. destruct p as [|x p].
    - cbn [updates concat app]. change (iupdate (md5_impl (Some v))) with (md5_update (Some v)).
      rewrite C18_empty_update_nonzero by exact Hv. cbn [bind]. apply IH.
    - cbn [updates concat]. split; [|f_equal; apply (IH c)]. destruct (iupdate (md5_impl (Some v)) c (x :: p)) as [c'| |]; try reflexivity. cbn [bind]. apply IH. }
  destruct (Q (iinit (md5_impl (Some v)) g)) as [-> ->].
  apply (C17_md5_rfc1321 (Some v)); auto.
  unfold qs. clear -HP. induction HP as [|p ps Hp _ IH]; [constructor|]. cbn [filter]. destruct p; [exact IH|]. constructor; [split; [exact Hp|discriminate]|exact IH].
Qed.

(** one-shot hashing of the empty message, and of any file whose size is a multiple of 1024, is undefined *)
Theorem C18_empty_message_undefined : forall g out, encode (md5_impl None) g [] out = UB Indeterminate.
Proof. reflexivity. Qed.
Theorem C18_file_undefined : forall g content out k, typed (md5_impl None) g ->
  length content = (1024 * k)%nat -> encode_f (md5_impl None) g content out = UB Indeterminate.
Proof.
  intros g content out k Hg Hl. unfold encode_f.
  assert (G : forall fuel c m content k, (length content < fuel)%nat -> fedm m c -> length content = (1024 * k)%nat ->
    file_loop fuel (md5_impl None) c content = UB Indeterminate).
  { clear. induction fuel as [|fuel IH]; intros c m content k HF Hf Hl; [lia|]. cbn [file_loop].
    destruct k as [|k].
    - destruct content; [reflexivity|discriminate].
    - set (u := firstn 1024 content). assert (LU : length u = 1024%nat) by (unfold u; rewrite firstn_length; lia).
      destruct (md5_update_fed None c u m Hf) as (c' & E & Hf'); [intros C; rewrite C in LU; discriminate|].
      change (iupdate (md5_impl None)) with (md5_update None). rewrite E. cbn [bind]. rewrite LU, Nat.leb_refl.
      apply (IH c' (m ++ u) _ k); auto; rewrite skipn_length; lia. }
  rewrite (G _ _ [] content k); auto. apply fedm_init. exact Hg.
Qed.
(** with garbage 0 the result is wrong: a context whose block is all zero gives another value than the RFC *)
Theorem C18_empty_message_violation : exists g d, typed (md5_impl (Some 0)) g /\
  encode (md5_impl (Some 0)) g [] (repeat 0 16) = Ret d /\ d <> MD5 [].
Proof.
  exists (mkMd5 [] 0 (repeat 0 64)). eexists. split; [reflexivity|]. split; [vm_compute; reflexivity|].
  intros C. apply (f_equal (hd 0)) in C. revert C. vm_compute. discriminate.
Qed.

(** ** Non-vacuity *)
Example md5_run : forall b, length b = 64%nat ->
  (c <- updates (md5_impl None) (iinit (md5_impl None) (mkMd5 [1] 5 b)) [chars "ab"; chars "c"] ;; omap snd (idigest (md5_impl None) c (repeat 7 17)))
  = Ret (be_bytes 16 0x900150983cd24fb0d6963f7d28e17f72 ++ [7]).
Proof.
  intros b Hb. destruct (C17_md5_rfc1321 None (mkMd5 [1] 5 b) [chars "ab"; chars "c"] (repeat 7 17) Hb) as (c & c' & E1 & E2 & _).
  - repeat (constructor; [split; [repeat (constructor; [reflexivity|]); constructor|discriminate]|]). constructor.
  - exact Logic.I.
  - cbn. lia.
  - rewrite E1. cbn [bind]. rewrite E2. vm_compute. reflexivity.
Qed.
Example file_sizes : length (repeat 0 2048) = (1024 * 2)%nat. Proof. reflexivity. Qed.

Print Assumptions C17_md5_rfc1321.
Print Assumptions C18_empty_update_undefined.
Print Assumptions C18_empty_update_zero.
Print Assumptions C18_empty_update_nonzero.
Print Assumptions C18_streams_nonzero.
Print Assumptions C18_empty_message_undefined.
Print Assumptions C18_file_undefined.
Print Assumptions C18_empty_message_violation.
