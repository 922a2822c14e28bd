(** C93: digests as text. Everything here is about the modelled calls of MHashEnc.v, MSeqData.v, MUtils.v and MBase.v used one after the other. *)
From Coq Require Import String.
From Verif Require SFips202 SMd5.
From Verif Require Import Base SRfc4648 MBase PBase MSha SHash SKeccakFns SFips180 SHex MUtils PUtils PropHex MFront MKeccak MHmac PHmac SHashFns MHashEnc SHashEnc PHashEnc PropHashEnc SSeqData MSeqData PropSeqData.
From Verif Require PropBase.
Local Open Scope N_scope.

(** ** Facts *)
Lemma std_digest_bytes a n m : bytes_ok (std_digest a n m).
Proof.
  destruct a; cbn [std_digest].
  all: try apply sha3_bytes; try apply bytes_of_ok; try apply flat_le_ok; try apply flat_be_ok; try (apply firstn_ok, flat_be_ok).
Qed.
Lemma std_digest_len a ps : Forall (piece_ok a) ps -> message_ok a (concat ps) -> message_std a (concat ps) ->
  length (std_digest a (N.to_nat (size_digest a)) (concat ps)) = N.to_nat (size_digest a).
Proof.
  intros HP HT HS. rewrite <- lib_std by exact HS. destruct (C57_sizes_used (Some 0) a) as [_ L]. apply (L (dirty_memory a) ps); try assumption. apply dirty_ok.
Qed.
Lemma hex_text_same x y : bytes_ok x -> bytes_ok y -> hex_text x = hex_text y -> x = y.
Proof.
  intros Bx By E. pose proof (f_equal (@length N) E) as L. rewrite !hex_text_length in L. destruct x as [|b x].
  { destruct y; [reflexivity|cbn [length] in L; lia]. }
  assert (NE : b :: x <> []) by discriminate. assert (NEy : y <> []) by (destruct y; [cbn [length] in L; lia|discriminate]).
  pose proof (C56_hex_round_trip (b :: x) (repeat 0 (length (b :: x) + 1)) Bx NE ltac:(rewrite repeat_length; lia)) as R1.
  pose proof (C56_hex_round_trip y (repeat 0 (length (b :: x) + 1)) By NEy ltac:(rewrite repeat_length; lia)) as R2.
  rewrite E in R1. rewrite R1 in R2. injection R2 as R2. exact R2.
Qed.

(** an encoder of some program, by its number: fed [ps] with algorithm [a] since it was made or last reset *)
Definition fed (garbage : option N) (ops : list he_op) (s : he_state) (i : nat) (a : alg_choice) (ps : list (list N)) : Prop :=
  Forall op_memory_ok ops /\ he_run garbage he_start ops = Ret s /\ nth_error (spec_run ops) i = Some (Feeding a ps) /\
  Forall (piece_ok a) ps /\ message_ok a (concat ps) /\ message_std a (concat ps).
(** the standard's digest of a message, of the size of the library's *)
Definition digest_of (a : alg_choice) (m : list N) : list N := std_digest a (N.to_nat (size_digest a)) m.

(** C93: get_digest(8 * size), hex_str: the hexadecimal text of the standard's digest of the data, two characters a byte; from_hex_string gives the digest back,
    and so does pgfe_hash_from_hex_str for the text in any letter case, with or without 0x in front and h behind. *)
Theorem C93_hex_text : forall garbage ops s i a ps junk, fed garbage ops s i a ps ->
  exists s' d, he_step garbage s (OpDigest i (8 * size_digest a) junk) = Ret s' /\ s_res s' = d :: s_res s /\ d = digest_of a (concat ps) /\
    length (hex_text d) = (2 * N.to_nat (size_digest a))%nat /\
    (forall g, (2 * length d + 1 <= length g)%nat -> hex_str d g = Ret (hex_text d)) /\
    (forall g, (length d + 1 <= length g)%nat -> from_hex_str (hex_text d) g = Ret d) /\
    forall t pre suf p xc hc tail out, same_upto_case (hex_text d) t -> In xc (chars "xX") -> In hc (chars "hH") -> (length d <= length out)%nat ->
      from_hex (affixed pre suf p xc hc t) tail out = Ret (length d, d ++ skipn (length d) out).
Proof.
  intros garbage ops s i a ps junk (M & R & G & HP & HT & HS).
  destruct (C55_digest garbage ops s i a ps junk M R G HP HT HS) as (s' & E & F). exists s', (digest_of a (concat ps)).
  pose proof (std_digest_bytes a (N.to_nat (size_digest a)) (concat ps)) as Hb. pose proof (std_digest_len a ps HP HT HS) as Hl. fold (digest_of a (concat ps)) in *.
  assert (NE : digest_of a (concat ps) <> []) by (intros C; rewrite C in Hl; destruct a; discriminate Hl).
  split; [exact E|]. split; [exact F|]. split; [reflexivity|]. split; [rewrite hex_text_length, Hl; reflexivity|].
  split; [intros g L; apply C56_hex_str; assumption|]. split; [intros g L; apply C56_hex_round_trip; assumption|].
  intros. apply C01_hex_round_trip; assumption.
Qed.
(** C93: comparing two such texts is comparing the digests, whatever the two encoders went through *)
Theorem C93_same_text : forall garbage ops s i a ps junk garbage' ops' s' i' a' ps' junk', fed garbage ops s i a ps -> fed garbage' ops' s' i' a' ps' ->
  exists t t' d d', he_step garbage s (OpDigest i (8 * size_digest a) junk) = Ret t /\ s_res t = d :: s_res s /\
    he_step garbage' s' (OpDigest i' (8 * size_digest a') junk') = Ret t' /\ s_res t' = d' :: s_res s' /\
    forall g g', (2 * length d + 1 <= length g)%nat -> (2 * length d' + 1 <= length g')%nat ->
      (hex_str d g = hex_str d' g' <-> digest_of a (concat ps) = digest_of a' (concat ps')).
Proof.
  intros garbage ops s i a ps junk garbage' ops' s' i' a' ps' junk' H H'.
  destruct (C93_hex_text _ _ _ _ _ _ junk H) as (t & d & E & F & D & _ & X & _). destruct (C93_hex_text _ _ _ _ _ _ junk' H') as (t' & d' & E' & F' & D' & _ & X' & _).
  exists t, t', d, d'. split; [exact E|]. split; [exact F|]. split; [exact E'|]. split; [exact F'|]. intros g g' L L'. rewrite (X g L), (X' g' L'), D, D'. split.
  - intros Q. injection Q as Q. apply hex_text_same in Q; [exact Q| |]; apply std_digest_bytes.
  - intros ->. reflexivity.
Qed.

(** C93: the digest through one of the base encodings comes back exactly if it has no zero byte in the final unit of the encoding (1, 5 or 3 bytes, or what is left for it) *)
Theorem C93_base_text : forall garbage ops s i a ps junk b, fed garbage ops s i a ps ->
  exists s' d, he_step garbage s (OpDigest i (8 * size_digest a) junk) = Ret s' /\ s_res s' = d :: s_res s /\ d = digest_of a (concat ps) /\
    forall st buf, PropBase.slack b st -> (length (lib_text (PropBase.coding b) d) < length buf)%nat ->
    exists n text, PropBase.encode b st d buf = Ret (n, text) /\
      forall dst, (octets (PropBase.coding b) * ((length d + octets (PropBase.coding b) - 1) / octets (PropBase.coding b)) + 1 <= length dst)%nat ->
      exists m back, PropBase.decode b (upto_nul text) dst = Ret (m, back) /\
        (firstn m back = d <-> ~ In 0 (skipn (before_last (PropBase.coding b) d) d)).
Proof.
  intros garbage ops s i a ps junk b H. destruct (C93_hex_text _ _ _ _ _ _ junk H) as (s' & d & E & F & D & L & _).
  exists s', d. split; [exact E|]. split; [exact F|]. split; [exact D|].
  assert (Hb : bytes_ok d) by (rewrite D; apply std_digest_bytes).
  assert (NE : d <> []) by (intros C; rewrite C in L; destruct a; discriminate L).
  intros st buf Hs Lb. pose proof (PropBase.C06_encode_text b st d buf Hs Hb Lb) as EE.
  eexists _, _. split; [exact EE|]. intros dst Ld. apply (PropBase.C08_round_trip b st d buf _ _ dst Hs NE Hb EE Lb Ld).
Qed.
(** C93, violation: the SHA-1 digest of the text 25 ends with a zero byte. Through each of the five encodings, Base16 included, it comes back shorter. *)
Theorem C93_base_text_refuted : forall garbage ops s i ps junk b, fed garbage ops s i A_SHA1 ps -> concat ps = chars "25" ->
  exists s' d, he_step garbage s (OpDigest i 160 junk) = Ret s' /\ s_res s' = d :: s_res s /\ d = be_bytes 20 0xf6e1126cedebf23e1463aee73f9df08783640400 /\
    forall st buf n text dst m back, PropBase.slack b st -> (40 < length buf)%nat -> PropBase.encode b st d buf = Ret (n, text) ->
      (22 <= length dst)%nat -> PropBase.decode b (upto_nul text) dst = Ret (m, back) -> firstn m back <> d.
Proof.
  intros garbage ops s i ps junk b H Hm. destruct (C93_base_text _ _ _ _ _ _ junk b H) as (s' & d & E & F & D & K).
  assert (V : d = be_bytes 20 0xf6e1126cedebf23e1463aee73f9df08783640400) by (rewrite D, Hm; vm_compute; reflexivity). clear D.
  exists s', d. split; [exact E|]. split; [exact F|]. split; [exact V|]. intros st buf n text dst m back Hs Lb En Ld De.
  assert (L1 : (length (lib_text (PropBase.coding b) d) < length buf)%nat).
  { eapply Nat.le_lt_trans; [|exact Lb]. apply Nat.leb_le. rewrite V. destruct b; vm_compute; reflexivity. }
  destruct (K st buf Hs L1) as (n' & text' & En' & K'). rewrite En in En'. injection En' as <- <-.
  destruct (K' dst) as (m' & back' & De' & Q).
  { eapply Nat.le_trans; [|exact Ld]. apply Nat.leb_le. rewrite V. destruct b; vm_compute; reflexivity. }
  rewrite De in De'. injection De' as <- <-. intros C. apply Q in C. apply C. rewrite V. destruct b; vm_compute; tauto.
Qed.

(** Non-vacuity: two encoders in memory with leftovers; both were used before *)
Definition text_program : list he_op :=
  [OpNew A_SHA1 raw0 (Some dirty_memory); OpUpdate 0 (chars "xyz"); OpNew A_SHAKE128 raw0 (Some dirty_memory); OpUpdate 1 (chars "abc"); OpReset 0 (Some dirty_memory); OpUpdate 0 (chars "2"); OpUpdate 0 (chars "5")].
Definition text_state : outcome he_state := he_run (Some 0) he_start text_program.
Example C93_hyps : exists s, fed (Some 0) text_program s 0 A_SHA1 [chars "2"; chars "5"] /\ fed (Some 0) text_program s 1 A_SHAKE128 [chars "abc"].
Proof.
  assert (M : Forall op_memory_ok text_program) by (unfold text_program; repeat (apply Forall_cons || apply Forall_nil); cbn [op_memory_ok]; try exact Logic.I; apply dirty_ok).
  destruct (C55_total (Some 0) text_program M) as [s R].
  - unfold text_program. cbn -[chars dirty_memory]. repeat split; try (unfold int_piece, keccak_piece, bits_below; vm_compute; reflexivity); try (apply small_bytes; vm_compute; reflexivity); try discriminate.
  - exists s. split; (split; [exact M|]; split; [exact R|]; split; [vm_compute; reflexivity|]); split.
    + repeat constructor; unfold int_piece; vm_compute; reflexivity.
    + split; [unfold message_ok, bits_below; vm_compute; reflexivity|unfold message_std, leaves_room; vm_compute; lia].
    + constructor; [|constructor]. split; [apply small_bytes; reflexivity|vm_compute; discriminate].
    + split; exact Logic.I.
Qed.
(** what the program gets: the SHA-1 digest as hexadecimal text, and through Base64 text only 19 of its 20 bytes *)
Example C93_case : (s <- text_state ;; s <- he_step (Some 0) s (OpDigest 0 160 (fun _ => 7)) ;; match s_res s with d :: _ => hex_str d (repeat 7 50) | [] => Hang end) =
    Ret (chars "f6e1126cedebf23e1463aee73f9df08783640400") /\
  ('(_, text) <- PropBase.encode PropBase.B64 PropBase.wide (digest_of A_SHA1 (chars "25")) (repeat 7 60) ;; omap fst (PropBase.decode PropBase.B64 (upto_nul text) (repeat 7 60))) = Ret 19%nat /\
  PropBase.slack PropBase.B64 PropBase.wide.
Proof. split; [vm_compute; reflexivity|]. split; [vm_compute; reflexivity|]. apply PropBase.C06_nonvacuous. Qed.

Print Assumptions C93_hex_text.
Print Assumptions C93_same_text.
Print Assumptions C93_base_text.
Print Assumptions C93_base_text_refuted.
