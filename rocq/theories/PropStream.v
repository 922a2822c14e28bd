(** Property theorems C70: files one read at a time (templates.h pgfe_*_encode_f). *)
From Coq Require Import String.
From Verif Require SFips202 SMd5 PropMd5.
From Verif Require Import Base SHex SFips180 SShaLib MSha MFront MFront2 MMd5 MKeccak SHash SKeccakFns SHashFns PShort SStream PropFront.
Local Open Scope N_scope.

(** the pieces that are hashed *)
Fixpoint taken (s : list (list N)) : list (list N) :=
  match s with
  | [] => [[]]
  | r :: s => if Nat.leb 1024 (length r) then r :: taken s else [r]
  end.
Lemma taken_concat s : concat (taken s) = delivered s.
Proof. induction s as [|r s IH]; [reflexivity|]. cbn [taken delivered]. destruct (Nat.leb 1024 (length r)); cbn [concat]; [rewrite IH|rewrite app_nil_r]; reflexivity. Qed.
Lemma bind_assoc {A B C} (x : outcome A) (f : A -> outcome B) (h : B -> outcome C) : bind (bind x f) h = bind x (fun a => bind (f a) h).
Proof. destruct x; reflexivity. Qed.
Lemma bind_ext {A B} (x : outcome A) (f h : A -> outcome B) : (forall a, f a = h a) -> bind x f = bind x h.
Proof. intros E. destruct x; cbn [bind]; auto. Qed.
Lemma read_loop_taken I : forall s c, read_loop I c s = (c <- updates I c (taken s) ;; Ret (c, rest s)).
Proof.
  induction s as [|r s IH]; intros c; cbn [read_loop taken rest].
  - cbn [updates]. rewrite bind_assoc. reflexivity.
  - destruct (Nat.leb 1024 (length r)); cbn [updates]; rewrite bind_assoc; apply bind_ext; intros c'; [apply IH|reflexivity].
Qed.
Lemma taken_ok (P : list N -> Prop) : (forall p, bytes_ok p -> p <> [] -> (length p <= 1024)%nat -> P p) ->
  forall s, fread_ok s -> Forall bytes_ok s -> P [] \/ (length (delivered s) mod 1024 <> 0)%nat -> Forall P (taken s).
Proof.
  intros HP. induction s as [|r s IH]; intros F B E; cbn [taken delivered] in *.
  - destruct E as [E|E]; [constructor; [exact E|constructor]|]. exfalso. apply E. reflexivity.
  - inversion F as [|? ? F1 F2]; subst. inversion B as [|? ? B1 B2]; subst.
    destruct (Nat.leb 1024 (length r)) eqn:L.
    + apply Nat.leb_le in L. constructor.
      * apply HP; [exact B1| |exact F1]. intros ->. cbn in L. lia.
      * apply IH; [exact F2|exact B2|]. destruct E as [E|E]; [left; exact E|right]. intros Z. apply E.
        assert (L1 : length r = 1024%nat) by lia. rewrite app_length, L1. replace (1024 + length (delivered s))%nat with (length (delivered s) + 1 * 1024)%nat by lia.
        rewrite Nat.mod_add by lia. exact Z.
    + constructor; [|constructor]. destruct r as [|b r]; [|apply HP; [exact B1|discriminate|exact F1]].
      destruct E as [E|E]; [exact E|exfalso; apply E; reflexivity].
Qed.
Lemma fread_bytes s : Forall bytes_ok s -> bytes_ok (delivered s).
Proof.
  induction 1 as [|r s B1 B2 IH]; [constructor|]. cbn [delivered]. destruct (Nat.leb 1024 (length r)); [|exact B1].
  apply Forall_app. split; assumption.
Qed.
Lemma encode_stream_streams I P T H g s out : streams I P T H -> (forall p, bytes_ok p -> p <> [] -> (length p <= 1024)%nat -> P p) ->
  typed I g -> fread_ok s -> Forall bytes_ok s -> T (delivered s) -> P [] \/ (length (delivered s) mod 1024 <> 0)%nat -> (idsz I <= length out)%nat ->
  encode_stream I g s out = Ret (H (delivered s) ++ skipn (idsz I) out, rest s).
Proof.
  intros S HP Hg F B HT E Lo. unfold encode_stream. rewrite read_loop_taken.
  destruct (S g (taken s) out Hg (taken_ok P HP s F B E)) as (c & c' & E1 & E2 & _); [rewrite taken_concat; exact HT|exact Lo|].
  rewrite taken_concat in E2. rewrite E1. cbn [bind]. rewrite E2. reflexivity.
Qed.

(** ** C70 *)
(** Whatever the reads deliver: the digest is that of the bytes up to and including the first short result, and that is
    how much of the stream is consumed. [P []]: as in C29 (MD5 and empty updates). *)
Theorem C70_stream_digest : forall I P T H, hash_fn I P T H ->
  forall g s out, typed I g -> fread_ok s -> Forall bytes_ok s -> T (delivered s) -> P [] \/ (length (delivered s) mod 1024 <> 0)%nat -> (idsz I <= length out)%nat ->
  encode_stream I g s out = Ret (H (delivered s) ++ skipn (idsz I) out, rest s).
Proof. intros I P T H K g s out. apply encode_stream_streams with (P := P) (T := T); [apply hash_streams; exact K|apply (pieces_hash _ _ _ _ K)]. Qed.
Print Assumptions C70_stream_digest.

Lemma reads_taken content s : reads_of content s -> taken s = file_pieces (length content) content /\ rest s = [] /\ delivered s = content.
Proof.
  assert (G : forall n content s, reads_of content s -> (length content <= n)%nat -> taken s = file_pieces n content /\ rest s = [] /\ delivered s = content).
  { clear content s. intros n c s R. revert n. induction R as [c L|r c s L R IH]; intros n Hn.
    - assert (E : Nat.leb 1024 (length c) = false) by (apply Nat.leb_gt; exact L).
      cbn [taken rest delivered]. rewrite E. split; [|auto]. destruct n; cbn [file_pieces]; [reflexivity|rewrite E; reflexivity].
    - assert (E : Nat.leb 1024 (length r) = true) by (apply Nat.leb_le; lia).
      rewrite app_length in Hn. destruct n as [|n]; [lia|]. cbn [taken rest delivered file_pieces]. rewrite E.
      replace (Nat.leb 1024 (length (r ++ c))) with true by (symmetry; apply Nat.leb_le; rewrite app_length; lia).
      destruct (IH n) as (E1 & E2 & E3); [lia|].
      rewrite <- L, firstn_app, firstn_all, Nat.sub_diag, firstn_O, app_nil_r, skipn_app, skipn_all, Nat.sub_diag, skipn_O. cbn [app].
      rewrite <- E1, E2, E3. auto. }
  intros R. apply G; [exact R|lia].
Qed.
(** a file read without errors: as if its content were known beforehand (C29), and the stream is at its end; every
    algorithm, every content *)
Theorem C70_file : forall I g content s out, reads_of content s ->
  encode_stream I g s out = omap (fun o => (o, [])) (encode_f I g content out).
Proof.
  intros I g content s out R. destruct (reads_taken _ _ R) as (E1 & E2 & _). unfold encode_stream, encode_f.
  rewrite read_loop_taken, E1, E2, file_loop_pieces by lia.
  destruct (updates I (iinit I g) (file_pieces (length content) content)) as [c| | ]; cbn [bind]; try reflexivity.
  destruct (idigest I c out) as [[c' o]| | ]; reflexivity.
Qed.
Print Assumptions C70_file.
(** a file on which reading fails after [n] bytes: exactly the result for the file cut there, so no caller can tell the
    two apart *)
Theorem C70_error_hidden : forall I g n content s out, fails_after n content s ->
  encode_stream I g s out = omap (fun o => (o, [])) (encode_f I g (firstn n content) out).
Proof. intros I g n content s out [_ R]. apply C70_file. exact R. Qed.
Print Assumptions C70_error_hidden.
(** such a result passes for the digest of the file only if the two digests collide *)
Theorem C70_error_digest : forall I P T H, hash_fn I P T H ->
  forall g n content s out o s', typed I g -> bytes_ok content -> T content -> T (firstn n content) -> P [] \/ (n mod 1024 <> 0)%nat -> (idsz I <= length out)%nat ->
  fails_after n content s -> encode_stream I g s out = Ret (o, s') ->
  firstn (idsz I) o = H (firstn n content) /\ (firstn (idsz I) o = H content <-> H (firstn n content) = H content).
Proof.
  intros I P T H K g n content s out o s' Hg B HT HT' E Lo [Ln R] X. rewrite (C70_file I g _ s out R) in X.
  assert (Lf : length (firstn n content) = n) by (apply firstn_length_le; exact Ln).
  assert (Bf : bytes_ok (firstn n content)).
  { unfold bytes_ok in *. rewrite <- (firstn_skipn n content) in B. apply Forall_app in B. apply B. }
  assert (Z : length (H (firstn n content)) = idsz I).
  { destruct (hash_streams _ _ _ _ K g (file_pieces (length (firstn n content)) (firstn n content)) out Hg) as (_ & _ & _ & _ & _ & Z);
      [|rewrite file_pieces_concat; exact HT'|exact Lo|rewrite file_pieces_concat in Z; exact Z].
    apply file_pieces_ok; [apply (pieces_hash _ _ _ _ K)|lia|exact Bf|rewrite Lf; exact E]. }
  rewrite (C29_file_is_message I P T H K) in X by (try assumption; rewrite Lf; exact E).
  cbn [omap] in X. assert (X' : o = H (firstn n content) ++ skipn (idsz I) out) by congruence. subst o.
  rewrite firstn_app, Z, Nat.sub_diag, firstn_O, app_nil_r, firstn_all2 by lia. split; [reflexivity|reflexivity].
Qed.
Print Assumptions C70_error_digest.
(** violation: a read error in the file "abc" after two bytes gives the digest of "ab", and nothing reports the error *)
Theorem C70_error_refuted : forall g, typed (sha_impl alg_sha1) g ->
  fails_after 2 (chars "abc") [chars "ab"] /\
  encode_stream (sha_impl alg_sha1) g [chars "ab"] (repeat 0 20) = Ret (SHA1 (chars "ab"), []) /\ SHA1 (chars "ab") <> SHA1 (chars "abc").
Proof.
  intros g Hg. split; [split; [cbn; lia|apply reads_last; cbn; lia]|]. split.
  - assert (E : lib_SHA1 (chars "ab") = SHA1 (chars "ab")) by (vm_compute; reflexivity).
    assert (F : fread_ok [chars "ab"]) by (constructor; [cbn; lia|constructor]).
    assert (B : Forall bytes_ok [chars "ab"]) by (constructor; [repeat constructor|constructor]).
    assert (T : bits_below 64 (delivered [chars "ab"])) by (unfold bits_below; cbn; lia).
    assert (P0 : int_piece []) by (split; [constructor|cbn; lia]).
    pose proof (C70_stream_digest _ _ _ _ hf_sha1 g [chars "ab"] (repeat 0 20) Hg F B T (or_introl P0) ltac:(cbn; lia)) as Q.
    change (delivered [chars "ab"]) with (chars "ab") in Q. change (skipn (idsz (sha_impl alg_sha1)) (repeat 0 20)) with (@nil N) in Q.
    rewrite app_nil_r, E in Q. exact Q.
  - intros E. apply (f_equal (fun l => nth 0 l 0)) in E. vm_compute in E. discriminate.
Qed.
Print Assumptions C70_error_refuted.

(** ** Non-vacuity *)
Example C70_nonvacuous : reads_of (repeat 97 1500) [repeat 97 1024; repeat 97 476] /\ fails_after 1024 (repeat 97 1500) [repeat 97 1024; []] /\
  fread_ok [repeat 97 1024; []; chars "later"] /\ delivered [repeat 97 1024; []; chars "later"] = repeat 97 1024 /\ rest [repeat 97 1024; []; chars "later"] = [chars "later"] /\
  bits_below 64 (repeat 97 1024) /\ typed (sha_impl alg_sha256) used_ctx.
Proof.
  split; [|split; [|split; [|split; [|split; [|split]]]]].
  - change (repeat 97 1500) with (repeat 97 1024 ++ repeat 97 476). constructor; [apply repeat_length|]. constructor. rewrite repeat_length. apply Nat.ltb_lt. reflexivity.
  - split; [rewrite repeat_length; apply Nat.leb_le; reflexivity|]. change (firstn 1024 (repeat 97 1500)) with (repeat 97 1024 ++ @nil N). constructor; [apply repeat_length|]. constructor. cbn. lia.
  - constructor; [rewrite repeat_length; apply Nat.leb_le; reflexivity|]. constructor; [cbn; lia|]. constructor; [cbn; lia|constructor].
  - reflexivity.
  - reflexivity.
  - unfold bits_below. rewrite repeat_length. reflexivity.
  - reflexivity.
Qed.
