(** Property theorem C79: length extension. *)
From Coq Require Import String.
From Verif Require SMd5 PMd5 PShaInst PropSha PropMd5 PropFront PropMerkle.
From Verif Require Import Base SHex SFips180 SShaLib MSha MFront MMd5 SHash SHashFns PWords PSha PMerkle SExtend.
Local Open Scope N_scope.

(** what the table promises *)
Record continues (A : iter) (iv : list N) (k : nat) : Prop := mkContinues {
  co_block : (0 < it_block A)%nat; co_field : (1 + it_field A <= it_block A)%nat; co_field2 : (2 * it_field A <= it_block A)%nat;
  co_word : (0 < it_word A)%nat;
  co_len : forall n v, length (it_bytes A n v) = n;
  co_val : forall v, v < 2 ^ (8 * N.of_nat (it_word A)) -> it_value A (it_bytes A (it_word A) v) = v;
  co_words : forall s b, length s = k -> words_ok (8 * N.of_nat (it_word A)) k (it_compress A s b);
  co_iv : length iv = k;
  co_pad : it_pad A = padded \/ it_pad A = lib_padded;
  co_size : idsz (it_code A) = (it_word A * k)%nat;
  co_stream : streams (it_code A) (it_piece A) (it_total A)
    (fun m => flat_map (it_bytes A (it_word A)) (fold_left (it_compress A) (pieces (it_block A) (padded_by A m)) iv)) }.

Lemma le_value_bytes4 v : v < 2 ^ 32 -> SMd5.le_value (SMd5.le_bytes 4 v) = v.
Proof. intros L. rewrite le_bytes_value. apply N.mod_small. exact L. Qed.
Lemma be_value_bytes k v : v < 2 ^ (8 * N.of_nat k) -> be_value (be_bytes k v) = v.
Proof. intros L. rewrite be_bytes_value. apply N.mod_small. rewrite pow256. exact L. Qed.

Lemma table_continues A : extendable A -> exists iv k, continues A iv k.
Proof.
  intros [g| | |].
  - exists SMd5.md5_IV, 4%nat. constructor; cbn [iter_md5 it_block it_field it_word it_bytes it_value it_compress it_pad it_code it_piece it_total]; try lia.
    + apply PMd5.le_bytes_length.
    + apply le_value_bytes4.
    + apply PropMerkle.md5_comp_words.
    + reflexivity.
    + left; reflexivity.
    + reflexivity.
    + apply PropMd5.C17_md5_rfc1321.
  - exists sha1_IV, 5%nat. constructor; cbn [iter_sha1 it_block it_field it_word it_bytes it_value it_compress it_pad it_code it_piece it_total]; try lia.
    + apply be_bytes_length.
    + apply (be_value_bytes 4).
    + apply PropMerkle.sha1_comp_words.
    + reflexivity.
    + right; reflexivity.
    + reflexivity.
    + apply PropSha.C19_sha1_exact.
  - exists IV_256, 8%nat. constructor; cbn [iter_sha256 it_block it_field it_word it_bytes it_value it_compress it_pad it_code it_piece it_total]; try lia.
    + apply be_bytes_length.
    + apply (be_value_bytes 4).
    + apply (PropMerkle.sha2_comp_words sha2_32).
    + vm_compute; reflexivity.
    + right; reflexivity.
    + reflexivity.
    + eapply (PropSha.streams_weaken (sha_impl alg_sha256)); [|apply PropSha.C20_sha256_exact]. intros m T. split; [exact T|].
      unfold lib_sha2_hash. rewrite firstn_all2; [reflexivity|]. rewrite (PropMerkle.flat_len 4) by apply be_bytes_length.
      change (4 * length (lib_iterate 64 8 (be_bytes 8) (sha2_compress sha2_32) IV_256 m) <= 32)%nat.
      enough (words_ok 32 8 (lib_iterate 64 8 (be_bytes 8) (sha2_compress sha2_32) IV_256 m)) as [-> _] by lia.
      apply PropMerkle.fold_snoc_words; [vm_compute; reflexivity|apply (PropMerkle.sha2_comp_words sha2_32)|apply PropMerkle.blocks_nonempty; lia].
  - exists IV_512, 8%nat. constructor; cbn [iter_sha512 it_block it_field it_word it_bytes it_value it_compress it_pad it_code it_piece it_total]; try lia.
    + apply be_bytes_length.
    + apply (be_value_bytes 8).
    + apply (PropMerkle.sha2_comp_words sha2_64).
    + vm_compute; reflexivity.
    + right; reflexivity.
    + reflexivity.
    + eapply (PropSha.streams_weaken (sha_impl alg_sha512)); [|apply PropSha.C21_sha512_exact]. intros m T. split; [exact T|].
      unfold lib_sha2_hash. rewrite firstn_all2; [reflexivity|]. rewrite (PropMerkle.flat_len 8) by apply be_bytes_length.
      change (8 * length (lib_iterate 128 16 (be_bytes 16) (sha2_compress sha2_64) IV_512 m) <= 64)%nat.
      enough (words_ok 64 8 (lib_iterate 128 16 (be_bytes 16) (sha2_compress sha2_64) IV_512 m)) as [-> _] by lia.
      apply PropMerkle.fold_snoc_words; [vm_compute; reflexivity|apply (PropMerkle.sha2_comp_words sha2_64)|apply PropMerkle.blocks_nonempty; lia].
Qed.

(** padding behind whole blocks *)
Lemma mod_blocks bs n l : (0 < bs)%nat -> ((n * bs + l) mod bs = l mod bs)%nat.
Proof. intros B. rewrite Nat.add_comm. apply Nat.mod_add. lia. Qed.
Lemma pad_behind bs lb enc (pad : nat -> nat -> (N -> list N) -> list N -> list N) p x n : (0 < bs)%nat -> pad = padded \/ pad = lib_padded -> length p = (n * bs)%nat ->
  pad bs lb enc (p ++ x) = p ++ pad bs lb (fun _ => enc (8 * N.of_nat (length p + length x))) x.
Proof.
  intros B K L.
  assert (Z : pad_zeros bs lb (length p + length x) = pad_zeros bs lb (length x)).
  { unfold pad_zeros. rewrite L, mod_blocks by exact B. reflexivity. }
  assert (Q : padded bs lb enc (p ++ x) = p ++ padded bs lb (fun _ => enc (8 * N.of_nat (length p + length x))) x).
  { unfold padded. rewrite app_length, Z, <- app_assoc. reflexivity. }
  destruct K as [-> | ->]; [exact Q|].
  unfold lib_padded, fits. rewrite !app_length.
  assert (M : ((length p + length x) mod bs = length x mod bs)%nat) by (rewrite L; apply mod_blocks; exact B). rewrite !M.
  destruct (Nat.leb _ _); [exact Q|].
  assert (U : last_part bs (p ++ x) = last_part bs x).
  { unfold last_part. rewrite app_length, L. replace (n * bs + length x)%nat with (length x + n * bs)%nat by lia. rewrite Nat.div_add by lia.
    rewrite Nat.mul_add_distr_l, (Nat.mul_comm bs n), <- L.
    rewrite skipn_app. replace (bs * (length x / bs) + length p - length p)%nat with (bs * (length x / bs))%nat by (symmetry; apply Nat.add_sub).
    rewrite skipn_all2 by apply Nat.le_add_l. reflexivity. }
  rewrite U, <- app_assoc. reflexivity.
Qed.
Lemma pad_whole bs lb enc (pad : nat -> nat -> (N -> list N) -> list N -> list N) m : pad = padded \/ pad = lib_padded ->
  (forall v, length (enc v) = lb) -> (1 + lb <= bs)%nat -> (2 * lb <= bs)%nat -> exists n, (0 < n)%nat /\ length (pad bs lb enc m) = (n * bs)%nat.
Proof. intros [-> | ->] E B B2; [apply padded_blocks|apply lib_padded_whole]; assumption. Qed.
Lemma lib_padded_length bs lb enc m : (forall v, length (enc v) = lb) -> (1 + lb <= bs)%nat -> length (lib_padded bs lb enc m) = length (padded bs lb enc m).
Proof.
  intros E B. unfold lib_padded. destruct (fits bs lb m) eqn:X; [reflexivity|].
  unfold fits in X. apply Nat.leb_gt in X. unfold padded, last_part, pad_zeros.
  rewrite !app_length, !repeat_length, !E, firstn_length, skipn_length. cbn [length].
  pose proof (Nat.div_mod_eq (length m) bs) as D. pose proof (Nat.mod_upper_bound (length m) bs ltac:(lia)) as R.
  set (q := (length m / bs)%nat) in *. set (r := (length m mod bs)%nat) in *. clearbody q r.
  rewrite (Nat.mod_small (2 * bs - r - 1 - lb)) by lia. lia.
Qed.
Lemma padded_by_length A m : (it_pad A = padded \/ it_pad A = lib_padded) -> (forall n v, length (it_bytes A n v) = n) -> (1 + it_field A <= it_block A)%nat ->
  length (padded_by A m) = (length m + length (glue A (length m)))%nat.
Proof.
  intros K L B. unfold padded_by, glue.
  assert (Q : length (padded (it_block A) (it_field A) (it_bytes A (it_field A)) m) = (length m + length (0x80%N :: repeat 0%N (pad_zeros (it_block A) (it_field A) (length m)) ++ it_bytes A (it_field A) (8 * N.of_nat (length m))))%nat).
  { unfold padded. rewrite !app_length. cbn [length]. rewrite !app_length. reflexivity. }
  destruct K as [-> | ->]; [exact Q|]. rewrite lib_padded_length by auto. exact Q.
Qed.

(** the words of the bytes of words *)
Lemma words_back k (enc : N -> list N) (val : list N -> N) s : (0 < k)%nat -> (forall v, length (enc v) = k) ->
  Forall (fun v => val (enc v) = v) s -> map val (pieces k (flat_map enc s)) = s.
Proof.
  intros K L F. rewrite flat_map_concat_map, pieces_full; [|exact K|apply Forall_forall; intros b Hb; apply in_map_iff in Hb; destruct Hb as (v & <- & _); apply L].
  rewrite map_map. induction F as [|v s E F IH]; [reflexivity|]. cbn [map]. rewrite E, IH. reflexivity.
Qed.

(** C79: from the digest and the length of any message m, the digest of the padded m followed by any x is computed without knowing m *)
Theorem C79_extension : forall A, extendable A ->
  forall g ps out d g' ps' out' x, typed (it_code A) g -> typed (it_code A) g' -> Forall (it_piece A) ps -> Forall (it_piece A) ps' ->
  it_total A (concat ps) -> it_total A (concat ps') -> (idsz (it_code A) <= length out)%nat -> (idsz (it_code A) <= length out')%nat ->
  concat ps' = padded_by A (concat ps) ++ x ->
  hash_run (it_code A) g ps out = Ret d ->
  hash_run (it_code A) g' ps' out' = Ret (extension A (firstn (idsz (it_code A)) d) (length (concat ps)) x ++ skipn (idsz (it_code A)) out').
Proof.
  intros A HA g ps out d g' ps' out' x Hg Hg' HP HP' HT HT' Ho Ho' E R.
  destruct (table_continues A HA) as (iv & k & K). destruct K as [B0 B1 B2 W0 L V W Liv KP S H].
  rewrite (PropFront.run_streams _ _ _ _ g ps out H Hg HP HT Ho) in R. apply PropMerkle.ret_same in R. subst d.
  rewrite (PropFront.run_streams _ _ _ _ g' ps' out' H Hg' HP' HT' Ho').
  destruct (H g ps out Hg HP HT Ho) as (_ & _ & _ & _ & _ & Ld). cbv beta in Ld |- *.
  set (m := concat ps) in *. rewrite E. clear E. f_equal. f_equal.
  rewrite firstn_app, Ld, Nat.sub_diag, firstn_O, app_nil_r, firstn_all2 by lia.
  destruct (pad_whole (it_block A) (it_field A) (it_bytes A (it_field A)) (it_pad A) m KP (L _) B1 B2) as (n & Hn & Lm).
  fold (padded_by A m) in Lm.
  unfold extension. cbv zeta. unfold padded_by at 1. rewrite (pad_behind _ _ _ (it_pad A) (padded_by A m) x n B0 KP Lm).
  rewrite (padded_by_length A m KP L B1).
  destruct (pieces_mult (it_block A) B0 _ n Lm) as (F1 & C1 & N1).
  rewrite <- C1 at 1. rewrite pieces_concat by assumption. rewrite fold_left_app. do 2 f_equal.
  symmetry. apply words_back; [exact W0|apply L|].
  assert (Q : words_ok (8 * N.of_nat (it_word A)) k (fold_left (it_compress A) (pieces (it_block A) (padded_by A m)) iv)).
  { apply PropMerkle.fold_snoc_words; [exact Liv|exact W|]. intros X. rewrite X in N1. cbn in N1. lia. }
  destruct Q as [_ Q]. eapply Forall_impl; [|exact Q]. intros v Hv. apply V. exact Hv.
Qed.
Print Assumptions C79_extension.

(** the padding depends on the length alone (so that x can be appended without knowing m): always for MD5; for SHA-1 and SHA-2 if the last
    block has room for 0x80 and the length *)
Theorem C79_glue : forall A m, extendable A -> (exists g, A = iter_md5 g) \/ fits (it_block A) (it_field A) m = true ->
  padded_by A m = m ++ glue A (length m).
Proof.
  intros A m HA K. assert (Q : padded (it_block A) (it_field A) (it_bytes A (it_field A)) m = m ++ glue A (length m)) by reflexivity.
  destruct HA as [g| | |]; [exact Q| | |]; (destruct K as [(g & K)|K]; [discriminate K|]); unfold padded_by; cbn [it_pad iter_sha1 iter_sha256 iter_sha512];
    unfold lib_padded; cbn [it_block it_field iter_sha1 iter_sha256 iter_sha512] in K; cbn [it_block it_field it_bytes iter_sha1 iter_sha256 iter_sha512]; rewrite K; exact Q.
Qed.
Print Assumptions C79_glue.

(** a digest of a secret followed by a message is no message authentication code: its value for the message continued by the glue and any
    x follows from its value for the message and the lengths *)
Theorem C79_keyed_prefix : forall A secret msg x, extendable A -> (exists g, A = iter_md5 g) \/ fits (it_block A) (it_field A) (secret ++ msg) = true ->
  forall g g' out out' d, typed (it_code A) g -> typed (it_code A) g' ->
  it_piece A (secret ++ msg) -> it_piece A (secret ++ (msg ++ glue A (length secret + length msg) ++ x)) ->
  it_total A (secret ++ msg) -> it_total A (secret ++ (msg ++ glue A (length secret + length msg) ++ x)) ->
  (idsz (it_code A) <= length out)%nat -> (idsz (it_code A) <= length out')%nat ->
  hash_run (it_code A) g [secret ++ msg] out = Ret d ->
  hash_run (it_code A) g' [secret ++ (msg ++ glue A (length secret + length msg) ++ x)] out' =
    Ret (extension A (firstn (idsz (it_code A)) d) (length secret + length msg) x ++ skipn (idsz (it_code A)) out').
Proof.
  intros A secret msg x HA K g g' out out' d Hg Hg' HP HP' HT HT' Ho Ho' R.
  pose proof (C79_glue A _ HA K) as G. rewrite app_length in G. rewrite <- app_length.
  replace (length (secret ++ msg)) with (length (concat [secret ++ msg])) by (cbn [concat]; rewrite app_nil_r; reflexivity).
  assert (C : forall l : list N, concat [l] = l) by (intros l; cbn [concat]; apply app_nil_r).
  apply (C79_extension A HA g [secret ++ msg] out d); rewrite ?C, ?app_length; auto.
  rewrite G, <- !app_assoc. reflexivity.
Qed.
Print Assumptions C79_keyed_prefix.

(** ** Non-vacuity: the MD5 digest of "key" ++ "data=1" and the digest forged from it for a message ending in "&admin=1" (both as computed by
    another implementation of MD5 for the full texts) *)
Definition tag1 : list N := [16; 111; 168; 49; 94; 61; 63; 129; 121; 89; 168; 232; 169; 45; 150; 46].
Definition tag2 : list N := [91; 235; 48; 24; 233; 233; 154; 186; 123; 60; 218; 163; 246; 246; 59; 169].
Example C79_nonvacuous : forall g g', typed (md5_impl None) g -> typed (md5_impl None) g' ->
  hash_run (md5_impl None) g [chars "key" ++ chars "data=1"] (repeat 0 16) = Ret tag1 /\
  hash_run (md5_impl None) g' [chars "key" ++ (chars "data=1" ++ glue (iter_md5 None) 9 ++ chars "&admin=1")] (repeat 0 16) = Ret tag2.
Proof.
  intros g g' Hg Hg'.
  assert (B : forall l, forallb (fun b => b <? 256) l = true -> bytes_ok l).
  { intros l H. rewrite forallb_forall in H. apply Forall_forall. intros b Hb. apply N.ltb_lt. apply H. exact Hb. }
  assert (P1 : bytes_ok (chars "key" ++ chars "data=1") /\ chars "key" ++ chars "data=1" <> []) by (split; [apply B; vm_compute; reflexivity|discriminate]).
  assert (P2 : bytes_ok (chars "key" ++ (chars "data=1" ++ glue (iter_md5 None) 9 ++ chars "&admin=1")) /\ chars "key" ++ (chars "data=1" ++ glue (iter_md5 None) 9 ++ chars "&admin=1") <> [])
    by (split; [apply B; vm_compute; reflexivity|discriminate]).
  assert (S1 : hash_run (md5_impl None) g [chars "key" ++ chars "data=1"] (repeat 0 16) = Ret tag1).
  { rewrite (PropFront.run_streams (md5_impl None) _ _ _ g _ (repeat 0 16) (PropMd5.C17_md5_rfc1321 None) Hg (Forall_cons _ P1 (Forall_nil _)) Logic.I) by (rewrite repeat_length; cbn; lia).
    change (skipn (idsz (md5_impl None)) (repeat 0 16)) with (@nil N). rewrite app_nil_r. cbn [concat]. rewrite app_nil_r.
    rewrite PropMerkle.md5_run by apply P1. vm_compute. reflexivity. }
  split; [exact S1|].
  pose proof (C79_keyed_prefix (iter_md5 None) (chars "key") (chars "data=1") (chars "&admin=1") (ex_md5 None) (or_introl (ex_intro _ None eq_refl)) g g' (repeat 0 16) (repeat 0 16) tag1
    Hg Hg' P1 P2 Logic.I Logic.I ltac:(rewrite repeat_length; cbn; lia) ltac:(rewrite repeat_length; cbn; lia) S1) as E.
  change (it_code (iter_md5 None)) with (md5_impl None) in E. change (length (chars "key") + length (chars "data=1"))%nat with 9%nat in E.
  rewrite E. vm_compute. reflexivity.
Qed.
(** a SHA-256 case of the hypotheses *)
Example C79_nonvacuous_sha256 : let m := chars "key" ++ chars "data=1" in let m' := m ++ glue iter_sha256 9 ++ chars "&admin=1" in
  extendable iter_sha256 /\ fits 64 8 m = true /\ int_piece m /\ int_piece m' /\ bits_below 64 m /\ bits_below 64 m' /\ (length m' = 72)%nat.
Proof.
  assert (B : forall l, forallb (fun b => b <? 256) l = true -> bytes_ok l).
  { intros l H. rewrite forallb_forall in H. apply Forall_forall. intros b Hb. apply N.ltb_lt. apply H. exact Hb. }
  cbv zeta. repeat split; try constructor; try (apply B); vm_compute; reflexivity.
Qed.
