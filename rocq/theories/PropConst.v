(** C32: the constant tables of the code. *)
From Coq Require Import Reals Lra Znumtheory.
From Verif Require SMd5 SFips202 PropSha PKeccak PShaInst PMd5.
From Verif Require Import Base SFips180 MSha MMd5 MKeccak SConst PSin.
Local Open Scope N_scope.

(** ** Primes *)
Definition plist : list N :=
  [2; 3; 5; 7; 11; 13; 17; 19; 23; 29; 31; 37; 41; 43; 47; 53; 59; 61; 67; 71; 73; 79; 83; 89; 97; 101; 103; 107; 109; 113; 127; 131; 137; 139;
   149; 151; 157; 163; 167; 173; 179; 181; 191; 193; 197; 199; 211; 223; 227; 229; 233; 239; 241; 251; 257; 263; 269; 271; 277; 281; 283; 293;
   307; 311; 313; 317; 331; 337; 347; 349; 353; 359; 367; 373; 379; 383; 389; 397; 401; 409].
(** has n a divisor from 2 to 20 that is smaller than n? *)
Definition small_factor (n : N) : bool := existsb (fun d => (d <? n) && (n mod d =? 0)) (map N.of_nat (seq 2 19)).
Lemma small_factor_prime n : 1 < n -> n < 441 -> (prime_number n <-> small_factor n = false).
Proof.
  intros H1 H2. split.
  - intros [_ P]. destruct (small_factor n) eqn:E; [exfalso|reflexivity]. unfold small_factor in E. apply existsb_exists in E. destruct E as (d & Hd & E).
    apply in_map_iff in Hd. destruct Hd as (k & <- & Hk). apply in_seq in Hk. apply andb_true_iff in E. destruct E as [E1 E2].
    apply N.ltb_lt in E1. apply N.eqb_eq in E2. apply N.mod_divide in E2; [|lia]. destruct (P _ E2); lia.
  - intros E. split; [exact H1|]. intros d D.
    assert (Z : forall d, N.divide d n -> 1 < d -> d < n -> 21 <= d).
    { clear d D. intros d D L1 L2. destruct (N.lt_ge_cases d 21) as [L|L]; [exfalso|exact L]. unfold small_factor in E.
      assert (T : existsb (fun d => (d <? n) && (n mod d =? 0)) (map N.of_nat (seq 2 19)) = true).
      { apply existsb_exists. exists d. split; [apply in_map_iff; exists (N.to_nat d); split; [lia|apply in_seq; lia]|]. apply andb_true_iff. split; [apply N.ltb_lt; exact L2|].
        apply N.eqb_eq, N.mod_divide; [lia|exact D]. }
      rewrite T in E. discriminate. }
    assert (d <> 0) by (intros ->; apply N.divide_0_l in D; lia).
    assert (d <= n) by (apply N.divide_pos_le; [lia|exact D]).
    destruct (N.eq_dec d 1) as [|N1]; [left; assumption|]. destruct (N.eq_dec d n) as [|N2]; [right; assumption|]. exfalso.
    assert (21 <= d) by (apply Z; [exact D|lia|lia]). destruct D as (q & D).
    assert (21 <= q); [|nia]. apply Z; [exists d; lia|nia|nia].
Qed.
Lemma plist_primes : forall n, n < 410 -> (In n plist <-> prime_number n).
Proof.
  assert (C : forallb (fun k => let n := N.of_nat k in Bool.eqb (existsb (N.eqb n) plist) (negb (small_factor n))) (seq 2 408) = true) by (vm_compute; reflexivity).
  intros n H. destruct (N.le_gt_cases n 1) as [L|L].
  - split; [|intros [P _]; lia]. intros I. exfalso. assert (E : forallb (fun x => 1 <? x) plist = true) by (vm_compute; reflexivity). rewrite forallb_forall in E. specialize (E n I). apply N.ltb_lt in E. lia.
  - rewrite forallb_forall in C. specialize (C (N.to_nat n) ltac:(apply in_seq; lia)). cbv zeta in C. rewrite N2Nat.id in C. apply eqb_prop in C.
    rewrite small_factor_prime by lia. split.
    + intros I. assert (X : existsb (N.eqb n) plist = true) by (apply existsb_exists; exists n; split; [exact I|apply N.eqb_refl]). rewrite X in C. destruct (small_factor n); [discriminate|reflexivity].
    + intros E. rewrite E in C. cbn [negb] in C. apply existsb_exists in C. destruct C as (x & I & X). apply N.eqb_eq in X. subst. exact I.
Qed.
Fixpoint increasing (l : list N) : bool := match l with a :: (b :: _) as r => (a <? b) && increasing r | _ => true end.
Lemma increasing_nth l : increasing l = true -> forall i j, (i < j)%nat -> (j < length l)%nat -> nth i l 0 < nth j l 0.
Proof.
  induction l as [|a l IH]; intros H i j Hij Hj; [cbn [length] in Hj; lia|].
  destruct j as [|j]; [lia|]. cbn [length] in Hj. destruct i as [|i].
  - destruct l as [|b l]; [cbn [length] in Hj; lia|]. cbn [increasing] in H. apply andb_true_iff in H. destruct H as [H1 H2]. apply N.ltb_lt in H1. cbn [nth].
    destruct j as [|j]; [exact H1|]. apply N.lt_trans with b; [exact H1|]. apply (IH H2 0%nat (S j)); lia.
  - cbn [nth]. apply IH; try lia. destruct l; [reflexivity|]. cbn [increasing] in H. apply andb_true_iff in H. apply H.
Qed.
Lemma plist_no i : (i < 80)%nat -> prime_no i (nth i plist 0).
Proof.
  intros Hi. assert (L : length plist = 80%nat) by reflexivity. assert (INC : increasing plist = true) by reflexivity.
  assert (B : forall k, (k < 80)%nat -> nth k plist 0 < 410).
  { intros k Hk. assert (E : forallb (fun x => x <? 410) plist = true) by reflexivity. rewrite forallb_forall in E. apply N.ltb_lt, E, nth_In. lia. }
  split; [apply plist_primes; [apply B; exact Hi|apply nth_In; lia]|].
  exists (firstn i plist). assert (LF : length (firstn i plist) = i) by (rewrite firstn_length_le; lia).
  assert (NF : forall k, (k < i)%nat -> nth k (firstn i plist) 0 = nth k plist 0).
  { intros k Hk. rewrite <- (firstn_skipn i plist) at 2. rewrite app_nth1 by lia. reflexivity. }
  split; [|split; [exact LF|]].
  - apply (NoDup_nth _ 0). intros a b Ha Hb E. rewrite LF in Ha, Hb. rewrite !NF in E by assumption.
    destruct (Nat.lt_total a b) as [X|[X|X]]; [|exact X|]; pose proof (increasing_nth plist INC _ _ X ltac:(lia)); lia.
  - intros q. split.
    + intros I. apply (In_nth _ _ 0) in I. destruct I as (k & Hk & E). rewrite LF in Hk. rewrite NF in E by exact Hk. subst q.
      split; [apply plist_primes; [apply B; lia|apply nth_In; lia]|]. apply increasing_nth; [exact INC|exact Hk|lia].
    + intros [P Q]. assert (I : In q plist) by (apply plist_primes; [pose proof (B i Hi); lia|exact P]).
      apply (In_nth _ _ 0) in I. destruct I as (k & Hk & E). rewrite L in Hk. assert (k < i)%nat.
      { destruct (Nat.lt_ge_cases k i) as [X|X]; [exact X|exfalso]. destruct (Nat.eq_dec k i) as [->|Y]; [lia|]. pose proof (increasing_nth plist INC i k ltac:(lia) ltac:(lia)). lia. }
      rewrite <- E, <- NF by assumption. apply nth_In. lia.
Qed.

(** ** Roots *)
Definition root_check (e w p k : N) (a : N) : bool :=
  (k <? 2 ^ w) && (a ^ e <=? p) && (p <? (a + 1) ^ e) && ((a * 2 ^ w + k) ^ e <=? p * (2 ^ w) ^ e) && (p * (2 ^ w) ^ e <? (a * 2 ^ w + k + 1) ^ e).
Lemma root_check_ok e w p k a : root_check e w p k a = true -> root_bits e w p k.
Proof.
  unfold root_check. intros H. repeat (apply andb_true_iff in H; destruct H as [H ?]). repeat match goal with X : (_ <? _) = true |- _ => apply N.ltb_lt in X | X : (_ <=? _) = true |- _ => apply N.leb_le in X end.
  split; [assumption|]. exists a. auto.
Qed.
(** integer part of the root of a small number *)
Definition small_root (e p : N) : N := nth 0 (filter (fun a => (a ^ e <=? p) && (p <? (a + 1) ^ e)) (map N.of_nat (seq 0 25))) 0.
Definition table_check (e w : N) (ps ks : list N) : bool := forallb (fun x => root_check e w (fst x) (snd x) (small_root e (fst x))) (combine ps ks).
Lemma table_check_ok e w ps ks : table_check e w ps ks = true -> length ps = length ks -> forall i, (i < length ks)%nat -> root_bits e w (nth i ps 0) (nth i ks 0).
Proof.
  intros H L i Hi. unfold table_check in H. rewrite forallb_forall in H. apply (root_check_ok _ _ _ _ (small_root e (nth i ps 0))).
  specialize (H (nth i ps 0, nth i ks 0)). cbn [fst snd] in H. apply H. rewrite <- combine_nth by exact L. apply nth_In. rewrite combine_length. lia.
Qed.

(** ** C32 *)
(** SHA-224/256 and SHA-384/512/512-t round constants: cube roots of the first 64 and 80 primes *)
Theorem C32_sha256_K : length sha256_K = 64%nat /\ forall i, (i < 64)%nat -> exists p, prime_no i p /\ root_bits 3 32 p (nth i sha256_K 0).
Proof.
  split; [reflexivity|]. intros i Hi. exists (nth i plist 0). split; [apply plist_no; lia|].
  assert (T : table_check 3 32 (firstn 64 plist) sha256_K = true) by (vm_compute; reflexivity).
  pose proof (table_check_ok _ _ _ _ T eq_refl i Hi) as R. rewrite <- (firstn_skipn 64 plist). rewrite app_nth1 by exact Hi. exact R.
Qed.
Theorem C32_sha512_K : length sha512_K = 80%nat /\ forall i, (i < 80)%nat -> exists p, prime_no i p /\ root_bits 3 64 p (nth i sha512_K 0).
Proof.
  split; [reflexivity|]. intros i Hi. exists (nth i plist 0). split; [apply plist_no; lia|].
  assert (T : table_check 3 64 plist sha512_K = true) by (vm_compute; reflexivity).
  exact (table_check_ok _ _ _ _ T eq_refl i Hi).
Qed.
(** initial values: square roots of primes 1-8 (SHA-256, SHA-512) and 9-16 (SHA-384; SHA-224 their second 32 bits) *)
Theorem C32_initial_values : forall i, (i < 8)%nat ->
  (exists p, prime_no i p /\ root_bits 2 32 p (nth i sha256_H0 0)) /\
  (exists p, prime_no i p /\ root_bits 2 64 p (nth i sha512_H0 0)) /\
  (exists p, prime_no (8 + i) p /\ root_bits 2 64 p (nth i sha384_H0 0)) /\
  (exists p k, prime_no (8 + i) p /\ root_bits 2 64 p k /\ nth i sha224_H0 0 = k mod 2 ^ 32).
Proof.
  intros i Hi.
  assert (N1 : nth i (firstn 8 plist) 0 = nth i plist 0) by (rewrite <- (firstn_skipn 8 plist) at 2; rewrite app_nth1 by exact Hi; reflexivity).
  assert (N2 : nth i (firstn 8 (skipn 8 plist)) 0 = nth (8 + i) plist 0).
  { rewrite <- (firstn_skipn 8 plist) at 2. rewrite app_nth2 by (cbn [length plist firstn]; lia). rewrite <- (firstn_skipn 8 (skipn 8 plist)) at 2. change (length (firstn 8 plist)) with 8%nat. replace (8 + i - 8)%nat with i by lia. rewrite app_nth1 by exact Hi. reflexivity. }
  assert (T1 : table_check 2 32 (firstn 8 plist) sha256_H0 = true) by (vm_compute; reflexivity).
  assert (T2 : table_check 2 64 (firstn 8 plist) sha512_H0 = true) by (vm_compute; reflexivity).
  assert (T3 : table_check 2 64 (firstn 8 (skipn 8 plist)) sha384_H0 = true) by (vm_compute; reflexivity).
  split; [|split; [|split]].
  - exists (nth i plist 0). split; [apply plist_no; lia|]. rewrite <- N1. exact (table_check_ok _ _ _ _ T1 eq_refl i Hi).
  - exists (nth i plist 0). split; [apply plist_no; lia|]. rewrite <- N1. exact (table_check_ok _ _ _ _ T2 eq_refl i Hi).
  - exists (nth (8 + i) plist 0). split; [apply plist_no; lia|]. rewrite <- N2. exact (table_check_ok _ _ _ _ T3 eq_refl i Hi).
  - exists (nth (8 + i) plist 0), (nth i sha384_H0 0). split; [apply plist_no; lia|]. rewrite <- N2. split; [exact (table_check_ok _ _ _ _ T3 eq_refl i Hi)|].
    do 8 (destruct i as [|i]; [reflexivity|]). lia.
Qed.
(** SHA-512/224 and SHA-512/256 initial values: SHA-512 with its initial value exored with a5a5..., applied to the name (FIPS 180-4, 5.3.6) *)
Theorem C32_sha512t : sha512_224_H0 = IV_512_224 /\ sha512_256_H0 = IV_512_256.
Proof. split; [apply PShaInst.IV_512_224_eq|apply PShaInst.IV_512_256_eq]. Qed.
(** SHA-1 round constants: the integer parts of 2^30 times the square roots of 2, 3, 5 and 10 *)
Theorem C32_sha1_k : Forall2 (fun n k => k ^ 2 <= n * 2 ^ 60 < (k + 1) ^ 2) [2; 3; 5; 10] sha1_k.
Proof. repeat (apply Forall2_cons; [vm_compute; split; [discriminate|reflexivity]|]). apply Forall2_nil. Qed.
(** SHA-1 and MD5 initial values: the bytes 0123456789abcdef, then descending, in the byte order of each (fifth word: f0e1d2c3) *)
Theorem C32_counting_values :
  flat_map (fun w => rev (be_bytes 4 w)) md5_H0 = [0x01; 0x23; 0x45; 0x67; 0x89; 0xab; 0xcd; 0xef; 0xfe; 0xdc; 0xba; 0x98; 0x76; 0x54; 0x32; 0x10] /\
  firstn 4 sha1_H0 = md5_H0 /\ map (fun w => rev (be_bytes 4 w)) (skipn 4 sha1_H0) = [[0xf0; 0xe1; 0xd2; 0xc3]].
Proof. repeat split. Qed.
(** Keccak round constants: the register of FIPS 202 algorithm 5; all 64 bits of all 24 words *)
Theorem C32_keccak_rc : length k_RC = 24%nat /\ forall i z, (i < 24)%nat -> (z < 64)%nat -> N.testbit (nth i k_RC 0) (N.of_nat z) = SFips202.RC i z.
Proof. split; [reflexivity|exact PKeccak.RC_table]. Qed.
(** Keccak offsets: FIPS 202 algorithm 2: starting at (x, y) = (1, 0), the t-th lane is rotated by (t+1)(t+2)/2 mod 64 and the next
    lane is at (y, (2x+3y) mod 5), which is also where pi puts the lane *)
Definition next_lane (c : nat * nat) : nat * nat := (snd c, (2 * fst c + 3 * snd c) mod 5)%nat.
Theorem C32_keccak_offsets : forall t, (t < 24)%nat ->
  nth t k_r 0 = (N.of_nat ((t + 1) * (t + 2) / 2)) mod 64 /\
  let c := Nat.iter (S t) next_lane (1, 0)%nat in nth t k_piln 0%nat = (5 * snd c + fst c)%nat.
Proof. intros t H. do 24 (destruct t as [|t]; [split; reflexivity|]). lia. Qed.
(** MD5 constants: entry number 16 r + i + 1 (RFC 1321: T[1], T[2], ...) is the integer part of 4294967296 * |sin(16 r + i + 1)| *)
Theorem C32_md5_sines : forall r i, (r < 4)%nat -> (i < 16)%nat ->
  integer_part (IZR (2 ^ 32) * Rabs (sin (INR (16 * r + i + 1)))) (nth i (nth r md5_ac []) 0).
Proof.
  assert (C : sines s1 c1 7 (map Z.of_N (concat md5_ac)) = true) by (vm_compute; reflexivity).
  intros r i Hr Hi. unfold integer_part. pose proof (sines_ok _ 1 s1 c1 7 (16 * r + i) ltac:(clear C; lia) near_1 C) as X. clear C.
  replace (1 + (16 * r + i))%nat with (16 * r + i + 1)%nat in X by lia.
  rewrite (nth_indep _ 0%Z (Z.of_N 0)), map_nth in X by (change (length (map Z.of_N (concat md5_ac))) with 64%nat; lia).
  assert (E : nth i (nth r md5_ac []) 0 = nth (16 * r + i) (concat md5_ac) 0).
  { clear - Hr Hi. do 4 (destruct r as [|r]; [do 16 (destruct i as [|i]; [reflexivity|]); lia|]). lia. }
  rewrite E. apply X. change (length (map Z.of_N (concat md5_ac))) with 64%nat. lia.
Qed.
(** MD5: the order of the message words (RFC 1321, 3.4: rounds 1 to 4 use word i, 5 i + 1, 3 i + 5, 7 i mod 16) *)
Theorem C32_md5_order : forall r i, (r < 4)%nat -> (i < 16)%nat ->
  nth i (nth r md5_idx []) 0%nat = ((nth r [1; 5; 3; 7] 0 * i + nth r [0; 1; 5; 0] 0) mod 16)%nat.
Proof.
  assert (C : forallb (fun r => forallb (fun i => Nat.eqb (nth i (nth r md5_idx []) 0%nat) ((nth r [1; 5; 3; 7] 0 * i + nth r [0; 1; 5; 0] 0) mod 16)%nat) (seq 0 16)) (seq 0 4) = true) by (vm_compute; reflexivity).
  intros r i Hr Hi. rewrite forallb_forall in C. specialize (C r ltac:(apply in_seq; lia)). rewrite forallb_forall in C. specialize (C i ltac:(apply in_seq; lia)). apply Nat.eqb_eq. exact C.
Qed.

(** ** Non-vacuity: the rules do select (a neighbouring value fails them) *)
Example rule_excludes : ~ root_bits 3 32 2 0x428a2f99 /\ root_bits 3 32 2 0x428a2f98 /\ prime_no 2 5 /\ ~ prime_number 9.
Proof.
  split; [|split; [apply (root_check_ok _ _ _ _ 1); vm_compute; reflexivity|split; [apply (plist_no 2); lia|]]].
  - intros (_ & a & [A1 A2] & [B1 B2]). assert (a = 1). { destruct (N.lt_total a 1) as [X|[X|X]]; [|exact X|exfalso].
      - assert (a = 0) by lia. subst a. vm_compute in A2. discriminate.
      - assert (2 ^ 3 <= a ^ 3) by (apply N.pow_le_mono_l; lia). change (2 ^ 3) with 8 in H. lia. }
    subst a. vm_compute in B1. apply B1. reflexivity.
  - intros [_ P]. destruct (P 3); [exists 3; reflexivity|discriminate|discriminate].
Qed.

Print Assumptions C32_sha256_K.
Print Assumptions C32_sha512_K.
Print Assumptions C32_initial_values.
Print Assumptions C32_sha512t.
Print Assumptions C32_sha1_k.
Print Assumptions C32_counting_values.
Print Assumptions C32_keccak_rc.
Print Assumptions C32_keccak_offsets.
Print Assumptions C32_md5_sines.
Print Assumptions C32_md5_order.
