(** Keccak-f[1600] is injective. *)
From Verif Require Import Base MSha MFront MKeccak SFips202 PWords PSha PKeccak.

(** ** theta: the column parities go through 1 + x^4 + x z^63, whose 64-th power is 1 + x + x^4 and 192-nd power 1 *)
Definition par := nat -> nat -> bool.
Definition O3 (a b k : nat) (c : par) : par := fun x z => xorb (c x z) (xorb (c (x + a) z) (c (x + b) (z + k))).
Definition periodic (c : par) : Prop := forall x z i j, c (x + 5 * i) (z + 64 * j) = c x z.
Definition same (c c' : par) : Prop := forall x z, c x z = c' x z.
Lemma O3_same a b k c c' : same c c' -> same (O3 a b k c) (O3 a b k c').
Proof. intros H x z. unfold O3. rewrite !H. reflexivity. Qed.
Lemma O3_sq a b k c : same (O3 a b k (O3 a b k c)) (O3 (2 * a) (2 * b) (2 * k) c).
Proof.
  intros x z. unfold O3.
  replace (x + 2 * a) with (x + a + a) by lia. replace (x + 2 * b) with (x + b + b) by lia. replace (z + 2 * k) with (z + k + k) by lia.
  replace (x + b + a) with (x + a + b) by lia.
  destruct (c x z), (c (x + a) z), (c (x + b) (z + k)), (c (x + a + a) z), (c (x + a + b) (z + k)), (c (x + b + b) (z + k + k)); reflexivity.
Qed.
Lemma O3_double a b k c c' : same (O3 a b k c) (O3 a b k c') -> same (O3 (2 * a) (2 * b) (2 * k) c) (O3 (2 * a) (2 * b) (2 * k) c').
Proof. intros H x z. rewrite <- !O3_sq. apply O3_same. exact H. Qed.
Lemma O3_inj c c' : periodic c -> periodic c' -> same (O3 4 1 63 c) (O3 4 1 63 c') -> same c c'.
Proof.
  intros P P' H.
  assert (H64 : same (O3 256 64 4032 c) (O3 256 64 4032 c')).
  { exact (O3_double 128 32 2016 c c' (O3_double 64 16 1008 c c' (O3_double 32 8 504 c c' (O3_double 16 4 252 c c' (O3_double 8 2 126 c c' (O3_double 4 1 63 c c' H)))))). }
  clear H.
  assert (Q : forall d, periodic d -> forall x z, O3 256 64 4032 d x z = xorb (d x z) (xorb (d (x + 1) z) (d (x + 4) z))).
  { intros d Pd x z. unfold O3. replace (x + 256) with (x + 1 + 5 * 51) by lia. replace (x + 64) with (x + 4 + 5 * 12) by lia.
    replace (z + 4032) with (z + 64 * 63) by lia. rewrite Pd. rewrite <- (Nat.add_0_r z) at 2. rewrite <- (Nat.mul_0_r 64). rewrite Pd. reflexivity. }
  intros x z.
  assert (E : forall i, xorb (c (x + i) z) (xorb (c (x + i + 1) z) (c (x + i + 4) z)) = xorb (c' (x + i) z) (xorb (c' (x + i + 1) z) (c' (x + i + 4) z))).
  { intros i. rewrite <- (Q c P), <- (Q c' P'). apply H64. }
  assert (R : forall d, periodic d -> forall i, d (x + i + 5) z = d (x + i) z).
  { intros d Pd i. pose proof (Pd (x + i) z 1 0) as X. rewrite Nat.mul_0_r, Nat.add_0_r in X. exact X. }
  pose proof (E 0) as E0. pose proof (E 1) as E1. pose proof (E 2) as E2. pose proof (E 3) as E3. pose proof (E 4) as E4. clear E.
  pose proof (R c P 0) as R0. pose proof (R c P 1) as R1. pose proof (R c P 2) as R2. pose proof (R c P 3) as R3.
  pose proof (R c' P' 0) as S0. pose proof (R c' P' 1) as S1. pose proof (R c' P' 2) as S2. pose proof (R c' P' 3) as S3.
  rewrite <- ?Nat.add_assoc in *. cbn [Nat.add] in *. rewrite ?R0, ?R1, ?R2, ?R3, ?S0, ?S1, ?S2, ?S3, ?Nat.add_0_r in *. clear - E0 E1 E2 E3 E4.
  destruct (c x z), (c' x z); try reflexivity; exfalso;
    destruct (c (x + 1) z), (c (x + 2) z), (c (x + 3) z), (c (x + 4) z), (c' (x + 1) z), (c' (x + 2) z), (c' (x + 3) z), (c' (x + 4) z); cbn in *; discriminate.
Qed.

(** the parities of a state, continued periodically *)
Definition parity (A : state) : par := fun x z => theta_C A (x mod 5) (z mod 64).
Lemma parity_periodic A : periodic (parity A).
Proof. intros x z i j. unfold parity. rewrite (Nat.mul_comm 5), (Nat.mul_comm 64), !Nat.mod_add by discriminate. reflexivity. Qed.
Lemma mod_mod_add a b n : n <> 0 -> (a mod n + b) mod n = (a + b) mod n.
Proof. intros H. rewrite Nat.add_mod_idemp_l by exact H. reflexivity. Qed.
Lemma parity_theta A : same (parity (theta A)) (O3 4 1 63 (parity A)).
Proof.
  intros x z. unfold O3, parity. unfold theta_C at 1. unfold theta.
  assert (D : theta_D A (x mod 5) (z mod 64) = xorb (theta_C A ((x + 4) mod 5) (z mod 64)) (theta_C A ((x + 1) mod 5) ((z + 63) mod 64))).
  { unfold theta_D, minus_mod, w. change (5 - 1) with 4. change (64 - 1) with 63. rewrite !mod_mod_add by discriminate. reflexivity. }
  rewrite D. unfold theta_C at 11. destruct (A (x mod 5) 0 (z mod 64)), (A (x mod 5) 1 (z mod 64)), (A (x mod 5) 2 (z mod 64)), (A (x mod 5) 3 (z mod 64)), (A (x mod 5) 4 (z mod 64)),
    (theta_C A ((x + 4) mod 5) (z mod 64)), (theta_C A ((x + 1) mod 5) ((z + 63) mod 64)); reflexivity.
Qed.
Lemma parity_ext S T : eqst S T -> same (parity S) (parity T).
Proof. intros H x z. unfold parity, theta_C. rewrite !H by (auto using mod5, mod64; lia). reflexivity. Qed.
Lemma theta_inj S T : eqst (theta S) (theta T) -> eqst S T.
Proof.
  intros H. assert (Q : same (parity S) (parity T)).
  { apply O3_inj; [apply parity_periodic|apply parity_periodic|]. intros x z. rewrite <- !parity_theta. apply parity_ext. exact H. }
  intros x y z Hx Hy Hz. specialize (H x y z Hx Hy Hz). unfold theta in H.
  assert (D : theta_D S x z = theta_D T x z).
  { assert (G : forall U, theta_D U x z = xorb (parity U (minus_mod x 1 5) z) (parity U ((x + 1) mod 5) (minus_mod z 1 64))).
    { intros U. unfold theta_D, parity, minus_mod, w. rewrite !Nat.mod_mod, (Nat.mod_small z) by (try discriminate; exact Hz). reflexivity. }
    rewrite !G, !Q. reflexivity. }
  rewrite D in H. destruct (S x y z), (T x y z), (theta_D T x z); try reflexivity; discriminate.
Qed.

(** ** rho, pi, iota *)
Lemma rho_inj S T : eqst (rho S) (rho T) -> eqst S T.
Proof.
  intros H x y z Hx Hy Hz. specialize (H x y ((z + rho_offset x y mod 64) mod 64) Hx Hy (mod64 _)). unfold rho, minus_mod, w in H.
  pose proof (mod64 (rho_offset x y)) as L. set (o := rho_offset x y mod 64) in *. clearbody o.
  rewrite mod_mod_add in H by discriminate. replace (z + o + (64 - o)) with (z + 1 * 64) in H by lia. rewrite Nat.mod_add, Nat.mod_small in H by (try discriminate; exact Hz). exact H.
Qed.
Lemma pi_inj S T : eqst (pi S) (pi T) -> eqst S T.
Proof.
  intros H x y z Hx Hy Hz. specialize (H y ((2 * x + 3 * y) mod 5) z Hy (mod5 _) Hz). unfold pi in H.
  assert (E : (y + 3 * ((2 * x + 3 * y) mod 5)) mod 5 = x).
  { clear - Hx Hy. do 5 (destruct x as [|x]; [do 5 (destruct y as [|y]; [reflexivity|]); lia|]). lia. }
  rewrite E in H. exact H.
Qed.
Lemma iota_inj i S T : eqst (iota S i) (iota T i) -> eqst S T.
Proof.
  intros H x y z Hx Hy Hz. specialize (H x y z Hx Hy Hz). unfold iota in H. destruct (_ && _)%bool; [|exact H].
  destruct (S x y z), (T x y z), (RC i z); try reflexivity; discriminate.
Qed.

(** ** chi, row by row *)
Definition rowf (a b c d e : bool) := (xorb a (negb b && c), xorb b (negb c && d), xorb c (negb d && e), xorb d (negb e && a), xorb e (negb a && b))%bool.
Definition rows : list (bool * bool * bool * bool * bool) :=
  flat_map (fun a => flat_map (fun b => flat_map (fun c => flat_map (fun d => map (fun e => (a, b, c, d, e)) [false; true]) [false; true]) [false; true]) [false; true]) [false; true].
Definition row_eqb (r s : bool * bool * bool * bool * bool) : bool :=
  let '(a, b, c, d, e) := r in let '(a', b', c', d', e') := s in (Bool.eqb a a' && Bool.eqb b b' && Bool.eqb c c' && Bool.eqb d d' && Bool.eqb e e')%bool.
Definition rowg (r : bool * bool * bool * bool * bool) := find (fun s => let '(a, b, c, d, e) := s in row_eqb (rowf a b c d e) r) rows.
Lemma rowg_f a b c d e : rowg (rowf a b c d e) = Some (a, b, c, d, e).
Proof. destruct a, b, c, d, e; reflexivity. Qed.
Lemma rowf_inj a b c d e a' b' c' d' e' : rowf a b c d e = rowf a' b' c' d' e' -> (a, b, c, d, e) = (a', b', c', d', e').
Proof. intros H. apply (f_equal rowg) in H. rewrite !rowg_f in H. injection H as -> -> -> -> ->. reflexivity. Qed.
Lemma chi_inj S T : eqst (chi S) (chi T) -> eqst S T.
Proof.
  intros H x y z Hx Hy Hz.
  assert (E : forall i, i < 5 -> chi S i y z = chi T i y z) by (intros i Hi; apply H; assumption).
  pose proof (E 0 ltac:(lia)) as E0. pose proof (E 1 ltac:(lia)) as E1. pose proof (E 2 ltac:(lia)) as E2. pose proof (E 3 ltac:(lia)) as E3. pose proof (E 4 ltac:(lia)) as E4.
  clear E H. unfold chi in *. rewrite !xorb_true_r in *. change ((0 + 1) mod 5) with 1 in *. change ((0 + 2) mod 5) with 2 in *. change ((1 + 1) mod 5) with 2 in *. change ((1 + 2) mod 5) with 3 in *.
  change ((2 + 1) mod 5) with 3 in *. change ((2 + 2) mod 5) with 4 in *. change ((3 + 1) mod 5) with 4 in *. change ((3 + 2) mod 5) with 0 in *.
  change ((4 + 1) mod 5) with 0 in *. change ((4 + 2) mod 5) with 1 in *.
  assert (F : (S 0 y z, S 1 y z, S 2 y z, S 3 y z, S 4 y z) = (T 0 y z, T 1 y z, T 2 y z, T 3 y z, T 4 y z)).
  { apply rowf_inj. unfold rowf. rewrite E0, E1, E2, E3, E4. reflexivity. }
  injection F as F0 F1 F2 F3 F4. do 5 (destruct x as [|x]; [assumption|]). lia.
Qed.

(** ** the permutation *)
Lemma Rnd_inj i S T : eqst (Rnd S i) (Rnd T i) -> eqst S T.
Proof. intros H. apply theta_inj, rho_inj, pi_inj, chi_inj, (iota_inj i). exact H. Qed.
Lemma rounds_inj l : forall S T, eqst (fold_left Rnd l S) (fold_left Rnd l T) -> eqst S T.
Proof. induction l as [|i l IH]; intros S T H; [exact H|]. cbn [fold_left] in H. apply IH in H. apply (Rnd_inj i). exact H. Qed.
Lemma to_string_inj S T : to_string S = to_string T -> eqst S T.
Proof.
  intros H x y z Hx Hy Hz. apply (f_equal (fun l => nth (64 * (5 * y + x) + z) l false)) in H. unfold to_string in H.
  set (n := 1600) in H. assert (L : 64 * (5 * y + x) + z < n) by (unfold n; lia).
  rewrite !nth_tab in H by exact L. unfold w in H.
  assert (E1 : (64 * (5 * y + x) + z) / 64 = 5 * y + x) by lia. assert (E2 : (64 * (5 * y + x) + z) mod 64 = z) by lia.
  rewrite E1, E2 in H. assert (E3 : (5 * y + x) mod 5 = x) by lia. assert (E4 : (5 * y + x) / 5 = y) by lia. rewrite E3, E4 in H. exact H.
Qed.
Lemma to_state_inj S T : length S = 1600 -> length T = 1600 -> eqst (to_state S) (to_state T) -> S = T.
Proof.
  intros LS LT H. apply (nth_ext _ _ false false); [congruence|]. intros i Hi. rewrite LS in Hi.
  assert (B : i / 64 < 25) by lia.
  specialize (H ((i / 64) mod 5) (i / 64 / 5) (i mod 64) (mod5 _) ltac:(lia) (mod64 _)). unfold to_state, w in H.
  replace (64 * (5 * (i / 64 / 5) + (i / 64) mod 5) + i mod 64) with i in H by lia. exact H.
Qed.
Lemma keccak_f_inj S T : length S = 1600 -> length T = 1600 -> keccak_f S = keccak_f T -> S = T.
Proof. intros LS LT H. apply to_state_inj; [exact LS|exact LT|]. apply (rounds_inj (seq 0 24)), to_string_inj. exact H. Qed.
Lemma keccak_f_len S : length (keccak_f S) = 1600.
Proof. unfold keccak_f, to_string. rewrite map_length. apply seq_length. Qed.
