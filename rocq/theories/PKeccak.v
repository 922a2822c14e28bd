(** Keccak: the word-level permutation of the code is the bit-level Keccak-p[1600,24] of FIPS 202. *)
From Verif Require Import Base MSha MFront MKeccak SFips202 PWords PSha.
Local Open Scope N_scope.

Definition lanes_ok (A : list N) : Prop := length A = 25%nat /\ Forall (fun v => v < 2 ^ 64) A.

Lemma lt_pow_bits v n : (forall k, n <= k -> N.testbit v k = false) -> v < 2 ^ n.
Proof.
  intros H. destruct (N.eq_dec v 0) as [->|Hz]; [apply N.neq_0_lt_0, N.pow_nonzero; lia|].
  apply N.log2_lt_pow2; [lia|]. destruct (N.lt_ge_cases (N.log2 v) n) as [L|L]; [exact L|].
  exfalso. pose proof (N.bit_log2 v Hz) as B. rewrite H in B by exact L. discriminate.
Qed.
Lemma lxor_lt w a b : a < 2 ^ w -> b < 2 ^ w -> N.lxor a b < 2 ^ w.
Proof.
  intros Ha Hb. apply lt_pow_bits. intros k Hk. rewrite N.lxor_spec, (testbit_high a k w), (testbit_high b k w) by assumption. reflexivity.
Qed.
Lemma land_lt w a b : b < 2 ^ w -> N.land a b < 2 ^ w.
Proof.
  intros Hb. apply lt_pow_bits. intros k Hk. rewrite N.land_spec, (testbit_high b k w) by assumption. apply andb_false_r.
Qed.
Lemma clshift_lt w v c : c <= w -> v < 2 ^ w -> clshift w v c < 2 ^ w.
Proof. intros Hc Hv. rewrite clshift_rotl. apply rotl_lt; assumption. Qed.

Lemma clshift_bit v c z : v < 2 ^ 64 -> (c < 64)%nat -> (z < 64)%nat ->
  N.testbit (clshift 64 v (N.of_nat c)) (N.of_nat z) = N.testbit v (N.of_nat (minus_mod z c 64)).
Proof.
  intros Hv Hc Hz. unfold clshift, trunc. rewrite N.lor_spec, N.land_spec, N.ones_spec_low by lia. rewrite andb_true_r.
  rewrite N.shiftr_spec by lia. unfold minus_mod.
  destruct (Nat.lt_ge_cases z c) as [L|L].
  - rewrite N.shiftl_spec_low by lia. cbn [orb]. f_equal. rewrite Nat.mod_small by lia. lia.
  - rewrite N.shiftl_spec_high by lia. rewrite (testbit_high v (N.of_nat z + (64 - N.of_nat c)) 64) by (auto; lia).
    rewrite orb_false_r. f_equal. replace (z + (64 - c))%nat with ((z - c) + 1 * 64)%nat by lia.
    rewrite Nat.mod_add, Nat.mod_small by lia. lia.
Qed.

(** ** lanes *)
Lemma nth_lt (A : list N) i : Forall (fun v => v < 2 ^ 64) A -> nth i A 0 < 2 ^ 64.
Proof.
  intros H. destruct (Nat.lt_ge_cases i (length A)) as [L|L].
  - rewrite Forall_forall in H. apply H. apply nth_In. exact L.
  - rewrite nth_overflow by exact L. reflexivity.
Qed.
Lemma lane_cube f x y : (x < 5)%nat -> (y < 5)%nat -> lane (cube f) x y = f x y.
Proof.
  intros Hx Hy. unfold lane, cube.
  rewrite (nth_indep _ 0 (f ((0 mod 5))%nat (0 / 5)%nat)) by (rewrite map_length, seq_length; lia).
  rewrite (map_nth (fun i => f (i mod 5)%nat (i / 5)%nat)), seq_nth by lia.
  f_equal; lia.
Qed.
Lemma cube_ok f : (forall x y, (x < 5)%nat -> (y < 5)%nat -> f x y < 2 ^ 64) -> lanes_ok (cube f).
Proof.
  intros H. split; [unfold cube; rewrite map_length; apply seq_length|]. apply Forall_map, Forall_forall. intros i Hi.
  apply in_seq in Hi. apply H; lia.
Qed.

Definition st_of (A : list N) : state := fun x y z => N.testbit (lane A x y) (N.of_nat z).
Definition eqst (S T : state) : Prop := forall x y z, (x < 5)%nat -> (y < 5)%nat -> (z < 64)%nat -> S x y z = T x y z.

Lemma mod5 a : (a mod 5 < 5)%nat. Proof. apply Nat.mod_upper_bound. discriminate. Qed.
Lemma mod64 a : (a mod 64 < 64)%nat. Proof. apply Nat.mod_upper_bound. discriminate. Qed.

Lemma k_C_bit A x z : (x < 5)%nat -> N.testbit (k_C A x) (N.of_nat z) = theta_C (st_of A) x z.
Proof.
  intros _. unfold k_C, theta_C, st_of. rewrite !N.lxor_spec.
  set (a := N.testbit (lane A x 0) _). set (b := N.testbit (lane A x 1) _). set (c := N.testbit (lane A x 2) _).
  set (d := N.testbit (lane A x 3) _). set (e := N.testbit (lane A x 4) _). destruct a, b, c, d, e; reflexivity.
Qed.
Lemma k_C_lt A x : Forall (fun v => v < 2 ^ 64) A -> k_C A x < 2 ^ 64.
Proof. intros H. unfold k_C, lane. repeat apply lxor_lt; apply nth_lt; exact H. Qed.

Lemma theta_ok A : lanes_ok A -> lanes_ok (k_theta A).
Proof.
  intros [L F]. apply cube_ok. intros x y Hx Hy. apply lxor_lt; [apply nth_lt; exact F|].
  apply lxor_lt; [apply k_C_lt; exact F|]. apply clshift_lt; [lia|apply k_C_lt; exact F].
Qed.
Lemma theta_eq A : lanes_ok A -> eqst (st_of (k_theta A)) (theta (st_of A)).
Proof.
  intros [L F] x y z Hx Hy Hz. unfold st_of at 1, k_theta. rewrite lane_cube by assumption.
  rewrite !N.lxor_spec. unfold theta, theta_D. f_equal.
  rewrite k_C_bit by apply mod5. f_equal.
  change 1 with (N.of_nat 1). rewrite clshift_bit by (auto using k_C_lt; lia). rewrite k_C_bit by apply mod5. reflexivity.
Qed.

Lemma rhopi_ok A : lanes_ok A -> lanes_ok (k_rhopi A).
Proof.
  intros [L F]. do 25 (destruct A as [|? A]; [discriminate|]). destruct A; [|discriminate].
  repeat match goal with H : Forall _ (_ :: _) |- _ => apply Forall_cons_iff in H; destruct H as [? H] end.
  split; [reflexivity|]. unfold k_rhopi.
  cbv [fold_left seq k_rhopi_step nth k_piln k_r firstn skipn app snd lane Nat.add Nat.mul].
  repeat (constructor; [first [assumption|apply clshift_lt; [vm_compute; discriminate|assumption]]|]). constructor.
Qed.
Lemma rhopi_eq A : lanes_ok A -> eqst (st_of (k_rhopi A)) (pi (rho (st_of A))).
Proof.
  intros [L F] x y z Hx Hy Hz. do 25 (destruct A as [|? A]; [discriminate|]). destruct A; [|discriminate].
  repeat match goal with H : Forall _ (_ :: _) |- _ => apply Forall_cons_iff in H; destruct H as [? H] end.
  match goal with |- context[k_rhopi ?L] => let v := eval cbv [k_rhopi fold_left seq k_rhopi_step nth k_piln k_r firstn skipn app snd lane Nat.add Nat.mul] in (k_rhopi L) in change (k_rhopi L) with v end.
  unfold pi, rho, st_of, lane.
  do 5 (destruct x as [|x]; [do 5 (destruct y as [|y]; [
    match goal with |- context[minus_mod z ?o w] => let v := eval vm_compute in o in change o with v end;
    match goal with |- N.testbit (nth ?i _ 0) _ = N.testbit (nth ?j _ 0) _ =>
      let v := eval vm_compute in i in let u := eval vm_compute in j in change i with v; change j with u end; cbn [nth];
    match goal with
    | |- N.testbit (clshift 64 ?a ?c) _ = _ => let n := eval vm_compute in (N.to_nat c) in change c with (N.of_nat n); rewrite clshift_bit by (auto; lia); reflexivity
    | _ => unfold minus_mod, w; rewrite Nat.sub_0_r; replace (z + 64)%nat with (z + 1 * 64)%nat by lia; rewrite Nat.mod_add, Nat.mod_small by lia; reflexivity end
    |]); exfalso; lia |]); exfalso; lia.
Qed.

Lemma bnot_bit a z : (z < 64)%nat -> N.testbit (bnot 64 a) (N.of_nat z) = negb (N.testbit a (N.of_nat z)).
Proof. intros Hz. unfold bnot. rewrite <- ones_eq, N.lxor_spec, N.ones_spec_low by lia. apply xorb_true_r. Qed.
Lemma chi_ok A : lanes_ok A -> lanes_ok (k_chi A).
Proof.
  intros [L F]. apply cube_ok. intros x y Hx Hy. apply lxor_lt; [apply nth_lt; exact F|]. apply land_lt, nth_lt, F.
Qed.
Lemma chi_eq A : lanes_ok A -> eqst (st_of (k_chi A)) (chi (st_of A)).
Proof.
  intros [L F] x y z Hx Hy Hz. unfold st_of at 1, k_chi. rewrite lane_cube by assumption.
  rewrite N.lxor_spec, N.land_spec, bnot_bit by assumption. unfold chi, st_of. rewrite xorb_true_r. reflexivity.
Qed.

Lemma RC_table : forall i z, (i < 24)%nat -> (z < 64)%nat -> N.testbit (nth i k_RC 0) (N.of_nat z) = RC i z.
Proof.
  assert (H : forallb (fun i => forallb (fun z => Bool.eqb (N.testbit (nth i k_RC 0) (N.of_nat z)) (RC i z)) (seq 0 64)) (seq 0 24) = true)
    by (vm_compute; reflexivity).
  intros i z Hi Hz. rewrite forallb_forall in H. specialize (H i). rewrite forallb_forall in H.
  apply eqb_prop. apply H; apply in_seq; lia.
Qed.
Lemma k_RC_lt i : nth i k_RC 0 < 2 ^ 64.
Proof. apply nth_lt. repeat (constructor; [vm_compute; reflexivity|]). constructor. Qed.
Lemma iota_ok i A : lanes_ok A -> lanes_ok (k_iota (nth i k_RC 0) A).
Proof.
  intros [L F]. destruct A as [|a A]; [discriminate|]. apply Forall_cons_iff in F. destruct F as [Ha F].
  split; [exact L|]. constructor; [|exact F]. apply lxor_lt; [exact Ha|apply k_RC_lt].
Qed.
Lemma iota_eq i A : (i < 24)%nat -> lanes_ok A -> eqst (st_of (k_iota (nth i k_RC 0) A)) (iota (st_of A) i).
Proof.
  intros Hi [L F] x y z Hx Hy Hz. destruct A as [|a A]; [discriminate|]. unfold st_of, iota, lane, k_iota.
  destruct (Nat.eqb_spec x 0) as [->|Nx]; [destruct (Nat.eqb_spec y 0) as [->|Ny]|].
  - cbn [Nat.mul Nat.add nth andb]. rewrite N.lxor_spec, RC_table by assumption. reflexivity.
  - cbn [andb]. destruct (5 * y + 0)%nat eqn:E; [lia|]. reflexivity.
  - cbn [andb]. destruct (5 * y + x)%nat eqn:E; [lia|]. reflexivity.
Qed.

(** the bit-level steps depend only on the 1600 bits *)
Lemma theta_ext S T : eqst S T -> eqst (theta S) (theta T).
Proof.
  intros H x y z Hx Hy Hz. unfold theta, theta_D, theta_C, minus_mod, w.
  rewrite !H by (auto using mod5, mod64; lia). reflexivity.
Qed.
Lemma rho_ext S T : eqst S T -> eqst (rho S) (rho T).
Proof. intros H x y z Hx Hy Hz. unfold rho, minus_mod, w. apply H; auto using mod64. Qed.
Lemma pi_ext S T : eqst S T -> eqst (pi S) (pi T).
Proof. intros H x y z Hx Hy Hz. unfold pi. apply H; auto using mod5. Qed.
Lemma chi_ext S T : eqst S T -> eqst (chi S) (chi T).
Proof. intros H x y z Hx Hy Hz. unfold chi. rewrite !H by auto using mod5. reflexivity. Qed.
Lemma iota_ext i S T : eqst S T -> eqst (iota S i) (iota T i).
Proof. intros H x y z Hx Hy Hz. unfold iota. rewrite !H by assumption. reflexivity. Qed.
Lemma eqst_trans S T U : eqst S T -> eqst T U -> eqst S U.
Proof. intros H K x y z Hx Hy Hz. rewrite H, K by assumption. reflexivity. Qed.
Lemma eqst_sym S T : eqst S T -> eqst T S.
Proof. intros H x y z Hx Hy Hz. rewrite H by assumption. reflexivity. Qed.
Lemma Rnd_ext i S T : eqst S T -> eqst (Rnd S i) (Rnd T i).
Proof. intros H. unfold Rnd. auto 10 using iota_ext, chi_ext, pi_ext, rho_ext, theta_ext. Qed.

Lemma transform_ok i A : lanes_ok A -> lanes_ok (k_transform A (nth i k_RC 0)).
Proof. intros H. unfold k_transform. auto using iota_ok, chi_ok, rhopi_ok, theta_ok. Qed.
Lemma transform_eq i A : (i < 24)%nat -> lanes_ok A -> eqst (st_of (k_transform A (nth i k_RC 0))) (Rnd (st_of A) i).
Proof.
  intros Hi H. unfold k_transform, Rnd.
  eapply eqst_trans; [apply iota_eq; auto using chi_ok, rhopi_ok, theta_ok|]. apply iota_ext.
  eapply eqst_trans; [apply chi_eq; auto using rhopi_ok, theta_ok|]. apply chi_ext.
  eapply eqst_trans; [apply rhopi_eq; auto using theta_ok|]. apply pi_ext, rho_ext. apply theta_eq, H.
Qed.
Lemma perm_both l : Forall (fun i => (i < 24)%nat) l -> forall A S, lanes_ok A -> eqst (st_of A) S ->
  let A' := fold_left (fun A i => k_transform A (nth i k_RC 0)) l A in lanes_ok A' /\ eqst (st_of A') (fold_left Rnd l S).
Proof.
  induction 1 as [|i l Hi _ IH]; intros A S HA HS; [split; assumption|]. cbn [fold_left]. cbv zeta. apply IH; [apply transform_ok, HA|].
  eapply eqst_trans; [apply transform_eq; assumption|]. apply Rnd_ext, HS.
Qed.

(** ** bit strings *)
Definition bits_of (A : list N) : bits := flat_map (fun v => map (fun z => N.testbit v (N.of_nat z)) (seq 0 64)) A.
Definition wordbits (k : nat) (v : N) : bits := map (fun z => N.testbit v (N.of_nat z)) (seq 0 k).
Lemma wordbits_len k v : length (wordbits k v) = k.
Proof. unfold wordbits. rewrite map_length. apply seq_length. Qed.
Lemma nth_wordbits k v z : (z < k)%nat -> nth z (wordbits k v) false = N.testbit v (N.of_nat z).
Proof.
  intros H. unfold wordbits. rewrite (nth_indep _ false (N.testbit v (N.of_nat 0))) by (rewrite map_length, seq_length; exact H).
  rewrite (map_nth (fun z => N.testbit v (N.of_nat z))), seq_nth by exact H. reflexivity.
Qed.
Lemma flat_len k (l : list N) : length (flat_map (wordbits k) l) = (k * length l)%nat.
Proof. induction l as [|v l IH]; [cbn; lia|]. cbn [flat_map length]. rewrite app_length, wordbits_len, IH. lia. Qed.
Lemma nth_flat k (l : list N) i : (0 < k)%nat -> nth i (flat_map (wordbits k) l) false = N.testbit (nth (i / k) l 0) (N.of_nat (i mod k)).
Proof.
  intros Hk. revert i. induction l as [|v l IH]; intros i.
  - cbn [flat_map]. destruct i, (_ / k)%nat; reflexivity.
  - cbn [flat_map]. destruct (Nat.lt_ge_cases i k) as [L|L].
    + rewrite app_nth1 by (rewrite wordbits_len; exact L). rewrite Nat.div_small, Nat.mod_small by exact L. apply nth_wordbits, L.
    + rewrite app_nth2 by (rewrite wordbits_len; exact L). rewrite wordbits_len, IH.
      assert (E : i = ((i - k) + 1 * k)%nat) by lia.
      rewrite E at 3 4. rewrite Nat.div_add, Nat.mod_add by lia.
      replace ((i - k) / k + 1)%nat with (S ((i - k) / k)) by lia. reflexivity.
Qed.

Lemma bits_of_nth A i : nth i (bits_of A) false = N.testbit (nth (i / 64) A 0) (N.of_nat (i mod 64)).
Proof. apply (nth_flat 64). lia. Qed.
Lemma bits_of_len A : length (bits_of A) = (64 * length A)%nat.
Proof. apply (flat_len 64). Qed.
Lemma bb_nth l i : nth i (bits_of_bytes l) false = N.testbit (nth (i / 8) l 0) (N.of_nat (i mod 8)).
Proof. apply (nth_flat 8). lia. Qed.
Lemma bb_len l : length (bits_of_bytes l) = (8 * length l)%nat.
Proof. apply (flat_len 8). Qed.

Lemma to_state_of A : eqst (to_state (bits_of A)) (st_of A).
Proof.
  intros x y z Hx Hy Hz. unfold to_state, st_of, lane, w. rewrite bits_of_nth.
  assert (E : ((64 * (5 * y + x) + z) / 64 = 5 * y + x /\ (64 * (5 * y + x) + z) mod 64 = z)%nat) by lia.
  destruct E as [-> ->]. reflexivity.
Qed.
Lemma nth_tab {T} (f : nat -> T) n i d : (i < n)%nat -> nth i (map f (seq 0 n)) d = f i.
Proof.
  intros H. rewrite (nth_indep _ d (f 0%nat)) by (rewrite map_length, seq_length; exact H).
  rewrite map_nth, seq_nth by exact H. reflexivity.
Qed.
Lemma to_string_of S A : length A = 25%nat -> eqst (st_of A) S -> to_string S = bits_of A.
Proof.
  intros L H. apply (nth_ext _ _ false false).
  - rewrite bits_of_len, L. unfold to_string. rewrite map_length. apply seq_length.
  - intros i Hi. unfold to_string in Hi. rewrite map_length, seq_length in Hi.
    unfold to_string. rewrite (nth_tab (fun i => S ((i / w) mod 5)%nat (i / w / 5)%nat (i mod w)%nat)) by exact Hi.
    rewrite bits_of_nth. unfold w. rewrite <- H by (auto using mod5, mod64; lia). unfold st_of, lane. f_equal. f_equal. lia.
Qed.

Lemma perm_ok A : lanes_ok A -> lanes_ok (k_permutation A 24).
Proof.
  intros H. eapply (perm_both (seq 0 24)); [|exact H|intros ? ? ? ? ? ?; reflexivity].
  apply Forall_forall. intros i Hi. apply in_seq in Hi. lia.
Qed.
Lemma perm_eq A : lanes_ok A -> keccak_f (bits_of A) = bits_of (k_permutation A 24).
Proof.
  intros H. unfold keccak_f. destruct (perm_both (seq 0 24)) with (A := A) (S := to_state (bits_of A)) as [HL HE].
  - apply Forall_forall. intros i Hi. apply in_seq in Hi. lia.
  - exact H.
  - apply eqst_sym, to_state_of.
  - apply to_string_of; [apply HL|exact HE].
Qed.

(** ** xoring a block of bytes into the state *)
Lemma xor_bits_len : forall a b, length (xor_bits a b) = length a.
Proof. induction a as [|x a IH]; intros [|y b]; cbn; auto. Qed.
Lemma xor_bits_nth : forall a b i, (i < length a)%nat -> nth i (xor_bits a b) false = xorb (nth i a false) (nth i b false).
Proof.
  induction a as [|x a IH]; intros b i H; [cbn in H; lia|]. destruct b as [|y b].
  - cbn [xor_bits]. destruct i; cbn; rewrite xorb_false_r; reflexivity.
  - destruct i; [reflexivity|]. cbn. apply IH. cbn in H. lia.
Qed.
Lemma lane_of_bit : forall b k j, bytes_ok b -> (j < 8)%nat -> N.testbit (lane_of b) (N.of_nat (8 * k + j)) = N.testbit (nth k b 0) (N.of_nat j).
Proof.
  induction b as [|x b IH]; intros k j H Hj.
  - cbn [lane_of fold_right]. destruct k; cbn [nth]; rewrite !N.bits_0; reflexivity.
  - inversion H as [|? ? Hx Hb]; subst. unfold lane_of. cbn [fold_right]. fold (lane_of b).
    assert (E : x + 256 * lane_of b = N.lor (lane_of b * 2 ^ 8) x).
    { rewrite lor_add by exact Hx. change (2 ^ 8) with 256. lia. }
    rewrite E, N.lor_spec, <- N.shiftl_mul_pow2. destruct k as [|k].
    + rewrite N.shiftl_spec_low by lia. cbn [nth orb]. f_equal. 
    + rewrite N.shiftl_spec_high by lia. rewrite (testbit_high x (N.of_nat (8 * S k + j)) 8) by (auto; lia). rewrite orb_false_r.
      replace (N.of_nat (8 * S k + j) - 8) with (N.of_nat (8 * k + j)) by lia. apply IH; assumption.
Qed.
Lemma lane_of_lt b : bytes_ok b -> (length b <= 8)%nat -> lane_of b < 2 ^ 64.
Proof.
  intros H L. apply N.lt_le_trans with (256 ^ N.of_nat (length b)).
  - clear L. induction H as [|x b Hx _ IH]; [reflexivity|]. unfold lane_of. cbn [fold_right length]. fold (lane_of b).
    unfold is_byte in Hx. rewrite Nat2N.inj_succ, N.pow_succ_r'. lia.
  - rewrite pow256. apply N.pow_le_mono_r; lia.
Qed.

(** the state after xoring in the block [b] *)
Definition xor_lanes (A b : list N) (lanes : nat) : list N :=
  map (fun i => if Nat.ltb i lanes then N.lxor (nth i A 0) (lane_of (firstn 8 (skipn (8 * i) b))) else nth i A 0) (seq 0 25).
Lemma bytes_firstn n l : bytes_ok l -> bytes_ok (firstn n l).
Proof. intros H. rewrite <- (firstn_skipn n l) in H. apply Forall_app in H. apply H. Qed.
Lemma bytes_skipn n l : bytes_ok l -> bytes_ok (skipn n l).
Proof. intros H. rewrite <- (firstn_skipn n l) in H. apply Forall_app in H. apply H. Qed.
Lemma xor_lanes_ok A b lanes : lanes_ok A -> bytes_ok b -> lanes_ok (xor_lanes A b lanes).
Proof.
  intros [L F] Hb. split; [unfold xor_lanes; rewrite map_length; apply seq_length|].
  apply Forall_map, Forall_forall. intros i _. destruct (Nat.ltb i lanes); [|apply nth_lt, F].
  apply lxor_lt; [apply nth_lt, F|]. apply lane_of_lt; [auto using bytes_firstn, bytes_skipn|]. rewrite firstn_length. lia.
Qed.
Lemma nth_firstn_lt {T} (l : list T) d : forall n i, (i < n)%nat -> nth i (firstn n l) d = nth i l d.
Proof.
  induction l as [|x l IH]; intros n i H; [destruct n; reflexivity|]. destruct n; [lia|]. destruct i; [reflexivity|]. cbn. apply IH. lia.
Qed.
Lemma nth_skipn_add {T} (l : list T) d : forall n i, nth i (skipn n l) d = nth (n + i) l d.
Proof.
  induction l as [|x l IH]; intros n i; [destruct n, i; reflexivity|]. destruct n; [reflexivity|]. cbn. apply IH.
Qed.
Lemma xor_lanes_bits A b lanes : lanes_ok A -> bytes_ok b -> (lanes <= 25)%nat -> length b = (8 * lanes)%nat ->
  bits_of (xor_lanes A b lanes) = xor_bits (bits_of A) (bits_of_bytes b).
Proof.
  intros [LA FA] Hb Hl Lb. apply (nth_ext _ _ false false).
  - rewrite xor_bits_len, !bits_of_len. unfold xor_lanes. rewrite map_length, seq_length, LA. reflexivity.
  - intros i Hi. rewrite bits_of_len in Hi. unfold xor_lanes in Hi. rewrite map_length, seq_length in Hi.
    rewrite xor_bits_nth by (rewrite bits_of_len, LA; exact Hi). rewrite !bits_of_nth, bb_nth.
    unfold xor_lanes. rewrite (nth_tab (fun i => if Nat.ltb i lanes then _ else _)) by lia.
    destruct (Nat.ltb_spec (i / 64) lanes) as [L|L].
    + rewrite N.lxor_spec. f_equal.
      assert (E : (i mod 64 = 8 * (i mod 64 / 8) + i mod 8)%nat) by lia. rewrite E at 1.
      rewrite lane_of_bit by (auto using bytes_firstn, bytes_skipn; lia).
      rewrite nth_firstn_lt by lia. rewrite nth_skipn_add. f_equal. f_equal. lia.
    + rewrite (nth_overflow b) by lia. rewrite N.bits_0, xorb_false_r. reflexivity.
Qed.
Lemma k_absorb_eq st input lanes : (8 * lanes <= length input)%nat ->
  k_absorb st input lanes 24 = Ret (k_permutation (xor_lanes st (firstn (8 * lanes) input) lanes) 24).
Proof.
  intros H. unfold k_absorb, seq_to_state. destruct (Nat.ltb_spec (length input) (8 * lanes)) as [L|L]; [lia|].
  cbn [bind]. f_equal. f_equal. unfold xor_lanes. apply map_ext_in. intros i Hi. destruct (Nat.ltb_spec i lanes) as [Q|Q]; [|reflexivity].
  f_equal. f_equal. rewrite skipn_firstn_comm, firstn_firstn. f_equal. lia.
Qed.

(** ** reading bytes out of the state *)
Lemma bytes_of_lane_bits v : v < 2 ^ 64 -> bits_of_bytes (bytes_of_lane v) = wordbits 64 v.
Proof.
  intros Hv. apply (nth_ext _ _ false false).
  - rewrite bb_len, wordbits_len. reflexivity.
  - intros i Hi. rewrite bb_len in Hi. change (8 * length (bytes_of_lane v))%nat with 64%nat in Hi.
    rewrite bb_nth, nth_wordbits by exact Hi. unfold bytes_of_lane.
    rewrite (nth_tab (fun i => u8 (N.shiftr v (8 * N.of_nat i)))) by lia. unfold u8.
    rewrite N.mod_pow2_bits_low by lia. rewrite N.shiftr_spec by lia. f_equal. lia.
Qed.
Lemma flat_map_flat_map {A B C} (f : A -> list B) (g : B -> list C) l : flat_map g (flat_map f l) = flat_map (fun x => flat_map g (f x)) l.
Proof. induction l as [|x l IH]; [reflexivity|]. cbn. rewrite flat_map_app, IH. reflexivity. Qed.
Lemma bb_app a b : bits_of_bytes (a ++ b) = bits_of_bytes a ++ bits_of_bytes b.
Proof. apply flat_map_app. Qed.
Lemma state_to_seq_len A lanes : (lanes <= length A)%nat -> length (state_to_seq A lanes) = (8 * lanes)%nat.
Proof.
  intros H. unfold state_to_seq. transitivity (8 * length (firstn lanes A))%nat; [|rewrite firstn_length; lia].
  induction (firstn lanes A) as [|v l IH]; [reflexivity|]. cbn [flat_map]. rewrite app_length, IH. cbn [length]. change (length (bytes_of_lane v)) with 8%nat. lia.
Qed.
Lemma state_to_seq_bytes A lanes : bytes_ok (state_to_seq A lanes).
Proof.
  unfold state_to_seq. apply Forall_flat_map, Forall_forall. intros v _. unfold bytes_of_lane. apply Forall_map, Forall_forall.
  intros i _. unfold is_byte, u8. apply N.mod_lt. discriminate.
Qed.
Lemma state_to_seq_bits A lanes : lanes_ok A -> bits_of_bytes (state_to_seq A lanes) = firstn (64 * lanes) (bits_of A).
Proof.
  intros [_ F]. revert lanes. induction F as [|v A Hv F IH]; intros lanes.
  - unfold state_to_seq. rewrite firstn_nil. cbn. rewrite firstn_nil. reflexivity.
  - destruct lanes as [|n]; [reflexivity|]. unfold state_to_seq. cbn [firstn flat_map]. rewrite bb_app, bytes_of_lane_bits by exact Hv.
    unfold bits_of. cbn [flat_map]. fold (bits_of A). fold (wordbits 64 v).
    rewrite firstn_app, wordbits_len, (firstn_all2 (wordbits 64 v)) by (rewrite wordbits_len; lia). f_equal.
    replace (64 * S n - 64)%nat with (64 * n)%nat by lia. apply IH.
Qed.

Lemma bits_value_byte b : is_byte b -> bits_value (byte_bits b) = b.
Proof.
  intros H. assert (G : forallb (fun b => bits_value (byte_bits (N.of_nat b)) =? N.of_nat b) (seq 0 256) = true) by (vm_compute; reflexivity).
  rewrite forallb_forall in G. specialize (G (N.to_nat b)). rewrite N2Nat.id in G. apply N.eqb_eq, G, in_seq. unfold is_byte in H. lia.
Qed.
Lemma bytes_of_bits_bytes l : bytes_ok l -> bytes_of_bits (bits_of_bytes l) = l.
Proof.
  intros H. unfold bytes_of_bits. rewrite bb_len.
  assert (G : forall fuel, (length l <= fuel)%nat -> bytes_of fuel (bits_of_bytes l) = l).
  { induction H as [|b l Hb _ IH]; intros fuel L; [destruct fuel; reflexivity|].
    destruct fuel as [|fuel]; [cbn in L; lia|]. change (bits_of_bytes (b :: l)) with (byte_bits b ++ bits_of_bytes l).
    change (byte_bits b ++ bits_of_bytes l) with (N.testbit b (N.of_nat 0) :: tl (byte_bits b ++ bits_of_bytes l)) at 1. cbn [bytes_of].
    change (N.testbit b (N.of_nat 0) :: tl (byte_bits b ++ bits_of_bytes l)) with (byte_bits b ++ bits_of_bytes l).
    rewrite firstn_app, skipn_app. change (length (byte_bits b)) with 8%nat. rewrite Nat.sub_diag, firstn_O, app_nil_r.
    rewrite firstn_all2, skipn_all2 by (cbn; lia). cbn [app skipn]. rewrite bits_value_byte by exact Hb. f_equal. apply IH. cbn in L. lia. }
  apply G. lia.
Qed.
