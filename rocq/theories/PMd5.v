(** MD5: the model against RFC 1321. *)
From Verif Require Import Base SHex SFips180 SMd5 MSha MFront MMd5 SHash PWords PSha PShaInst.
Local Open Scope N_scope.

(** ** bytes *)
Lemma le_bytes_length n v : length (le_bytes n v) = n.
Proof. unfold le_bytes. rewrite map_length, seq_length. reflexivity. Qed.
Lemma le_bytes_ok n v : bytes_ok (le_bytes n v).
Proof. unfold le_bytes. apply Forall_map, Forall_forall. intros i _. unfold is_byte. apply N.mod_lt. discriminate. Qed.
Lemma land_ff v k : N.land (N.shiftr v k) 0xFF = (v / 2 ^ k) mod 256.
Proof. change 0xFF with (N.ones 8). rewrite N.land_ones, N.shiftr_div_pow2. reflexivity. Qed.
Lemma md5_encode_le ws : md5_encode ws = flat_map (le_bytes 4) ws.
Proof.
  unfold md5_encode. induction ws as [|v ws IH]; [reflexivity|]. cbn [flat_map]. rewrite IH. f_equal.
  unfold le_bytes. cbn [map seq]. rewrite !land_ff.
  change (N.of_nat 0) with 0. change (N.of_nat 1) with 1. change (N.of_nat 2) with 2. change (N.of_nat 3) with 3.
  rewrite !pow256. change 0xFF with (N.ones 8). rewrite N.land_ones.
  change (8 * 0) with 0. change (2 ^ 0) with 1. rewrite N.div_1_r. reflexivity.
Qed.

Lemma load32le_value a b c d : is_byte a -> is_byte b -> is_byte c -> is_byte d ->
  N.lor (N.lor (N.lor a (trunc 32 (N.shiftl b 8))) (trunc 32 (N.shiftl c 16))) (trunc 32 (N.shiftl d 24)) = le_value [a; b; c; d].
Proof.
  unfold is_byte. intros. rewrite !trunc_mod, !N.shiftl_mul_pow2.
  rewrite !N.mod_small by (apply N.lt_le_trans with (256 * 2 ^ 24); [nia|vm_compute; discriminate]).
  rewrite (N.lor_comm a), (lor_add b a) by lia.
  rewrite (N.lor_comm _ (c * 2 ^ 16)), (lor_add c) by lia.
  rewrite (N.lor_comm _ (d * 2 ^ 24)), (lor_add d) by lia. cbn [le_value]. lia.
Qed.
Lemma load32le_words k : forall b, length b = (4 * k)%nat -> bytes_ok b ->
  map (load32le b) (seq 0 k) = map le_value (pieces 4 b).
Proof.
  induction k as [|k IH]; intros b Hl Hb.
  - destruct b; [reflexivity|discriminate].
  - do 4 (destruct b as [|? b]; [cbn [length] in Hl; lia|]).
    change (n :: n0 :: n1 :: n2 :: b) with ([n; n0; n1; n2] ++ b). rewrite pieces_cons by (cbn; lia).
    cbn [map seq]. inversion Hb as [|? ? B0 Hb0]; subst. inversion Hb0 as [|? ? B1 Hb1]; subst.
    inversion Hb1 as [|? ? B2 Hb2]; subst. inversion Hb2 as [|? ? B3 Hb3]; subst. f_equal.
    + apply load32le_value; assumption.
    + rewrite <- IH by (auto; cbn [length] in Hl; lia). rewrite <- seq_shift, map_map. apply map_ext. intros i.
      unfold load32le. replace (4 * S i)%nat with (4 + 4 * i)%nat by lia. reflexivity.
Qed.

(** ** compression: the rotating indices of buf *)
Definition view (i : nat) (buf : list N) : list N := map (fun k => nth ((i + k) mod 4) buf 0) [3; 2; 1; 0]%nat.
Lemma view_mod i buf : view (i mod 4) buf = view i buf.
Proof. unfold view. apply map_ext. intros k. rewrite Nat.add_mod_idemp_l by lia. reflexivity. Qed.

Definition tables_agree : bool :=
  forallb (fun r => forallb (fun i => let n := (16 * r + i)%nat in
    if Nat.eqb (nth i (nth r md5_idx []) 0%nat) (word_index n) then
    if nth (i mod 4) (nth r md5_S []) 0 =? rotation n then nth i (nth r md5_ac []) 0 =? nth n T 0 else false else false) (seq 0 16)) (seq 0 4).
Lemma tables r i : (r < 4)%nat -> (i < 16)%nat ->
  nth i (nth r md5_idx []) 0%nat = word_index (16 * r + i) /\ nth (i mod 4) (nth r md5_S []) 0 = rotation (16 * r + i) /\
  nth i (nth r md5_ac []) 0 = nth (16 * r + i) T 0.
Proof.
  intros Hr Hi. assert (A : tables_agree = true) by (vm_compute; reflexivity).
  unfold tables_agree in A. rewrite forallb_forall in A. specialize (A r ltac:(apply in_seq; lia)).
  rewrite forallb_forall in A. specialize (A i ltac:(apply in_seq; lia)). cbv zeta in A.
  destruct (Nat.eqb_spec (nth i (nth r md5_idx []) 0%nat) (word_index (16 * r + i))); [|discriminate].
  destruct (N.eqb_spec (nth (i mod 4) (nth r md5_S []) 0) (rotation (16 * r + i))); [|discriminate].
  apply N.eqb_eq in A. auto.
Qed.
Lemma fn_eq r i : (r < 4)%nat -> (i < 16)%nat -> fn (16 * r + i) = md5_fn r.
Proof.
  intros Hr Hi. unfold fn.
  destruct (Nat.ltb_spec (16 * r + i) 16); [assert (r = 0)%nat as -> by lia; reflexivity|].
  destruct (Nat.ltb_spec (16 * r + i) 32); [assert (r = 1)%nat as -> by lia; reflexivity|].
  destruct (Nat.ltb_spec (16 * r + i) 48); [assert (r = 2)%nat as -> by lia; reflexivity|].
  assert (r = 3)%nat as -> by lia; reflexivity.
Qed.
Lemma round_tran_eq a f b x s ac : round_tran a f b x s ac = addw 32 b (rotl 32 s (sumw 32 [a; f; x; ac])).
Proof.
  unfold round_tran. cbv zeta. rewrite !trunc_mod, clshift_rotl, sumw_mod. cbn [fold_left]. rewrite N.add_0_l.
  unfold addw. rewrite (N.add_comm b). do 3 f_equal. f_equal. lia.
Qed.

Lemma step_view r i x buf : length buf = 4%nat -> (r < 4)%nat -> (i < 16)%nat ->
  view (S i) (md5_step r x buf i) = operation x (view i buf) (16 * r + i) /\ length (md5_step r x buf i) = 4%nat.
Proof.
  intros Hl Hr Hi. destruct (tables r i Hr Hi) as (E1 & E2 & E3).
  unfold md5_step. cbv zeta. rewrite E1, E2, E3, round_tran_eq. unfold view at 2. cbn [map operation].
  rewrite fn_eq by assumption.
  assert (D : exists q k, i = (q * 4 + k)%nat /\ (k < 4)%nat).
  { exists (i / 4)%nat, (i mod 4)%nat. split; [rewrite Nat.mul_comm; apply Nat.div_mod_eq|apply Nat.mod_upper_bound; lia]. }
  destruct D as (q & k & D & Hk).
  assert (M : forall j, ((i + j) mod 4 = (k + j) mod 4)%nat).
  { intros j. rewrite D. replace (q * 4 + k + j)%nat with (k + j + q * 4)%nat by lia. apply Nat.mod_add. lia. }
  assert (MS : forall j, ((S i + j) mod 4 = (k + S j) mod 4)%nat).
  { intros j. rewrite <- M. f_equal. lia. }
  unfold view. cbn [map]. rewrite !MS, !M. clear MS M D.
  do 4 (destruct buf as [|? buf]; [discriminate|]). destruct buf; [|discriminate].
  assert (C : (k = 0 \/ k = 1 \/ k = 2 \/ k = 3)%nat) by lia.
  destruct C as [-> |[-> |[-> | ->]]]; (split; [|reflexivity]); reflexivity.
Qed.
Lemma round_view r x : (r < 4)%nat -> forall n i buf, length buf = 4%nat -> (i + n <= 16)%nat ->
  view (i + n) (fold_left (md5_step r x) (seq i n) buf) = fold_left (operation x) (seq (16 * r + i) n) (view i buf) /\
  length (fold_left (md5_step r x) (seq i n) buf) = 4%nat.
Proof.
  intros Hr. induction n as [|n IH]; intros i buf Hl Hi.
  - rewrite Nat.add_0_r. split; [reflexivity|exact Hl].
  - cbn [seq fold_left]. destruct (step_view r i x buf Hl Hr ltac:(lia)) as [E L]. rewrite <- E.
    rewrite Nat.add_succ_r. rewrite <- Nat.add_succ_l. rewrite <- (Nat.add_succ_r (16 * r) i). apply IH; [exact L|lia].
Qed.
Lemma fold4 {A} (f : A -> nat -> A) (b : A) : fold_left f (seq 0 4) b = f (f (f (f b 0%nat) 1%nat) 2%nat) 3%nat.
Proof. reflexivity. Qed.
Lemma md5_transform_eq s b : length s = 4%nat -> length b = 64%nat -> bytes_ok b ->
  md5_transform s b = md5_compress s b.
Proof.
  intros Hs Hl Hb. unfold md5_transform, md5_compress. cbv zeta. rewrite (load32le_words 16) by (auto; lia).
  set (x := map le_value (pieces 4 b)). do 4 (destruct s as [|? s]; [discriminate|]). destruct s; [|discriminate].
  cbn [nth]. set (buf := [n2; n1; n0; n]).
  assert (V0 : view 0 buf = [n; n0; n1; n2]) by reflexivity.
  rewrite fold4.
  rewrite <- V0.
  destruct (round_view 0 x ltac:(lia) 16 0 buf eq_refl ltac:(lia)) as [A1 L1]. set (b1 := fold_left (md5_step 0 x) (seq 0 16) buf) in *.
  destruct (round_view 1 x ltac:(lia) 16 0 b1 L1 ltac:(lia)) as [A2 L2]. set (b2 := fold_left (md5_step 1 x) (seq 0 16) b1) in *.
  destruct (round_view 2 x ltac:(lia) 16 0 b2 L2 ltac:(lia)) as [A3 L3]. set (b3 := fold_left (md5_step 2 x) (seq 0 16) b2) in *.
  destruct (round_view 3 x ltac:(lia) 16 0 b3 L3 ltac:(lia)) as [A4 L4]. set (b4 := fold_left (md5_step 3 x) (seq 0 16) b3) in *.
  rewrite <- (view_mod (0 + 16)) in A1, A2, A3, A4. change ((0 + 16) mod 4)%nat with 0%nat in *.
  change (seq 0 64) with (seq 0 16 ++ seq 16 16 ++ seq 32 16 ++ seq 48 16). rewrite !fold_left_app.
  change (seq 0 16) with (seq (16 * 0 + 0) 16). change (seq 16 16) with (seq (16 * 1 + 0) 16).
  change (seq 32 16) with (seq (16 * 2 + 0) 16). change (seq 48 16) with (seq (16 * 3 + 0) 16).
  rewrite <- A1, <- A2, <- A3, <- A4. clearbody b4.
  do 4 (destruct b4 as [|? b4]; [discriminate|]). destruct b4; [|discriminate].
  rewrite V0, !trunc_mod. reflexivity.
Qed.
Lemma md5_transform_len s b : length (md5_transform s b) = 4%nat.
Proof. reflexivity. Qed.
Lemma md5_fold bs : forall s, length s = 4%nat -> Forall (fun b => length b = 64%nat) bs -> Forall bytes_ok bs ->
  fold_left md5_transform bs s = fold_left md5_compress bs s.
Proof.
  induction bs as [|b bs IH]; intros s Hs F B; [reflexivity|]. inversion F; inversion B; subst. cbn [fold_left].
  rewrite <- md5_transform_eq by assumption. apply IH; auto.
Qed.

(** ** streaming *)
Definition fedm (m : list N) (c : md5_ctx) : Prop :=
  exists bs r, m = concat bs ++ r /\ Forall (fun b => length b = 64%nat) bs /\ (length r < 64)%nat /\
    mstate c = fold_left md5_transform bs md5_H0 /\ block_len c = N.of_nat (length m) mod 2 ^ 64 /\
    length (mblock c) = 64%nat /\ firstn (length r) (mblock c) = r.

Lemma fedm_init g : length (mblock g) = 64%nat -> fedm [] (md5_init g).
Proof. intros H. exists [], []. cbn. repeat split; auto; try constructor; lia. Qed.

Lemma land63 n : N.land (N.of_nat n mod 2 ^ 64) 0x3F = N.of_nat (n mod 64).
Proof.
  change 0x3F with (N.ones 6). rewrite N.land_ones.
  change (2 ^ 64) with (2 ^ 6 * 2 ^ 58). change (2 ^ 6) with 64. rewrite N.mod_mul_r by discriminate.
  rewrite N.mul_comm, N.mod_add, N.mod_mod by discriminate. rewrite Nat2N.inj_mod. reflexivity.
Qed.
Lemma offset_eq n : N.to_nat (u8 (N.land (N.of_nat n mod 2 ^ 64) 0x3F)) = (n mod 64)%nat.
Proof.
  rewrite land63. unfold u8. rewrite N.mod_small; [apply Nat2N.id|].
  assert (n mod 64 < 64)%nat by (apply Nat.mod_upper_bound; lia). change (2 ^ 8) with 256. lia.
Qed.
Lemma fed_rem m bs r : m = concat bs ++ r -> Forall (fun b : list N => length b = 64%nat) bs -> (length r < 64)%nat -> (length m mod 64 = length r)%nat.
Proof.
  intros -> F R. rewrite app_length, (concat_length_k 64 ltac:(lia) bs F). rewrite Nat.add_comm, Nat.mod_add by lia. apply Nat.mod_small. exact R.
Qed.
Lemma len_add (n k : N) : u64 (n mod 2 ^ 64 + k) = (n + k) mod 2 ^ 64.
Proof. unfold u64. apply N.add_mod_idemp_l. discriminate. Qed.

Lemma md5_loop_fed : forall fuel c rest wl m, (length rest < fuel)%nat -> fedm m c ->
  exists c' d rest' wl', md5_loop fuel c rest wl = Ret (c', rest', wl') /\ rest = d ++ rest' /\ fedm (m ++ d) c' /\
    ((rest' = [] /\ rest = [] /\ wl' = wl) \/ (rest' = [] /\ exists w, wl' = Some w /\ (0 < w)%nat) \/
     (rest' <> [] /\ wl' = Some (64 - length (m ++ d) mod 64)%nat /\ (length rest' < 64 - length (m ++ d) mod 64)%nat)).
Proof.
  induction fuel as [|fuel IH]; intros c rest wl m HF Hf; [lia|].
  cbn [md5_loop]. destruct rest as [|x rest0] eqn:ER.
  { exists c, [], [], wl. rewrite !app_nil_r. split; [reflexivity|]. split; [reflexivity|]. split; [exact Hf|auto]. }
  rewrite <- ER in *. assert (NR : rest <> []) by (rewrite ER; discriminate). clear ER x rest0.
  destruct Hf as (bs & r & Em & F & R & S & BL & LB & FB).
  pose proof (fed_rem m bs r Em F R) as MD. cbv zeta. rewrite BL, offset_eq, MD.
  destruct (Nat.ltb_spec (length rest) (64 - length r)) as [L|L].
  - exists c, [], rest, (Some (64 - length r)%nat). rewrite app_nil_r. split; [reflexivity|]. split; [reflexivity|].
    split; [exists bs, r; auto 10|]. right. right. rewrite MD. auto.
  - set (k := (64 - length r)%nat) in *. set (u := firstn k rest). set (t := skipn k rest).
    assert (EU : rest = u ++ t) by (symmetry; apply firstn_skipn).
    assert (LU : length u = k) by (unfold u; rewrite firstn_length; lia).
    assert (EB : blit (mblock c) (length r) u = Ret (r ++ u)).
    { rewrite blit_ok by lia. rewrite FB. rewrite skipn_all2 by lia. rewrite app_nil_r. reflexivity. }
    rewrite EB. cbn [bind]. rewrite len_add.
    set (c1 := mkMd5 _ _ _).
    assert (Hf1 : fedm (m ++ u) c1).
    { exists (bs ++ [r ++ u]), []. unfold c1. cbn [mstate block_len mblock length firstn].
      repeat split; auto; try lia.
      - rewrite concat_app. cbn [concat]. rewrite Em, !app_nil_r, app_assoc. reflexivity.
      - apply Forall_app. split; [exact F|]. constructor; [rewrite app_length; lia|constructor].
      - rewrite fold_left_app, <- S. reflexivity.
      - rewrite app_length, LU. f_equal. lia.
      - rewrite app_length. lia. }
    destruct (IH c1 t (Some k) (m ++ u)) as (c' & d & rest' & wl' & E & Et & Hf' & Hw); auto.
    { unfold t. rewrite skipn_length. lia. }
    exists c', (u ++ d), rest', wl'. rewrite E. rewrite app_assoc. split; [reflexivity|].
    split; [rewrite EU, Et, app_assoc; reflexivity|]. split; [exact Hf'|].
    right. destruct Hw as [(H1 & H2 & H3)|[H1|H1]]; [left|left; exact H1|right; exact H1].
    split; [exact H1|]. exists k. split; [exact H3|]. lia.
Qed.

Lemma md5_update_fed g c inp m : fedm m c -> inp <> [] -> exists c', md5_update g c inp = Ret c' /\ fedm (m ++ inp) c'.
Proof.
  intros Hf NE. unfold md5_update.
  destruct (md5_loop_fed (S (length inp)) c inp None m ltac:(lia) Hf) as (c' & d & rest' & wl' & E & ED & Hf' & Hw).
  rewrite E. cbn [bind]. destruct Hw as [(_ & H & _)|[(H1 & w & -> & Hw)|(H1 & -> & Hl)]].
  - contradiction.
  - cbn [bind]. subst rest'. cbn [bind]. rewrite app_nil_r in ED. subst d.
    destruct (N.eqb_spec (N.of_nat w) 0); [lia|]. exists c'. auto.
  - cbn [bind]. destruct rest' as [|x rest0] eqn:ER; [contradiction|]. rewrite <- ER in *. clear ER H1.
    destruct Hf' as (bs & r & Em & F & R & S & BL & LB & FB).
    pose proof (fed_rem _ bs r Em F R) as MD. rewrite MD in *. rewrite BL, offset_eq, MD.
    rewrite blit_ok by lia. rewrite FB, len_add. cbn [bind].
    destruct (N.eqb_spec (N.of_nat (64 - length r) - N.of_nat (length rest')) 0); [lia|].
    eexists. split; [reflexivity|]. exists bs, (r ++ rest'). cbn [mstate block_len mblock].
    assert (EM : m ++ inp = concat bs ++ r ++ rest') by (rewrite ED, !app_assoc; f_equal; rewrite <- Em; reflexivity).
    repeat split; auto.
    + rewrite app_length. lia.
    + f_equal. rewrite EM, Em, !app_length. lia.
    + rewrite !app_length, skipn_length. lia.
    + rewrite app_assoc, firstn_app, firstn_all, Nat.sub_diag, firstn_O. apply app_nil_r.
Qed.

(** ** digest *)
Lemma count_bytes n : md5_encode [u32 (N.shiftl (N.of_nat n mod 2 ^ 64) 3); u32 (N.shiftr (N.of_nat n mod 2 ^ 64) 29)] = le_bytes 8 (8 * N.of_nat n).
Proof.
  rewrite md5_encode_le. cbn [flat_map]. rewrite app_nil_r. rewrite N.shiftl_mul_pow2, N.shiftr_div_pow2. unfold u32.
  set (x := N.of_nat n). clearbody x.
  assert (D : x = 2 ^ 64 * (x / 2 ^ 64) + x mod 2 ^ 64) by (apply N.div_mod; discriminate).
  set (q := x / 2 ^ 64) in *. set (y := x mod 2 ^ 64) in *.
  assert (Y : y < 2 ^ 64) by (apply N.mod_lt; discriminate). rewrite D. clearbody q y. clear D x.
  assert (D : y = 2 ^ 29 * (y / 2 ^ 29) + y mod 2 ^ 29) by (apply N.div_mod; discriminate).
  set (h := y / 2 ^ 29) in *. set (l := y mod 2 ^ 29) in *.
  assert (L : l < 2 ^ 29) by (apply N.mod_lt; discriminate).
  assert (HH : h < 2 ^ 35) by (change (2 ^ 64) with (2 ^ 29 * 2 ^ 35) in Y; nia).
  rewrite D. clearbody h l. clear D Y y.
  assert (E1 : ((2 ^ 29 * h + l) * 2 ^ 3) mod 2 ^ 32 = l * 8).
  { replace ((2 ^ 29 * h + l) * 2 ^ 3) with (l * 8 + h * 2 ^ 32) by lia. rewrite N.mod_add by discriminate. apply N.mod_small. lia. }
  rewrite E1.
  unfold le_bytes. cbn [map seq app].
  change (N.of_nat 0) with 0. change (N.of_nat 1) with 1. change (N.of_nat 2) with 2. change (N.of_nat 3) with 3.
  change (N.of_nat 4) with 4. change (N.of_nat 5) with 5. change (N.of_nat 6) with 6. change (N.of_nat 7) with 7.
  rewrite !pow256.
  change (8 * 0) with 0. change (8 * 1) with 8. change (8 * 2) with 16. change (8 * 3) with 24.
  change (8 * 4) with 32. change (8 * 5) with 40. change (8 * 6) with 48. change (8 * 7) with 56.
  set (V := 8 * (2 ^ 64 * q + (2 ^ 29 * h + l))).
  assert (EV : V = l * 8 + 2 ^ 32 * (h + 2 ^ 35 * q)) by (unfold V; lia).
  assert (LO : forall a b, 2 ^ 32 = 2 ^ a * (256 * 2 ^ b) -> (V / 2 ^ a) mod 256 = (l * 8 / 2 ^ a) mod 256).
  { intros a b Hab. rewrite EV, Hab. replace (l * 8 + 2 ^ a * (256 * 2 ^ b) * (h + 2 ^ 35 * q)) with (l * 8 + (2 ^ b * (h + 2 ^ 35 * q) * 256) * 2 ^ a) by lia.
    rewrite N.div_add by (apply N.pow_nonzero; lia). rewrite N.mod_add by discriminate. reflexivity. }
  assert (HI : forall a a' b, 2 ^ a = 2 ^ 32 * 2 ^ a' -> 2 ^ 32 = 2 ^ a' * (256 * 2 ^ b) -> (V / 2 ^ a) mod 256 = (h mod 2 ^ 32 / 2 ^ a') mod 256).
  { intros a a' b Ha Hb. rewrite Ha, <- N.div_div by (try apply N.pow_nonzero; discriminate).
    assert (EQ : V / 2 ^ 32 = h + 2 ^ 35 * q).
    { rewrite EV, (N.mul_comm (2 ^ 32)), N.div_add by discriminate. rewrite (N.div_small (l * 8)) by lia. lia. }
    rewrite EQ. assert (DH : h = 2 ^ 32 * (h / 2 ^ 32) + h mod 2 ^ 32) by (apply N.div_mod; discriminate).
    set (hh := h mod 2 ^ 32) in *. set (hq := h / 2 ^ 32) in *. rewrite DH.
    replace (2 ^ 32 * hq + hh + 2 ^ 35 * q) with (hh + (2 ^ b * (hq + 8 * q) * 256) * 2 ^ a').
    2:{ replace (2 ^ b * (hq + 8 * q) * 256 * 2 ^ a') with ((2 ^ a' * (256 * 2 ^ b)) * (hq + 8 * q)) by lia. rewrite <- Hb. change (2 ^ 35) with (2 ^ 32 * 8). lia. }
    rewrite N.div_add by (apply N.pow_nonzero; lia). rewrite N.mod_add by discriminate. reflexivity. }
  rewrite (LO 0 24), (LO 8 16), (LO 16 8), (LO 24 0) by reflexivity.
  rewrite (HI 32 0 24), (HI 40 8 16), (HI 48 16 8), (HI 56 24 0) by reflexivity. reflexivity.
Qed.

Lemma fedm_full m c n : fedm m c -> length m = (n * 64)%nat -> mstate c = fold_left md5_transform (pieces 64 m) md5_H0.
Proof.
  intros (bs & r & Em & F & R & S & _) Hn. pose proof (fed_rem m bs r Em F R) as MD.
  rewrite Hn, Nat.mod_mul in MD by lia. destruct r; [|discriminate]. rewrite app_nil_r in Em. subst m.
  rewrite (pieces_full 64 ltac:(lia) bs F). exact S.
Qed.
Lemma firstn_padding n : (1 <= n <= 64)%nat -> firstn n PADDING = 0x80 :: repeat 0 (n - 1).
Proof.
  intros H. unfold PADDING. destruct n as [|n]; [lia|]. cbn [firstn]. f_equal. replace (S n - 1)%nat with n by lia.
  replace 63%nat with (n + (63 - n))%nat by lia. rewrite repeat_app, firstn_app, repeat_length, Nat.sub_diag, firstn_O, app_nil_r.
  apply firstn_all2. rewrite repeat_length. lia.
Qed.

Lemma md5_digest_fed2 g m c out : fedm m c -> bytes_ok m -> (16 <= length out)%nat ->
  exists c', md5_digest g c out = Ret (c', MD5 m ++ skipn 16 out) /\ length (mblock c') = 64%nat /\ length (MD5 m) = 16%nat /\
    fedm (padded 64 8 (le_bytes 8) m) c' /\ bytes_ok (padded 64 8 (le_bytes 8) m).
Proof.
  intros Hf Hm Ho. pose proof Hf as (bs & r & Em & F & R & S & BL & LB & FB). pose proof (fed_rem m bs r Em F R) as MD.
  unfold md5_digest. cbv zeta. rewrite BL, count_bytes, land63, Nat2N.id, MD.
  set (n := if Nat.ltb (length r) 56 then (56 - length r)%nat else (120 - length r)%nat).
  assert (Hn : (1 <= n <= 64)%nat) by (unfold n; destruct (Nat.ltb_spec (length r) 56); lia).
  assert (PZ : pad_zeros 64 8 (length m) = (n - 1)%nat).
  { unfold pad_zeros. rewrite MD. unfold n. destruct (Nat.ltb_spec (length r) 56).
    - replace (2 * 64 - length r - 1 - 8)%nat with ((56 - length r - 1) + 1 * 64)%nat by lia. rewrite Nat.mod_add, Nat.mod_small by lia. reflexivity.
    - rewrite Nat.mod_small by lia. lia. }
  destruct (Nat.leb_spec n (length PADDING)) as [_|X]; [|cbn in X; lia].
  rewrite firstn_padding by exact Hn.
  destruct (md5_update_fed g c (0x80 :: repeat 0 (n - 1)) m Hf ltac:(discriminate)) as (c1 & E1 & Hf1). rewrite E1. cbn [bind].
  destruct (md5_update_fed g c1 (le_bytes 8 (8 * N.of_nat (length m))) _ Hf1) as (c2 & E2 & Hf2).
  { intros C. apply (f_equal (@length N)) in C. rewrite le_bytes_length in C. discriminate. }
  rewrite E2. cbn [bind].
  set (pm := padded 64 8 (le_bytes 8) m).
  assert (EP : (m ++ 0x80 :: repeat 0 (n - 1)) ++ le_bytes 8 (8 * N.of_nat (length m)) = pm).
  { unfold pm, padded. rewrite PZ, <- app_assoc. reflexivity. }
  rewrite EP in Hf2.
  destruct (pad_zeros_least 64 8 (length m) ltac:(lia)) as [Z _].
  assert (LP : exists k, length pm = (k * 64)%nat).
  { apply Nat.mod_divides in Z; [|lia]. destruct Z as (k & Z). exists k. unfold pm, padded.
    rewrite !app_length, repeat_length, le_bytes_length. cbn [length]. lia. }
  destruct LP as (k & LP). pose proof (fedm_full pm c2 k Hf2 LP) as ST.
  assert (Bp : bytes_ok pm).
  { unfold pm, padded. repeat (apply Forall_app; split); try apply le_bytes_ok; auto.
    - repeat constructor.
    - apply Forall_forall. intros x Hx. apply repeat_spec in Hx. subst. reflexivity. }
  destruct (pieces_mult 64 ltac:(lia) pm k LP) as (FP & _ & _).
  rewrite md5_fold in ST by (auto using pieces_bytes with arith).
  assert (EM : md5_encode (mstate c2) = MD5 m).
  { rewrite md5_encode_le, ST. reflexivity. }
  assert (L16 : length (MD5 m) = 16%nat).
  { unfold MD5, iterate. fold pm. fold md5_H0 in *. change md5_IV with md5_H0.
    rewrite <- md5_fold by (auto using pieces_bytes with arith).
    assert (L4 : forall l s, length s = 4%nat -> length (fold_left md5_transform l s) = 4%nat).
    { induction l as [|b l IH]; intros s Hs; [exact Hs|]. cbn [fold_left]. apply IH. reflexivity. }
    specialize (L4 (pieces 64 pm) md5_H0 eq_refl). destruct (fold_left md5_transform (pieces 64 pm) md5_H0) as [|w0 [|w1 [|w2 [|w3 [|]]]]]; try discriminate.
    cbn [flat_map]. rewrite !app_length, !le_bytes_length. reflexivity. }
  rewrite EM, blit_ok by (rewrite L16; lia). rewrite L16. cbn [bind firstn app plus].
  exists c2. split; [reflexivity|]. split; [|split; [reflexivity|split; [exact Hf2|exact Bp]]]. destruct Hf2 as (? & ? & _ & _ & _ & _ & _ & L & _). exact L.
Qed.
Lemma md5_digest_fed g m c out : fedm m c -> bytes_ok m -> (16 <= length out)%nat ->
  exists c', md5_digest g c out = Ret (c', MD5 m ++ skipn 16 out) /\ length (mblock c') = 64%nat /\ length (MD5 m) = 16%nat.
Proof. intros Hf Hm Ho. destruct (md5_digest_fed2 g m c out Hf Hm Ho) as (c' & A & B & C & _). eauto. Qed.

Lemma md5_updates_fed g ps : forall m c, fedm m c -> Forall (fun p => p <> []) ps ->
  exists c', updates (md5_impl g) c ps = Ret c' /\ fedm (m ++ concat ps) c'.
Proof.
  induction ps as [|p ps IH]; intros m c Hf HP.
  - exists c. cbn. rewrite app_nil_r. auto.
  - inversion HP as [|? ? Hp HP']; subst. destruct (md5_update_fed g c p m Hf Hp) as (c1 & E1 & Hf1).
    destruct (IH (m ++ p) c1 Hf1 HP') as (c2 & E2 & Hf2). exists c2. cbn [updates concat].
    change (iupdate (md5_impl g)) with (md5_update g). rewrite E1. cbn [bind]. rewrite app_assoc. auto.
Qed.
