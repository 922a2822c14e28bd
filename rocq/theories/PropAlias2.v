(** C83: input and output in one array: base encoding and Blowfish. *)
From Coq Require Import String.
From Verif Require Import Base MUtils MBase SRfc4648 PUtils PBase PropBase MBlowfish PBlowfish PBlowfish2 PBlowfish3 PropBlowfish MAlias SAlias PropAlias MAlias2.
From Verif Require SBlowfish.
Local Open Scope nat_scope.

(** ** the base encoders *)
Lemma unittostr_len p A mem scr pad s : unittostr p A mem scr pad = Ret s -> length s <= chunk_count p.
Proof.
  unfold unittostr. destruct (transform _ _ _ _) as [[k sp]| |]; try discriminate. cbn [bind].
  assert (L : forall vs s, lookup_all A vs = Ret s -> length s = length vs).
  { induction vs as [|v vs IH]; intros r H; cbn [lookup_all] in H; [injection H as <-; reflexivity|].
    destruct (rd A _); try discriminate. cbn [bind] in H. destruct (lookup_all A vs) as [cs| |]; try discriminate. cbn [bind] in H. injection H as <-.
    cbn [length]. rewrite (IH cs eq_refl). reflexivity. }
  destruct (lookup_all A _) as [t| |] eqn:E; try discriminate. cbn [bind]. apply L in E. rewrite firstn_length in E.
  assert (P : forall z q l, length (pad_rev z q l) = length l).
  { intros z q. induction l as [|c l IH]; [reflexivity|]. cbn [pad_rev]. destruct (_ =? _)%N; cbn [length]; [rewrite IH|]; reflexivity. }
  destruct pad.
  - destruct (rd A 0); try discriminate. cbn [bind]. destruct (rd A (alphabet_size p)); try discriminate. cbn [bind]. intros H. injection H as <-.
    rewrite rev_length, P, rev_length. lia.
  - intros H. injection H as <-. lia.
Qed.

Section Encoder.
Variables (p : base_params) (A : list N) (st : stack).
Hypotheses (U0 : 0 < unit_size p) (UC : unit_size p <= chunk_count p).

Lemma encode_loop_at_eq os : forall fuel x n pre out ip post sp, length pre = os -> length x < fuel -> skipn ip (pre ++ out) = x ++ post ->
  os + sp + (chunk_count p - unit_size p) * ((length x - 1) / unit_size p) <= ip \/ ip + length x <= os ->
  encode_loop_at fuel p A st n (pre ++ out) ip (length x) (os + sp) = omap (fun r => (os + fst r, pre ++ snd r)) (encode_loop fuel p A st n x sp out).
Proof.
  induction fuel as [|fuel IH]; intros x n pre out ip post sp LP F E Inv; [lia|].
  destruct x as [|b x]; [reflexivity|]. cbn [encode_loop_at encode_loop]. set (y := b :: x) in *. assert (LY : length y = S (length x)) by reflexivity.
  rewrite LY. cbv iota. rewrite <- LY. clearbody y. set (short := Nat.ltb (length y) (unit_size p)).
  set (m := if short then length y else unit_size p). assert (M : 0 < m <= length y /\ m <= unit_size p).
  { unfold m, short. destruct (Nat.ltb_spec (length y) (unit_size p)); lia. }
  assert (LM : ip + length y <= length (pre ++ out)).
  { apply (f_equal (@length N)) in E. rewrite skipn_length, (app_length y) in E. lia. }
  unfold rd_bytes at 1. destruct (Nat.leb_spec (ip + m) (length (pre ++ out))); [|lia]. cbn [bind].
  rewrite E, firstn_app. replace (m - length y) with 0 by lia. rewrite firstn_O, app_nil_r.
  replace (if short then firstn m y ++ repeat 0%N (unit_size p - length y) else firstn m y)
    with (if short then y ++ repeat 0%N (unit_size p - length y) else firstn (unit_size p) y)
    by (unfold m; destruct short; [rewrite firstn_all|]; reflexivity).
  rewrite bind_omap. destruct (unittostr p A _ _ short) as [s| |] eqn:US; [|reflexivity|reflexivity]. cbn [bind]. apply unittostr_len in US.
  rewrite <- LP, blit_app_r, omap_bind, bind_omap. destruct (blit out sp s) as [out'| |] eqn:B; [|reflexivity|reflexivity]. cbn [bind].
  assert (BM : blit (pre ++ out) (os + sp) s = Ret (pre ++ out')) by (rewrite <- LP, blit_app_r, B; reflexivity).
  rewrite LP. replace (os + sp + chunk_count p) with (os + (sp + chunk_count p)) by lia.
  rewrite <- skipn_length.
  destruct (Nat.le_gt_cases (length y) (unit_size p)) as [Hs|Hl].
  { rewrite skipn_all2 by lia. destruct fuel; reflexivity. }
  assert (E1 : skipn (ip + unit_size p) (pre ++ out) = skipn (unit_size p) y ++ post).
  { rewrite <- skipn_add, E, skipn_app. replace (unit_size p - length y) with 0 by lia. reflexivity. }
  assert (D : (length y - 1) / unit_size p = S ((length (skipn (unit_size p) y) - 1) / unit_size p)).
  { rewrite skipn_length. replace (length y - 1) with (length y - unit_size p - 1 + 1 * unit_size p) by lia. rewrite Nat.div_add by lia. lia. }
  rewrite D, Nat.mul_succ_r in Inv. clear D. set (gap := (chunk_count p - unit_size p) * _) in Inv.
  assert (NEXT : exists post', skipn (ip + unit_size p) (pre ++ out') = skipn (unit_size p) y ++ post').
  { destruct Inv as [Inv|Inv].
    - exists post. rewrite <- E1. apply (blit_before _ _ _ _ _ BM). lia.
    - apply (behind0 pre out out' _ _ post E1). rewrite skipn_length. lia. }
  destruct NEXT as (post' & NEXT).
  apply (IH (skipn (unit_size p) y) (S n) pre out' (ip + unit_size p) post' (sp + chunk_count p) LP); [rewrite skipn_length; lia|exact NEXT|].
  destruct Inv as [Inv|Inv]; [left; fold gap; lia|right; rewrite skipn_length; lia].
Qed.

Lemma encode_at_eq mem ip os x : bytes_at mem ip x -> os <= length mem ->
  os + (chunk_count p - unit_size p) * ((length x - 1) / unit_size p) <= ip \/ ip + length x <= os ->
  encode_at p A st mem ip (length x) os = omap (in_mem mem os) (encode_base_generic p A st x (skipn os mem)).
Proof.
  intros (post & E & TL) HO SC. destruct (split_mem mem os HO) as [SM SL].
  unfold encode_at, encode_base_generic, in_mem. set (pre := firstn os mem) in *. set (out := skipn os mem) in *. rewrite SM in E. rewrite SM at 1.
  pose proof (encode_loop_at_eq os (S (length x)) x 0 pre out ip post 0 SL ltac:(lia) E) as L. rewrite Nat.add_0_r in L. rewrite L by exact SC.
  rewrite omap_bind, bind_omap. destruct (encode_loop _ p A st 0 x 0 out) as [[k o]| |]; [|reflexivity|reflexivity]. cbn [bind fst snd].
  rewrite <- SL at 1. rewrite wr_app_r, omap_bind, bind_omap. destruct (wr o k 0%N); [|reflexivity|reflexivity]. cbn [bind omap fst snd]. replace (os + k - os) with k by lia. reflexivity.
Qed.
End Encoder.

Lemma encode_step fuel p A st n mem ip len sp : unit_size p <= len -> 0 < unit_size p ->
  encode_loop_at (S fuel) p A st n mem ip len sp =
  (data <- rd_bytes mem ip (unit_size p) ;; s <- unittostr p A (data ++ after_unit st n) (scratch st n) false ;; mem <- blit mem sp s ;;
   encode_loop_at fuel p A st (S n) mem (ip + unit_size p) (len - unit_size p) (sp + chunk_count p)).
Proof. intros H H0. destruct len; [lia|]. cbn [encode_loop_at]. destruct (Nat.ltb_spec (S len) (unit_size p)); [lia|]. reflexivity. Qed.
Lemma all_firstn (P : N -> Prop) k l : Forall P l -> Forall P (firstn k l).
Proof. rewrite !Forall_forall. intros H x Hx. apply H. rewrite <- (firstn_skipn k l). apply in_or_app. left. exact Hx. Qed.
Lemma all_skipn (P : N -> Prop) k l : Forall P l -> Forall P (skipn k l).
Proof. rewrite !Forall_forall. intros H x Hx. apply H. rewrite <- (firstn_skipn k l). apply in_or_app. right. exact Hx. Qed.

(** the five encoders on one array *)
Definition encode_mem (a : api) (st : stack) (mem : list N) (ip n os : nat) : outcome (nat * list N) := encode_at (params a) (alph a) st mem ip n os.

(** C83: the base encoders write [quantum] characters for each [octets] bytes they read: the call returns and writes the same as with an output array of its own if the
    bytes lie before the output, or so far behind its beginning that no unit is overwritten before it has been read. *)
Theorem C83_encode : forall a st mem ip os x, bytes_at mem ip x -> os <= length mem ->
  os + (quantum (coding a) - octets (coding a)) * ((length x - 1) / octets (coding a)) <= ip \/ ip + length x <= os ->
  encode_mem a st mem ip (length x) os = omap (in_mem mem os) (encode a st x (skipn os mem)).
Proof.
  intros a st mem ip os x B HO SC. rewrite encode_eq. unfold encode_mem. rewrite octets_eq, quantum_eq in SC.
  apply encode_at_eq; auto; destruct a; cbn; lia.
Qed.
Print Assumptions C83_encode.

(** C83, violation: two whole units encoded in place. The second group of characters is not that of the second unit [x2] but of what the first group left there. *)
Theorem C83_encode_in_place_refuted : forall a st x1 x2 mem, let u := octets (coding a) in let q := quantum (coding a) in
  slack a st -> bytes_ok x1 -> bytes_ok x2 -> length x1 = u -> length x2 = u -> 2 * q + 1 <= length (x1 ++ x2 ++ mem) ->
  let x2' := firstn u (skipn u (rfc_encode (coding a) x1 ++ skipn q (x1 ++ x2 ++ mem))) in bytes_ok mem ->
  exists rest, encode_mem a st (x1 ++ x2 ++ mem) 0 (2 * u) 0 = Ret (2 * q, rfc_encode (coding a) x1 ++ rfc_encode (coding a) x2' ++ 0%N :: rest).
Proof.
  intros a st x1 x2 mem u q SLK B1 B2 L1 L2 LM x2' BM.
  pose proof (api_compat a) as HC. pose proof (slack_ok a st SLK) as SK.
  assert (EU : u = unit_size (params a)) by apply octets_eq. assert (EQ : q = chunk_count (params a)) by apply quantum_eq.
  assert (U0 : 0 < u /\ u < q /\ q <= 2 * u) by (unfold u, q; destruct a; cbn; lia).
  assert (RE : forall x, length x = u -> rfc_encode (coding a) x = rfc_data (coding a) x).
  { intros x L. unfold rfc_encode, rfc_padding. pose proof (rfc_data_length_full _ _ _ HC x 1 ltac:(lia)) as E. rewrite E. fold q. rewrite EQ, Nat.mul_1_l, Nat.mod_same by lia.
    rewrite Nat.sub_0_r, Nat.mod_same by lia. apply app_nil_r. }
  assert (RL : forall x, length x = u -> length (rfc_data (coding a) x) = q).
  { intros x L. pose proof (rfc_data_length_full _ _ _ HC x 1 ltac:(lia)) as E. lia. }
  set (m0 := x1 ++ x2 ++ mem) in *.
  assert (BA : bytes_ok (rfc_data (coding a) x1)).
  { pose proof (lib_text_alphabet _ _ _ HC x1) as F. rewrite <- (app_nil_r x1), (lib_text_step _ _ _ HC), (lib_text_nil _ _ _ HC), app_nil_r in F by lia.
    eapply Forall_impl; [|exact F]. intros ch [H| ->]; [|reflexivity]. revert ch H. apply Forall_forall. destruct a; vm_compute; repeat constructor. }
  assert (BX : bytes_ok x2').
  { unfold x2'. rewrite (RE x1 L1). apply all_firstn, all_skipn, Forall_app. split; [exact BA|]. apply all_skipn. unfold m0. repeat (apply Forall_app; split); assumption. }
  assert (LX : length x2' = u) by (unfold x2'; rewrite (RE x1 L1), firstn_length, skipn_length, app_length, (RL x1 L1), skipn_length; lia).
  assert (S0 := SK 0). assert (S1 := SK 1).
  assert (T1 : unittostr (params a) (alph a) (x1 ++ after_unit st 0) (scratch st 0) false = Ret (rfc_data (coding a) x1)) by (apply unittostr_full; auto; try lia; apply S0).
  assert (T2 : unittostr (params a) (alph a) (x2' ++ after_unit st 1) (scratch st 1) false = Ret (rfc_data (coding a) x2')) by (apply unittostr_full; auto; try lia; apply S1).
  unfold encode_mem, encode_at. rewrite encode_step by lia. rewrite <- EU, <- EQ.
  unfold rd_bytes at 1. replace (0 + u <=? length m0) with true by (symmetry; apply Nat.leb_le; lia). cbn [bind skipn].
  replace (firstn u m0) with x1 by (unfold m0; rewrite firstn_app, L1, Nat.sub_diag, firstn_all2, app_nil_r by lia; reflexivity).
  rewrite T1. cbn [bind]. rewrite blit_ok by (rewrite RL; lia). cbn [bind firstn app]. rewrite (RL x1 L1). cbn [Nat.add].
  replace (2 * u - u) with u by lia. replace (encode_loop_at (2 * u)) with (encode_loop_at (S (2 * u - 1))) by (f_equal; lia). rewrite encode_step by lia. rewrite <- EU, <- EQ.
  set (m1 := rfc_data (coding a) x1 ++ skipn q m0). assert (LM1 : length m1 = length m0) by (unfold m1; rewrite app_length, (RL x1 L1), skipn_length; lia).
  unfold rd_bytes at 1. replace (u + u <=? length m1) with true by (symmetry; apply Nat.leb_le; lia). cbn [bind].
  replace (firstn u (skipn u m1)) with x2' by (unfold x2', m1; rewrite (RE x1 L1); reflexivity).
  rewrite T2. cbn [bind]. rewrite blit_ok by (rewrite RL; lia). cbn [bind]. rewrite (RL x2' LX), Nat.sub_diag.
  replace (firstn q m1) with (rfc_data (coding a) x1) by (unfold m1; rewrite firstn_app, (RL x1 L1), Nat.sub_diag, firstn_all2, app_nil_r by (rewrite RL; lia); reflexivity).
  set (tl := skipn (q + q) m1). assert (LT : 0 < length tl) by (unfold tl; rewrite skipn_length; lia). destruct tl as [|t0 tl]; [cbn in LT; lia|].
  replace (2 * u - 1) with (S (2 * u - 2)) by lia. cbn [encode_loop_at bind]. rewrite app_assoc, wr_app by (rewrite app_length, !RL by assumption; lia). cbn [bind].
  exists tl. rewrite !RE by assumption. rewrite <- app_assoc. replace (q + q - 0) with (2 * q) by lia. reflexivity.
Qed.
Print Assumptions C83_encode_in_place_refuted.

(** ** Blowfish *)
Lemma store_at os k : forall j unp pre out, length pre = os -> store_loop_at k j unp (pre ++ out) os = omap (app pre) (store_loop k j unp out).
Proof.
  induction k as [|k IH]; intros j unp pre out LP; [reflexivity|]. cbn [store_loop_at store_loop]. rewrite bind_omap. destruct (rd unp _) as [b| |]; [|reflexivity|reflexivity]. cbn [bind].
  rewrite <- LP at 1. rewrite wr_app_r, omap_bind, bind_omap. destruct (wr out j b) as [o| |]; [|reflexivity|reflexivity]. cbn [bind]. apply IH, LP.
Qed.
Lemma bf_loop_at_eq f os ip input k : forall i unp pre out, length pre = os -> i + k <= length input -> (forall j, i <= j < i + k -> nth_error (pre ++ out) (ip + j) = nth_error input j) ->
  os <= ip \/ ip + length input <= os ->
  bf_loop_at f ip k i unp (pre ++ out) os = omap (fun r => (fst r, pre ++ snd r)) (bf_loop f input k i unp out).
Proof.
  induction k as [|k IH]; intros i unp pre out LP LI H Inv; [reflexivity|]. cbn [bf_loop bf_loop_at].
  assert (R : rd (pre ++ out) (ip + i) = rd input i) by (unfold rd; rewrite H by lia; reflexivity). rewrite R, bind_omap.
  destruct (rd input i) as [b| |]; try reflexivity. cbn [bind]. rewrite bind_omap. destruct (wr unp _ b) as [u| |]; try reflexivity. cbn [bind].
  destruct (Nat.eqb (i mod 8) 7) eqn:M.
  - rewrite bind_omap. destruct (unit_call f u) as [u2| |]; try reflexivity. cbn [bind]. rewrite (store_at os) by exact LP. rewrite omap_bind, bind_omap.
    destruct (store_loop 8 (i - 7) u2 out) as [out'| |] eqn:St; try reflexivity. cbn [bind].
    apply IH; [exact LP|lia| |exact Inv]. intros j Hj. rewrite <- H by lia. destruct Inv as [Inv|Inv].
    + rewrite !nth_error_app2 by lia. apply (store_keeps _ _ _ _ _ St). apply Nat.eqb_eq in M. pose proof (Nat.mod_le i 8 ltac:(lia)). lia.
    + rewrite !nth_error_app1 by lia. reflexivity.
  - apply IH; auto; try lia. intros j Hj. apply H. lia.
Qed.
Lemma bf_at_eq f unp mem ip os input : bytes_at mem ip input -> os <= length mem -> os <= ip \/ ip + length input <= os ->
  bf_at f unp mem ip (length input) os = omap (in_mem mem os) (bf_generic f unp input (skipn os mem)).
Proof.
  intros (post & E & TL) HO SC. destruct (split_mem mem os HO) as [SM SL].
  unfold bf_at, bf_generic, in_mem. set (pre := firstn os mem) in *. set (out := skipn os mem) in *. rewrite SM at 1.
  rewrite (bf_loop_at_eq f os ip input) by (auto; try lia; intros j Hj; rewrite <- SM; rewrite <- (firstn_skipn ip mem) at 1;
    rewrite nth_error_app2 by (rewrite firstn_length; lia); rewrite firstn_length, E, nth_error_app1 by lia; f_equal; lia).
  rewrite omap_bind, bind_omap. destruct (bf_loop f input _ 0 unp out) as [[u o]| |]; [|reflexivity|reflexivity]. cbn [bind fst snd].
  destruct (Nat.eqb _ 0); [reflexivity|]. rewrite bind_omap. destruct (blit u 0 _) as [u1| |]; try reflexivity. cbn [bind]. rewrite bind_omap. destruct (unit_call f u1) as [u2| |]; try reflexivity.
  cbn [bind]. rewrite (store_at os) by exact SL. rewrite omap_bind, bind_omap. destruct (store_loop 8 _ u2 o); reflexivity.
Qed.

(** C83: Blowfish encryption and decryption when input and output lie in one array: the same as with an output array of its own (see C47-C49) if the output begins at or
    before the input, or behind it. (C60 is the case of one beginning for both.) *)
Theorem C83_blowfish : forall c unit_bytes mem ip os input, bytes_at mem ip input -> os <= length mem -> os <= ip \/ ip + length input <= os ->
  blowfish_encrypt_at c unit_bytes mem ip (length input) os = omap (in_mem mem os) (blowfish_encrypt c unit_bytes input (skipn os mem)) /\
  blowfish_decrypt_at c unit_bytes mem ip (length input) os = omap (in_mem mem os) (blowfish_decrypt c unit_bytes input (skipn os mem)).
Proof. intros. split; apply bf_at_eq; assumption. Qed.
Print Assumptions C83_blowfish.

Section Shifted.
Variables (f : dword -> outcome dword) (g : N * N -> N * N).
Hypothesis Hf : forall d, f d = Ret (g d).
Definition next (b : list N) : list N := SBlowfish.block_bytes (g (SBlowfish.block_of b)).
(** b, next b, next (next b), ...: [n] blocks *)
Fixpoint chain (n : nat) (b : list N) : list N := match n with O => [] | S n => b ++ chain n (next b) end.

Lemma block_at q k unp pre blk post os : length unp = 8 -> length pre = 8 * q -> length blk = 8 ->
  bf_loop_at f 0 (8 + k) (8 * q) unp (pre ++ blk ++ post) os =
  (mem <- store_loop_at 8 (8 * q) (rev (next blk)) (pre ++ blk ++ post) os ;; bf_loop_at f 0 k (8 * S q) (rev (next blk)) mem os).
Proof.
  intros Lu Lp Lb. do 8 (destruct unp as [|? unp]; [discriminate|]). destruct unp; [|discriminate].
  do 8 (destruct blk as [|? blk]; [discriminate|]). destruct blk; [|discriminate].
  assert (M : forall j, j < 8 -> (8 * q + j) mod 8 = j) by (intros; apply mod8; assumption).
  assert (R : forall j d, j < 8 -> rd (pre ++ [n7; n8; n9; n10; n11; n12; n13; n14] ++ post) (0 + (8 * q + j)) = Ret (nth j [n7; n8; n9; n10; n11; n12; n13; n14] d)).
  { intros j d Hj. rewrite (rd_lt _ _ d) by (rewrite !app_length; cbn [length]; lia). f_equal. rewrite app_nth2 by lia. rewrite app_nth1 by (cbn [length]; lia). f_equal. lia. }
  set (mem := pre ++ _) in *. clearbody mem.
  change (8 + k) with (S (S (S (S (S (S (S (S k)))))))). replace (bf_loop_at f 0 (S (S (S (S (S (S (S (S k)))))))) (8 * q)) with (bf_loop_at f 0 (S (S (S (S (S (S (S (S k)))))))) (8 * q + 0)) by (rewrite Nat.add_0_r; reflexivity).
  assert (STEP : forall j k u, j < 7 -> bf_loop_at f 0 (S k) (8 * q + j) u mem os = (u <- wr u (7 - j) (nth j [n7; n8; n9; n10; n11; n12; n13; n14] 0%N) ;; bf_loop_at f 0 k (8 * q + S j) u mem os)).
  { intros j k0 u Hj. cbn [bf_loop_at]. rewrite (R j 0%N) by lia. cbn [bind]. rewrite M by lia. replace (Nat.eqb j 7) with false by (symmetry; apply Nat.eqb_neq; lia).
    replace (S (8 * q + j)) with (8 * q + S j) by lia. reflexivity. }
  do 7 (rewrite STEP by lia; cbn [Nat.sub nth]; unfold wr, blit; cbn [Nat.add Nat.leb length firstn skipn app bind]).
  cbn [bf_loop_at]. rewrite (R 7 0%N) by lia. cbn [bind]. rewrite (M 7) by lia. unfold wr, blit. cbn [Nat.sub Nat.add Nat.leb length firstn skipn app nth bind Nat.eqb].
  change [n14; n13; n12; n11; n10; n9; n8; n7] with (rev [n7; n8; n9; n10; n11; n12; n13; n14]). rewrite (unit_call_block f g) by (auto; reflexivity). cbn [bind].
  fold (next [n7; n8; n9; n10; n11; n12; n13; n14]). replace (8 * q + 7 - 7) with (8 * q) by lia. replace (S (8 * q + 7)) with (8 * S q) by lia. reflexivity.
Qed.
Lemma store_at_block q blk pre old post : length blk = 8 -> length pre = 8 * q -> length old = 8 -> forall h, length h = 8 ->
  store_loop_at 8 (8 * q) (rev blk) (h ++ pre ++ old ++ post) 8 = Ret (h ++ pre ++ blk ++ post).
Proof. intros L Lp Lo h Lh. rewrite (store_at 8) by exact Lh. rewrite store_block by auto. reflexivity. Qed.
Lemma next_len b : length (next b) = 8. Proof. apply block_bytes_length. Qed.
(** [n] blocks left; the block to be read now is [b] *)
Lemma chain_at n : forall q unp pre b old post, length unp = 8 -> length pre = 8 * q -> length b = 8 -> length old = 8 * n ->
  exists unp', bf_loop_at f 0 (8 * n) (8 * q) unp (pre ++ b ++ old ++ post) 8 = Ret (unp', pre ++ chain (S n) b ++ post).
Proof.
  induction n as [|n IH]; intros q unp pre b old post Lu Lp Lb Lo.
  - destruct old; [|discriminate]. exists unp. cbn [Nat.mul bf_loop_at chain]. rewrite app_nil_r. reflexivity.
  - replace (8 * S n) with (8 + 8 * n) by lia. rewrite block_at by assumption. rewrite <- (firstn_skipn 8 old).
    assert (HD : exists h t, length h = 8 /\ length t = 8 * q /\ pre ++ b = h ++ t).
    { exists (firstn 8 (pre ++ b)), (skipn 8 (pre ++ b)). rewrite firstn_skipn, firstn_length, skipn_length, app_length. repeat split; lia. }
    destruct HD as (h & t & Lh & Lt & E). rewrite (app_assoc pre b), E, <- !app_assoc. rewrite store_at_block by (auto using next_len; rewrite firstn_length; lia). cbn [bind].
    rewrite (app_assoc h t), <- E.
    destruct (IH (S q) (rev (next b)) (pre ++ b) (next b) (skipn 8 old) post) as (u & E2);
      [rewrite rev_length; apply next_len|rewrite app_length; lia|apply next_len|rewrite skipn_length; lia|].
    rewrite E2. exists u. cbn [chain]. rewrite <- !app_assoc. reflexivity.
Qed.
End Shifted.

(** C83, violation: the output begins one block behind the input. Only the first block [b] of the input is encrypted: again and again; the other blocks [lost] are
    overwritten before they are read and have no influence on the result. *)
Theorem C83_blowfish_shifted_refuted : forall c unit_bytes b lost mem n, context c -> length unit_bytes = 8 -> length b = 8 -> length lost = 8 * n -> 8 <= length mem ->
  blowfish_encrypt_at c unit_bytes (b ++ lost ++ mem) 0 (8 * S n) 8 = Ret (8 * S n, chain (SBlowfish.encrypt (words_of c)) (S (S n)) b ++ skipn 8 mem).
Proof.
  intros c u b lost mem n Hc Lu Lb Ll Lm. apply context_shaped in Hc.
  assert (Hf : forall x, encrypt_unit c x = Ret (SBlowfish.encrypt (flat c) x)) by (intros; apply encrypt_unit_flat, Hc).
  unfold blowfish_encrypt_at, bf_at. rewrite <- (firstn_skipn 8 mem) at 1. rewrite (app_assoc lost).
  destruct (chain_at _ _ Hf (S n) 0 u [] b (lost ++ firstn 8 mem) (skipn 8 mem) Lu eq_refl Lb) as (u' & E); [rewrite app_length, firstn_length; lia|].
  change (8 * 0) with 0 in E. cbn [app] in E. rewrite E. cbn [bind]. replace (8 * S n mod 8) with 0; [reflexivity|].
  rewrite <- (Nat.add_0_r (8 * S n)). symmetry. apply mod8. lia.
Qed.
Print Assumptions C83_blowfish_shifted_refuted.

(** Non-vacuity: bytes at the end of an array encoded into its beginning; "foobar" encoded in place, second group wrong ("YmFy" is right). *)
Example C83_case2 :
  bytes_at (repeat 7%N 3 ++ chars "foobar" ++ [7; 7]%N) 3 (chars "foobar") /\ slack B64 wide /\
  encode_mem B64 wide (repeat 7%N 3 ++ chars "foobar" ++ [7; 7]%N) 3 6 2 = Ret (8, [7; 7]%N ++ chars "Zm9vYmFy" ++ [0]%N) /\
  encode_mem B64 wide (chars "foobar" ++ [7; 7; 7]%N) 0 6 0 = Ret (8, chars "Zm9vdmFy" ++ [0]%N) /\
  chain (fun b => (snd b, fst b)) 3 [1; 2; 3; 4; 5; 6; 7; 8]%N = [1; 2; 3; 4; 5; 6; 7; 8; 5; 6; 7; 8; 1; 2; 3; 4; 1; 2; 3; 4; 5; 6; 7; 8]%N.
Proof.
  split; [exists [7; 7]%N; cbn; split; [reflexivity|lia]|]. split; [intros k; cbn; lia|]. split; [vm_compute; reflexivity|]. split; vm_compute; reflexivity.
Qed.
