(** C83: text and output in one array. *)
From Coq Require Import String.
From Verif Require Import Base MUtils MBase SRfc4648 SHex PUtils PBase PropBase SBaseText PropBase2 MAlias SAlias.
Local Open Scope nat_scope.

(** ** parts of one array *)
Lemma blit_app_r {A} (pre out src : list A) k : blit (pre ++ out) (length pre + k) src = omap (app pre) (blit out k src).
Proof.
  unfold blit. rewrite app_length. destruct (Nat.leb_spec (length pre + k + length src) (length pre + length out)); destruct (Nat.leb_spec (k + length src) (length out)); try lia; [|reflexivity].
  cbn [omap]. f_equal. rewrite firstn_app. rewrite firstn_all2 by lia. replace (length pre + k - length pre) with k by lia.
  rewrite skipn_app, skipn_all2 by lia. replace (length pre + k + length src - length pre) with (k + length src) by lia. rewrite <- app_assoc. reflexivity.
Qed.
Lemma wr_app_r {A} (pre out : list A) k v : wr (pre ++ out) (length pre + k) v = omap (app pre) (wr out k v).
Proof. apply blit_app_r. Qed.
Lemma omap_bind {A B C} (f : A -> B) (m : outcome A) (k : B -> outcome C) : bind (omap f m) k = bind m (fun x => k (f x)).
Proof. destruct m; reflexivity. Qed.
Lemma bind_omap {A B C} (f : B -> C) (m : outcome A) (k : A -> outcome B) : omap f (bind m k) = bind m (fun x => omap f (k x)).
Proof. destruct m; reflexivity. Qed.
Lemma rd_skipn {A} (l : list A) i c r : skipn i l = c :: r -> rd l i = Ret c.
Proof. intros E. unfold rd. rewrite <- (Nat.add_0_r i). rewrite <- (firstn_skipn i l) at 1. rewrite E.
  assert (L : length (firstn i l) = i). { rewrite firstn_length. apply (f_equal (@length A)) in E. rewrite skipn_length in E. cbn [length] in E. lia. }
  rewrite nth_error_app2 by lia. rewrite L. replace (i + 0 - i) with 0 by lia. reflexivity. Qed.
Lemma skipn_S {A} (l : list A) i c r : skipn i l = c :: r -> skipn (S i) l = r.
Proof. intros E. change (S i) with (1 + i). rewrite Nat.add_comm, <- skipn_add, E. reflexivity. Qed.
(** a write that ends before [i] *)
Lemma blit_before {A} (l src l' : list A) k i : blit l k src = Ret l' -> k + length src <= i -> skipn i l' = skipn i l.
Proof.
  intros B H. unfold blit in B. destruct (Nat.leb_spec (k + length src) (length l)) as [L|L]; [|discriminate]. injection B as <-.
  replace i with (k + length src + (i - (k + length src))) by lia. rewrite <- !(skipn_add (k + length src)). f_equal.
  rewrite app_assoc, skipn_app. assert (E : length (firstn k l ++ src) = k + length src) by (rewrite app_length, firstn_length; lia).
  rewrite (skipn_all2 (firstn k l ++ src)) by lia. rewrite E, Nat.sub_diag. reflexivity.
Qed.
(** a write that begins after the string *)
Lemma behind {A} (pre out out' : list A) i cs c post : skipn i (pre ++ out) = cs ++ c :: post -> i + length cs < length pre ->
  exists post', skipn i (pre ++ out') = cs ++ c :: post'.
Proof.
  intros E H. rewrite skipn_app in E |- *. replace (i - length pre) with 0 in * by lia. cbn [skipn] in *.
  assert (L : length cs < length (skipn i pre)) by (rewrite skipn_length; lia).
  set (q := skipn i pre) in *. clearbody q. clear - E L. revert q E L. induction cs as [|x cs IH]; intros [|y q] E L; cbn [length app] in *; try lia.
  - injection E as -> _. eexists. reflexivity.
  - injection E as -> E. destruct (IH q E ltac:(lia)) as [post' H]. exists post'. rewrite H. reflexivity.
Qed.
Lemma behind0 {A} (pre out out' : list A) i x post : skipn i (pre ++ out) = x ++ post -> i + length x <= length pre -> exists post', skipn i (pre ++ out') = x ++ post'.
Proof.
  intros E H. rewrite skipn_app in E |- *. replace (i - length pre) with 0 in * by lia. cbn [skipn] in *.
  assert (L : length x <= length (skipn i pre)) by (rewrite skipn_length; lia).
  set (q := skipn i pre) in *. clearbody q. clear - E L. revert q E L. induction x as [|a x IH]; intros q E L; [eexists; reflexivity|].
  destruct q as [|y q]; cbn [length app] in *; [lia|]. injection E as -> E. destruct (IH q E ltac:(lia)) as [post' H]. exists post'. rewrite H. reflexivity.
Qed.
Lemma split_mem (mem : list N) os : os <= length mem -> mem = firstn os mem ++ skipn os mem /\ length (firstn os mem) = os.
Proof. intros H. rewrite firstn_skipn, firstn_length. split; [reflexivity|lia]. Qed.

(** ** the decoders *)
Section Decoder.
Variables (p : base_params) (func : N -> N).
Hypotheses (C0 : 0 < chunk_count p) (U64 : 8 * unit_size p <= 64) (W8 : chunk_count p * bit_size p = 8 * unit_size p) (B8 : 0 < bit_size p <= 8).

Lemma chunk_facts cs : forall i u rest i' u', decode_chunk p func cs i u = (rest, i', u') -> i <= chunk_count p ->
  length rest + (i' - i) <= length cs /\ i <= i' <= chunk_count p /\ (rest <> [] -> i' = chunk_count p) /\ (cs <> [] -> i < chunk_count p -> length rest < length cs) /\
  exists used, cs = used ++ rest.
Proof.
  induction cs as [|c cs IH]; intros i u rest i' u' E Hi; cbn [decode_chunk] in E.
  - injection E as <- <- <-. cbn [length]. repeat split; try lia; try congruence. exists []. reflexivity.
  - destruct (Nat.ltb_spec i (chunk_count p)) as [Hl|Hl].
    + destruct (is_unknown (func c)); apply IH in E; try lia; destruct E as (E1 & E2 & E3 & E4 & used & E5);
      (repeat split; cbn [length]; try lia; try assumption; exists (c :: used); rewrite E5 at 1; reflexivity).
    + injection E as <- <- <-. cbn [length]. repeat split; try lia. exists []. reflexivity.
Qed.
Lemma chunk_at cs : forall fuel mem sp i u post rest i' u', skipn sp mem = cs ++ 0%N :: post -> ~ In 0%N cs -> length cs <= fuel ->
  decode_chunk p func cs i u = (rest, i', u') -> decode_chunk_at fuel p func mem sp i u = Ret (sp + (length cs - length rest), i', u').
Proof.
  induction cs as [|c cs IH]; intros fuel mem sp i u post rest i' u' E Z F D; cbn [decode_chunk] in D.
  - injection D as <- <- <-. assert (R : rd mem sp = Ret 0%N) by (apply (rd_skipn _ _ _ _ E)).
    destruct fuel; cbn [decode_chunk_at]; rewrite R; cbn [bind]; change (0 =? 0)%N with true; cbv iota; cbn [length]; rewrite Nat.add_0_r; reflexivity.
  - assert (R : rd mem sp = Ret c) by (apply (rd_skipn _ _ _ _ E)). pose proof (skipn_S _ _ _ _ E) as E'.
    assert (Zc : (c =? 0)%N = false) by (apply N.eqb_neq; intros ->; apply Z; left; reflexivity). cbn [length] in F.
    destruct fuel as [|fuel]; [lia|]. cbn [decode_chunk_at]. rewrite R. cbn [bind]. rewrite Zc. cbv iota.
    assert (Z' : ~ In 0%N cs) by (intros I0; apply Z; right; exact I0).
    destruct (Nat.ltb i (chunk_count p)) eqn:L.
    + cbv zeta in D |- *. pose proof (fun i u (L : i <= chunk_count p) => chunk_facts cs i u) as CF.
      apply Nat.ltb_lt in L. destruct (is_unknown (func c)); pose proof D as D2; apply chunk_facts in D2; try lia; destruct D2 as (D2 & _);
      rewrite (IH fuel mem (S sp) _ _ post _ _ _ E' Z' ltac:(lia) D); f_equal; f_equal; f_equal; cbn [length]; lia.
    + injection D as <- <- <-. rewrite Nat.sub_diag, Nat.add_0_r. reflexivity.
Qed.
(** after [i] digits of a last group only the first [i] bytes of the unit can be other than 0 *)
Lemma unit_tail u i j : i <= j -> i <= chunk_count p -> j < unit_size p ->
  nth j (unit_bytes p (u64 (N.shiftl u (N.of_nat (bit_size p * (chunk_count p - i)))))) 0%N = 0%N.
Proof.
  intros Hij Hi Hj. unfold unit_bytes.
  set (v := u64 _). rewrite (nth_indep _ 0%N ((fun j => N.land (N.shiftr v (8 * N.of_nat (unit_size p - j - 1))) 255) 0)) by (rewrite map_length, seq_length; exact Hj).
  rewrite (map_nth (fun j => N.land (N.shiftr v (8 * N.of_nat (unit_size p - j - 1))) 255)), seq_nth by exact Hj. cbn [Nat.add].
  apply N.bits_inj. intros m. rewrite N.land_spec, N.bits_0. change 255%N with (N.ones 8).
  destruct (N.lt_ge_cases m 8) as [Hm|Hm]; [|rewrite (N.ones_spec_high 8 m) by exact Hm; apply andb_false_r].
  rewrite N.shiftr_spec by lia. unfold v, u64. rewrite N.mod_pow2_bits_low by lia. rewrite N.shiftl_spec_low; [reflexivity|].
  assert (bit_size p * (chunk_count p - i) + bit_size p * i = 8 * unit_size p) by nia. assert (bit_size p * i <= 8 * i) by nia. lia.
Qed.
Lemma unit_le_chunk : unit_size p <= chunk_count p. Proof. nia. Qed.

Lemma loop_at os : forall fuel fuel' cs u op last pre out sp post, length pre = os -> length cs < fuel -> length cs < fuel' ->
  skipn sp (pre ++ out) = cs ++ 0%N :: post -> ~ In 0%N cs -> cs = [] \/ os + op <= sp \/ sp + length cs < os ->
  decode_loop_at fuel' p func (pre ++ out) sp u (os + op) last =
  omap (fun r => (os + fst (fst r), snd (fst r), pre ++ snd r)) (decode_loop fuel p func cs u op last out).
Proof.
  induction fuel as [|fuel IH]; intros fuel' cs u op last pre out sp post LP F F' E Z Inv; [lia|]. destruct fuel' as [|fuel']; [lia|].
  destruct cs as [|c cs].
  { cbn [decode_loop decode_loop_at]. rewrite (rd_skipn _ _ _ _ E). cbn [bind]. change (0 =? 0)%N with true. cbv iota. reflexivity. }
  assert (Zc : (c =? 0)%N = false) by (apply N.eqb_neq; intros ->; apply Z; left; reflexivity).
  cbn [decode_loop_at]. rewrite (rd_skipn (pre ++ out) sp c (cs ++ 0%N :: post) E). cbn [bind]. rewrite Zc. cbv iota.
  cbn [decode_loop]. set (s := c :: cs) in *. destruct (decode_chunk p func s 0 u) as [[rest i] u1] eqn:D.
  assert (FL : length s <= length (pre ++ out)).
  { apply (f_equal (@length N)) in E. rewrite skipn_length, (app_length s) in E. cbn [length] in E. lia. }
  rewrite (chunk_at s _ _ _ _ _ post _ _ _ E Z FL D). cbn [bind]. cbv iota beta.
  destruct (chunk_facts s _ _ _ _ _ D ltac:(lia)) as (Q1 & Q2 & Q3 & Q4 & used & Q5). specialize (Q4 ltac:(discriminate) ltac:(lia)).
  assert (LU : length s - length rest = length used) by (rewrite Q5, app_length; lia).
  assert (E1 : skipn (sp + (length s - length rest)) (pre ++ out) = rest ++ 0%N :: post).
  { rewrite <- skipn_add, LU, E, Q5, <- app_assoc, skipn_app, skipn_all, Nat.sub_diag. reflexivity. }
  assert (Zr : ~ In 0%N rest) by (intros I0; apply Z; rewrite Q5; apply in_or_app; right; exact I0).
  set (sp1 := sp + (length s - length rest)) in *.
  assert (RD : exists ch, rd (pre ++ out) sp1 = Ret ch /\ (ch =? 0)%N = match rest with [] => true | _ => false end).
  { destruct rest as [|x rest]; [exists 0%N; split; [apply (rd_skipn _ _ _ _ E1)|reflexivity]|].
    exists x. split; [apply (rd_skipn _ _ _ _ E1)|]. apply N.eqb_neq. intros ->. apply Zr. left. reflexivity. }
  destruct RD as (ch & RD & Zch). rewrite RD. cbn [bind]. rewrite Zch. cbv zeta.
  set (u2 := match rest with [] => if Nat.ltb i (chunk_count p) then _ else u1 | _ => u1 end).
  replace (if (match rest with [] => true | _ => false end) && Nat.ltb i (chunk_count p) then u64 (N.shiftl u1 (N.of_nat (bit_size p * (chunk_count p - i)))) else u1) with u2
    by (unfold u2; destruct rest; [destruct (Nat.ltb i (chunk_count p))|]; reflexivity).
  rewrite <- LP, blit_app_r, omap_bind. rewrite bind_omap. pose proof (unit_bytes_length p u2) as UL.
  destruct (blit out op (unit_bytes p u2)) as [out'| |] eqn:B; [|reflexivity|reflexivity]. cbn [bind].
  assert (BM : blit (pre ++ out) (os + op) (unit_bytes p u2) = Ret (pre ++ out')) by (rewrite <- LP, blit_app_r, B; reflexivity).
  pose proof unit_le_chunk as UC.
  replace (length pre + op + unit_size p) with (os + (op + unit_size p)) by lia.
  assert (NEXT : exists post', skipn sp1 (pre ++ out') = rest ++ 0%N :: post').
  { destruct Inv as [Inv|[Inv|Inv]]; [discriminate| |].
    - destruct (Nat.le_gt_cases (os + op + unit_size p) sp1) as [Hle|Hgt].
      + exists post. rewrite <- E1. apply (blit_before _ _ _ _ _ BM). lia.
      + assert (rest = [] /\ i < chunk_count p) as [-> Hi].
        { split; [destruct rest; [reflexivity|]; specialize (Q3 ltac:(discriminate)); unfold sp1 in Hgt; lia|].
          destruct (Nat.lt_ge_cases i (chunk_count p)); [assumption|]. unfold sp1 in Hgt. lia. }
        cbn [length] in *. set (j := sp1 - (os + op)). assert (J : nth j (unit_bytes p u2) 0%N = 0%N).
        { unfold u2. destruct (Nat.ltb_spec i (chunk_count p)); [|lia]. apply unit_tail; unfold j, sp1 in *; lia. }
        unfold blit in BM. destruct (Nat.leb _ _) in BM; [|discriminate]. injection BM as <-.
        assert (FN : length (firstn (os + op) (pre ++ out)) = os + op).
        { rewrite firstn_length. apply (f_equal (@length N)) in E1. rewrite skipn_length in E1. cbn [app length] in E1. lia. }
        assert (j < length (unit_bytes p u2)) by (unfold j; lia).
        destruct (app_split_at (unit_bytes p u2) j ltac:(assumption)) as (a & x & b & EQ & LA).
        rewrite EQ in J |- *. rewrite app_nth2 in J by lia. rewrite LA, Nat.sub_diag in J. cbn [nth] in J. subst x.
        eexists. cbn [app]. rewrite app_assoc, <- (app_assoc _ _ (skipn _ _)).
        replace sp1 with (length (firstn (os + op) (pre ++ out) ++ a)) by (rewrite app_length, FN, LA; unfold j; lia).
        rewrite <- app_assoc. rewrite (app_assoc _ a). rewrite skipn_app, skipn_all, Nat.sub_diag. cbn [skipn app]. reflexivity.
    - apply (behind pre out out' sp1 rest 0%N post E1). unfold sp1. lia. }
  destruct NEXT as (post' & NEXT). rewrite LP.
  apply (IH fuel' rest u2 (op + unit_size p) (Some (unit_bytes p u2)) pre out' sp1 post' LP ltac:(lia) ltac:(lia) NEXT Zr).
  destruct rest as [|x rest]; [left; reflexivity|]. right. specialize (Q3 ltac:(discriminate)).
  destruct Inv as [Inv|[Inv|Inv]]; [discriminate|left; unfold sp1; lia|right; unfold sp1; lia].
Qed.

Lemma loop_last fuel : forall cs u op last out o l out', decode_loop fuel p func cs u op last out = Ret (o, l, out') ->
  length out' = length out /\ op <= o /\ (cs <> [] -> l <> None /\ op + unit_size p <= o) /\ (cs = [] -> l = last /\ o = op).
Proof.
  induction fuel as [|fuel IH]; intros cs u op last out o l out' E; destruct cs as [|c cs]; cbn [decode_loop] in E; try discriminate;
  try (injection E as <- <- <-; repeat split; try lia; congruence).
  destruct (decode_chunk p func (c :: cs) 0 u) as [[rest i] u1]. cbv zeta in E.
  destruct (blit _ _ _) as [out1| |] eqn:B in E; try discriminate. cbn [bind] in E.
  assert (LB : length out1 = length out).
  { unfold blit in B. destruct (Nat.leb_spec (op + length (unit_bytes p (match rest with [] => if Nat.ltb i (chunk_count p) then u64 (N.shiftl u1 (N.of_nat (bit_size p * (chunk_count p - i)))) else u1 | _ => u1 end))) (length out)) in B; [|discriminate].
    injection B as <-. rewrite !app_length, firstn_length, skipn_length. lia. }
  pose proof (IH _ _ _ _ _ _ _ _ E) as (I1 & I2 & I3 & I4). repeat split; try congruence; try lia.
  destruct rest; [destruct (I4 eq_refl) as [-> _]; discriminate|]. apply I3. discriminate.
Qed.

Lemma decode_at_eq mem ts os t : string_at mem ts t -> os <= length mem -> starts_clear ts (length t) os ->
  decode_at p func mem ts os = omap (in_mem mem os) (decode_base_generic p func t (skipn os mem)).
Proof.
  intros (Z & post & E & TL) HO SC. destruct (split_mem mem os HO) as [SM SL].
  unfold decode_at, decode_base_generic. unfold in_mem. set (pre := firstn os mem) in *. set (out := skipn os mem) in *.
  assert (LT : length t < S (length mem)).
  { apply (f_equal (@length N)) in E. rewrite skipn_length, app_length in E. cbn [length] in E. lia. }
  rewrite SM in E |- * at 1. rewrite SM at 1.
  pose proof (loop_at os (S (length t)) (S (length (pre ++ out))) t 0%N 0 None pre out ts post SL ltac:(lia) ltac:(rewrite <- SM; exact LT) E Z) as L.
  rewrite Nat.add_0_r in L. rewrite L by (destruct SC; [right; left|right; right]; assumption).
  rewrite omap_bind, bind_omap. destruct (decode_loop (S (length t)) p func t 0 0 None out) as [[[o l] out']| |] eqn:D; [|reflexivity|reflexivity].
  cbn [bind fst snd]. destruct l as [ou|]; [|reflexivity].
  destruct (loop_last _ _ _ _ _ _ _ _ _ D) as (L1 & L2 & L3 & L4).
  assert (t <> []) by (intros ->; destruct (L4 eq_refl); discriminate). destruct (L3 ltac:(assumption)) as [_ L5].
  replace (os + o - unit_size p) with (os + (o - unit_size p)) by lia.
  assert (SK : skipn (os + (o - unit_size p)) (pre ++ out') = skipn (o - unit_size p) out').
  { rewrite <- skipn_add. f_equal. rewrite <- SL. rewrite skipn_app, skipn_all, Nat.sub_diag. reflexivity. }
  cbv zeta. rewrite SK. set (k := scan_unit _ _). replace (os + (o - unit_size p) + k) with (length pre + (o - unit_size p + k)) by lia.
  rewrite wr_app_r, omap_bind, bind_omap. destruct (wr out' _ _); [|reflexivity|reflexivity]. cbn [bind omap fst snd]. replace (length pre + (o - unit_size p + k) - os) with (o - unit_size p + k) by lia. reflexivity.
Qed.
End Decoder.

(** the five decoders on one array *)
Definition decode_mem (a : api) (mem : list N) (ts os : nat) : outcome (nat * list N) := decode_at (params a) (dfun a) mem ts os.

(** C83: Base16, Base32 and Base64 decoding when text and output lie in one array, in any position: if the output begins at or before the text or after its NUL,
    the call returns the same and writes the same bytes as with an output array of its own. In particular a text can be decoded in place. *)
Theorem C83_decode : forall a mem ts os t, string_at mem ts t -> os <= length mem -> starts_clear ts (length t) os ->
  decode_mem a mem ts os = omap (in_mem mem os) (decode a t (skipn os mem)).
Proof. intros a mem ts os t. params_facts a. rewrite decode_eq. apply decode_at_eq; assumption. Qed.
Print Assumptions C83_decode.

(** C83: decoding a text in place, in the terms of C63 *)
Theorem C83_decode_in_place : forall a mem t, string_at mem 0 t -> t <> [] -> unit_space a (length t) + 1 <= length mem ->
  exists tl, decode_mem a mem 0 0 = Ret (length (text_bytes (coding a) (value_of a) t), text_bytes (coding a) (value_of a) t ++ 0%N :: tl).
Proof.
  intros a mem t ST NE L. rewrite (C83_decode a mem 0 0 t ST ltac:(lia)) by (left; lia). destruct (C63_any_text a t mem NE L) as (tl & E).
  cbn [skipn]. rewrite E. exists tl. reflexivity.
Qed.
Print Assumptions C83_decode_in_place.

(** ** the hexadecimal functions *)
Lemma strlen_at_eq t : forall fuel mem i post, skipn i mem = t ++ 0%N :: post -> ~ In 0%N t -> length t <= fuel -> strlen_at fuel mem i = Ret (length t).
Proof.
  induction t as [|c t IH]; intros fuel mem i post E Z F.
  - destruct fuel; cbn [strlen_at]; rewrite (rd_skipn _ _ _ _ E); reflexivity.
  - destruct fuel as [|fuel]; [cbn [length] in F; lia|]. cbn [strlen_at]. rewrite (rd_skipn _ _ _ _ E). cbn [bind].
    assert (Zc : (c =? 0)%N = false) by (apply N.eqb_neq; intros ->; apply Z; left; reflexivity). rewrite Zc.
    rewrite (IH fuel mem (S i) post (skipn_S _ _ _ _ E)); [reflexivity|intros I0; apply Z; right; exact I0|cbn [length] in F; lia].
Qed.
(** one byte written at or before the character just read, or behind the string *)
Lemma wr_next os (pre out out' : list N) sp c cs post k v : length pre = os -> skipn sp (pre ++ out) = c :: cs ++ 0%N :: post -> wr out k v = Ret out' ->
  os + k <= sp \/ sp + S (length cs) < os -> exists post', skipn (S sp) (pre ++ out') = cs ++ 0%N :: post'.
Proof.
  intros LP E B Inv. apply skipn_S in E. destruct Inv as [Inv|Inv].
  - exists post. rewrite <- E. apply (blit_before (pre ++ out) [v] _ (os + k)); [|cbn [length]; lia].
    change (wr (pre ++ out) (os + k) v = Ret (pre ++ out')). rewrite <- LP, wr_app_r, B. reflexivity.
  - apply (behind pre out out' (S sp) cs 0%N post E). lia.
Qed.
Lemma hex_loop_at os cs : forall fuel pos hexu k pre out sp post, length pre = os -> length cs <= fuel -> skipn sp (pre ++ out) = cs ++ 0%N :: post -> ~ In 0%N cs ->
  os + k <= sp \/ sp + length cs < os ->
  from_hex_loop_at fuel (pre ++ out) sp pos hexu (os + k) = omap (fun r => (os + fst r, pre ++ snd r)) (from_hex_loop cs pos hexu k out).
Proof.
  induction cs as [|c cs IH]; intros fuel pos hexu k pre out sp post LP F E Z Inv.
  - destruct fuel; cbn [from_hex_loop from_hex_loop_at]; rewrite (rd_skipn _ _ _ _ E); reflexivity.
  - assert (Zc : (c =? 0)%N = false) by (apply N.eqb_neq; intros ->; apply Z; left; reflexivity).
    assert (Z' : ~ In 0%N cs) by (intros I0; apply Z; right; exact I0). cbn [length] in F, Inv. pose proof (skipn_S _ _ _ _ E) as E'.
    destruct fuel as [|fuel]; [lia|]. cbn [from_hex_loop_at from_hex_loop]. rewrite (rd_skipn _ _ _ _ E). cbn [bind]. rewrite Zc. cbv zeta.
    destruct (ch2hex c =? HEX_UNKNOWN)%N; [apply (IH fuel _ _ _ _ _ _ post); auto; lia|].
    destruct (pos =? 0)%N; [apply (IH fuel _ _ _ _ _ _ post); auto; lia|].
    rewrite <- LP at 1. rewrite wr_app_r, omap_bind, bind_omap. destruct (wr out k _) as [out'| |] eqn:B; [|reflexivity|reflexivity]. cbn [bind].
    destruct (wr_next os pre out out' sp c cs post k _ LP E B Inv) as (post' & N'). rewrite <- Nat.add_assoc. apply (IH fuel _ _ _ _ _ _ post'); auto; lia.
Qed.
(** C83: pgfe_hex_string_to_hash in the same situation. ([tail]: whatever follows the text, as in C02; the result does not depend on it.) *)
Theorem C83_from_hex : forall mem ts os t tail, string_at mem ts t -> t <> [] -> os <= length mem -> starts_clear ts (length t) os ->
  from_hex_at mem ts os = omap (in_mem mem os) (from_hex t tail (skipn os mem)).
Proof.
  intros mem ts os t tail (Z & post & E & TL) NE HO SC. destruct (split_mem mem os HO) as [SM SL].
  unfold from_hex_at, from_hex, in_mem. set (pre := firstn os mem) in *. set (out := skipn os mem) in *.
  assert (LT : ts + length t < length mem).
  { apply (f_equal (@length N)) in E. rewrite skipn_length, app_length in E. cbn [length] in E. lia. }
  rewrite (strlen_at_eq t _ _ _ post E Z) by lia. cbn [bind].
  assert (RD : forall i, i <= length t -> rd mem (ts + i) = rd (t ++ 0%N :: tail) i).
  { intros i Hi. unfold rd. assert (H : nth_error mem (ts + i) = nth_error (skipn ts mem) i).
    { rewrite <- (firstn_skipn ts mem) at 1. rewrite nth_error_app2 by (rewrite firstn_length; lia). f_equal. rewrite firstn_length. lia. }
    rewrite H, E. destruct (Nat.eq_dec i (length t)) as [->|Hn]; [rewrite !nth_error_app2, !Nat.sub_diag by lia; reflexivity|rewrite !nth_error_app1 by lia; reflexivity]. }
  assert (L1 : 1 <= length t) by (destruct t; [congruence|cbn [length]; lia]).
  rewrite (RD 1 L1). destruct (rd (t ++ 0%N :: tail) 1) as [x| |] eqn:R1; [|reflexivity|reflexivity]. cbn [bind]. cbv zeta.
  set (b := Nat.leb 2 (length t) && is_x x). assert (B2 : b = true -> 2 <= length t) by (unfold b; intros Hb; apply andb_prop in Hb as [Hb _]; apply Nat.leb_le; exact Hb).
  assert (IX : (if b then ts + 2 else ts) + (if b then length t - 2 else length t) - 1 = ts + (length t - 1)) by (destruct b; [specialize (B2 eq_refl)|]; lia).
  rewrite IX, RD by lia. destruct (Nat.eqb_spec ((if b then ts + 2 else ts) + (if b then length t - 2 else length t)) ts) as [Q|_]; [destruct b; [specialize (B2 eq_refl)|]; lia|].
  replace (Z.of_nat (if b then 2 else 0) + Z.of_nat (if b then length t - 2 else length t) - 1)%Z with (Z.of_nat (length t - 1)) by (destruct b; [specialize (B2 eq_refl)|]; lia).
  destruct (Z.ltb_spec (Z.of_nat (length t - 1)) 0) as [Q|_]; [lia|]. rewrite Nat2Z.id.
  destruct (rd (t ++ 0%N :: tail) (length t - 1)) as [y| |]; [|reflexivity|reflexivity]. cbn [bind].
  set (pos := (N.of_nat _ mod 2)%N).
  set (sp := if b then ts + 2 else ts). set (d := if b then 2 else 0).
  assert (SD : sp = ts + d) by (unfold sp, d; destruct b; lia). assert (D2 : d <= length t) by (unfold d; destruct b; [specialize (B2 eq_refl)|]; lia).
  assert (E2 : skipn sp mem = skipn d t ++ 0%N :: post).
  { rewrite SD, <- skipn_add, E, skipn_app. replace (d - length t) with 0 by lia. reflexivity. }
  assert (Z2 : ~ In 0%N (skipn d t)) by (intros I0; apply Z; rewrite <- (firstn_skipn d t); apply in_or_app; right; exact I0).
  rewrite SM in E2. rewrite SM at 2. 
  pose proof (hex_loop_at os (skipn d t) (length mem) pos 0%N 0 pre out sp post SL ltac:(rewrite skipn_length; lia) E2 Z2) as L. rewrite Nat.add_0_r in L.
  rewrite L by (rewrite skipn_length; destruct SC; lia). rewrite omap_bind. destruct (from_hex_loop _ _ _ _ out) as [[k o]| |]; [|reflexivity|reflexivity].
  cbn [bind omap fst snd]. replace (os + k - os) with k by lia. reflexivity.
Qed.
Print Assumptions C83_from_hex.

Lemma clean_loop_at_eq os cs : forall fuel flag k pre out sp post, length pre = os -> length cs <= fuel -> skipn sp (pre ++ out) = cs ++ 0%N :: post -> ~ In 0%N cs ->
  os + k <= sp \/ sp + length cs < os ->
  clean_loop_at fuel (pre ++ out) sp flag os (os + k) = omap (fun r => (os + fst r, pre ++ snd r)) (clean_loop cs flag k out).
Proof.
  induction cs as [|c cs IH]; intros fuel flag k pre out sp post LP F E Z Inv.
  - destruct fuel; cbn [clean_loop clean_loop_at]; rewrite (rd_skipn _ _ _ _ E); reflexivity.
  - assert (Zc : (c =? 0)%N = false) by (apply N.eqb_neq; intros ->; apply Z; left; reflexivity).
    assert (Z' : ~ In 0%N cs) by (intros I0; apply Z; right; exact I0). cbn [length] in F, Inv. pose proof (skipn_S _ _ _ _ E) as E'.
    destruct fuel as [|fuel]; [lia|]. cbn [clean_loop_at clean_loop]. rewrite (rd_skipn _ _ _ _ E). cbn [bind]. rewrite Zc. cbv zeta.
    set (flag' := if (flag <? 2)%Z then _ else _).
    destruct ((flag <? 2)%Z && (flag' =? 1)%Z && is_x c).
    { pose proof (IH fuel flag' 0 pre out (S sp) post) as I1. rewrite Nat.add_0_r in I1. apply I1; auto; lia. }
    destruct (ch2hex c =? HEX_UNKNOWN)%N; [apply (IH fuel _ _ _ _ _ post); auto; lia|].
    rewrite <- LP at 1. rewrite wr_app_r, omap_bind, bind_omap. destruct (wr out k _) as [out'| |] eqn:B; [|reflexivity|reflexivity]. cbn [bind].
    destruct (wr_next os pre out out' sp c cs post k _ LP E B Inv) as (post' & N'). rewrite <- Nat.add_assoc. apply (IH fuel _ _ _ _ _ post'); auto; lia.
Qed.
(** C83: pgfe_hash_string_clean likewise *)
Theorem C83_clean : forall mem ts os t, string_at mem ts t -> os <= length mem -> starts_clear ts (length t) os ->
  clean_at mem ts os = omap (in_mem mem os) (clean t (skipn os mem)).
Proof.
  intros mem ts os t (Z & post & E & TL) HO SC. destruct (split_mem mem os HO) as [SM SL].
  unfold clean_at, clean, in_mem. set (pre := firstn os mem) in *. set (out := skipn os mem) in *.
  assert (LT : ts + length t < length mem).
  { apply (f_equal (@length N)) in E. rewrite skipn_length, app_length in E. cbn [length] in E. lia. }
  rewrite SM in E. rewrite SM at 2.
  pose proof (clean_loop_at_eq os t (length mem) (-1) 0 pre out ts post SL ltac:(lia) E Z) as L. rewrite Nat.add_0_r in L. rewrite L by (destruct SC; lia).
  rewrite omap_bind, bind_omap. destruct (clean_loop _ _ _ out) as [[k o]| |]; [|reflexivity|reflexivity]. cbn [bind fst snd].
  rewrite <- SL at 1. rewrite wr_app_r, omap_bind, bind_omap. destruct (wr o k 0%N); [|reflexivity|reflexivity]. cbn [bind omap fst snd]. replace (os + k - os) with k by lia. reflexivity.
Qed.
Print Assumptions C83_clean.

Lemma to_hex_loop_at_eq os x : forall k pre out ip post, length pre = os -> skipn ip (pre ++ out) = x ++ post -> os + k + length x <= ip + 1 \/ ip + length x <= os ->
  to_hex_loop_at (length x) (pre ++ out) ip (os + k) = omap (fun r => (os + fst r, pre ++ snd r)) (to_hex_loop x k out).
Proof.
  induction x as [|b x IH]; intros k pre out ip post LP E Inv; [reflexivity|]. cbn [length to_hex_loop_at to_hex_loop] in *.
  rewrite (rd_skipn _ _ _ _ E). cbn [bind]. rewrite <- LP at 1. rewrite wr_app_r, omap_bind, bind_omap. destruct (wr out k _) as [o1| |] eqn:B1; [|reflexivity|reflexivity]. cbn [bind].
  rewrite <- LP at 1. rewrite <- Nat.add_assoc, wr_app_r, omap_bind, bind_omap. destruct (wr o1 (k + 1) _) as [o2| |] eqn:B2; [|reflexivity|reflexivity]. cbn [bind].
  replace (os + k + 2) with (os + (k + 2)) by lia. pose proof (skipn_S _ _ _ _ E) as E'.
  destruct x as [|b' x]; [reflexivity|]. cbn [length] in Inv.
  destruct Inv as [Inv|Inv].
  - apply (IH _ _ _ _ post LP); [|left; cbn [length]; lia]. transitivity (skipn (S ip) (pre ++ out)); [|exact E'].
    assert (M1 : wr (pre ++ out) (os + k) (hexdig (b / 16)) = Ret (pre ++ o1)) by (rewrite <- LP, wr_app_r, B1; reflexivity).
    assert (M2 : wr (pre ++ o1) (os + (k + 1)) (hexdig (b mod 16)) = Ret (pre ++ o2)) by (rewrite <- LP, wr_app_r, B2; reflexivity).
    rewrite (blit_before _ _ _ _ (S ip) M2) by (cbn [length]; lia). apply (blit_before _ _ _ _ (S ip) M1). cbn [length]. lia.
  - destruct (behind0 pre out o2 (S ip) (b' :: x) post E' ltac:(cbn [length]; lia)) as (post' & E2).
    apply (IH _ _ _ _ post' LP E2). right. cbn [length]. lia.
Qed.
(** C83: pgfe_hash_to_hex_string writes two characters for each byte it reads, so that the n bytes must lie before the output, or at least n - 1 elements behind
    its beginning. *)
Theorem C83_to_hex : forall mem ip os x, bytes_at mem ip x -> os <= length mem -> os + length x <= ip + 1 \/ ip + length x <= os ->
  to_hex_at mem ip (length x) os = omap (in_mem mem os) (to_hex x (skipn os mem)).
Proof.
  intros mem ip os x (post & E & TL) HO SC. destruct (split_mem mem os HO) as [SM SL].
  unfold to_hex_at, to_hex, in_mem. set (pre := firstn os mem) in *. set (out := skipn os mem) in *. rewrite SM in E. rewrite SM at 1.
  pose proof (to_hex_loop_at_eq os x 0 pre out ip post SL E) as L. rewrite Nat.add_0_r in L. rewrite L by exact SC.
  rewrite omap_bind, bind_omap. destruct (to_hex_loop x 0 out) as [[k o]| |]; [|reflexivity|reflexivity]. cbn [bind fst snd].
  rewrite <- SL at 1. rewrite wr_app_r, omap_bind, bind_omap. destruct (wr o k 0%N); [|reflexivity|reflexivity]. cbn [bind omap fst snd]. replace (os + k - os) with k by lia. reflexivity.
Qed.
Print Assumptions C83_to_hex.

(** C83, violation: in place, two or more bytes are not printed: what is printed for the second byte is the code of the second digit of the first. *)
Theorem C83_to_hex_in_place_refuted : forall b0 b1 mem, (b0 < 256)%N -> 3 <= length mem ->
  exists rest, to_hex_at (b0 :: b1 :: mem) 0 2 0 = Ret (4, hex_text [b0; nth 1 (hex_text [b0]) 0%N] ++ 0%N :: rest).
Proof.
  intros b0 b1 mem H L. destruct mem as [|m0 [|m1 [|m2 mem]]]; cbn [length] in L; try lia. exists mem.
  assert (T : to_hex [b0; nth 1 (hex_text [b0]) 0%N] (b0 :: b1 :: m0 :: m1 :: m2 :: mem) = Ret (4, hex_text [b0; nth 1 (hex_text [b0]) 0%N] ++ 0%N :: mem)).
  { rewrite to_hex_spec; [reflexivity| |cbn [length]; lia]. repeat constructor; [exact H|]. apply N.ltb_lt. apply (forallb_below (fun b => nth 1 (hex_text [b]) 0 <? 256)%N 256); [vm_compute; reflexivity|exact H]. }
  assert (Q : nth 1 (hex_text [b0]) 0%N = hexdig (b0 mod 16)).
  { apply N.eqb_eq. apply (forallb_below (fun b => nth 1 (hex_text [b]) 0 =? hexdig (b mod 16))%N 256); [vm_compute; reflexivity|exact H]. }
  rewrite Q in T |- *. exact T.
Qed.
Print Assumptions C83_to_hex_in_place_refuted.

(** C83, violation: an output that begins one element after the beginning of the text: the first unit overwrites the NUL. The Base64 text "QU" has two decoded bytes
    (with an array of its own), here three are returned. *)
Theorem C83_shifted_output_refuted : exists mem, string_at mem 0 (chars "QU") /\ omap fst (decode B64 (chars "QU") (skipn 1 mem)) = Ret 2 /\ omap fst (decode_mem B64 mem 0 1) = Ret 3.
Proof.
  exists (chars "QU" ++ repeat 0%N 8). split; [|split; vm_compute; reflexivity].
  split; [vm_compute; intuition discriminate|]. exists (repeat 0%N 7). split; [reflexivity|cbn; lia].
Qed.
Print Assumptions C83_shifted_output_refuted.

(** Non-vacuity: a text decoded, parsed and cleaned in place; bytes at the end of the array printed into all of it. *)
Example C83_case :
  string_at (chars "Zm9vYmE=" ++ [0; 9; 9]%N) 0 (chars "Zm9vYmE=") /\ starts_clear 0 8 0 /\
  decode_mem B64 (chars "Zm9vYmE=" ++ [0; 9; 9]%N) 0 0 = Ret (5, chars "fooba" ++ [0]%N ++ chars "E=" ++ [0; 9; 9]%N) /\
  from_hex_at (chars "0xA1b2" ++ [0; 9]%N) 0 0 = Ret (2, [161; 178]%N ++ chars "A1b2" ++ [0; 9]%N) /\
  clean_at (chars "0xA1:b2" ++ [0; 9]%N) 0 0 = Ret (4, chars "A1b2" ++ [0]%N ++ chars "b2" ++ [0; 9]%N) /\
  to_hex_at [7; 7; 1; 162; 179]%N 2 3 0 = UB OutOfBounds /\ to_hex_at [7; 7; 1; 162; 179; 7; 7]%N 2 3 0 = Ret (6, chars "01a2b3" ++ [0]%N).
Proof.
  split; [split; [vm_compute; intuition discriminate|exists [9; 9]%N; split; [reflexivity|cbn; lia]]|]. split; [left; lia|]. repeat split; vm_compute; reflexivity.
Qed.
