(** Lemmas for C61-C63. *)
From Coq Require Import String.
From Verif Require Import Base MBase SRfc4648 SHex SBaseText PUtils PBase.

(** ** take_digits against the filtered list *)
Definition somes (l : list (option N)) : list N := flat_map (fun o => match o with Some d => [d] | None => [] end) l.
Lemma take_digits_spec n l : forall g rest, take_digits n l = (g, rest) -> 0 < n ->
  g = firstn n (somes l) /\ somes rest = skipn n (somes l) /\
  (length g = n -> exists pre d, l = pre ++ Some d :: rest).
Proof.
  revert n. induction l as [|o l IH]; intros n g rest H Hn.
  - destruct n as [|n]; [lia|]. cbn in H. injection H as <- <-. cbn. split; [reflexivity|]. split; [reflexivity|]. intros E. discriminate.
  - destruct n as [|n]; [lia|]. destruct o as [d|].
    + cbn [take_digits] in H. destruct (take_digits n l) as [g' rest'] eqn:E. injection H as <- <-.
      change (somes (Some d :: l)) with (d :: somes l). cbn [firstn skipn].
      destruct n as [|n].
      * assert (E0 : take_digits 0 l = ([], l)) by (destruct l; reflexivity). rewrite E0 in E. injection E as <- <-. cbn. split; [reflexivity|]. split; [reflexivity|]. intros _. exists [], d. reflexivity.
      * destruct (IH _ _ _ E ltac:(lia)) as (I1 & I2 & I3). split; [congruence|]. split; [exact I2|].
        intros L. cbn [length] in L. destruct (I3 ltac:(lia)) as (pre & d' & ->). exists (Some d :: pre), d'. reflexivity.
    + change (take_digits (S n) l = (g, rest)) in H. destruct (IH _ _ _ H Hn) as (I1 & I2 & I3).
      change (somes (None :: l)) with (somes l). split; [exact I1|]. split; [exact I2|].
      intros L. destruct (I3 L) as (pre & d' & ->). exists (None :: pre), d'. reflexivity.
Qed.
Lemma pieces_fuel {A} n : 0 < n -> forall f1 f2 (l : list A), length l <= f1 -> length l <= f2 -> pieces f1 n l = pieces f2 n l.
Proof.
  intros Hn. induction f1 as [|f1 IH]; intros f2 l H1 H2.
  - destruct l; [destruct f2; reflexivity|cbn in H1; lia].
  - destruct l as [|a l]; [destruct f2; reflexivity|]. destruct f2 as [|f2]; [cbn in H2; lia|]. cbn [pieces]. f_equal.
    apply IH; rewrite skipn_length; cbn [length] in *; lia.
Qed.
(** ** unit_bytes *)
Lemma unit_bytes_octets p u : unit_bytes p u = octets_of (unit_size p) u.
Proof.
  unfold unit_bytes, octets_of. apply map_ext_in. intros j Hj. apply in_seq in Hj.
  rewrite N.shiftr_div_pow2. change 255%N with (N.ones 8). rewrite N.land_ones. change (2 ^ 8)%N with 256%N.
  replace (unit_size p - j - 1) with (unit_size p - 1 - j) by lia. do 2 f_equal. rewrite N.pow_mul_r. reflexivity.
Qed.
Section Units.
Variables (p : base_params) (c : rfc_coding).
Hypothesis Hw : width c = bit_size p.
Hypothesis Hq : quantum c = chunk_count p.
Hypothesis Ho : octets c = unit_size p.
Hypothesis Hc : 0 < chunk_count p.
Lemma dec_units_pieces : forall fuel l, length l <= fuel ->
  dec_units p fuel l = map (unit_of c) (pieces (length (somes l)) (quantum c) (somes l)) ++
    (if (Nat.eqb (length (somes l) mod quantum c) 0 && match last l (Some 0%N) with Some _ => false | None => true end)%bool then [unit_of c []] else []).
Proof.
  rewrite Hq. induction fuel as [|fuel IH]; intros l Hl; [destruct l; [cbn [last somes flat_map length pieces map app dec_units]; rewrite Bool.andb_false_r; reflexivity|cbn in Hl; lia]|].
  destruct l as [|o l]; [cbn [last somes flat_map length pieces map app dec_units]; rewrite Bool.andb_false_r; reflexivity|]. cbn [dec_units].
  destruct (take_digits (chunk_count p) (o :: l)) as [g rest] eqn:T.
  destruct (take_digits_length _ _ _ _ T) as (T1 & T2 & T3 & T4). specialize (T4 Hc ltac:(discriminate)).
  destruct (take_digits_spec _ _ _ _ T Hc) as (S1 & S2 & S3).
  set (L := o :: l) in *.
  assert (EU : forall ds, unit_bytes p (digits_value (bit_size p) (ds ++ repeat 0%N (chunk_count p - length ds))) = unit_of c ds).
  { intros ds. rewrite unit_bytes_octets. unfold unit_of. rewrite Ho, Hw, Hq. reflexivity. }
  rewrite EU. rewrite IH by lia.
  destruct (Nat.eq_dec (length g) (chunk_count p)) as [E|E].
  - assert (LS : chunk_count p <= length (somes L)) by (rewrite S1, firstn_length in E; lia).
    assert (EP : pieces (length (somes L)) (chunk_count p) (somes L) = g :: pieces (length (somes rest)) (chunk_count p) (somes rest)).
    { destruct (somes L) as [|d s] eqn:ES; [cbn in LS; lia|]. cbn [length pieces]. rewrite <- S1. f_equal. rewrite <- S2. apply pieces_fuel; auto. rewrite S2, skipn_length. cbn [length]. lia. }
    rewrite EP. cbn [map app]. f_equal. f_equal.
    assert (EM : length (somes L) mod chunk_count p = length (somes rest) mod chunk_count p).
    { rewrite S2, skipn_length. replace (length (somes L)) with (length (somes L) - chunk_count p + 1 * chunk_count p) at 1 by lia. apply Nat.mod_add. lia. }
    rewrite EM. destruct (S3 E) as (pre & d & EL). rewrite EL.
    assert (last (pre ++ Some d :: rest) (Some 0%N) = last (Some d :: rest) (Some 0%N)) as ->.
    { clear. induction pre as [|q pre IH]; [reflexivity|]. cbn [app last]. rewrite IH. destruct (pre ++ Some d :: rest) eqn:X; [destruct pre; discriminate|reflexivity]. }
    destruct rest as [|r rest]; [|reflexivity]. reflexivity.
  - specialize (T3 ltac:(lia)). rewrite T3 in *. cbn [somes flat_map length pieces map app].
    assert (LS : length (somes L) < chunk_count p) by (rewrite S1, firstn_length in E; lia).
    assert (EG : g = somes L) by (rewrite S1; apply firstn_all2; lia).
    cbn [last]. rewrite Bool.andb_false_r. destruct (somes L) as [|d s] eqn:ES.
    + cbn [length pieces map app]. rewrite Nat.mod_0_l by lia. cbn [Nat.eqb andb].
      assert (LN : last L (Some 0%N) = None).
      { clear - ES. assert (L <> []) by discriminate. clearbody L. induction L as [|q L IH]; [congruence|]. destruct q as [d|]; [discriminate|].
        change (somes (None :: L)) with (somes L) in ES. destruct L as [|q L]; [reflexivity|]. apply IH; [exact ES|discriminate]. }
      rewrite LN. rewrite EG. reflexivity.
    + cbn [length pieces]. rewrite Nat.mod_small by (cbn [length] in LS; lia). cbn [Nat.eqb andb map].
      rewrite EG, firstn_all2, skipn_all2 by (cbn [length] in *; lia).
      assert (pieces (length s) (chunk_count p) (@nil N) = []) as -> by (destruct (length s); reflexivity). reflexivity.
Qed.
End Units.
Lemma somes_digits p func t : somes (map (dig p func) t) = digits_in (dig p func) t.
Proof. unfold somes, digits_in. rewrite flat_map_concat_map, map_map, <- flat_map_concat_map. reflexivity. Qed.
Lemma digits_in_ext (v v' : N -> option N) t : (forall ch, v ch = v' ch) -> digits_in v t = digits_in v' t.
Proof. intros H. unfold digits_in. rewrite !flat_map_concat_map. f_equal. apply map_ext. intros ch. rewrite H. reflexivity. Qed.
Lemma text_units_ext c (v v' : N -> option N) t : (forall ch, v ch = v' ch) -> text_units c v t = text_units c v' t.
Proof. intros H. unfold text_units. rewrite (digits_in_ext v v' t H), H. reflexivity. Qed.
Lemma units_of_text p c func t : t <> [] -> width c = bit_size p -> quantum c = chunk_count p -> octets c = unit_size p -> 0 < chunk_count p ->
  units_of p func t = text_units c (dig p func) t.
Proof.
  intros Ht Hw Hq Ho Hc. unfold units_of, text_units. rewrite (dec_units_pieces p c Hw Hq Ho Hc) by (rewrite map_length; lia).
  rewrite somes_digits. f_equal. f_equal. f_equal.
  assert (E : last (map (dig p func) t) (Some 0%N) = dig p func (last t 0%N)).
  { clear - Ht. induction t as [|ch t IH]; [congruence|]. destruct t as [|ch' t]; [reflexivity|]. apply IH. discriminate. }
  rewrite E. reflexivity.
Qed.

Lemma app_inj_1 {T} (a : list T) : forall b u v, length a = length b -> a ++ u = b ++ v -> a = b /\ u = v.
Proof.
  induction a as [|h a IH]; intros [|h' b] u v HL E; try discriminate; [split; [reflexivity|exact E]|].
  cbn [app] in E. injection E as E1 E2. destruct (IH b u v) as [-> ->]; [cbn in HL; lia|exact E2|]. split; congruence.
Qed.
(** ** the text determines the filled-up data *)
Section Inj.
Variables (p : base_params) (A : list N) (c : rfc_coding) (func : N -> N).
Hypothesis HD : codec p A c func.
Let HC := cd_compat _ _ _ _ HD.
Lemma whole_back : forall k z fuel, length z = k * unit_size p -> bytes_ok z -> k <= fuel ->
  concat (dec_units p fuel (map Some (vals (bit_size p) z))) = z.
Proof.
  pose proof (cu _ _ _ HC) as Hu. induction k as [|k IH]; intros z fuel Hz Hb Hf.
  - destruct z; [|discriminate]. destruct fuel; reflexivity.
  - rewrite <- (firstn_skipn (unit_size p) z) in Hb |- *. apply Forall_app in Hb. destruct Hb as [B1 B2].
    rewrite (dec_units_step p A c func HD); [|rewrite firstn_length; lia|exact B1|lia]. cbn [concat]. f_equal.
    apply IH; [rewrite skipn_length; lia|exact B2|lia].
Qed.
Lemma zext_whole x : exists k, length (zext p x) = k * unit_size p.
Proof.
  pose proof (cu _ _ _ HC) as Hu. unfold zext. rewrite app_length, repeat_length.
  exists (length x / unit_size p + (if Nat.eqb (length x mod unit_size p) 0 then 0 else 1)).
  pose proof (Nat.div_mod_eq (length x) (unit_size p)) as DM. pose proof (Nat.mod_upper_bound (length x) (unit_size p) ltac:(lia)) as MB.
  destruct (Nat.eqb_spec (length x mod unit_size p) 0) as [E|E].
  - rewrite E, Nat.sub_0_r, Nat.mod_same by lia. nia.
  - rewrite (Nat.mod_small (unit_size p - _)) by lia. nia.
Qed.
Lemma vals_inj x y : bytes_ok x -> bytes_ok y -> vals (bit_size p) (zext p x) = vals (bit_size p) (zext p y) -> zext p x = zext p y.
Proof.
  intros Hx Hy E. destruct (zext_whole x) as (k & K). destruct (zext_whole y) as (k' & K').
  rewrite <- (whole_back k (zext p x) (k + k')), <- (whole_back k' (zext p y) (k + k')) by (auto using zext_bytes; lia).
  rewrite E. reflexivity.
Qed.
Lemma data_full_no_pad F k : unit_size p <> 1 -> length F = k * unit_size p -> ~ In pad_symbol (rfc_data c F).
Proof.
  intros H1 _ Hin. apply (symbols_distinct_pad _ _ _ HC H1). rewrite rfc_data_vals in Hin. apply in_map_iff in Hin. destruct Hin as (v & <- & Hv).
  apply nth_In. rewrite (cS _ _ _ HC). pose proof (vals_lt (width c) F) as V. rewrite (cw _ _ _ HC) in V. specialize (V (cb _ _ _ HC)). rewrite (cw _ _ _ HC) in Hv.
  rewrite Forall_forall in V. specialize (V v Hv).
  assert (N.of_nat (2 ^ bit_size p) = 2 ^ N.of_nat (bit_size p))%N by (rewrite Nat2N.inj_pow; reflexivity). lia.
Qed.
(** a text ends with '=' exactly when the last unit is partial *)
Lemma pad_iff_partial x : unit_size p <> 1 -> (In pad_symbol (lib_text c x) <-> length x mod unit_size p <> 0).
Proof.
  intros H1. destruct (split_full _ _ _ HC x) as (F & P & k & Ex & LF & LP & LM & TX & DX). rewrite TX, <- LM. split.
  - intros Hin E. destruct P; [|discriminate]. rewrite (lib_text_nil _ _ _ HC), app_nil_r in Hin. exact (data_full_no_pad F k H1 LF Hin).
  - intros E. apply in_or_app. right. assert (Hr : 0 < length P < unit_size p) by lia. rewrite (lib_text_part _ _ _ HC) by assumption.
    apply in_or_app. right. rewrite (rfc_data_length _ _ _ HC). pose proof (cc _ _ _ HC) as CC. pose proof (cb _ _ _ HC) as CB. pose proof (cd_w8 _ _ _ _ HD) as W8.
    assert (Q : (8 * length P + bit_size p - 1) / bit_size p < chunk_count p) by (apply Nat.div_lt_upper_bound; [lia|]; nia).
    destruct (chunk_count p - (8 * length P + bit_size p - 1) / bit_size p) eqn:Z; [lia|]. left. reflexivity.
Qed.
(** the text is a function of the filled-up data and of being partial *)
Lemma lib_text_of_filled x y : length x mod unit_size p <> 0 -> length y mod unit_size p <> 0 -> zext p x = zext p y -> lib_text c x = lib_text c y.
Proof.
  intros Mx My E. pose proof (cu _ _ _ HC) as Hu.
  destruct (split_full _ _ _ HC x) as (F & P & k & Ex & LF & LP & LM & TX & DX). destruct (split_full _ _ _ HC y) as (F' & P' & k' & Ey & LF' & LP' & LM' & TX' & DX').
  assert (Hr : 0 < length P < unit_size p) by lia. assert (Hr' : 0 < length P' < unit_size p) by lia.
  rewrite Ex, Ey, (zext_full p A c func HD F P k), (zext_full p A c func HD F' P' k'), !zext_part in E by assumption.
  assert (LL : k = k').
  { apply (f_equal (@length N)) in E. rewrite !app_length, !repeat_length, LF, LF' in E. nia. }
  subst k'. assert (LFF : length F = length F') by congruence.
  apply app_inj_1 in E; [|exact LFF]. destruct E as [EF EP]. rewrite TX, TX', EF. f_equal.
  rewrite !(lib_text_part _ _ _ HC) by assumption.
  assert (G : forall r, 0 < length r < unit_size p -> blank (zero_symbol c) pad_symbol (rfc_data c r) ++ repeat pad_symbol (chunk_count p - length (rfc_data c r)) =
    blank (zero_symbol c) pad_symbol (map (sym_of c) (vals (bit_size p) (r ++ repeat 0%N (unit_size p - length r))))).
  { intros r R. rewrite (vals_zext_part p A c func HD) by assumption. rewrite map_app, map_repeat. change (sym_of c 0) with (zero_symbol c). rewrite blank_app_zeros.
    rewrite (rfc_data_vals c r), (cw _ _ _ HC). reflexivity. }
  rewrite !G by assumption. rewrite EP. reflexivity.
Qed.
Lemma same_text x y : bytes_ok x -> bytes_ok y ->
  (lib_text c x = lib_text c y <-> x = y \/ (length x mod unit_size p <> 0 /\ length y mod unit_size p <> 0 /\ zext p x = zext p y)).
Proof.
  intros Hx Hy. pose proof (cu _ _ _ HC) as Hu. split; [|intros [->|(A1 & A2 & A3)]; [reflexivity|apply lib_text_of_filled; assumption]].
  intros E. assert (Z : zext p x = zext p y).
  { apply vals_inj; [exact Hx|exact Hy|]. apply (f_equal (map (dig p func))) in E. rewrite !(dig_lib_text p A c func HD) in E.
    apply (f_equal somes) in E. assert (SM : forall l, somes (map Some l) = l) by (induction l as [|d l IH]; [reflexivity|cbn; f_equal; exact IH]). rewrite !SM in E. exact E. }
  destruct (Nat.eq_dec (unit_size p) 1) as [U1|U1].
  - left. unfold zext in Z. rewrite U1, !Nat.mod_1_r in Z. cbn [repeat] in Z. rewrite !app_nil_r in Z. exact Z.
  - pose proof (pad_iff_partial x U1) as Px. pose proof (pad_iff_partial y U1) as Py. rewrite E in Px.
    destruct (Nat.eq_dec (length x mod unit_size p) 0) as [Mx|Mx].
    + assert (My : length y mod unit_size p = 0) by (destruct (Nat.eq_dec (length y mod unit_size p) 0) as [H|H]; [exact H|exfalso; apply (proj1 Px); [apply Py; exact H|exact Mx]]).
      left. unfold zext in Z. rewrite Mx, My, Nat.sub_0_r, Nat.mod_same in Z by lia. cbn [repeat] in Z. rewrite !app_nil_r in Z. exact Z.
    + right. split; [exact Mx|]. split; [|exact Z]. apply Py, Px, Mx.
Qed.
(** leaving the padding out, or part of it *)
Lemma unit_of_zeros ds j : length ds + j <= quantum c -> unit_of c (ds ++ repeat 0%N j) = unit_of c ds.
Proof.
  intros H. unfold unit_of. do 2 f_equal. rewrite <- app_assoc, <- repeat_app, app_length, repeat_length. do 2 f_equal. lia.
Qed.
Lemma somes_map l : somes (map Some l) = l.
Proof. induction l as [|d l IH]; [reflexivity|]. change (d :: somes (map Some l) = d :: l). congruence. Qed.
Lemma pieces_app n : 0 < n -> forall k (a r : list N), length a = k * n ->
  pieces (length (a ++ r)) n (a ++ r) = pieces (length a) n a ++ pieces (length r) n r.
Proof.
  intros Hn. induction k as [|k IH]; intros a r Ha.
  - destruct a; [reflexivity|discriminate].
  - rewrite <- (firstn_skipn n a) in *. set (a1 := firstn n a) in *. set (a2 := skipn n a) in *.
    assert (L1 : length a1 = n) by (unfold a1; rewrite firstn_length; rewrite app_length in Ha; unfold a1, a2 in Ha; rewrite firstn_length, skipn_length in Ha; nia).
    assert (L2 : length a2 = k * n) by (rewrite app_length in Ha; lia).
    destruct a1 as [|h a1]; [cbn in L1; lia|]. 
    assert (G : forall z, pieces (length ((h :: a1) ++ z)) n ((h :: a1) ++ z) = (h :: a1) :: pieces (length z) n z).
    { intros z. cbn [length app pieces]. change (h :: a1 ++ z) with ((h :: a1) ++ z).
      rewrite firstn_app, skipn_app, L1, Nat.sub_diag. rewrite firstn_all2, skipn_all2 by lia. cbn [firstn skipn app]. rewrite app_nil_r. f_equal.
      apply pieces_fuel; [exact Hn|rewrite app_length; lia|lia]. }
    rewrite <- app_assoc, !G, IH by exact L2. reflexivity.
Qed.
Lemma pieces_one n (r : list N) : 0 < length r <= n -> pieces (length r) n r = [r].
Proof.
  intros H. destruct r as [|h r]; [cbn in H; lia|]. cbn [length pieces]. rewrite firstn_all2, skipn_all2 by (cbn [length] in *; lia).
  destruct (length r); reflexivity.
Qed.
Lemma units_somes fuel ds : length ds <= fuel -> dec_units p fuel (map Some ds) = map (unit_of c) (pieces (length ds) (quantum c) ds).
Proof.
  intros Hf. assert (Q : quantum c = chunk_count p /\ octets c = unit_size p) by (split; [exact (cq _ _ _ HC)|exact (co _ _ _ HC)]). destruct Q as [Hq Ho].
  rewrite (dec_units_pieces p c (cw _ _ _ HC) Hq Ho (chunk_pos _ _ _ HC)) by (rewrite map_length; exact Hf).
  rewrite somes_map. assert (match last (map Some ds) (Some 0%N) with Some _ => false | None => true end = false) as ->.
  { clear. induction ds as [|d ds IH]; [reflexivity|]. destruct ds as [|d' ds]; [reflexivity|]. exact IH. }
  rewrite Bool.andb_false_r, app_nil_r. reflexivity.
Qed.
Lemma units_short t x j : x <> [] -> map (dig p func) t = map Some (vals (bit_size p) x ++ repeat 0%N j) ->
  length (vals (bit_size p) x) + j <= length (vals (bit_size p) (zext p x)) ->
  units_of p func t = units_of p func (rfc_encode c x).
Proof.
  intros Hx Ht Hj. unfold units_of. rewrite Ht, (dig_rfc_text p A c func HD).
  assert (L1 : length t = length (vals (bit_size p) x ++ repeat 0%N j)) by (apply (f_equal (@length _)) in Ht; rewrite !map_length in Ht; exact Ht).
  assert (L2 : length (rfc_encode c x) = length (vals (bit_size p) (zext p x))).
  { pose proof (dig_rfc_text p A c func HD x) as D. apply (f_equal (@length _)) in D. rewrite !map_length in D. exact D. }
  rewrite !units_somes by lia. clear L1 L2 Ht.
  pose proof (cu _ _ _ HC) as Hu. pose proof (cc _ _ _ HC) as CC. pose proof (cb _ _ _ HC) as CB. pose proof (chunk_pos _ _ _ HC) as CP. pose proof (cq _ _ _ HC) as Hq.
  destruct (split_full _ _ _ HC x) as (F & P & k & Ex & LF & LP & LM & TX & DX). 
  assert (VF : length (vals (bit_size p) F) = k * chunk_count p).
  { rewrite vals_length by exact CB. rewrite LF. replace (8 * (k * unit_size p) + bit_size p - 1) with (bit_size p - 1 + k * chunk_count p * bit_size p) by nia. rewrite Nat.div_add, Nat.div_small by lia. lia. }
  rewrite Ex in Hj |- *. rewrite (zext_full p A c func HD F P k) in * by exact LF. rewrite !(vals_app_full p A c func HD F _ k) in * by exact LF.
  destruct (Nat.eq_dec (length P) 0) as [E|E].
  - destruct P; [|discriminate]. rewrite (zext_nil p A c func HD) in *. assert (j = 0) by lia. subst j. cbn [repeat]. rewrite app_nil_r. reflexivity.
  - assert (Hr : 0 < length P < unit_size p) by lia. rewrite (zext_part p P Hr) in *. rewrite (vals_zext_part p A c func HD) in * by exact Hr.
    rewrite <- app_assoc. rewrite Hq, !(pieces_app (chunk_count p) CP k (vals (bit_size p) F)) by exact VF. rewrite !map_app. f_equal.
    assert (VP : 0 < length (vals (bit_size p) P) <= chunk_count p).
    { rewrite vals_length by exact CB. split; [apply Nat.div_str_pos; lia|]. apply Nat.div_le_upper_bound; [lia|]. pose proof (cd_w8 _ _ _ _ HD). nia. }
    assert (VR : length (rfc_data c P) = length (vals (bit_size p) P)) by (rewrite rfc_data_vals, map_length, (cw _ _ _ HC); reflexivity). rewrite VR in *.
    rewrite !app_length, !repeat_length in Hj.
    rewrite !pieces_one by (rewrite app_length, repeat_length; lia). cbn [map]. f_equal.
    rewrite !unit_of_zeros by lia. reflexivity.
Qed.
End Inj.
