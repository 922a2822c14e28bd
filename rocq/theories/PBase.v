(** Lemmas about the base encodings. *)
From Coq Require Import String.
From Verif Require Import Base MBase SRfc4648 PUtils.

(** ** one unit through [transform] *)
Definition vals (w : nat) (unit : list N) : list N := map bits_value (bit_groups w unit).

Lemma sweep2 (P : N -> N -> bool) a b :
  forallb (fun a => forallb (fun b => P a b) (map N.of_nat (seq 0 256))) (map N.of_nat (seq 0 256)) = true ->
  (a < 256)%N -> (b < 256)%N -> P a b = true.
Proof.
  intros H Ha Hb. apply (forallb_below (fun a => forallb (fun b => P a b) (map N.of_nat (seq 0 256))) 256 a) in H; [|assumption].
  apply (forallb_below (fun b => P a b) 256); assumption.
Qed.
Lemma sweep1 (P : N -> bool) a : forallb P (map N.of_nat (seq 0 256)) = true -> (a < 256)%N -> P a = true.
Proof. intros H Ha. apply (forallb_below P 256); assumption. Qed.

Ltac sym := cbv -[N.land N.lor N.shiftl N.shiftr N.testbit bits_value u8 mkmask].
Ltac sweep_eq :=
  apply N.eqb_eq;
  lazymatch goal with
  | |- ?G = true =>
    first
    [ match goal with Ha : (?a < 256)%N, Hb : (?b < 256)%N |- _ =>
        match G with context[a] => match G with context[b] =>
        let F := eval pattern a, b in G in
        match F with ?P a b => refine (sweep2 P a b _ Ha Hb) end end end end
    | match goal with Ha : (?a < 256)%N |- _ =>
        match G with context[a] =>
        let F := eval pattern a in G in
        match F with ?P a => refine (sweep1 P a _ Ha) end end end ]
  end; vm_compute; reflexivity.
Ltac ret_eq :=
  match goal with |- Ret (?k, ?l) = Ret (?k', ?l') => apply (f_equal2 (fun a b => Ret (a, b))); [reflexivity|] end;
  repeat match goal with |- (?x :: _) = (bits_value _ :: _) => apply (f_equal2 (@cons N)); [sweep_eq|] end; reflexivity.

Lemma transform_b64 a b c y after s0 s1 s2 s3 s4 s5 sr :
  (a < 256)%N -> (b < 256)%N -> (c < 256)%N -> 
  exists k rest, transform ([a;b;c] ++ y :: after) 3 6 (s0::s1::s2::s3::s4::s5::sr) = Ret (k, vals 6 [a;b;c] ++ rest).
Proof. intros Ha Hb Hc. do 2 eexists. sym. ret_eq. Qed.

Lemma transform_b32 a b c d e y after s0 s1 s2 s3 s4 s5 s6 s7 s8 s9 sr :
  (a < 256)%N -> (b < 256)%N -> (c < 256)%N -> (d < 256)%N -> (e < 256)%N ->
  exists k rest, transform ([a;b;c;d;e] ++ y :: after) 5 5 (s0::s1::s2::s3::s4::s5::s6::s7::s8::s9::sr) = Ret (k, vals 5 [a;b;c;d;e] ++ rest).
Proof. intros Ha Hb Hc Hd He. do 2 eexists. sym. ret_eq. Qed.

Lemma transform_b16 a y after s0 s1 s2 s3 sr :
  (a < 256)%N ->
  exists k rest, transform ([a] ++ y :: after) 1 4 (s0::s1::s2::s3::sr) = Ret (k, vals 4 [a] ++ rest).
Proof. intros Ha. do 2 eexists. sym. ret_eq. Qed.

(** ** bit groups *)
Lemma groups_nil n w : groups n w [] = [].
Proof. destruct n; reflexivity. Qed.

Lemma groups_fuel w : 0 < w -> forall n m bs, length bs <= n -> length bs <= m -> groups n w bs = groups m w bs.
Proof.
  intros Hw n. induction n as [|n IH]; intros m bs Hn Hm.
  - destruct bs; [rewrite !groups_nil; reflexivity|cbn in Hn; lia].
  - destruct bs as [|b bs]; [rewrite !groups_nil; reflexivity|].
    destruct m as [|m]; [cbn in Hm; lia|].
    cbn [groups]. f_equal. apply IH; rewrite skipn_length; cbn [length] in *; lia.
Qed.

Lemma groups_step w n bs : 0 < w -> bs <> [] -> length bs <= n ->
  groups n w bs = (firstn w bs ++ repeat false (w - length bs)) :: groups n w (skipn w bs).
Proof.
  intros Hw Hb Hn. destruct n as [|n]; [destruct bs; [congruence|cbn in Hn; lia]|].
  destruct bs as [|b bs]; [congruence|].
  transitivity ((firstn w (b :: bs) ++ repeat false (w - length (b :: bs))) :: groups n w (skipn w (b :: bs))).
  - reflexivity.
  - f_equal. apply groups_fuel; auto; rewrite skipn_length; cbn [length] in *; lia.
Qed.

Lemma groups_app w k : 0 < w -> forall n a b, length a = k * w -> length (a ++ b) <= n ->
  groups n w (a ++ b) = groups n w a ++ groups n w b.
Proof.
  intros Hw. induction k as [|k IH]; intros n a b Ha Hn.
  - destruct a; [|cbn in Ha; lia]. rewrite groups_nil. reflexivity.
  - rewrite app_length in Hn.
    assert (a <> []) by (destruct a; [cbn in Ha; lia|discriminate]).
    rewrite (groups_step w n (a ++ b)); auto.
    2:{ destruct a; [congruence|discriminate]. } 2:{ rewrite app_length; lia. }
    rewrite (groups_step w n a) by (auto; lia). cbn [app]. 
    rewrite firstn_app, skipn_app. replace (w - length a) with 0 by lia.
    cbn [firstn skipn]. rewrite !app_nil_r. f_equal.
    + rewrite app_length. replace (w - (length a + length b)) with 0 by lia. cbn. apply app_nil_r.
    + apply IH; [rewrite skipn_length; lia|rewrite app_length, skipn_length; lia].
Qed.

Lemma groups_length w : 0 < w -> forall n bs, length bs <= n -> length (groups n w bs) = (length bs + w - 1) / w.
Proof.
  intros Hw n. induction n as [|n IH]; intros bs Hn.
  - destruct bs; [|cbn in Hn; lia]. cbn. symmetry. apply Nat.div_small. lia.
  - destruct bs as [|b bs]. { cbn. symmetry. apply Nat.div_small. lia. }
    cbn [groups length]. rewrite IH by (rewrite skipn_length; cbn [length] in *; lia). rewrite skipn_length. cbn [length].
    destruct (Nat.le_gt_cases w (S (length bs))).
    + replace (S (length bs) + w - 1) with ((S (length bs) - w + w - 1) + 1 * w) by lia.
      rewrite Nat.div_add by lia. lia.
    + replace (S (length bs) - w + w - 1) with (w - 1) by lia. rewrite Nat.div_small by lia.
      replace (S (length bs) + w - 1) with (length bs + 1 * w) by lia. rewrite Nat.div_add by lia.
      rewrite Nat.div_small by lia. reflexivity.
Qed.

Lemma groups_width w : 0 < w -> forall n bs, Forall (fun g => length g = w) (groups n w bs).
Proof.
  intros Hw n. induction n as [|n IH]; intros bs; destruct bs as [|b bs]; cbn [groups]; try constructor.
  - rewrite app_length, firstn_length, repeat_length. cbn [length]. lia.
  - apply IH.
Qed.

Lemma bits_value_app a b : bits_value (a ++ b) = (bits_value a * 2 ^ N.of_nat (length b) + bits_value b)%N.
Proof.
  unfold bits_value. rewrite fold_left_app. generalize (fold_left (fun a (b : bool) => (2 * a + (if b then 1 else 0))%N) a 0%N) as x. clear a.
  induction b as [|y b IH] using rev_ind; intros x.
  - cbn. lia.
  - rewrite !fold_left_app, app_length. cbn [fold_left length]. rewrite IH.
    rewrite Nat2N.inj_add, N.pow_add_r. change (N.of_nat 1) with 1%N. rewrite N.pow_1_r. lia.
Qed.

Lemma bits_value_zeros n : bits_value (repeat false n) = 0%N.
Proof.
  induction n as [|n IH]; [reflexivity|]. change (repeat false (S n)) with ([false] ++ repeat false n).
  rewrite bits_value_app, IH. reflexivity.
Qed.

Lemma bits_value_lt bs : (bits_value bs < 2 ^ N.of_nat (length bs))%N.
Proof.
  induction bs as [|b bs IH] using rev_ind; [reflexivity|].
  rewrite bits_value_app, app_length, Nat2N.inj_add, N.pow_add_r. cbn [length].
  change (N.of_nat 1) with 1%N. rewrite N.pow_1_r.
  change (bits_value [b]) with (2 * 0 + (if b then 1 else 0))%N. destruct b; lia.
Qed.

Lemma groups_zeros w k : 0 < w -> forall n m, m = k * w -> m <= n ->
  map bits_value (groups n w (repeat false m)) = repeat 0%N k.
Proof.
  intros Hw. induction k as [|k IH]; intros n m -> Hn; [cbn; rewrite groups_nil; reflexivity|].
  rewrite groups_step; auto.
  2:{ destruct w; [lia|]. discriminate. } 2:{ rewrite repeat_length; lia. }
  cbn [map repeat]. f_equal.
  - rewrite repeat_length. replace (w - S k * w) with 0 by lia. cbn [repeat]. rewrite app_nil_r.
    replace (S k * w) with (w + k * w) by lia. rewrite repeat_app, firstn_app, repeat_length, Nat.sub_diag.
    cbn [firstn]. rewrite app_nil_r, firstn_all2 by (rewrite repeat_length; lia). apply bits_value_zeros.
  - replace (S k * w) with (w + k * w) by lia. rewrite repeat_app, skipn_app, repeat_length, Nat.sub_diag.
    rewrite skipn_all2 by (rewrite repeat_length; lia). cbn [app skipn]. apply IH; lia.
Qed.

Lemma groups_zext w k : 0 < w -> forall n bs m, length bs + m = k * w -> k * w <= n ->
  map bits_value (groups n w (bs ++ repeat false m)) =
  map bits_value (groups n w bs) ++ repeat 0%N (k - (length bs + w - 1) / w).
Proof.
  intros Hw. induction k as [|k IH]; intros n bs m Hk Hn.
  - destruct bs; [|cbn in Hk; lia]. destruct m; [|cbn in Hk; lia]. cbn. rewrite groups_nil. reflexivity.
  - destruct bs as [|b0 bs0].
    + cbn [app length]. rewrite groups_nil. cbn [map app]. cbn [length] in Hk.
      rewrite (groups_zeros w (S k)) by lia. replace (0 + w - 1) with (w - 1) by lia.
      rewrite Nat.div_small by lia. rewrite Nat.sub_0_r. reflexivity.
    + set (bs := b0 :: bs0) in *. assert (Hne : bs <> []) by discriminate.
      assert (Hlb : length bs = S (length bs0)) by reflexivity.
      rewrite (groups_step w n (bs ++ _)); auto. 2:{ discriminate. }
      2:{ rewrite app_length, repeat_length. lia. }
      rewrite (groups_step w n bs) by (auto; lia). cbn [map app].
      rewrite app_length, repeat_length. replace (w - (length bs + m)) with 0 by lia. cbn [repeat]. rewrite app_nil_r.
      destruct (Nat.le_gt_cases w (length bs)) as [Hge|Hlt].
      * replace (w - length bs) with 0 by lia. cbn [repeat]. rewrite app_nil_r.
        rewrite firstn_app, skipn_app. replace (w - length bs) with 0 by lia. cbn [firstn skipn]. rewrite app_nil_r.
        f_equal. rewrite IH by (rewrite ?skipn_length; lia). rewrite skipn_length. f_equal. f_equal.
        replace (length bs + w - 1) with ((length bs - w + w - 1) + 1 * w) by lia.
        rewrite Nat.div_add by lia. lia.
      * rewrite (skipn_all2 (n := w) bs) by lia. rewrite groups_nil. cbn [map app].
        rewrite firstn_app, firstn_all2 by lia.
        replace (firstn (w - length bs) (repeat false m)) with (repeat false (w - length bs)).
        2:{ replace m with ((w - length bs) + (m - (w - length bs))) by lia.
            rewrite repeat_app, firstn_app, repeat_length, Nat.sub_diag. cbn [firstn].
            rewrite app_nil_r, firstn_all2 by (rewrite repeat_length; lia). reflexivity. }
        f_equal.
        rewrite skipn_app, skipn_all2 by lia. cbn [app].
        replace (skipn (w - length bs) (repeat false m)) with (repeat false (k * w)).
        2:{ replace m with ((w - length bs) + k * w) by lia.
            rewrite repeat_app, skipn_app, repeat_length, Nat.sub_diag. cbn [skipn].
            rewrite skipn_all2 by (rewrite repeat_length; lia). reflexivity. }
        rewrite (groups_zeros w k) by lia. f_equal.
        replace (length bs + w - 1) with ((length bs - 1) + 1 * w) by lia. rewrite Nat.div_add by lia.
        rewrite Nat.div_small by lia. lia.
Qed.

Lemma byte_bits_length b : length (byte_bits b) = 8.
Proof. reflexivity. Qed.
Lemma flat_bits_length x : length (flat_map byte_bits x) = 8 * length x.
Proof. induction x as [|b r IH]; [reflexivity|]. cbn [flat_map]. rewrite app_length, IH, byte_bits_length. cbn. lia. Qed.
Lemma flat_bits_zeros n : flat_map byte_bits (repeat 0%N n) = repeat false (8 * n).
Proof.
  induction n as [|n IH]; [reflexivity|]. cbn [repeat flat_map]. rewrite IH.
  replace (8 * S n) with (8 + 8 * n) by lia. rewrite repeat_app. reflexivity.
Qed.

Lemma bit_groups_app w k x y : 0 < w -> 8 * length x = k * w ->
  bit_groups w (x ++ y) = bit_groups w x ++ bit_groups w y.
Proof.
  intros Hw Hk. unfold bit_groups. cbv zeta. rewrite flat_map_app.
  rewrite (groups_app w k) by (auto; rewrite ?flat_bits_length; lia).
  f_equal; apply groups_fuel; auto; rewrite ?app_length, ?flat_bits_length; lia.
Qed.

Lemma vals_zext w k r m : 0 < w -> 8 * (length r + m) = k * w ->
  vals w (r ++ repeat 0%N m) = vals w r ++ repeat 0%N (k - (8 * length r + w - 1) / w).
Proof.
  intros Hw Hk. unfold vals, bit_groups. rewrite flat_map_app, flat_bits_zeros.
  rewrite (groups_zext w k) by (auto; rewrite ?app_length, ?repeat_length, ?flat_bits_length; lia).
  rewrite flat_bits_length. f_equal. f_equal. apply groups_fuel; auto; rewrite ?app_length, ?flat_bits_length; lia.
Qed.

Lemma vals_length w x : 0 < w -> length (vals w x) = (8 * length x + w - 1) / w.
Proof. intros Hw. unfold vals, bit_groups. rewrite map_length, groups_length, flat_bits_length by auto. reflexivity. Qed.

Lemma vals_lt w x : 0 < w -> Forall (fun v => (v < 2 ^ N.of_nat w)%N) (vals w x).
Proof.
  intros Hw. unfold vals. apply Forall_map. eapply Forall_impl; [|apply groups_width; exact Hw].
  intros g Hg. cbn in Hg. rewrite <- Hg. apply bits_value_lt.
Qed.

(** ** padding *)
Lemma pad_rev_zeros z pd m l : pad_rev z pd (repeat z m ++ l) = repeat pd m ++ pad_rev z pd l.
Proof. induction m as [|m IH]; [reflexivity|]. cbn. rewrite N.eqb_refl, IH. reflexivity. Qed.

(** replace trailing [z] symbols *)
Definition blank (z pd : N) (s : list N) : list N := rev (pad_rev z pd (rev s)).

Lemma rev_repeat' {A} (x : A) n : rev (repeat x n) = repeat x n.
Proof.
  induction n as [|n IH]; [reflexivity|]. cbn. rewrite IH.
  change [x] with (repeat x 1). rewrite <- repeat_app, Nat.add_1_r. reflexivity.
Qed.

Lemma blank_app_zeros z pd s m : blank z pd (s ++ repeat z m) = blank z pd s ++ repeat pd m.
Proof.
  unfold blank. rewrite rev_app_distr, rev_repeat', pad_rev_zeros, rev_app_distr, rev_repeat'. reflexivity.
Qed.

Lemma pad_rev_length z pd s : length (pad_rev z pd s) = length s.
Proof. induction s as [|c r IH]; [reflexivity|]. cbn. destruct (c =? z)%N; cbn; congruence. Qed.
Lemma blank_length z pd s : length (blank z pd s) = length s.
Proof. unfold blank. rewrite rev_length, pad_rev_length, rev_length. reflexivity. Qed.

Lemma blank_same z pd s d : pd <> z -> s <> [] -> (blank z pd s = s <-> last s d <> z).
Proof.
  intros Hpz Hs. destruct (exists_last Hs) as (l & x & ->). rewrite last_last.
  unfold blank. rewrite rev_app_distr. cbn [rev app pad_rev].
  destruct (N.eqb_spec x z) as [->|Hx].
  - split; [|congruence]. cbn [rev]. intros H. apply app_inj_tail in H. destruct H. congruence.
  - split; [auto|]. intros _. cbn [rev]. rewrite rev_involutive. reflexivity.
Qed.

(** ** encoding, generic in the coding *)
Record compat (p : base_params) (A : list N) (c : rfc_coding) : Prop := {
  cw : width c = bit_size p; cq : quantum c = chunk_count p; co : octets c = unit_size p;
  cA : exists pd, A = symbols c ++ [pd] /\ (unit_size p = 1 \/ (pd = pad_symbol /\ ~ In pad_symbol (symbols c)));
  cS : length (symbols c) = 2 ^ bit_size p; cS' : alphabet_size p = 2 ^ bit_size p;
  cN : NoDup (symbols c);
  cb : 0 < bit_size p; cu : 0 < unit_size p; cc : chunk_count p * bit_size p = 8 * unit_size p;
  ct : forall unit after scr, length unit = unit_size p -> bytes_ok unit -> 1 <= length after ->
       chunk_count p + 2 <= length scr ->
       exists k rest, transform (unit ++ after) (unit_size p) (bit_size p) scr = Ret (k, vals (bit_size p) unit ++ rest)
}.

Lemma strip_zero_pad_rev z s : strip_zero_rev z s = pad_rev z pad_symbol s.
Proof. induction s as [|c r IH]; [reflexivity|]. cbn. rewrite IH. reflexivity. Qed.
Lemma blank_trailing_blank z s : blank_trailing z s = blank z pad_symbol s.
Proof. unfold blank_trailing, blank. rewrite strip_zero_pad_rev. reflexivity. Qed.

Definition sym_of (c : rfc_coding) (v : N) : N := nth (N.to_nat v) (symbols c) 0%N.
Lemma rfc_data_vals c x : rfc_data c x = map (sym_of c) (vals (width c) x).
Proof. unfold rfc_data, vals. rewrite map_map. reflexivity. Qed.

Lemma pad_rev_forall (Q : N -> Prop) z s : Forall Q s -> Forall (fun ch => Q ch \/ ch = pad_symbol) (pad_rev z pad_symbol s).
Proof.
  induction 1 as [|ch r Hch Hr IH]; [constructor|]. cbn. destruct (ch =? z)%N; constructor; auto.
  eapply Forall_impl; [|exact Hr]. cbn. auto.
Qed.

Section Enc.
Variables (p : base_params) (A : list N) (c : rfc_coding).
Hypothesis HC : compat p A c.
Let w := bit_size p.
Let Hw : 0 < w := cb _ _ _ HC.

Lemma rfc_data_app x y k : length x = k * unit_size p -> rfc_data c (x ++ y) = rfc_data c x ++ rfc_data c y.
Proof.
  intros Hk. rewrite !rfc_data_vals, <- map_app. f_equal. unfold vals. rewrite <- map_app. f_equal.
  rewrite (cw _ _ _ HC). apply (bit_groups_app _ (k * chunk_count p)); [exact Hw|].
  rewrite Hk. pose proof (cc _ _ _ HC). nia.
Qed.

Lemma rfc_data_length x : length (rfc_data c x) = (8 * length x + w - 1) / w.
Proof. rewrite rfc_data_vals, map_length, (cw _ _ _ HC), vals_length by exact Hw. reflexivity. Qed.

Lemma rfc_data_length_full x k : length x = k * unit_size p -> length (rfc_data c x) = k * chunk_count p.
Proof.
  intros Hk. rewrite rfc_data_length, Hk. pose proof (cc _ _ _ HC). unfold w in *.
  replace (8 * (k * unit_size p) + bit_size p - 1) with (bit_size p - 1 + (k * chunk_count p) * bit_size p) by nia.
  rewrite Nat.div_add by lia. rewrite Nat.div_small by lia. reflexivity.
Qed.

Lemma lookup_all_ok vs : Forall (fun v => (v < 2 ^ N.of_nat w)%N) vs -> lookup_all A vs = Ret (map (sym_of c) vs).
Proof.
  intros H. induction H as [|v r Hv _ IH]; [reflexivity|]. cbn [lookup_all map].
  destruct (cA _ _ _ HC) as (pd & -> & _). 
  assert (Hlt : N.to_nat v < length (symbols c)).
  { rewrite (cS _ _ _ HC). fold w. assert (N.of_nat (2 ^ w) = 2 ^ N.of_nat w)%N by (rewrite Nat2N.inj_pow; reflexivity). lia. }
  rewrite (rd_lt _ _ 0%N) by (rewrite app_length; lia). rewrite app_nth1 by assumption. cbn [bind].
  rewrite IH. reflexivity.
Qed.

Lemma chunk_pos : 0 < chunk_count p.
Proof. pose proof (cc _ _ _ HC). pose proof (cu _ _ _ HC). nia. Qed.

Lemma unittostr_full st n unit :
  length unit = unit_size p -> bytes_ok unit -> 1 <= length (after_unit st n) ->
  chunk_count p + 2 <= length (scratch st n) ->
  unittostr p A (unit ++ after_unit st n) (scratch st n) false = Ret (rfc_data c unit).
Proof.
  intros Hu Hb H1 H2. unfold unittostr.
  destruct (ct _ _ _ HC unit _ _ Hu Hb H1 H2) as (k & rest & ->). cbn [bind].
  assert (L : length (vals (bit_size p) unit) = chunk_count p).
  { pose proof (rfc_data_length_full unit 1 ltac:(lia)) as E. rewrite rfc_data_vals, map_length, (cw _ _ _ HC) in E. lia. }
  rewrite firstn_app, L, Nat.sub_diag, firstn_all2 by lia. cbn [firstn]. rewrite app_nil_r.
  rewrite lookup_all_ok by (apply vals_lt; exact Hw). cbn [bind]. rewrite rfc_data_vals, (cw _ _ _ HC). reflexivity.
Qed.

Lemma rd_alphabet_0 : rd A 0 = Ret (zero_symbol c).
Proof.
  destruct (cA _ _ _ HC) as (pd & -> & _). pose proof (cS _ _ _ HC) as L.
  assert (0 < 2 ^ bit_size p) by (apply Nat.neq_0_lt_0, Nat.pow_nonzero; lia).
  rewrite (rd_lt _ _ 0%N) by (rewrite app_length; lia). rewrite app_nth1 by lia. reflexivity.
Qed.

Lemma unittostr_part st n r :
  0 < length r < unit_size p -> bytes_ok r -> 1 <= length (after_unit st n) ->
  chunk_count p + 2 <= length (scratch st n) ->
  unittostr p A ((r ++ repeat 0%N (unit_size p - length r)) ++ after_unit st n) (scratch st n) true
  = Ret (blank (zero_symbol c) pad_symbol (rfc_data c r) ++ repeat pad_symbol (chunk_count p - length (rfc_data c r))).
Proof.
  intros Hr Hb H1 H2. unfold unittostr.
  destruct (ct _ _ _ HC (r ++ repeat 0%N (unit_size p - length r)) (after_unit st n) (scratch st n)) as (k & rest & ->); auto.
  { rewrite app_length, repeat_length. lia. }
  { apply Forall_app. split; [assumption|]. apply Forall_forall. intros y Hy. apply repeat_spec in Hy. subst. reflexivity. }
  cbn [bind].
  assert (L : length (vals (bit_size p) (r ++ repeat 0%N (unit_size p - length r))) = chunk_count p).
  { pose proof (rfc_data_length_full (r ++ repeat 0%N (unit_size p - length r)) 1) as E.
    rewrite app_length, repeat_length in E. specialize (E ltac:(lia)).
    rewrite rfc_data_vals, map_length, (cw _ _ _ HC) in E. lia. }
  rewrite firstn_app, L, Nat.sub_diag, firstn_all2 by lia. cbn [firstn]. rewrite app_nil_r.
  rewrite lookup_all_ok by (apply vals_lt; exact Hw). cbn [bind].
  rewrite rd_alphabet_0. cbn [bind].
  destruct (cA _ _ _ HC) as (pd & EA & [H|[-> _]]); [lia|].
  rewrite EA, rd_app_mid by (rewrite (cS _ _ _ HC), (cS' _ _ _ HC); reflexivity). cbn [bind].
  f_equal. fold (blank (zero_symbol c) pad_symbol (map (sym_of c) (vals (bit_size p) (r ++ repeat 0%N (unit_size p - length r))))).
  rewrite (vals_zext _ (chunk_count p)) by (try exact Hw; pose proof (cc _ _ _ HC); nia).
  rewrite map_app, map_repeat. change (sym_of c 0%N) with (zero_symbol c).
  rewrite blank_app_zeros. rewrite rfc_data_length. rewrite rfc_data_vals, (cw _ _ _ HC). reflexivity.
Qed.

Lemma rfc_padding_part r : 0 < length r < unit_size p ->
  rfc_padding c r = repeat pad_symbol (chunk_count p - length (rfc_data c r)).
Proof.
  intros Hr. unfold rfc_padding. rewrite (cq _ _ _ HC). f_equal.
  assert (0 < length (rfc_data c r) <= chunk_count p) as [B1 B2].
  { rewrite rfc_data_length. pose proof (cc _ _ _ HC). unfold w in *. split.
    - apply Nat.div_str_pos. lia.
    - apply Nat.lt_succ_r. apply Nat.div_lt_upper_bound; nia. }
  destruct (Nat.eq_dec (length (rfc_data c r)) (chunk_count p)) as [E|E].
  - rewrite E, Nat.mod_same, Nat.sub_0_r, Nat.mod_same, Nat.sub_diag by lia. reflexivity.
  - rewrite (Nat.mod_small (length _)) by lia. apply Nat.mod_small. lia.
Qed.

Lemma lib_text_nil : lib_text c [] = [].
Proof.
  unfold lib_text. cbn [length]. rewrite (co _ _ _ HC). rewrite Nat.div_0_l by (pose proof (cu _ _ _ HC); lia).
  rewrite Nat.mul_0_r. cbn. unfold rfc_data, bit_groups. cbn. reflexivity.
Qed.

Lemma lib_text_step u x : length u = unit_size p -> lib_text c (u ++ x) = rfc_data c u ++ lib_text c x.
Proof.
  intros Hu. unfold lib_text. rewrite (co _ _ _ HC), app_length, Hu.
  pose proof (cu _ _ _ HC).
  replace (unit_size p + length x) with (length x + 1 * unit_size p) by lia. rewrite Nat.div_add by lia.
  replace (unit_size p * (length x / unit_size p + 1)) with (length u + unit_size p * (length x / unit_size p)) by lia.
  generalize (unit_size p * (length x / unit_size p)) as m. intros m.
  rewrite firstn_app_2, skipn_app. rewrite (skipn_all2 u) by lia.
  replace (length u + m - length u) with m by lia.
  cbn [app]. rewrite (rfc_data_app u _ 1) by lia. rewrite <- app_assoc. reflexivity.
Qed.

Lemma lib_text_part r : 0 < length r < unit_size p ->
  lib_text c r = blank (zero_symbol c) pad_symbol (rfc_data c r) ++ repeat pad_symbol (chunk_count p - length (rfc_data c r)).
Proof.
  intros Hr. unfold lib_text. rewrite (co _ _ _ HC). rewrite Nat.div_small by lia. rewrite Nat.mul_0_r. cbn [firstn skipn].
  change (rfc_data c []) with (@nil N). cbn [app].
  rewrite blank_trailing_blank, rfc_padding_part by assumption. destruct r; [cbn in Hr; lia|reflexivity].
Qed.

Lemma lib_text_length x : length (lib_text c x) = chunk_count p * ((length x + unit_size p - 1) / unit_size p).
Proof.
  pose proof (cu _ _ _ HC) as Hu.
  remember (length x) as n eqn:Hn. revert x Hn. induction n as [n IH] using lt_wf_ind. intros x Hn.
  destruct (Nat.le_gt_cases (unit_size p) n) as [Hge|Hlt].
  - rewrite <- (firstn_skipn (unit_size p) x). rewrite lib_text_step by (rewrite firstn_length; lia).
    rewrite app_length, (rfc_data_length_full _ 1) by (rewrite firstn_length; lia).
    rewrite (IH (n - unit_size p)) by (rewrite ?skipn_length; lia).
    replace (n + unit_size p - 1) with (n - unit_size p + unit_size p - 1 + 1 * unit_size p) by lia.
    rewrite Nat.div_add by lia. lia.
  - destruct (Nat.eq_dec n 0) as [->|].
    + destruct x; [|discriminate]. rewrite lib_text_nil. rewrite Nat.div_small by lia. cbn. lia.
    + rewrite lib_text_part by lia. rewrite app_length, blank_length, repeat_length.
      assert (length (rfc_data c x) <= chunk_count p).
      { rewrite rfc_data_length. pose proof (cc _ _ _ HC). unfold w in *.
        apply Nat.lt_succ_r. apply Nat.div_lt_upper_bound; nia. }
      replace (n + unit_size p - 1) with (n - 1 + 1 * unit_size p) by lia. rewrite Nat.div_add, Nat.div_small by lia. lia.
Qed.

Definition stack_ok (st : stack) : Prop :=
  forall n, 1 <= length (after_unit st n) /\ chunk_count p + 2 <= length (scratch st n).

Lemma encode_loop_spec st : stack_ok st -> forall fuel n rest pre mid post,
  length rest < fuel -> bytes_ok rest -> length mid = length (lib_text c rest) ->
  encode_loop fuel p A st n rest (length pre) (pre ++ mid ++ post) =
  Ret (length pre + length mid, pre ++ lib_text c rest ++ post).
Proof.
  intros Hst. pose proof (cu _ _ _ HC) as Hu. pose proof chunk_pos as Hcp.
  induction fuel as [|fuel IH]; intros n rest pre mid post Hf Hb Hm; [lia|].
  destruct (Hst n) as [Ha Hs].
  destruct rest as [|b0 rest0].
  - rewrite lib_text_nil in *. destruct mid; [|discriminate]. cbn. rewrite Nat.add_0_r. reflexivity.
  - cbn [encode_loop]. set (rest := b0 :: rest0) in *.
    destruct (Nat.ltb_spec (length rest) (unit_size p)) as [Hlt|Hge].
    + assert (Hr : 0 < length rest < unit_size p) by (split; [cbn; lia|assumption]).
      rewrite unittostr_part by assumption. cbn [bind].
      rewrite <- lib_text_part by assumption.
      rewrite blit_app by auto. cbn [bind].
      rewrite skipn_all2 by lia.
      replace (length pre + chunk_count p) with (length pre + length mid).
      2:{ rewrite Hm, lib_text_length. 
          assert (0 < length rest) by (cbn; lia).
          replace (length rest + unit_size p - 1) with (length rest - 1 + 1 * unit_size p) by lia.
          rewrite Nat.div_add, Nat.div_small by lia. lia. }
      destruct fuel; reflexivity.
    + assert (E : rest = firstn (unit_size p) rest ++ skipn (unit_size p) rest) by (symmetry; apply firstn_skipn).
      assert (L1 : length (firstn (unit_size p) rest) = unit_size p) by (rewrite firstn_length; lia).
      assert (B : bytes_ok (firstn (unit_size p) rest) /\ bytes_ok (skipn (unit_size p) rest)).
      { apply Forall_app. rewrite <- E. assumption. }
      rewrite unittostr_full by tauto. cbn [bind].
      set (u := firstn (unit_size p) rest) in *. set (r := skipn (unit_size p) rest) in *.
      rewrite E, lib_text_step in Hm |- * by assumption. rewrite app_length in Hm.
      rewrite (rfc_data_length_full u 1) in Hm by lia.
      rewrite <- (firstn_skipn (chunk_count p) mid). rewrite <- app_assoc.
      rewrite blit_app by (rewrite ?firstn_length, ?(rfc_data_length_full u 1) by lia; lia). cbn [bind].
      rewrite app_assoc.
      replace (length pre + chunk_count p) with (length (pre ++ rfc_data c u)) by (rewrite app_length, (rfc_data_length_full u 1) by lia; lia).
      rewrite IH; [| |tauto|rewrite skipn_length; lia].
      2:{ unfold r. rewrite skipn_length. unfold rest in *. cbn [length] in *. lia. }
      rewrite !app_length, firstn_length, !skipn_length, (rfc_data_length_full u 1) by lia.
      f_equal. f_equal; [lia|]. rewrite <- !app_assoc. reflexivity.
Qed.

Lemma encode_spec st x out : stack_ok st -> bytes_ok x -> length (lib_text c x) < length out ->
  encode_base_generic p A st x out =
  Ret (length (lib_text c x), lib_text c x ++ 0%N :: skipn (length (lib_text c x) + 1) out).
Proof.
  intros Hst Hb Hl. unfold encode_base_generic.
  destruct (out_split out _ Hl) as (m & y & Ho & Hm). rewrite Ho at 1.
  pose proof (encode_loop_spec st Hst (S (length x)) 0 x [] m (y :: skipn (length (lib_text c x) + 1) out) ltac:(lia) Hb Hm) as E.
  cbn [app length plus] in E. rewrite E. cbn [bind].
  rewrite Hm, wr_app by reflexivity. reflexivity.
Qed.

(** conformance *)
Lemma split_full x : exists full part k, x = full ++ part /\ length full = k * unit_size p /\ length part < unit_size p /\
  length part = length x mod unit_size p /\
  lib_text c x = rfc_data c full ++ lib_text c part /\ rfc_data c x = rfc_data c full ++ rfc_data c part.
Proof.
  pose proof (cu _ _ _ HC) as Hu.
  exists (firstn (unit_size p * (length x / unit_size p)) x), (skipn (unit_size p * (length x / unit_size p)) x), (length x / unit_size p).
  assert (unit_size p * (length x / unit_size p) <= length x) by (apply Nat.mul_div_le; lia).
  assert (M : length x mod unit_size p = length x - unit_size p * (length x / unit_size p)) by (apply Nat.mod_eq; lia).
  assert (length x mod unit_size p < unit_size p) by (apply Nat.mod_upper_bound; lia).
  assert (LF : length (firstn (unit_size p * (length x / unit_size p)) x) = length x / unit_size p * unit_size p) by (rewrite firstn_length; lia).
  repeat split; auto.
  - symmetry; apply firstn_skipn.
  - rewrite skipn_length. lia.
  - rewrite skipn_length. lia.
  - unfold lib_text at 1. rewrite (co _ _ _ HC). f_equal.
    set (part := skipn (unit_size p * (length x / unit_size p)) x).
    assert (length part < unit_size p) by (unfold part; rewrite skipn_length; lia).
    destruct part as [|b part0] eqn:Ep; [rewrite lib_text_nil; reflexivity|]. rewrite <- Ep in *.
    assert (0 < length part) by (rewrite Ep; cbn; lia).
    rewrite lib_text_part by lia. rewrite blank_trailing_blank, rfc_padding_part by lia. reflexivity.
  - rewrite <- (rfc_data_app _ _ (length x / unit_size p)) by assumption. rewrite firstn_skipn. reflexivity.
Qed.

Lemma symbols_distinct_pad : unit_size p <> 1 -> ~ In pad_symbol (symbols c).
Proof. intros H. destruct (cA _ _ _ HC) as (pd & _ & [K|[_ K]]); [lia|assumption]. Qed.

Lemma zero_symbol_in : In (zero_symbol c) (symbols c).
Proof.
  unfold zero_symbol. apply nth_In. rewrite (cS _ _ _ HC). apply Nat.neq_0_lt_0, Nat.pow_nonzero. lia.
Qed.

Lemma conform_iff x : lib_text c x = rfc_encode c x <->
  (length x mod unit_size p = 0 \/ last (rfc_data c x) 0%N <> zero_symbol c).
Proof.
  pose proof (cu _ _ _ HC) as Hu.
  destruct (split_full x) as (F & P & k & Ex & LF & LP & LM & TX & DX).
  rewrite TX, <- LM. unfold rfc_encode. rewrite DX. unfold rfc_padding. rewrite DX, app_length.
  rewrite (rfc_data_length_full F k) by assumption. rewrite (cq _ _ _ HC).
  rewrite Nat.add_comm, Nat.mod_add by (pose proof chunk_pos; lia).
  rewrite <- (cq _ _ _ HC). fold (rfc_padding c P).
  destruct P as [|b P'] eqn:EP.
  - rewrite lib_text_nil. cbn [length]. split; [auto|]. intros _. rewrite <- !app_assoc. f_equal.
    unfold rfc_padding. change (length (rfc_data c [])) with 0. rewrite (cq _ _ _ HC). pose proof chunk_pos. rewrite Nat.mod_0_l, Nat.sub_0_r, Nat.mod_same by lia. reflexivity.
  - rewrite <- EP in *. assert (0 < length P < unit_size p) by (subst P; cbn in *; lia).
    rewrite lib_text_part, rfc_padding_part by assumption.
    assert (DP : rfc_data c P <> []).
    { intros E. apply (f_equal (@length N)) in E. rewrite rfc_data_length in E. cbn [length] in E.
      apply Nat.div_small_iff in E; unfold w in *; lia. }
    assert (LL : last (rfc_data c F ++ rfc_data c P) 0%N = last (rfc_data c P) 0%N).
    { destruct (exists_last DP) as (l & z & ->). rewrite app_assoc, !last_last. reflexivity. }
    rewrite LL. rewrite <- (blank_same (zero_symbol c) pad_symbol _ 0%N); auto.
    + rewrite <- app_assoc. split.
      * intros E. right. apply app_inv_head in E. apply app_inv_tail in E. exact E.
      * intros [E|E]; [lia|]. rewrite E. reflexivity.
    + intros E. apply symbols_distinct_pad; [lia|]. rewrite E. apply zero_symbol_in.
Qed.

Lemma lib_text_alphabet x : Forall (fun ch => In ch (symbols c) \/ ch = pad_symbol) (lib_text c x).
Proof.
  assert (D : forall y, Forall (fun ch => In ch (symbols c)) (rfc_data c y)).
  { intros y. rewrite rfc_data_vals. apply Forall_map. pose proof (vals_lt (width c) y) as V.
    rewrite (cw _ _ _ HC) in *. eapply Forall_impl; [|apply V; exact Hw]. intros v Hv. cbn in Hv.
    apply nth_In. rewrite (cS _ _ _ HC).
    assert (N.of_nat (2 ^ bit_size p) = 2 ^ N.of_nat (bit_size p))%N by (rewrite Nat2N.inj_pow; reflexivity). lia. }
  destruct (split_full x) as (F & P & k & Ex & LF & LP & LM & TX & DX). rewrite TX.
  apply Forall_app. split; [eapply Forall_impl; [|apply D]; cbn; auto|].
  destruct P as [|b P'] eqn:EP; [rewrite lib_text_nil; constructor|]. rewrite <- EP in *.
  rewrite lib_text_part by (subst P; cbn in *; lia). apply Forall_app. split.
  - unfold blank. apply Forall_rev. apply pad_rev_forall. apply Forall_rev. auto.
  - apply Forall_forall. intros ch Hch. apply repeat_spec in Hch. auto.
Qed.
End Enc.

(** ** instances *)
Fixpoint nodupb (l : list N) : bool :=
  match l with [] => true | a :: r => negb (existsb (N.eqb a) r) && nodupb r end.
Lemma NoDup_dec_true (l : list N) : nodupb l = true -> NoDup l.
Proof.
  induction l as [|a r IH]; [constructor|]. cbn. intros H. apply andb_true_iff in H as [H1 H2]. constructor; auto.
  intros Hin. apply negb_true_iff in H1. rewrite <- not_true_iff_false in H1. apply H1, existsb_exists.
  exists a. split; [assumption|apply N.eqb_refl].
Qed.

Ltac cons_all :=
  repeat match goal with
  | H : S _ = length ?l |- _ => destruct l; [discriminate H|]; cbn [length] in H; apply Nat.succ_inj in H
  | H : length ?l = S _ |- _ => destruct l; [discriminate H|]; cbn [length] in H; apply Nat.succ_inj in H
  | H : length ?l = 0 |- _ => destruct l; [clear H|discriminate H]
  | H : S _ <= length ?l |- _ => destruct l; [cbn in H; lia|]; cbn [length] in H; apply le_S_n in H
  | H : Forall _ (_ :: _) |- _ => inversion H; clear H; subst
  end.

Lemma compat64_gen A c :
  width c = 6 -> quantum c = 4 -> octets c = 3 -> A = symbols c ++ [pad_symbol] -> length (symbols c) = 64 ->
  nodupb (symbols c) = true -> ~ In pad_symbol (symbols c) ->
  compat base64_params A c.
Proof.
  intros. constructor; cbn [bit_size unit_size chunk_count alphabet_size base64_params]; auto; try lia.
  - eauto.
  - apply NoDup_dec_true; assumption.
  - unfold bytes_ok, is_byte. intros unit after scr Hu Hb Ha Hs. cbn [plus] in Hs. cons_all. apply transform_b64; assumption.
Qed.
Lemma compat32_gen A c :
  width c = 5 -> quantum c = 8 -> octets c = 5 -> A = symbols c ++ [pad_symbol] -> length (symbols c) = 32 ->
  nodupb (symbols c) = true -> ~ In pad_symbol (symbols c) ->
  compat base32_params A c.
Proof.
  intros. constructor; cbn [bit_size unit_size chunk_count alphabet_size base32_params]; auto; try lia.
  - eauto.
  - apply NoDup_dec_true; assumption.
  - unfold bytes_ok, is_byte. intros unit after scr Hu Hb Ha Hs. cbn [plus] in Hs. cons_all. apply transform_b32; assumption.
Qed.
Ltac notin := vm_compute; let H := fresh in intros H; repeat (destruct H as [H|H]; [discriminate H|]); exact H.

Lemma compat64 : compat base64_params BASE64_ALPHABET Base64.
Proof. apply compat64_gen; try reflexivity. notin. Qed.
Lemma compat64url : compat base64_params BASE64_ALPHABET_FS Base64url.
Proof. apply compat64_gen; try reflexivity. notin. Qed.
Lemma compat32 : compat base32_params BASE32_ALPHABET Base32.
Proof. apply compat32_gen; try reflexivity. notin. Qed.
Lemma compat32hex : compat base32_params BASE32_ALPHABET_EXTHEX Base32hex.
Proof. apply compat32_gen; try reflexivity. notin. Qed.
Lemma compat16 : compat base16_params BASE16_ALPHABET Base16.
Proof.
  constructor; cbn [bit_size unit_size chunk_count alphabet_size base16_params]; auto; try lia; try reflexivity.
  - exists 48%N. auto.
  - apply NoDup_dec_true; reflexivity.
  - unfold bytes_ok, is_byte. intros unit after scr Hu Hb Ha Hs. cbn [plus] in Hs. cons_all. apply transform_b16; assumption.
Qed.

(** ** without slack around the scratch array: UB *)
Lemma transform_no_slack p A c x (HC : compat p A c) (Hp : p = base16_params \/ p = base32_params \/ p = base64_params) after scr :
  length x = unit_size p -> bytes_ok x -> length scr = chunk_count p ->
  transform (x ++ after) (unit_size p) (bit_size p) scr = UB OutOfBounds.
Proof.
  intros Hx Hb Hs. destruct Hp as [->|[->| ->]];
    cbn [bit_size unit_size chunk_count base16_params base32_params base64_params] in *;
    cons_all; destruct after; sym; reflexivity.
Qed.
Lemma transform_no_after p A c x (HC : compat p A c) (Hp : p = base16_params \/ p = base32_params \/ p = base64_params) scr :
  length x = unit_size p -> bytes_ok x -> chunk_count p <= length scr ->
  transform x (unit_size p) (bit_size p) scr = UB OutOfBounds.
Proof.
  intros Hx Hb Hs. destruct Hp as [->|[->| ->]];
    cbn [bit_size unit_size chunk_count base16_params base32_params base64_params] in *;
    cons_all; sym; reflexivity.
Qed.

(** ** decoding *)
Definition dig (p : base_params) (func : N -> N) (ch : N) : option N :=
  if is_unknown (func ch) then None else Some (N.land (func ch) (mkmask (bit_size p))).

Fixpoint take_digits (n : nat) (l : list (option N)) : list N * list (option N) :=
  match n, l with
  | O, _ => ([], l)
  | _, [] => ([], [])
  | S m, None :: r => take_digits n r
  | S m, Some d :: r => let '(g, rest) := take_digits m r in (d :: g, rest)
  end.

Definition digits_value (w : nat) (ds : list N) : N := fold_left (fun a d => (a * 2 ^ N.of_nat w + d)%N) ds 0%N.

Fixpoint dec_units (p : base_params) (fuel : nat) (l : list (option N)) : list (list N) :=
  match l, fuel with
  | [], _ => []
  | _, O => []
  | _, S fuel =>
      let '(g, rest) := take_digits (chunk_count p) l in
      unit_bytes p (digits_value (bit_size p) (g ++ repeat 0%N (chunk_count p - length g))) :: dec_units p fuel rest
  end.

Lemma take_digits_length n l : forall g rest, take_digits n l = (g, rest) ->
  length g <= n /\ length rest + length g <= length l /\ (length g < n -> rest = []) /\
  (0 < n -> l <> [] -> length rest < length l).
Proof.
  revert n. induction l as [|o l IH]; intros n g rest H.
  - destruct n; cbn in H; injection H as <- <-; cbn; repeat split; auto; try lia; congruence.
  - destruct n as [|n]; [cbn in H; injection H as <- <-; cbn; repeat split; auto; lia|].
    destruct o as [d|].
    + cbn in H. destruct (take_digits n l) as [g' rest'] eqn:E. injection H as <- <-.
      destruct (IH _ _ _ E) as (I1 & I2 & I3 & I4). cbn [length].
      repeat split; try lia. intros. apply I3. lia.
    + change (take_digits (S n) l = (g, rest)) in H. destruct (IH _ _ _ H) as (I1 & I2 & I3 & I4). cbn [length].
      repeat split; try lia. assumption.
Qed.

Lemma mkmask_ones_gen n : n <= 8 -> mkmask n = N.ones (N.of_nat n).
Proof. intros H. do 9 (destruct n as [|n]; [reflexivity|]). lia. Qed.

Section Dec.
Variables (p : base_params) (func : N -> N).
Let w := bit_size p.
Let W := N.of_nat w.

Definition push_digit (u d : N) : N := u64 (N.lor (N.shiftl u (N.of_nat (bit_size p))) d).

Lemma decode_chunk_spec cs : forall i u g l, i <= chunk_count p ->
  take_digits (chunk_count p - i) (map (dig p func) cs) = (g, l) ->
  exists rest, l = map (dig p func) rest /\ length rest <= length cs /\
    decode_chunk p func cs i u = (rest, i + length g, fold_left push_digit g u).
Proof.
  induction cs as [|ch r IH]; intros i u g l Hi H.
  - cbn in H. assert (g = [] /\ l = []) as [-> ->] by (destruct (chunk_count p - i); injection H; auto).
    exists []. cbn. rewrite Nat.add_0_r. auto.
  - cbn [decode_chunk]. destruct (Nat.ltb_spec i (chunk_count p)) as [Hlt|Hge].
    + destruct (chunk_count p - i) as [|m] eqn:Em; [lia|].
      cbn [map take_digits] in H. unfold dig at 1 in H. destruct (is_unknown (func ch)) eqn:E.
      * change (take_digits (S m) (map (dig p func) r) = (g, l)) in H. rewrite <- Em in H.
        destruct (IH i u g l Hi H) as (rest & R1 & R2 & R3). exists rest. cbn [length]. auto.
      * destruct (take_digits m (map (dig p func) r)) as [g' l'] eqn:T. injection H as <- <-.
        replace m with (chunk_count p - S i) in T by lia.
        destruct (IH (S i) (push_digit u (N.land (func ch) (mkmask (bit_size p)))) g' l' ltac:(lia) T) as (rest & R1 & R2 & R3).
        exists rest. split; [assumption|]. cbn [length]. split; [lia|].
        etransitivity; [exact R3|]. cbn [length fold_left]. f_equal. f_equal. lia.
    + replace (chunk_count p - i) with 0 in H by lia. cbn in H. injection H as <- <-.
      exists (ch :: r). cbn. rewrite Nat.add_0_r. auto.
Qed.

Hypothesis Hw64 : 8 * unit_size p <= 64.
Hypothesis Hcc : chunk_count p * w = 8 * unit_size p.
Hypothesis Hw0 : 0 < w.
Hypothesis Hw8 : w <= 8.
Hypothesis Hu0 : 0 < unit_size p.

Lemma chunk_pos' : 0 < chunk_count p.
Proof. nia. Qed.

Lemma mkmask_ones : mkmask w = N.ones W.
Proof. apply mkmask_ones_gen. exact Hw8. Qed.

Lemma dig_lt ch d : dig p func ch = Some d -> (d < 2 ^ W)%N.
Proof.
  unfold dig. destruct (is_unknown _); [discriminate|]. intros [= <-]. fold w. rewrite mkmask_ones, N.land_ones.
  apply N.mod_lt. apply N.pow_nonzero. lia.
Qed.

Lemma take_digits_lt n l g rest : Forall (fun o => match o with Some d => (d < 2 ^ W)%N | None => True end) l ->
  take_digits n l = (g, rest) -> Forall (fun d => (d < 2 ^ W)%N) g /\
  Forall (fun o => match o with Some d => (d < 2 ^ W)%N | None => True end) rest.
Proof.
  intros Hl. revert n g rest. induction Hl as [|o l Ho Hl IH]; intros n g rest H.
  - destruct n; injection H as <- <-; split; constructor.
  - destruct n as [|n]; [injection H as <- <-; split; constructor; auto|].
    destruct o as [d|].
    + cbn in H. destruct (take_digits n l) as [g' rest'] eqn:E. injection H as <- <-.
      destruct (IH _ _ _ E). split; [constructor|]; auto.
    + apply (IH _ _ _ H).
Qed.

Lemma lor_shift u d : (d < 2 ^ W)%N -> N.lor (N.shiftl u W) d = (u * 2 ^ W + d)%N.
Proof.
  intros Hd. rewrite <- N.shiftl_mul_pow2.
  rewrite N.add_nocarry_lxor, N.lxor_lor; try reflexivity;
  apply N.bits_inj; intros i; rewrite N.land_spec, N.bits_0.
  all: destruct (N.lt_ge_cases i W) as [Hi|Hi];
    [rewrite N.shiftl_spec_low by assumption; reflexivity|].
  all: rewrite (N.bits_above_log2 d i); [apply andb_false_r|].
  all: destruct (N.eq_0_gt_0_cases d) as [->|Hd0]; [cbn; unfold W in *; lia|].
  all: apply N.lt_le_trans with W; [apply N.log2_lt_pow2; assumption|assumption].
Qed.

Lemma mod_mul_mod a b c : (b <> 0 -> c <> 0 -> (a mod (b * c)) mod b = a mod b)%N.
Proof.
  intros Hb Hc. rewrite N.mod_mul_r by assumption.
  rewrite N.mul_comm, N.mod_add, N.mod_mod by assumption. reflexivity.
Qed.

Lemma fold_push g : forall u, Forall (fun d => (d < 2 ^ W)%N) g -> length g <= chunk_count p ->
  (fold_left push_digit g u mod 2 ^ (W * N.of_nat (length g)) = digits_value w g mod 2 ^ (W * N.of_nat (length g)))%N.
Proof.
  induction g as [|d g IH] using rev_ind; intros u Hf Hl.
  - cbn [length]. rewrite N.mul_0_r, N.pow_0_r, !N.mod_1_r. reflexivity.
  - apply Forall_app in Hf as [Hf Hd]. inversion Hd; subst. rewrite app_length in *. cbn [length] in *.
    unfold digits_value. rewrite !fold_left_app. cbn [fold_left]. unfold push_digit at 1. fold w. fold W.
    rewrite lor_shift by assumption. fold (digits_value w g).
    set (q := fold_left push_digit g u) in *.
    assert (E64 : (2 ^ 64 = 2 ^ (W * N.of_nat (length g + 1)) * 2 ^ (64 - W * N.of_nat (length g + 1)))%N).
    { rewrite <- N.pow_add_r. f_equal. unfold W. nia. }
    unfold u64. rewrite E64, mod_mul_mod by (apply N.pow_nonzero; lia).
    specialize (IH u Hf ltac:(lia)). fold q in IH.
    replace (W * N.of_nat (length g + 1))%N with (W * N.of_nat (length g) + W)%N by lia.
    rewrite N.pow_add_r.
    set (B := (2 ^ (W * N.of_nat (length g)))%N) in *.
    assert (HB : B <> 0%N) by (apply N.pow_nonzero; lia).
    assert (HK : (2 ^ W)%N <> 0%N) by (apply N.pow_nonzero; lia).
    rewrite <- (N.add_mod_idemp_l (q * 2 ^ W)) by (apply N.neq_mul_0; auto).
    rewrite <- (N.add_mod_idemp_l (digits_value w g * 2 ^ W)) by (apply N.neq_mul_0; auto).
    rewrite !N.mul_mod_distr_r by assumption. rewrite IH. reflexivity.
Qed.

Lemma digits_value_app a b : digits_value w (a ++ b) = (digits_value w a * 2 ^ (W * N.of_nat (length b)) + digits_value w b)%N.
Proof.
  unfold digits_value. rewrite fold_left_app. fold W.
  generalize (fold_left (fun a d => (a * 2 ^ W + d)%N) a 0%N) as x. clear a.
  induction b as [|y b IH] using rev_ind; intros x.
  - cbn [fold_left length]. rewrite N.mul_0_r, N.pow_0_r. lia.
  - rewrite !fold_left_app, app_length. cbn [fold_left length]. rewrite IH.
    replace (W * N.of_nat (length b + 1))%N with (W * N.of_nat (length b) + W)%N by lia. rewrite N.pow_add_r. lia.
Qed.
Lemma digits_value_zeros n : digits_value w (repeat 0%N n) = 0%N.
Proof.
  unfold digits_value. induction n as [|n IH]; [reflexivity|]. cbn [repeat fold_left]. rewrite N.mul_0_l. exact IH.
Qed.
Lemma digits_value_lt g : Forall (fun d => (d < 2 ^ W)%N) g -> (digits_value w g < 2 ^ (W * N.of_nat (length g)))%N.
Proof.
  induction g as [|d g IH] using rev_ind; intros Hf; [cbn; lia|].
  apply Forall_app in Hf as [Hf Hd]. inversion Hd; subst.
  rewrite digits_value_app, app_length. cbn [length]. rewrite N.mul_1_r.
  replace (W * N.of_nat (length g + 1))%N with (W * N.of_nat (length g) + W)%N by lia. rewrite N.pow_add_r.
  change (digits_value w [d]) with (0 * 2 ^ W + d)%N. specialize (IH Hf). nia.
Qed.

Lemma unit_bytes_mod u : unit_bytes p u = unit_bytes p (u mod 2 ^ (8 * N.of_nat (unit_size p)))%N.
Proof.
  unfold unit_bytes. apply map_ext_in. intros j Hj. apply in_seq in Hj.
  apply N.bits_inj. intros i. rewrite !N.land_spec, !N.shiftr_spec by lia.
  change 255%N with (N.ones 8). rewrite N.ones_spec_iff || idtac.
  destruct (N.lt_ge_cases i 8) as [Hi|Hi].
  - rewrite N.mod_pow2_bits_low; [reflexivity|]. lia.
  - rewrite (N.ones_spec_high 8 i Hi), !andb_false_r. reflexivity.
Qed.

(** the value of a padded chunk is what the unit's bytes are taken from *)
Lemma chunk_unit g u : Forall (fun d => (d < 2 ^ W)%N) g -> length g <= chunk_count p ->
  unit_bytes p (u64 (N.shiftl (fold_left push_digit g u) (N.of_nat (bit_size p * (chunk_count p - length g)))))
  = unit_bytes p (digits_value w (g ++ repeat 0%N (chunk_count p - length g))).
Proof.
  intros Hf Hl. rewrite unit_bytes_mod. rewrite (unit_bytes_mod (digits_value _ _)). f_equal.
  assert (EU : (8 * N.of_nat (unit_size p) = W * N.of_nat (length g) + W * N.of_nat (chunk_count p - length g))%N).
  { unfold W. nia. }
  assert (E64 : (2 ^ 64 = 2 ^ (8 * N.of_nat (unit_size p)) * 2 ^ (64 - 8 * N.of_nat (unit_size p)))%N).
  { rewrite <- N.pow_add_r. f_equal. lia. }
  unfold u64. rewrite E64, mod_mul_mod by (apply N.pow_nonzero; lia).
  rewrite N.shiftl_mul_pow2, digits_value_app, digits_value_zeros, repeat_length, N.add_0_r.
  replace (N.of_nat (bit_size p * (chunk_count p - length g))) with (W * N.of_nat (chunk_count p - length g))%N by (unfold W, w; lia).
  rewrite EU, N.pow_add_r. rewrite !N.mul_mod_distr_r by (apply N.pow_nonzero; lia).
  rewrite fold_push by assumption. reflexivity.
Qed.
Lemma chunk_unit_full g u : Forall (fun d => (d < 2 ^ W)%N) g -> length g = chunk_count p ->
  unit_bytes p (fold_left push_digit g u) = unit_bytes p (digits_value w (g ++ repeat 0%N (chunk_count p - length g))).
Proof.
  intros Hf Hl. rewrite <- (chunk_unit g u) by (auto; lia). rewrite Hl, Nat.sub_diag, Nat.mul_0_r.
  change (N.of_nat 0) with 0%N. rewrite N.shiftl_0_r. rewrite unit_bytes_mod. rewrite (unit_bytes_mod (u64 _)). f_equal.
  assert (E64 : (2 ^ 64 = 2 ^ (8 * N.of_nat (unit_size p)) * 2 ^ (64 - 8 * N.of_nat (unit_size p)))%N).
  { rewrite <- N.pow_add_r. f_equal. lia. }
  unfold u64. rewrite E64, mod_mul_mod by (apply N.pow_nonzero; lia). reflexivity.
Qed.

Lemma unit_bytes_length u : length (unit_bytes p u) = unit_size p.
Proof. unfold unit_bytes. rewrite map_length, seq_length. reflexivity. Qed.

Lemma map_dig_lt cs : Forall (fun o => match o with Some d => (d < 2 ^ W)%N | None => True end) (map (dig p func) cs).
Proof.
  apply Forall_map, Forall_forall. intros ch _. destruct (dig p func ch) eqn:E; [|exact I]. eapply dig_lt; eauto.
Qed.

Lemma dec_units_length l : forall fuel, length l <= fuel -> 
  length (dec_units p fuel l) <= (length l + chunk_count p - 1) / chunk_count p.
Proof.
  pose proof chunk_pos' as Hc.
  intros fuel. revert l. induction fuel as [|fuel IH]; intros l Hl.
  - destruct l; [cbn; lia|cbn in Hl; lia].
  - destruct l as [|o l]; [cbn; lia|]. cbn [dec_units].
    destruct (take_digits (chunk_count p) (o :: l)) as [g rest] eqn:T.
    destruct (take_digits_length _ _ _ _ T) as (T1 & T2 & T3 & T4). specialize (T4 Hc ltac:(discriminate)).
    cbn [length] in *. specialize (IH rest ltac:(lia)).
    destruct (Nat.eq_dec (length g) (chunk_count p)) as [E|E].
    + transitivity (S ((length rest + chunk_count p - 1) / chunk_count p)); [lia|].
      replace (S ((length rest + chunk_count p - 1) / chunk_count p)) with ((length rest + chunk_count p - 1 + 1 * chunk_count p) / chunk_count p)
        by (rewrite Nat.div_add by lia; lia).
      apply Nat.div_le_mono; lia.
    + rewrite T3 by lia. destruct fuel; cbn [dec_units length].
      all: apply Nat.div_le_lower_bound; lia.
Qed.

Lemma decode_loop_spec : forall fuel cs u op last pre mid post,
  length cs <= fuel -> op = length pre ->
  let us := dec_units p fuel (map (dig p func) cs) in
  length mid = length us * unit_size p ->
  decode_loop fuel p func cs u op last (pre ++ mid ++ post) =
  Ret (op + length mid, match us with [] => last | _ => Some (List.last us []) end, pre ++ concat us ++ post).
Proof.
  pose proof chunk_pos' as Hc.
  induction fuel as [|fuel IH]; intros cs u op last pre mid post Hf Hop us Hm; subst us.
  - destruct cs; [|cbn in Hf; lia]. cbn in Hm. destruct mid; [|discriminate]. cbn. rewrite Nat.add_0_r. reflexivity.
  - destruct cs as [|ch cs].
    + cbn in Hm. destruct mid; [|discriminate]. cbn. rewrite Nat.add_0_r. reflexivity.
    + cbn [decode_loop]. cbn [map dec_units] in *.
      change (dig p func ch :: map (dig p func) cs) with (map (dig p func) (ch :: cs)) in *.
      destruct (take_digits (chunk_count p) (map (dig p func) (ch :: cs))) as [g l] eqn:T.
      pose proof (take_digits_length _ _ _ _ T) as (T1 & T2 & T3 & T4).
      specialize (T4 Hc ltac:(discriminate)).
      destruct (take_digits_lt _ _ _ _ (map_dig_lt (ch :: cs)) T) as [G1 _].
      pose proof T as T'. rewrite <- (Nat.sub_0_r (chunk_count p)) in T'.
      destruct (decode_chunk_spec (ch :: cs) 0 u g l ltac:(lia) T') as (rest & -> & R2 & ->).
      rewrite !map_length in *. cbn [plus]. cbv zeta.
      set (U := unit_bytes p (digits_value (bit_size p) (g ++ repeat 0%N (chunk_count p - length g)))) in *.
      set (u' := match rest with [] => if Nat.ltb (length g) (chunk_count p)
         then u64 (N.shiftl (fold_left push_digit g u) (N.of_nat (bit_size p * (chunk_count p - length g)))) else fold_left push_digit g u
         | _ => fold_left push_digit g u end).
      assert (HU : unit_bytes p u' = U).
      { unfold u', U. destruct (Nat.ltb_spec (length g) (chunk_count p)) as [Hlt|Hge].
        - specialize (T3 Hlt). destruct rest; [|discriminate]. apply chunk_unit; auto.
        - destruct rest; apply chunk_unit_full; auto; lia. }
      rewrite HU. cbn [length] in Hm.
      rewrite <- (firstn_skipn (unit_size p) mid), <- app_assoc.
      assert (LU : length U = unit_size p) by apply unit_bytes_length.
      rewrite blit_app by (rewrite ?firstn_length; lia). cbn [bind].
      rewrite app_assoc.
      rewrite IH; [| cbn [length] in *; lia | rewrite app_length; lia | rewrite skipn_length; lia].
      rewrite app_length, firstn_length, skipn_length.
      f_equal. f_equal; [f_equal; [lia|]|].
      * destruct (dec_units p fuel (map (dig p func) rest)); reflexivity.
      * cbn [concat]. rewrite <- !app_assoc. reflexivity.
Qed.

Lemma concat_length_units fuel l : length (concat (dec_units p fuel l)) = length (dec_units p fuel l) * unit_size p.
Proof.
  revert l. induction fuel as [|fuel IH]; intros [|o l]; try reflexivity.
  cbn [dec_units]. destruct (take_digits _ _). cbn [concat length]. rewrite app_length, IH, unit_bytes_length. reflexivity.
Qed.

Lemma scan_unit_upto l : scan_unit l l = length (upto_nul l).
Proof. induction l as [|a l IH]; [reflexivity|]. cbn. rewrite N.eqb_refl. destruct (a =? 0)%N; cbn; congruence. Qed.


Definition units_of (cs : list N) : list (list N) := dec_units p (length cs) (map (dig p func) cs).
(** the decoded bytes: all units, the last one cut at its first zero byte *)
Definition trimmed (us : list (list N)) : list N := concat (removelast us) ++ upto_nul (last us []).

Lemma dec_units_fuel l : forall f1 f2, length l <= f1 -> length l <= f2 -> dec_units p f1 l = dec_units p f2 l.
Proof.
  pose proof chunk_pos' as Hc.
  intros f1. revert l. induction f1 as [|f1 IH]; intros l f2 H1 H2.
  - destruct l; [|cbn in H1; lia]. destruct f2; reflexivity.
  - destruct l as [|o l]; [destruct f2; reflexivity|]. destruct f2 as [|f2]; [cbn in H2; lia|].
    cbn [dec_units]. destruct (take_digits (chunk_count p) (o :: l)) as [g rest] eqn:T.
    destruct (take_digits_length _ _ _ _ T) as (T1 & T2 & T3 & T4). specialize (T4 Hc ltac:(discriminate)).
    f_equal. apply IH; cbn [length] in *; lia.
Qed.

Lemma decode_spec cs out : cs <> [] ->
  length (units_of cs) * unit_size p <= length out -> length (trimmed (units_of cs)) < length out ->
  decode_base_generic p func cs out = Ret (length (trimmed (units_of cs)),
    trimmed (units_of cs) ++ 0%N ::
    skipn (length (trimmed (units_of cs)) + 1) (concat (units_of cs) ++ skipn (length (units_of cs) * unit_size p) out)).
Proof.
  intros Hcs Ho1 Ho2. set (us := units_of cs) in *.
  assert (Eus : dec_units p (S (length cs)) (map (dig p func) cs) = us).
  { unfold us, units_of. apply dec_units_fuel; rewrite map_length; lia. }
  assert (Hne : us <> []).
  { rewrite <- Eus. destruct cs as [|ch cs]; [congruence|]. cbn [map dec_units]. destruct (take_digits _ _). discriminate. }
  unfold decode_base_generic.
  rewrite <- (firstn_skipn (length us * unit_size p) out) at 1.
  pose proof (decode_loop_spec (S (length cs)) cs 0%N 0 None [] (firstn (length us * unit_size p) out) (skipn (length us * unit_size p) out)) as DL.
  cbv zeta in DL. rewrite Eus in DL. cbn [app] in DL.
  assert (LF : length (firstn (length us * unit_size p) out) = length us * unit_size p) by (rewrite firstn_length; lia).
  rewrite LF in DL.
  rewrite DL; auto. cbn [bind].
  replace (match us with [] => None | _ => Some (last us []) end) with (Some (last us [])) by (destruct us; [congruence|reflexivity]).
  assert (CL : length (concat us) = length us * unit_size p).
  { unfold us, units_of. apply concat_length_units. }
  destruct (exists_last Hne) as (us' & u1 & Eu). 
  assert (LL : last us [] = u1) by (rewrite Eu; apply last_last).
  assert (RL : removelast us = us') by (rewrite Eu; apply removelast_last).
  assert (CU : concat us = concat us' ++ u1) by (rewrite Eu, concat_app; cbn; rewrite app_nil_r; reflexivity).
  assert (LU1 : length u1 = unit_size p).
  { assert (In u1 us) by (rewrite Eu; apply in_app_iff; cbn; auto).
    assert (G : forall f l, Forall (fun u => length u = unit_size p) (dec_units p f l)).
    { induction f as [|f IH]; intros [|o l]; try constructor. cbn [dec_units]. destruct (take_digits _ _). constructor; [apply unit_bytes_length|apply IH]. }
    specialize (G (length cs) (map (dig p func) cs)). rewrite Forall_forall in G. apply G. assumption. }
  assert (LC' : length (concat us') = length us * unit_size p - unit_size p).
  { apply (f_equal (@length N)) in CU. rewrite app_length in CU. lia. }
  rewrite LL. cbn [plus]. rewrite <- LC'.
  set (post := skipn (length us * unit_size p) out) in *.
  replace (firstn (unit_size p) (skipn (length (concat us')) (concat us ++ post))) with u1.
  2:{ rewrite CU, <- app_assoc, skipn_app, skipn_all2, Nat.sub_diag by lia. cbn [app skipn].
      rewrite firstn_app, LU1, Nat.sub_diag, firstn_all2 by lia. cbn. rewrite app_nil_r. reflexivity. }
  rewrite scan_unit_upto.
  assert (TR : trimmed us = concat us' ++ upto_nul u1) by (unfold trimmed; rewrite LL, RL; reflexivity).
  rewrite <- app_length, <- TR.
  set (full := concat us ++ post).
  assert (Lfull : length full = length out).
  { unfold full, post. rewrite app_length, skipn_length. lia. }
  destruct (wr_props full (length (trimmed us)) 0%N ltac:(lia)) as (o' & W1 & W2 & W3 & W4).
  unfold wr in *. rewrite blit_ok in * by (cbn [length]; lia). injection W1 as W1. cbn [bind length].
  assert (FT : firstn (length (trimmed us)) full = trimmed us).
  { unfold full. rewrite TR, CU, <- app_assoc, app_length, firstn_app_2. f_equal.
    rewrite firstn_app, upto_nul_prefix. pose proof (upto_nul_le u1).
    replace (length (upto_nul u1) - length u1) with 0 by lia. apply app_nil_r. }
  rewrite FT. reflexivity.
Qed.

Lemma decode_empty out : decode_base_generic p func [] out = UB OutOfBounds.
Proof. reflexivity. Qed.
End Dec.

(** ** decode after encode *)
Lemma digits_value_groups w : 0 < w -> forall k n bs, length bs = k * w -> length bs <= n ->
  digits_value w (map bits_value (groups n w bs)) = bits_value bs.
Proof.
  intros Hw. induction k as [|k IH]; intros n bs Hk Hn.
  - destruct bs; [|cbn in Hk; lia]. rewrite groups_nil. reflexivity.
  - rewrite groups_step by (first [assumption | destruct bs; [cbn in Hk; lia|discriminate]]).
    replace (w - length bs) with 0 by lia. cbn [repeat]. rewrite app_nil_r. cbn [map].
    change (bits_value (firstn w bs) :: map bits_value (groups n w (skipn w bs)))
      with ([bits_value (firstn w bs)] ++ map bits_value (groups n w (skipn w bs))).
    unfold digits_value. rewrite fold_left_app. cbn [fold_left]. rewrite N.mul_0_l, N.add_0_l.
    rewrite <- (firstn_skipn w bs) at 3. rewrite bits_value_app.
    rewrite <- (IH n (skipn w bs)) by (rewrite ?skipn_length; lia).
    assert (L : length (map bits_value (groups n w (skipn w bs))) = k).
    { rewrite map_length, groups_length by (rewrite ?skipn_length; lia). rewrite skipn_length, Hk.
      replace (S k * w - w + w - 1) with (w - 1 + k * w) by lia. rewrite Nat.div_add, Nat.div_small by lia. reflexivity. }
    rewrite skipn_length, Hk. replace (S k * w - w) with (k * w) by lia.
    rewrite <- L. generalize (map bits_value (groups n w (skipn w bs))) as ds. clear.
    generalize (bits_value (firstn w bs)) as x. unfold digits_value.
    intros x ds. induction ds as [|d ds IH] using rev_ind.
    + cbn [fold_left length]. cbn. lia.
    + rewrite !fold_left_app, app_length. cbn [fold_left length]. rewrite IH.
      replace (N.of_nat ((length ds + 1) * w)) with (N.of_nat (length ds * w) + N.of_nat w)%N by lia.
      rewrite N.pow_add_r. lia.
Qed.

Lemma byte_bits_value b : (b < 256)%N -> bits_value (byte_bits b) = b.
Proof. intros H. apply N.eqb_eq. refine (sweep1 (fun b => bits_value (byte_bits b) =? b)%N b _ H). vm_compute. reflexivity. Qed.

Lemma bits_value_bytes u : bytes_ok u -> bits_value (flat_map byte_bits u) = SHex.be_value u.
Proof.
  intros H. induction u as [|b u IH] using rev_ind; [reflexivity|].
  apply Forall_app in H as [H1 H2]. inversion H2; subst.
  rewrite flat_map_app, bits_value_app. cbn [flat_map]. rewrite app_nil_r, byte_bits_value by assumption.
  rewrite byte_bits_length, IH by assumption. change (2 ^ N.of_nat 8)%N with 256%N.
  unfold SHex.be_value. rewrite fold_left_app. cbn [fold_left]. lia.
Qed.

Lemma be_bytes_back u : bytes_ok u ->
  map (fun j => N.land (N.shiftr (SHex.be_value u) (8 * N.of_nat (length u - j - 1))) 255) (seq 0 (length u)) = u.
Proof.
  intros H. induction u as [|b u IH] using rev_ind; [reflexivity|].
  apply Forall_app in H as [H1 H2]. inversion H2; subst. unfold is_byte in *.
  assert (E : SHex.be_value (u ++ [b]) = (256 * SHex.be_value u + b)%N) by (unfold SHex.be_value; rewrite fold_left_app; reflexivity).
  rewrite app_length, Nat.add_1_r, seq_S, map_app. cbn [map plus]. f_equal.
  - rewrite <- IH at 2 by assumption. apply map_ext_in. intros j Hj. apply in_seq in Hj. f_equal.
    rewrite E. replace (8 * N.of_nat (S (length u) - j - 1))%N with (8 + 8 * N.of_nat (length u - j - 1))%N by lia.
    rewrite <- N.shiftr_shiftr. f_equal. rewrite N.shiftr_div_pow2. change (2^8)%N with 256%N. lia.
  - f_equal. replace (S (length u) - length u - 1) with 0 by lia. rewrite E. cbn [N.of_nat]. rewrite N.mul_0_r, N.shiftr_0_r.
    change 255%N with (N.ones 8). rewrite N.land_ones. change (2^8)%N with 256%N. lia.
Qed.

(** [x] with everything from the first zero byte of its final quantum on removed *)
Definition cut_last (oct : nat) (x : list N) : list N :=
  let k := oct * ((length x - 1) / oct) in firstn k x ++ upto_nul (skipn k x).

Lemma upto_nul_zeros r m : upto_nul (r ++ repeat 0%N m) = upto_nul r.
Proof.
  induction r as [|a r IH]; cbn; [destruct m; reflexivity|]. destruct (a =? 0)%N; congruence.
Qed.

Lemma take_digits_somes a b : take_digits (length a) (map Some (a ++ b)) = (a, map Some b).
Proof. induction a as [|d a IH]; [destruct b; reflexivity|]. cbn. cbn in IH. rewrite IH. reflexivity. Qed.

Record codec (p : base_params) (A : list N) (c : rfc_coding) (func : N -> N) : Prop := {
  cd_compat : compat p A c;
  cd_sym : forall v, (v < 2 ^ N.of_nat (bit_size p))%N -> dig p func (sym_of c v) = Some v;
  cd_pad : unit_size p <> 1 -> dig p func pad_symbol = Some 0%N;
  cd_w8 : bit_size p <= 8; cd_64 : 8 * unit_size p <= 64 }.

Section DecEnc.
Variables (p : base_params) (A : list N) (c : rfc_coding) (func : N -> N).
Hypothesis HD : codec p A c func.
Let HC := cd_compat _ _ _ _ HD.

Definition zext (x : list N) : list N := x ++ repeat 0%N ((unit_size p - length x mod unit_size p) mod unit_size p).

Lemma dig_data x : map (dig p func) (rfc_data c x) = map Some (vals (bit_size p) x).
Proof.
  rewrite rfc_data_vals, map_map, (cw _ _ _ HC). apply map_ext_in. intros v Hv.
  apply (cd_sym _ _ _ _ HD). pose proof (vals_lt (bit_size p) x (cb _ _ _ HC)) as V. rewrite Forall_forall in V. auto.
Qed.

Lemma dig_blank s : unit_size p <> 1 -> map (dig p func) (blank (zero_symbol c) pad_symbol s) = map (dig p func) s.
Proof.
  intros H1. unfold blank. rewrite map_rev. rewrite <- (rev_involutive (map (dig p func) s)), <- (map_rev (dig p func) s).
  f_equal. induction (rev s) as [|ch r IH]; [reflexivity|]. cbn [pad_rev].
  destruct (N.eqb_spec ch (zero_symbol c)) as [->|]; [|reflexivity]. cbn [map]. rewrite IH. f_equal.
  rewrite (cd_pad _ _ _ _ HD) by assumption.
  pose proof (cd_sym _ _ _ _ HD 0%N) as Z. change (sym_of c 0) with (zero_symbol c) in Z. rewrite Z; [reflexivity|].
  apply N.neq_0_lt_0, N.pow_nonzero. lia.
Qed.

Lemma vals_zext_part r : 0 < length r < unit_size p ->
  vals (bit_size p) (r ++ repeat 0%N (unit_size p - length r)) =
  vals (bit_size p) r ++ repeat 0%N (chunk_count p - length (rfc_data c r)).
Proof.
  intros Hr. rewrite (vals_zext _ (chunk_count p)) by (try exact (cb _ _ _ HC); pose proof (cc _ _ _ HC); nia).
  rewrite (rfc_data_length _ _ _ HC). reflexivity.
Qed.

Lemma zext_part r : 0 < length r < unit_size p -> zext r = r ++ repeat 0%N (unit_size p - length r).
Proof. intros Hr. unfold zext. rewrite (Nat.mod_small (length r)) by lia. rewrite Nat.mod_small by lia. reflexivity. Qed.
Lemma zext_full F r k : length F = k * unit_size p -> zext (F ++ r) = F ++ zext r.
Proof.
  intros HF. pose proof (cu _ _ _ HC). unfold zext. rewrite app_length, HF, (Nat.add_comm (k * _)), Nat.mod_add by lia. rewrite <- app_assoc. reflexivity.
Qed.
Lemma zext_nil : zext [] = [].
Proof. pose proof (cu _ _ _ HC). unfold zext. cbn [length]. rewrite Nat.mod_0_l, Nat.sub_0_r, Nat.mod_same by lia. reflexivity. Qed.

Lemma vals_app_full F y k : length F = k * unit_size p -> vals (bit_size p) (F ++ y) = vals (bit_size p) F ++ vals (bit_size p) y.
Proof.
  intros Hk. unfold vals. rewrite <- map_app. f_equal. apply (bit_groups_app _ (k * chunk_count p)); [exact (cb _ _ _ HC)|].
  rewrite Hk. pose proof (cc _ _ _ HC). nia.
Qed.

Lemma dig_lib_text x : map (dig p func) (lib_text c x) = map Some (vals (bit_size p) (zext x)).
Proof.
  destruct (split_full _ _ _ HC x) as (F & P & k & Ex & LF & LP & LM & TX & DX).
  rewrite TX, map_app, dig_data, Ex, (zext_full F P k), (vals_app_full F _ k), map_app by assumption. f_equal.
  destruct P as [|b P'] eqn:EP.
  - rewrite (lib_text_nil _ _ _ HC), zext_nil. reflexivity.
  - rewrite <- EP in *. assert (Hr : 0 < length P < unit_size p) by (subst P; cbn [length] in *; lia).
    rewrite (lib_text_part _ _ _ HC) by assumption. rewrite zext_part, vals_zext_part by assumption.
    rewrite !map_app, dig_blank, dig_data by lia. f_equal. rewrite !map_repeat. f_equal. apply (cd_pad _ _ _ _ HD). lia.
Qed.

Lemma dig_rfc_text x : map (dig p func) (rfc_encode c x) = map Some (vals (bit_size p) (zext x)).
Proof.
  destruct (split_full _ _ _ HC x) as (F & P & k & Ex & LF & LP & LM & TX & DX).
  pose proof (chunk_pos _ _ _ HC) as Hcp.
  assert (PD : rfc_padding c x = rfc_padding c P).
  { unfold rfc_padding. rewrite DX, app_length, (rfc_data_length_full _ _ _ HC F k), (cq _ _ _ HC), Nat.add_comm, Nat.mod_add by (assumption || lia). reflexivity. }
  unfold rfc_encode. rewrite DX, PD, <- app_assoc, map_app, dig_data, Ex, (zext_full F P k), (vals_app_full F _ k), (map_app Some) by assumption. f_equal.
  destruct P as [|b P'] eqn:EP.
  - rewrite zext_nil. unfold rfc_padding. change (length (rfc_data c [])) with 0. rewrite (cq _ _ _ HC).
    rewrite Nat.mod_0_l, Nat.sub_0_r, Nat.mod_same by lia. reflexivity.
  - rewrite <- EP in *. assert (Hr : 0 < length P < unit_size p) by (subst P; cbn [length] in *; lia).
    rewrite (rfc_padding_part _ _ _ HC) by assumption. rewrite zext_part, vals_zext_part by assumption.
    rewrite !map_app, dig_data. f_equal. rewrite !map_repeat. f_equal. apply (cd_pad _ _ _ _ HD). lia.
Qed.

Lemma unit_back u : length u = unit_size p -> bytes_ok u ->
  unit_bytes p (digits_value (bit_size p) (vals (bit_size p) u)) = u.
Proof.
  intros Hu Hb. unfold vals, bit_groups.
  rewrite (digits_value_groups _ (cb _ _ _ HC) (chunk_count p)) by (rewrite ?flat_bits_length, ?Hu; pose proof (cc _ _ _ HC); lia).
  rewrite bits_value_bytes by assumption. unfold unit_bytes. rewrite <- Hu. apply be_bytes_back. assumption.
Qed.

Lemma dec_units_step u y fuel : length u = unit_size p -> bytes_ok u -> 0 < fuel ->
  dec_units p fuel (map Some (vals (bit_size p) (u ++ y))) = u :: dec_units p (fuel - 1) (map Some (vals (bit_size p) y)).
Proof.
  intros Hu Hb Hf. destruct fuel as [|fuel]; [lia|]. cbn [Nat.sub]. rewrite Nat.sub_0_r.
  rewrite (vals_app_full u y 1) by lia.
  assert (L : length (vals (bit_size p) u) = chunk_count p).
  { rewrite <- (map_length Some), <- dig_data, map_length, (rfc_data_length_full _ _ _ HC u 1); lia. }
  assert (Hne : vals (bit_size p) u <> []).
  { intros E. rewrite E in L. pose proof (chunk_pos _ _ _ HC). cbn in L. lia. }
  assert (E : dec_units p (S fuel) (map Some (vals (bit_size p) u ++ vals (bit_size p) y)) =
     let '(g, rest) := take_digits (chunk_count p) (map Some (vals (bit_size p) u ++ vals (bit_size p) y)) in
     unit_bytes p (digits_value (bit_size p) (g ++ repeat 0%N (chunk_count p - length g))) :: dec_units p fuel rest).
  { destruct (vals (bit_size p) u) as [|v0 vs]; [congruence|]. reflexivity. }
  rewrite E. rewrite <- L, take_digits_somes, Nat.sub_diag. cbn [repeat]. rewrite app_nil_r.
  rewrite unit_back by assumption. reflexivity.
Qed.

Lemma cut_last_step u r : length u = unit_size p -> r <> [] -> cut_last (unit_size p) (u ++ r) = u ++ cut_last (unit_size p) r.
Proof.
  intros Hu Hr. pose proof (cu _ _ _ HC). unfold cut_last. cbv zeta. rewrite app_length, Hu.
  assert (0 < length r) by (destruct r; [congruence|cbn; lia]).
  replace (unit_size p + length r - 1) with (length r - 1 + 1 * unit_size p) by lia. rewrite Nat.div_add by lia.
  replace (unit_size p * ((length r - 1) / unit_size p + 1)) with (length u + unit_size p * ((length r - 1) / unit_size p)) by lia.
  generalize (unit_size p * ((length r - 1) / unit_size p)) as m. intros m.
  rewrite firstn_app_2, skipn_app, (skipn_all2 u) by lia. replace (length u + m - length u) with m by lia. cbn [app].
  rewrite app_assoc. reflexivity.
Qed.

Lemma zext_bytes x : bytes_ok x -> bytes_ok (zext x).
Proof. intros H. apply Forall_app. split; [assumption|]. apply Forall_forall. intros y Hy. apply repeat_spec in Hy. subst. reflexivity. Qed.

Lemma trimmed_cut : forall n x fuel, length x = n -> x <> [] -> bytes_ok x ->
  (length x + unit_size p - 1) / unit_size p <= fuel ->
  trimmed (dec_units p fuel (map Some (vals (bit_size p) (zext x)))) = cut_last (unit_size p) x /\
  length (dec_units p fuel (map Some (vals (bit_size p) (zext x)))) = (length x + unit_size p - 1) / unit_size p.
Proof.
  pose proof (cu _ _ _ HC) as Hu.
  induction n as [n IH] using lt_wf_ind. intros x fuel Hn Hx Hb Hf.
  assert (H0 : 0 < length x) by (destruct x; [congruence|cbn; lia]).
  assert (Hf0 : 0 < fuel). { assert (1 <= (length x + unit_size p - 1) / unit_size p) by (apply Nat.div_le_lower_bound; lia). lia. }
  destruct (Nat.le_gt_cases (length x) (unit_size p)) as [Hle|Hgt].
  - (* a single unit *)
    assert (E1 : (length x + unit_size p - 1) / unit_size p = 1).
    { replace (length x + unit_size p - 1) with (length x - 1 + 1 * unit_size p) by lia. rewrite Nat.div_add, Nat.div_small by lia. reflexivity. }
    assert (LZ : length (zext x) = unit_size p).
    { unfold zext. rewrite app_length, repeat_length. destruct (Nat.eq_dec (length x) (unit_size p)) as [E|E].
      - rewrite E, Nat.mod_same, Nat.sub_0_r, Nat.mod_same by lia. lia.
      - rewrite (Nat.mod_small (length x)) by lia. rewrite Nat.mod_small by lia. lia. }
    rewrite <- (app_nil_r (zext x)). rewrite dec_units_step by (auto using zext_bytes).
    change (map Some (vals (bit_size p) [])) with (@nil (option N)).
    assert (EN : dec_units p (fuel - 1) [] = []) by (destruct (fuel - 1); reflexivity). rewrite EN.
    split; [|rewrite E1; reflexivity].
    unfold trimmed, cut_last. cbn [removelast concat last app]. rewrite Nat.div_small, Nat.mul_0_r by lia. cbn [firstn skipn app].
    unfold zext. apply upto_nul_zeros.
  - assert (Ex : x = firstn (unit_size p) x ++ skipn (unit_size p) x) by (symmetry; apply firstn_skipn).
    set (u := firstn (unit_size p) x) in *. set (r := skipn (unit_size p) x) in *.
    assert (Lu : length u = unit_size p) by (unfold u; rewrite firstn_length; lia).
    assert (Lr : length r = length x - unit_size p) by (unfold r; rewrite skipn_length; lia).
    assert (Bs : bytes_ok u /\ bytes_ok r) by (apply Forall_app; rewrite <- Ex; assumption).
    assert (Hr : r <> []) by (intros E; rewrite E in Lr; cbn in Lr; lia).
    assert (Ed : (length x + unit_size p - 1) / unit_size p = S ((length r + unit_size p - 1) / unit_size p)).
    { rewrite Lr. replace (length x + unit_size p - 1) with (length x - unit_size p + unit_size p - 1 + 1 * unit_size p) by lia.
      rewrite Nat.div_add by lia. lia. }
    rewrite Ed in Hf |- *.
    rewrite Ex, (zext_full u r 1) by lia. rewrite dec_units_step by tauto.
    rewrite cut_last_step by assumption.
    destruct (IH (length r) ltac:(lia) r (fuel - 1) eq_refl Hr (proj2 Bs) ltac:(lia)) as [I1 I2].
    set (us := dec_units p (fuel - 1) (map Some (vals (bit_size p) (zext r)))) in *.
    split; [|cbn [length]; rewrite I2; reflexivity].
    rewrite <- I1. unfold trimmed.
    assert (us <> []).
    { intros E. rewrite E in I2. cbn [length] in I2.
      assert (0 < length r) by (destruct r; [congruence|cbn; lia]).
      assert (1 <= (length r + unit_size p - 1) / unit_size p) by (apply Nat.div_le_lower_bound; lia). lia. }
    destruct us as [|u2 us2]; [congruence|]. change (removelast (u :: u2 :: us2)) with (u :: removelast (u2 :: us2)).
    change (last (u :: u2 :: us2) []) with (last (u2 :: us2) []). cbn [concat]. rewrite <- app_assoc. reflexivity.
Qed.

Lemma decode_text t x out : map (dig p func) t = map Some (vals (bit_size p) (zext x)) -> x <> [] -> bytes_ok x ->
  unit_size p * ((length x + unit_size p - 1) / unit_size p) + 1 <= length out ->
  exists tl, decode_base_generic p func t out = Ret (length (cut_last (unit_size p) x), cut_last (unit_size p) x ++ 0%N :: tl).
Proof.
  intros Ht Hx Hb Ho. pose proof (cu _ _ _ HC) as Hu. pose proof (cc _ _ _ HC) as Hcc. pose proof (cb _ _ _ HC) as Hw0.
  pose proof (chunk_pos _ _ _ HC) as Hcp.
  assert (H0 : 0 < length x) by (destruct x; [congruence|cbn; lia]).
  assert (Lz : exists k, length (zext x) = k * unit_size p /\ k = (length x + unit_size p - 1) / unit_size p).
  { exists ((length x + unit_size p - 1) / unit_size p). split; [|reflexivity]. unfold zext. rewrite app_length, repeat_length.
    rewrite (Nat.div_mod_eq (length x) (unit_size p)) at 1 3.
    set (q := length x / unit_size p). assert (Hr := Nat.mod_upper_bound (length x) (unit_size p) ltac:(lia)).
    set (r := length x mod unit_size p) in *.
    destruct (Nat.eq_dec r 0) as [->|].
    - rewrite Nat.sub_0_r, Nat.mod_same, !Nat.add_0_r by lia.
      replace (unit_size p * q + unit_size p - 1) with (unit_size p - 1 + q * unit_size p) by lia.
      rewrite Nat.div_add, Nat.div_small by lia. lia.
    - rewrite (Nat.mod_small (unit_size p - r)) by lia.
      replace (unit_size p * q + r + unit_size p - 1) with (r - 1 + (q + 1) * unit_size p) by lia.
      rewrite Nat.div_add, (Nat.div_small (r - 1)) by lia. lia. }
  destruct Lz as (k & Lz & Ek).
  assert (Lt : length t = k * chunk_count p).
  { rewrite <- (map_length (dig p func)), Ht, map_length, vals_length, Lz by assumption.
    replace (8 * (k * unit_size p) + bit_size p - 1) with (bit_size p - 1 + k * chunk_count p * bit_size p) by nia.
    rewrite Nat.div_add, Nat.div_small by lia. lia. }
  assert (1 <= k) by (rewrite Ek; apply Nat.div_le_lower_bound; lia).
  destruct (trimmed_cut (length x) x (length t) eq_refl Hx Hb) as [T1 T2]. { rewrite <- Ek. nia. }
  assert (EU : units_of p func t = dec_units p (length t) (map Some (vals (bit_size p) (zext x)))) by (unfold units_of; rewrite Ht; reflexivity).
  rewrite (decode_spec p func) ; try exact (cd_64 _ _ _ _ HD); try exact (cd_w8 _ _ _ _ HD); auto.
  - rewrite EU, T1. eexists. reflexivity.
  - destruct t; [cbn in Lt; nia|discriminate].
  - rewrite EU, T2. lia.
  - rewrite EU, T1. assert (length (cut_last (unit_size p) x) <= length x).
    { unfold cut_last. rewrite app_length. pose proof (upto_nul_le (skipn (unit_size p * ((length x - 1) / unit_size p)) x)) as Q.
      rewrite skipn_length in Q. rewrite firstn_length. lia. }
    assert (length x <= unit_size p * k) by (unfold zext in Lz; rewrite app_length in Lz; nia). rewrite <- Ek in Ho. lia.
Qed.
End DecEnc.

(** ** codec instances *)
Lemma below_pow_sweep (P : N -> bool) n v : forallb P (map N.of_nat (seq 0 n)) = true -> (v < N.of_nat n)%N -> P v = true.
Proof. apply forallb_below. Qed.
Ltac sym_sweep n P := 
  let v := fresh in let Hv := fresh in
  intros v Hv; 
  assert (K : P v = true) by (refine (forallb_below P n v _ Hv); vm_compute; reflexivity);
  cbv beta in K; match goal with |- ?L = Some ?x => destruct L as [y|] eqn:E; [apply N.eqb_eq in K; subst; reflexivity|discriminate] end.
Ltac codec_tac n cmp :=
  constructor; [exact cmp | | intros; vm_compute; reflexivity | cbn; lia | cbn; lia].

Lemma codec64 : codec base64_params BASE64_ALPHABET Base64 decode_base64_char.
Proof.
  codec_tac 64 compat64.
  sym_sweep 64 (fun v => match dig base64_params decode_base64_char (sym_of Base64 v) with Some y => y =? v | None => false end)%N.
Qed.
Lemma codec64url : codec base64_params BASE64_ALPHABET_FS Base64url decode_base64_char.
Proof.
  codec_tac 64 compat64url.
  sym_sweep 64 (fun v => match dig base64_params decode_base64_char (sym_of Base64url v) with Some y => y =? v | None => false end)%N.
Qed.
Lemma codec32 : codec base32_params BASE32_ALPHABET Base32 decode_base32_char.
Proof.
  codec_tac 32 compat32.
  sym_sweep 32 (fun v => match dig base32_params decode_base32_char (sym_of Base32 v) with Some y => y =? v | None => false end)%N.
Qed.
Lemma codec32hex : codec base32_params BASE32_ALPHABET_EXTHEX Base32hex decode_base32hex_char.
Proof.
  codec_tac 32 compat32hex.
  sym_sweep 32 (fun v => match dig base32_params decode_base32hex_char (sym_of Base32hex v) with Some y => y =? v | None => false end)%N.
Qed.
Lemma codec16 : codec base16_params BASE16_ALPHABET Base16 decode_base16_char.
Proof.
  constructor; [exact compat16 | | cbn; congruence | cbn; lia | cbn; lia].
  sym_sweep 16 (fun v => match dig base16_params decode_base16_char (sym_of Base16 v) with Some y => y =? v | None => false end)%N.
Qed.

(** ** two bytes past the scratch array *)
Lemma transform_two p (Hp : p = base16_params \/ p = base32_params \/ p = base64_params) unit after scr :
  length unit = unit_size p -> 1 <= length after -> chunk_count p + 2 <= length scr ->
  exists v j1 j2, length v = chunk_count p /\
    transform (unit ++ after) (unit_size p) (bit_size p) scr =
    Ret (chunk_count p + 2, v ++ [j1; j2] ++ skipn (chunk_count p + 2) scr).
Proof.
  intros Hu Ha Hs. destruct Hp as [->|[->| ->]];
    cbn [bit_size unit_size chunk_count base16_params base32_params base64_params plus] in *; cons_all.
  - match goal with |- context[transform ?a ?b ?c ?d] => let t := eval cbv -[N.land N.lor N.shiftl N.shiftr u8 mkmask] in (transform a b c d) in
      lazymatch t with Ret (_, ?v0 :: ?v1 :: ?j1 :: ?j2 :: _) => exists [v0;v1], j1, j2 end end. split; reflexivity.
  - match goal with |- context[transform ?a ?b ?c ?d] => let t := eval cbv -[N.land N.lor N.shiftl N.shiftr u8 mkmask] in (transform a b c d) in
      lazymatch t with Ret (_, ?v0 :: ?v1 :: ?v2 :: ?v3 :: ?v4 :: ?v5 :: ?v6 :: ?v7 :: ?j1 :: ?j2 :: _) => exists [v0;v1;v2;v3;v4;v5;v6;v7], j1, j2 end end. split; reflexivity.
  - match goal with |- context[transform ?a ?b ?c ?d] => let t := eval cbv -[N.land N.lor N.shiftl N.shiftr u8 mkmask] in (transform a b c d) in
      lazymatch t with Ret (_, ?v0 :: ?v1 :: ?v2 :: ?v3 :: ?j1 :: ?j2 :: _) => exists [v0;v1;v2;v3], j1, j2 end end. split; reflexivity.
Qed.

Lemma transform_short_scratch p (Hp : p = base16_params \/ p = base32_params \/ p = base64_params) unit after scr :
  length unit = unit_size p -> chunk_count p <= length scr < chunk_count p + 2 ->
  transform (unit ++ after) (unit_size p) (bit_size p) scr = UB OutOfBounds.
Proof.
  intros Hu Hs. assert (Hs' : length scr = chunk_count p \/ length scr = S (chunk_count p)) by lia. clear Hs.
  destruct Hp as [->|[->| ->]];
    cbn [bit_size unit_size chunk_count base16_params base32_params base64_params plus] in *;
    destruct Hs' as [Hs'|Hs']; cons_all; destruct after; sym; reflexivity.
Qed.
Lemma transform_no_after' p (Hp : p = base16_params \/ p = base32_params \/ p = base64_params) unit scr :
  length unit = unit_size p -> chunk_count p <= length scr ->
  transform (unit ++ []) (unit_size p) (bit_size p) scr = UB OutOfBounds.
Proof.
  intros Hx Hs. rewrite app_nil_r. destruct Hp as [->|[->| ->]];
    cbn [bit_size unit_size chunk_count base16_params base32_params base64_params] in *;
    cons_all; sym; reflexivity.
Qed.

Lemma encode_ub p A st x out (Hp : p = base16_params \/ p = base32_params \/ p = base64_params) :
  x <> [] ->
  (chunk_count p <= length (scratch st 0) < chunk_count p + 2 \/
   (after_unit st 0 = [] /\ chunk_count p <= length (scratch st 0))) ->
  encode_base_generic p A st x out = UB OutOfBounds.
Proof.
  intros Hx H. unfold encode_base_generic. destruct x as [|b x]; [congruence|]. cbn [encode_loop].
  set (X := b :: x). set (unit := if Nat.ltb (length X) (unit_size p) then _ else _).
  assert (LU : length unit = unit_size p).
  { unfold unit. destruct (Nat.ltb_spec (length X) (unit_size p)); [rewrite app_length, repeat_length; lia|rewrite firstn_length; lia]. }
  assert (E : transform (unit ++ after_unit st 0) (unit_size p) (bit_size p) (scratch st 0) = UB OutOfBounds).
  { destruct H as [H|[H1 H2]]; [apply transform_short_scratch; assumption|]. rewrite H1. apply transform_no_after'; assumption. }
  unfold unittostr. rewrite E. reflexivity.
Qed.

(** ** junk insertion *)
Lemma take_digits_junk la : forall n lb g rest, take_digits n (la ++ lb) = (g, rest) ->
  (exists la', rest = la' ++ lb /\ take_digits n (la ++ None :: lb) = (g, la' ++ None :: lb)) \/
  take_digits n (la ++ None :: lb) = (g, rest).
Proof.
  induction la as [|o la IH]; intros n lb g rest H.
  - destruct n as [|n]; cbn [app] in *.
    + left. exists []. destruct lb; cbn in H; injection H as <- <-; split; reflexivity.
    + right. exact H.
  - destruct n as [|n].
    + left. exists (o :: la). cbn in H. injection H as <- <-. split; reflexivity.
    + destruct o as [d|].
      * cbn [app take_digits] in *. destruct (take_digits n (la ++ lb)) as [g' rest'] eqn:E. injection H as <- <-.
        destruct (IH n lb g' rest' E) as [(la' & R1 & R2)|R].
        -- left. exists la'. rewrite R2. auto.
        -- right. rewrite R. reflexivity.
      * exact (IH (S n) lb g rest H).
Qed.

Lemma dec_units_junk p : 0 < chunk_count p -> forall fuel la lb, lb <> [] -> length (la ++ None :: lb) <= fuel ->
  dec_units p fuel (la ++ None :: lb) = dec_units p fuel (la ++ lb).
Proof.
  intros Hc. induction fuel as [|fuel IH]; intros la lb Hlb Hf.
  - rewrite app_length in Hf. cbn in Hf. lia.
  - destruct (take_digits (chunk_count p) (la ++ lb)) as [g rest] eqn:T.
    assert (E : forall l, l <> [] -> dec_units p (S fuel) l = let '(g, rest) := take_digits (chunk_count p) l in
       unit_bytes p (digits_value (bit_size p) (g ++ repeat 0%N (chunk_count p - length g))) :: dec_units p fuel rest).
    { intros l Hl. destruct l; [congruence|reflexivity]. }
    rewrite !E by (destruct la, lb; discriminate || congruence).
    rewrite T. destruct (take_digits_junk la _ lb g rest T) as [(la' & -> & R2)|R].
    + rewrite R2. f_equal. apply IH; [assumption|].
      destruct (take_digits_length _ _ _ _ R2) as (_ & _ & _ & T4).
      specialize (T4 Hc ltac:(destruct la; discriminate)). lia.
    + rewrite R. reflexivity.
Qed.

(** ** decoding depends only on the digit values *)
Lemma decode_chunk_ext p func : forall cs cs', map (dig p func) cs = map (dig p func) cs' -> forall i u,
  exists rest rest' i' u', decode_chunk p func cs i u = (rest, i', u') /\ decode_chunk p func cs' i u = (rest', i', u') /\
    map (dig p func) rest = map (dig p func) rest' /\ length rest <= length cs /\ (i < chunk_count p -> cs <> [] -> length rest < length cs).
Proof.
  induction cs as [|ch cs IH]; intros cs' H i u.
  - destruct cs'; [|discriminate]. exists [], [], i, u. cbn. repeat split; auto. congruence.
  - destruct cs' as [|ch' cs']; [discriminate|]. injection H as H1 H2. cbn [decode_chunk].
    destruct (Nat.ltb_spec i (chunk_count p)) as [Hi|Hi].
    + unfold dig in H1. destruct (is_unknown (func ch)), (is_unknown (func ch')); try discriminate.
      * destruct (IH cs' H2 i u) as (r & r' & i' & u' & A1 & A2 & A3 & A4 & A5).
        exists r, r', i', u'. cbn [length]. repeat split; auto; lia.
      * injection H1 as ->. destruct (IH cs' H2 (S i) (u64 (N.lor (N.shiftl u (N.of_nat (bit_size p))) (N.land (func ch') (mkmask (bit_size p))))))
          as (r & r' & i' & u' & A1 & A2 & A3 & A4 & A5).
        exists r, r', i', u'. cbn [length]. repeat split; auto; lia.
    + exists (ch :: cs), (ch' :: cs'), i, u. cbn [map]. repeat split; auto; try congruence; lia.
Qed.

Lemma decode_loop_ext p func : 0 < chunk_count p -> forall fuel fuel' cs cs' u op last out,
  map (dig p func) cs = map (dig p func) cs' -> length cs < fuel -> length cs < fuel' ->
  decode_loop fuel p func cs u op last out = decode_loop fuel' p func cs' u op last out.
Proof.
  intros Hc. induction fuel as [|fuel IH]; intros fuel' cs cs' u op last out H Hf Hf'; [lia|].
  destruct fuel' as [|fuel']; [lia|].
  destruct cs as [|ch cs]; [destruct cs'; [reflexivity|discriminate]|].
  destruct cs' as [|ch' cs']; [discriminate|].
  cbn [decode_loop]. destruct (decode_chunk_ext p func _ _ H 0 u) as (r & r' & i' & u' & A1 & A2 & A3 & A4 & A5).
  rewrite A1, A2. specialize (A5 Hc ltac:(discriminate)).
  assert (ER : forall (X Y : N), match r with [] => X | _ => Y end = match r' with [] => X | _ => Y end).
  { intros. destruct r, r'; reflexivity || discriminate. }
  cbv zeta. rewrite ER. destruct (blit _ _ _) as [o| |]; cbn [bind]; [|reflexivity|reflexivity].
  apply IH; auto; lia.
Qed.

Lemma decode_ext p func cs cs' out : 0 < chunk_count p -> map (dig p func) cs = map (dig p func) cs' ->
  decode_base_generic p func cs out = decode_base_generic p func cs' out.
Proof.
  intros Hc H. unfold decode_base_generic.
  assert (length cs = length cs') by (apply (f_equal (@length _)) in H; rewrite !map_length in H; assumption).
  rewrite (decode_loop_ext p func Hc (S (length cs)) (S (length cs')) cs cs') by (auto; lia). reflexivity.
Qed.

Lemma decode_junk p func a j b out : 0 < chunk_count p -> 8 * unit_size p <= 64 -> chunk_count p * bit_size p = 8 * unit_size p ->
  0 < bit_size p <= 8 -> 0 < unit_size p ->
  dig p func j = None -> b <> [] ->
  unit_size p * ((length (a ++ j :: b) + chunk_count p - 1) / chunk_count p) + 1 <= length out ->
  decode_base_generic p func (a ++ j :: b) out = decode_base_generic p func (a ++ b) out.
Proof.
  intros Hc H64 Hcc Hw Hu Hj Hb Ho.
  assert (EU : units_of p func (a ++ j :: b) = units_of p func (a ++ b)).
  { unfold units_of. rewrite !map_app. cbn [map]. rewrite Hj.
    rewrite (dec_units_junk p) ; [|assumption|destruct b; [congruence|discriminate]|rewrite !app_length; cbn [length]; rewrite !map_length; lia].
    apply dec_units_fuel; auto; try lia; rewrite !app_length, !map_length; cbn [length]; lia. }
  assert (UL : length (units_of p func (a ++ j :: b)) <= (length (a ++ j :: b) + chunk_count p - 1) / chunk_count p).
  { unfold units_of. rewrite <- (map_length (dig p func) (a ++ j :: b)). apply dec_units_length; auto; try lia. }
  assert (TL : length (trimmed (units_of p func (a ++ j :: b))) <= length (units_of p func (a ++ j :: b)) * unit_size p).
  { unfold trimmed. set (us := units_of p func (a ++ j :: b)).
    assert (CL : length (concat us) = length us * unit_size p) by apply concat_length_units.
    destruct us as [|u0 us'] eqn:Eus; [cbn; lia|]. rewrite <- Eus in *.
    assert (Hne : us <> []) by (rewrite Eus; discriminate).
    rewrite (app_removelast_last [] Hne), concat_app in CL at 1. cbn [concat] in CL. rewrite app_nil_r, !app_length in *.
    pose proof (upto_nul_le (last us [])). lia. }
  rewrite !decode_spec; try rewrite <- EU; auto; try lia; try (destruct a, b; discriminate || congruence); nia.
Qed.

Lemma decode_footprint p func cs out : 0 < chunk_count p -> 8 * unit_size p <= 64 -> chunk_count p * bit_size p = 8 * unit_size p ->
  0 < bit_size p <= 8 -> 0 < unit_size p -> cs <> [] ->
  let M := unit_size p * ((length cs + chunk_count p - 1) / chunk_count p) in
  M + 1 <= length out ->
  exists n out', decode_base_generic p func cs out = Ret (n, out') /\ n <= M /\ length out' = length out /\
    nth_error out' n = Some 0%N /\ skipn (M + 1) out' = skipn (M + 1) out.
Proof.
  intros Hc H64 Hcc Hw Hu Hcs M Ho.
  assert (UL : length (units_of p func cs) <= (length cs + chunk_count p - 1) / chunk_count p).
  { unfold units_of. rewrite <- (map_length (dig p func) cs). apply dec_units_length; auto; try lia. }
  set (us := units_of p func cs) in *.
  assert (CL : length (concat us) = length us * unit_size p) by apply concat_length_units.
  assert (TL : length (trimmed us) <= length us * unit_size p).
  { unfold trimmed. destruct us as [|u0 us'] eqn:Eus; [cbn; lia|]. rewrite <- Eus in *.
    assert (Hne : us <> []) by (rewrite Eus; discriminate).
    rewrite (app_removelast_last [] Hne), concat_app in CL at 1. cbn [concat] in CL. rewrite app_nil_r, !app_length in *.
    pose proof (upto_nul_le (last us [])). lia. }
  assert (UM : length us * unit_size p <= M) by (unfold M; nia).
  rewrite decode_spec; fold us; auto; try lia.
  do 2 eexists. split; [reflexivity|].
  assert (LF : length (concat us ++ skipn (length us * unit_size p) out) = length out) by (rewrite app_length, skipn_length; lia).
  repeat split.
  - lia.
  - rewrite app_length. cbn [length]. rewrite skipn_length, LF. lia.
  - rewrite nth_error_app2, Nat.sub_diag by lia. reflexivity.
  - rewrite skipn_app, skipn_all2 by lia. cbn [app].
    replace (M + 1 - length (trimmed us)) with (S (M - length (trimmed us))) by lia. cbn [skipn].
    rewrite skipn_add, skipn_app, skipn_all2 by lia. cbn [app]. rewrite skipn_add. f_equal. lia.
Qed.


(** ** facts used by the property file *)
Lemma upto_nul_cut l r : ~ In 0%N l -> upto_nul (l ++ 0%N :: r) = l.
Proof.
  induction l as [|a l IH]; intros H; [reflexivity|]. cbn. destruct (N.eqb_spec a 0) as [->|E]; [destruct H; left; reflexivity|].
  rewrite IH; [reflexivity|]. intros K. apply H. right. exact K.
Qed.
Lemma upto_nul_id l : ~ In 0%N l -> upto_nul l = l.
Proof.
  induction l as [|a l IH]; intros H; [reflexivity|]. cbn. destruct (N.eqb_spec a 0) as [->|E]; [destruct H; left; reflexivity|].
  rewrite IH; [reflexivity|]. intros K. apply H. right. exact K.
Qed.
Lemma upto_nul_nozero l : ~ In 0%N (upto_nul l).
Proof.
  induction l as [|a l IH]; intros H; [exact H|]. cbn in H. destruct (N.eqb_spec a 0) as [->|E]; [exact H|].
  destruct H; auto.
Qed.
Lemma text_length_eq p A c x : compat p A c -> length (lib_text c x) = length (rfc_encode c x).
Proof.
  intros HC. pose proof (cu _ _ _ HC) as Hu.
  destruct (split_full _ _ _ HC x) as (F & P & k & Ex & LF & LP & LM & TX & DX).
  rewrite TX. unfold rfc_encode, rfc_padding. rewrite DX, !app_length.
  rewrite (rfc_data_length_full _ _ _ HC F k) by assumption. rewrite (cq _ _ _ HC).
  pose proof (chunk_pos _ _ _ HC). 
  replace ((k * chunk_count p + length (rfc_data c P)) mod chunk_count p) with (length (rfc_data c P) mod chunk_count p) by (rewrite (Nat.add_comm (k * chunk_count p)), Nat.mod_add by lia; reflexivity).
  destruct P as [|b P'] eqn:EP.
  - rewrite (lib_text_nil _ _ _ HC). change (length (rfc_data c [])) with 0. cbn [length].
    rewrite Nat.mod_0_l, Nat.sub_0_r, Nat.mod_same by lia. cbn. lia.
  - rewrite <- EP in *. assert (0 < length P < unit_size p) by (subst P; cbn in *; lia).
    pose proof (rfc_padding_part _ _ _ HC P ltac:(lia)) as E. unfold rfc_padding in E. rewrite (cq _ _ _ HC) in E. rewrite E.
    rewrite (lib_text_part _ _ _ HC) by assumption. rewrite !app_length, blank_length. lia.
Qed.
