(** Lemmas about the hexadecimal utilities. *)
From Verif Require Import Base MUtils SHex.
Local Open Scope N_scope.

(** ** finite sweep *)
Lemma forallb_below (P : N -> bool) n c :
  forallb P (map N.of_nat (seq 0 n)) = true -> c < N.of_nat n -> P c = true.
Proof.
  intros H Hc. rewrite forallb_forall in H. apply H.
  apply in_map_iff. exists (N.to_nat c). split; [lia|]. apply in_seq. lia.
Qed.

Lemma index_of_none c l : Forall (fun d => d <> c) l -> index_of c l = None.
Proof.
  induction 1 as [|d r Hd _ IH]; [reflexivity|]. cbn.
  destruct (N.eqb_spec c d); [congruence|]. rewrite IH. reflexivity.
Qed.

Lemma digit_value_big c : 128 <= c -> digit_value c = None.
Proof.
  intros H. unfold digit_value.
  rewrite index_of_none; [apply index_of_none|]; unfold lower_digits, upper_digits; cbn;
    repeat constructor; lia.
Qed.

Lemma ch2hex_spec c :
  ch2hex c = match digit_value c with Some v => v | None => HEX_UNKNOWN end.
Proof.
  destruct (N.lt_ge_cases c 128) as [H|H].
  - apply (forallb_below (fun c => ch2hex c =? match digit_value c with Some v => v | None => HEX_UNKNOWN end) 128) in H.
    + apply N.eqb_eq. exact H.
    + vm_compute. reflexivity.
  - rewrite digit_value_big by assumption. unfold ch2hex.
    repeat match goal with |- context[?a && ?b] => destruct (a && b) eqn:? end; lia.
Qed.

Lemma digit_value_lt16 c v : digit_value c = Some v -> v < 16.
Proof.
  intros H. destruct (N.lt_ge_cases c 128) as [Hc|Hc].
  - apply (forallb_below (fun c => match digit_value c with Some v => v <? 16 | None => true end) 128) in Hc.
    + rewrite H in Hc. apply N.ltb_lt. exact Hc.
    + vm_compute. reflexivity.
  - rewrite digit_value_big in H by assumption. discriminate.
Qed.

Lemma dval_lt16 c : dval c < 16.
Proof. unfold dval. destruct (digit_value c) eqn:E; [eapply digit_value_lt16; eauto|lia]. Qed.

Lemma ch2hex_hex c : is_hex_digit c = true -> ch2hex c = dval c /\ (ch2hex c =? HEX_UNKNOWN) = false.
Proof.
  unfold is_hex_digit, dval. rewrite ch2hex_spec. destruct (digit_value c) eqn:E; [|discriminate].
  intros _. split; [reflexivity|]. apply digit_value_lt16 in E. apply N.eqb_neq. unfold HEX_UNKNOWN. lia.
Qed.

Lemma ch2hex_nonhex c : is_hex_digit c = false -> (ch2hex c =? HEX_UNKNOWN) = true.
Proof.
  unfold is_hex_digit. rewrite ch2hex_spec. destruct (digit_value c) eqn:E; [discriminate|reflexivity].
Qed.

(** ** the loop emits pairs of nibbles *)
Fixpoint emit (odd : bool) (h : N) (ds : list N) : list N :=
  match ds with
  | [] => []
  | d :: r => if odd then (h + d) :: emit false 0 r else emit true (16 * d) r
  end.

Definition nibbles (cs : list N) : list N := map dval (filter is_hex_digit cs).

Lemma lor_nibble h d : h mod 16 = 0 -> d < 16 -> N.lor h d = h + d.
Proof.
  intros Hh Hd. rewrite N.add_nocarry_lxor, N.lxor_lor; try reflexivity;
  apply N.bits_inj; intros i; rewrite N.land_spec, N.bits_0;
  destruct (N.lt_ge_cases i 4) as [Hi|Hi].
  all: try (replace (N.testbit h i) with false; [reflexivity|];
    rewrite <- (N.mod_pow2_bits_low h 4 i Hi); change (2^4) with 16; rewrite Hh, N.bits_0; reflexivity).
  all: rewrite (N.bits_above_log2 d i); [apply andb_false_r|];
    destruct (N.eq_0_gt_0_cases d) as [->|]; [cbn; lia|];
    apply N.lt_le_trans with 4; [apply N.log2_lt_pow2; [lia|exact Hd]|assumption].
Qed.

Lemma from_hex_loop_emit cs : forall (odd : bool) h k out,
  h mod 16 = 0 -> (odd = false -> h = 0) ->
  let e := emit odd h (nibbles cs) in
  from_hex_loop cs (if odd then 1 else 0) h k out =
    if Nat.leb (k + length e) (length out) || Nat.eqb (length e) 0
    then Ret ((k + length e)%nat,
              if Nat.eqb (length e) 0 then out else firstn k out ++ e ++ skipn (k + length e) out)
    else UB OutOfBounds.
Proof.
  induction cs as [|c r IH]; intros odd h k out Hh Hodd e; subst e.
  - cbn [from_hex_loop nibbles filter map emit length]. cbn. rewrite orb_true_r. rewrite Nat.add_0_r. reflexivity.
  - cbn [from_hex_loop]. unfold nibbles. cbn [filter]. destruct (is_hex_digit c) eqn:E.
    + destruct (ch2hex_hex c E) as [E1 E2]. rewrite E2, E1. cbn [map].
      rewrite lor_nibble by (auto using dval_lt16).
      pose proof (dval_lt16 c) as Hd.
      destruct odd; cbn [emit].
      * change (1 =? 0) with false. cbv iota. change (N.lxor 1 1) with 0.
        destruct (Nat.lt_ge_cases k (length out)) as [Hk|Hk].
        -- destruct (app_split_at out k Hk) as (p & x & q & -> & Hp).
           rewrite wr_app by auto. cbn [bind].
           rewrite (IH false 0 (k+1)%nat (p ++ (h + dval c) :: q)) by (auto; reflexivity).
           fold (nibbles r). set (e := emit false 0 (nibbles r)).
           rewrite !app_length. cbn [length].
           destruct (Nat.eqb_spec (length e) 0) as [He|He].
           ++ assert (e = []) as -> by (destruct e; [reflexivity|discriminate]). cbn [length].
              rewrite orb_true_r. rewrite orb_false_r. cbn [Nat.eqb].
              destruct (Nat.leb_spec (k + 1) (length p + S (length q))); [|lia].
              f_equal. f_equal; [lia|].
              rewrite firstn_app, firstn_all2 by lia. replace (k - length p)%nat with 0%nat by lia. cbn [firstn].
              rewrite app_nil_r. f_equal. cbn.
              rewrite skipn_app, skipn_all2 by lia.
              replace (k + 1 - length p)%nat with 1%nat by lia. reflexivity.
           ++ cbn [Nat.eqb]. rewrite !orb_false_r.
              replace (k + 1 + length e)%nat with (k + S (length e))%nat by lia.
              destruct (Nat.leb_spec (k + S (length e)) (length p + S (length q))); [|reflexivity].
              f_equal. f_equal.
              rewrite !firstn_app, (@firstn_all2 _ k p), (@firstn_all2 _ (k+1)%nat p) by lia.
              replace (k - length p)%nat with 0%nat by lia.
              replace (k + 1 - length p)%nat with 1%nat by lia. cbn [firstn].
              rewrite app_nil_r, <- app_assoc. cbn [app]. f_equal. f_equal. f_equal.
              rewrite !skipn_app, !skipn_all2 by lia. cbn [app].
              replace (k + S (length e) - length p)%nat with (S (length e)) by lia. reflexivity.
        -- fold (nibbles r). rewrite wr_ub by lia. cbn [bind length]. cbn [Nat.eqb]. rewrite orb_false_r.
           destruct (Nat.leb_spec (k + S (length (emit false 0 (nibbles r)))) (length out)); [lia|reflexivity].
      * change (0 =? 0) with true. cbv iota. change (N.lxor 0 1) with 1.
        rewrite Hodd by reflexivity.
        replace (u8 (N.shiftl (0 + dval c) 4)) with (16 * dval c).
        2:{ unfold u8. rewrite N.shiftl_mul_pow2. change (2^4) with 16. change (2^8) with 256. lia. }
        rewrite (IH true (16 * dval c) k out) by (try discriminate; lia). reflexivity.
    + rewrite (ch2hex_nonhex c E). rewrite (IH odd h k out) by assumption. reflexivity.
Qed.

Lemma emit_length ds : forall odd h,
  length (emit odd h ds) = ((length ds + if odd then 1 else 0) / 2)%nat.
Proof.
  induction ds as [|d r IH]; intros odd h; cbn [emit length].
  - destruct odd; reflexivity.
  - destruct odd; cbn [length]; rewrite IH; lia.
Qed.

Lemma emit_bytes ds : forall odd h, Forall (fun d => d < 16) ds -> (h < 256 /\ h mod 16 = 0) ->
  bytes_ok (emit odd h ds).
Proof.
  induction ds as [|d r IH]; intros odd h Hf Hh; cbn [emit]; [constructor|].
  inversion Hf; subst. destruct odd.
  - constructor; [unfold is_byte; lia|]. apply IH; auto; lia.
  - apply IH; auto; lia.
Qed.

Lemma be_value_app a b : be_value (a ++ b) = be_value a * 256 ^ N.of_nat (length b) + be_value b.
Proof.
  unfold be_value. rewrite fold_left_app.
  generalize (fold_left (fun a b => 256 * a + b) a 0) as x. clear a.
  induction b as [|y b IH] using rev_ind; intros x.
  - cbn. lia.
  - rewrite !fold_left_app, app_length. cbn [fold_left length]. rewrite IH.
    rewrite Nat2N.inj_add, N.pow_add_r. change (N.of_nat 1) with 1. rewrite N.pow_1_r. lia.
Qed.

Lemma emit_value ds : forall odd h a,
  Forall (fun d => d < 16) ds -> h mod 16 = 0 ->
  Nat.odd (length ds) = odd -> (odd = false -> h = 0) ->
  fold_left (fun a b => 256 * a + b) (emit odd h ds) a =
  fold_left (fun a d => 16 * a + d) ds (if odd then 16 * a + h / 16 else a).
Proof.
  induction ds as [|d r IH]; intros odd h a Hf Hh Ho H0; cbn [length] in Ho.
  - cbn in Ho. subst odd. reflexivity.
  - inversion Hf; subst. cbn [emit fold_left]. 
    rewrite Nat.odd_succ, <- Nat.negb_odd in *. destruct (Nat.odd (length r)) eqn:E; cbn [negb] in *.
    + rewrite (IH true (16*d) a) by (auto; try discriminate; lia). f_equal. lia.
    + cbn [fold_left]. rewrite (IH false 0 (256 * a + (h + d))) by (auto; lia). f_equal. lia.
Qed.

Lemma fold_text_nibbles s : forall a,
  forallb is_hex_digit s = true ->
  fold_left (fun a c => 16 * a + dval c) s a = fold_left (fun a d => 16 * a + d) (nibbles s) a.
Proof.
  induction s as [|c r IH]; intros a H; [reflexivity|]. cbn in H. apply andb_true_iff in H as [H1 H2].
  cbn [fold_left]. unfold nibbles. cbn [filter]. rewrite H1. cbn [map fold_left]. apply IH. assumption.
Qed.

Lemma nibbles_lt s : Forall (fun d => d < 16) (nibbles s).
Proof. unfold nibbles. apply Forall_map. apply Forall_forall. intros. apply dval_lt16. Qed.

Lemma nibbles_length_le s : (length (nibbles s) <= length s)%nat.
Proof.
  unfold nibbles. rewrite map_length. induction s as [|c r IH]; [reflexivity|]. cbn.
  destruct (is_hex_digit c); cbn; lia.
Qed.

Lemma filter_true {A} (f : A -> bool) l : forallb f l = true -> filter f l = l.
Proof.
  induction l as [|x l IH]; [reflexivity|]. cbn. destruct (f x); cbn; [|discriminate].
  intros. rewrite IH; auto.
Qed.

Lemma nibbles_length_hex s : forallb is_hex_digit s = true -> length (nibbles s) = length s.
Proof. intros H. unfold nibbles. rewrite map_length, filter_true; auto. Qed.

(** ** the prologue *)
Definition strip_x (s : list N) : bool :=
  match s with _ :: c :: _ => is_x c | _ => false end.
Definition ends_h (s : list N) : bool :=
  match rev s with c :: _ => is_h c | [] => false end.

(** number of characters after the prefix, not counting a trailing h *)
Definition eff_len (s : list N) : nat :=
  let body := if strip_x s then skipn 2 s else s in
  length body - (if ends_h body then 1 else 0).

Lemma ends_h_last s d : s <> [] -> ends_h s = is_h (last s d).
Proof.
  intros H. unfold ends_h. destruct (exists_last H) as (l & x & ->).
  rewrite rev_app_distr, last_last. reflexivity.
Qed.

Lemma rd_last (s : list N) t d : s <> [] -> rd (s ++ t) (length s - 1) = Ret (last s d).
Proof.
  intros H. destruct (exists_last H) as (l & x & ->).
  rewrite last_last, app_length, <- app_assoc. cbn [length app].
  apply rd_app_mid. lia.
Qed.

Lemma is_x_not_h c : is_x c = true -> is_h c = false.
Proof. unfold is_x, is_h. lia. Qed.

Lemma from_hex_unfold s tail out : s <> [] ->
  from_hex s tail out =
  from_hex_loop (if strip_x s then skipn 2 s else s) (N.of_nat (eff_len s) mod 2) 0 0 out.
Proof.
  intros Hs. unfold from_hex, eff_len.
  destruct s as [|c0 [|c1 r]]; [congruence| |].
  - (* one character *)
    cbn [length app strip_x]. unfold rd at 1. cbn [nth_error bind].
    cbn [Nat.leb andb]. cbv zeta. cbn [skipn].
    change (Z.of_nat 0 + Z.of_nat 1 - 1 <? 0)%Z with false. cbv iota.
    change (Z.to_nat (Z.of_nat 0 + Z.of_nat 1 - 1)) with 0%nat. unfold rd. cbn [nth_error bind].
    unfold ends_h. cbn [rev app]. destruct (is_h c0); reflexivity.
  - unfold strip_x. unfold rd at 1. cbn [app nth_error bind].
    change (Nat.leb 2 (length (c0 :: c1 :: r))) with true. cbn [andb]. cbv zeta.
    destruct (is_x c1) eqn:Ex.
    + cbn [length skipn]. replace (S (S (length r)) - 2)%nat with (length r) by lia.
      replace (Z.of_nat 2 + Z.of_nat (length r) - 1 <? 0)%Z with false by lia.
      replace (Z.to_nat (Z.of_nat 2 + Z.of_nat (length r) - 1)) with (length r + 1)%nat by lia.
      destruct r as [|c2 r].
      * reflexivity.
      * rewrite (ends_h_last _ 0) by discriminate.
        replace (length (c2 :: r) + 1)%nat with (length (c0 :: c1 :: c2 :: r) - 1)%nat by (cbn; lia).
        change (c0 :: c1 :: (c2 :: r) ++ 0 :: tail) with ((c0 :: c1 :: c2 :: r) ++ 0 :: tail).
        rewrite (rd_last _ _ 0) by discriminate. cbn [bind].
        change (last (c0 :: c1 :: c2 :: r) 0) with (last (c2 :: r) 0).
        destruct (is_h (last (c2 :: r) 0)); reflexivity || (rewrite Nat.sub_0_r; reflexivity).
    + cbn [skipn].
      replace (Z.of_nat 0 + Z.of_nat (length (c0 :: c1 :: r)) - 1 <? 0)%Z with false by (cbn [length]; lia).
      replace (Z.to_nat (Z.of_nat 0 + Z.of_nat (length (c0 :: c1 :: r)) - 1))
        with (length (c0 :: c1 :: r) - 1)%nat by lia.
      rewrite (ends_h_last _ 0) by discriminate.
      change (c0 :: c1 :: r ++ 0 :: tail) with ((c0 :: c1 :: r) ++ 0 :: tail).
      rewrite (rd_last _ _ 0) by discriminate. cbn [bind].
      destruct (is_h (last (c0 :: c1 :: r) 0)); reflexivity || (rewrite Nat.sub_0_r; reflexivity).
Qed.

(** everything in one lemma: what the parser writes for any non-empty string *)
Definition parsed (s : list N) : list N :=
  emit (Nat.odd (eff_len s)) 0 (nibbles (if strip_x s then skipn 2 s else s)).

Lemma mod2_odd n : N.of_nat n mod 2 = if Nat.odd n then 1 else 0.
Proof.
  destruct (Nat.odd n) eqn:E.
  - apply Nat.odd_spec in E as [m ->]. lia.
  - rewrite <- Nat.negb_even in E. apply negb_false_iff, Nat.even_spec in E as [m ->]. lia.
Qed.

Lemma from_hex_spec s tail out : s <> [] ->
  from_hex s tail out =
    if Nat.leb (length (parsed s)) (length out)
    then Ret (length (parsed s), parsed s ++ skipn (length (parsed s)) out)
    else UB OutOfBounds.
Proof.
  intros Hs. rewrite from_hex_unfold, mod2_odd by assumption.
  unfold parsed. set (body := if strip_x s then skipn 2 s else s).
  pose proof (from_hex_loop_emit body (Nat.odd (eff_len s)) 0 0 out eq_refl (fun _ => eq_refl)) as H.
  cbv zeta in H. rewrite H. set (e := emit _ _ _). cbn [plus firstn app].
  destruct (Nat.eqb_spec (length e) 0) as [He|He].
  - assert (e = []) as -> by (destruct e; [reflexivity|discriminate]). cbn. reflexivity.
  - rewrite orb_false_r. destruct (Nat.leb (length e) (length out)); reflexivity.
Qed.

Lemma nibbles_ends_h s : ends_h s = true -> (length (nibbles s) <= length s - 1)%nat.
Proof.
  intros H. destruct s as [|c r]; [discriminate|].
  rewrite (ends_h_last _ 0) in H by discriminate.
  destruct (@exists_last _ (c :: r) ltac:(discriminate)) as (l & x & E). rewrite E in *.
  rewrite last_last in H. unfold nibbles. rewrite filter_app, map_app, !app_length. cbn [filter].
  assert (is_hex_digit x = false) as ->.
  { unfold is_h in H. apply orb_true_iff in H as [H|H]; apply N.eqb_eq in H; subst x; reflexivity. }
  cbn. pose proof (nibbles_length_le l). unfold nibbles in *. lia.
Qed.

Lemma parsed_bound s : (length (parsed s) <= (length s + 1) / 2)%nat.
Proof.
  unfold parsed. rewrite emit_length. unfold eff_len.
  set (body := if strip_x s then skipn 2 s else s).
  assert (length body <= length s)%nat.
  { unfold body. destruct (strip_x s); [rewrite skipn_length; lia|lia]. }
  pose proof (nibbles_length_le body).
  destruct (ends_h body) eqn:E.
  - apply nibbles_ends_h in E. destruct (Nat.odd (length body - 1)) eqn:O; lia.
  - destruct (Nat.odd (length body - 0)) eqn:O; lia.
Qed.

Lemma parsed_bytes s : bytes_ok (parsed s).
Proof. unfold parsed. apply emit_bytes; [apply nibbles_lt|lia]. Qed.

(** ** pure digit strings *)
Lemma hex_not_x c : is_hex_digit c = true -> is_x c = false.
Proof.
  intros H. destruct (is_x c) eqn:E; [|reflexivity]. unfold is_x in E.
  apply orb_true_iff in E as [E|E]; apply N.eqb_eq in E; subst c; discriminate.
Qed.
Lemma hex_not_h c : is_hex_digit c = true -> is_h c = false.
Proof.
  intros H. destruct (is_h c) eqn:E; [|reflexivity]. unfold is_h in E.
  apply orb_true_iff in E as [E|E]; apply N.eqb_eq in E; subst c; discriminate.
Qed.

Lemma forallb_last_hex s d : s <> [] -> forallb is_hex_digit s = true -> is_hex_digit (last s d) = true.
Proof.
  intros Hs H. destruct (exists_last Hs) as (l & x & ->). rewrite last_last.
  rewrite forallb_app in H. cbn in H. destruct (is_hex_digit x); [reflexivity|].
  rewrite andb_false_r in H. discriminate.
Qed.

Lemma hex_strip s : forallb is_hex_digit s = true -> strip_x s = false.
Proof.
  destruct s as [|a [|b r]]; [reflexivity|reflexivity|]. cbn.
  intros H. apply hex_not_x. destruct (is_hex_digit a), (is_hex_digit b); auto; discriminate.
Qed.
Lemma hex_ends s : forallb is_hex_digit s = true -> ends_h s = false.
Proof.
  destruct s as [|a r]; [reflexivity|]. intros H. rewrite (ends_h_last _ 0) by discriminate.
  apply hex_not_h, forallb_last_hex; [discriminate|assumption].
Qed.


Lemma parsed_affixed pre suf p x h s :
  forallb is_hex_digit s = true -> is_x x = true -> is_h h = true ->
  (s = [] -> suf = false \/ pre = true) ->
  parsed (affixed pre suf p x h s) = emit (Nat.odd (length s)) 0 (nibbles s).
Proof.
  intros Hs Hx Hh Hnil. unfold parsed, affixed.
  assert (Hsuf : nibbles (s ++ (if suf then [h] else [])) = nibbles s).
  { destruct suf; [|rewrite app_nil_r; reflexivity]. unfold nibbles. rewrite filter_app. cbn.
    assert (is_hex_digit h = false) as ->.
    { destruct (is_hex_digit h) eqn:E; [|reflexivity]. rewrite (hex_not_h _ E) in Hh. discriminate. }
    rewrite app_nil_r. reflexivity. }
  assert (Hlen : forall t, t = s ++ (if suf then [h] else []) ->
     (length t - (if ends_h t then 1 else 0) = length s)%nat).
  { intros t ->. destruct suf.
    - rewrite (ends_h_last _ 0) by (destruct s; discriminate). rewrite last_last, Hh, app_length. cbn. lia.
    - rewrite app_nil_r. rewrite hex_ends by assumption. lia. }
  assert (Hst : strip_x (s ++ (if suf then [h] else [])) = false).
  { destruct s as [|a [|b r]].
    - destruct suf; reflexivity.
    - destruct suf; cbn; [|reflexivity]. destruct (is_x h) eqn:E; [|reflexivity].
      rewrite (is_x_not_h _ E) in Hh. discriminate.
    - cbn in Hs |- *. apply hex_not_x. destruct (is_hex_digit a), (is_hex_digit b); auto; discriminate. }
  unfold eff_len. destruct pre.
  - cbn [app strip_x]. rewrite Hx. cbn [skipn]. rewrite Hsuf, Hlen by reflexivity. reflexivity.
  - cbn [app]. rewrite Hst, Hsuf, Hlen by reflexivity. reflexivity.
Qed.

Lemma emit_text s : forallb is_hex_digit s = true ->
  be_value (emit (Nat.odd (length s)) 0 (nibbles s)) = text_value s.
Proof.
  intros H. unfold be_value, text_value. rewrite fold_text_nibbles by assumption.
  rewrite emit_value; auto using nibbles_lt.
  - destruct (Nat.odd (length s)); reflexivity.
  - rewrite nibbles_length_hex by assumption. reflexivity.
Qed.

(** ** encoding *)
Lemma hexdig_lower d : d < 16 -> hexdig d = nth (N.to_nat d) lower_digits 0.
Proof.
  intros H. apply (forallb_below (fun d => hexdig d =? nth (N.to_nat d) lower_digits 0) 16) in H.
  - apply N.eqb_eq. exact H.
  - reflexivity.
Qed.

Lemma hex_text_length x : length (hex_text x) = (2 * length x)%nat.
Proof. unfold hex_text. induction x as [|b r IH]; [reflexivity|]. cbn in *. lia. Qed.

Lemma to_hex_loop_spec x : forall p m q,
  bytes_ok x -> length m = (2 * length x)%nat ->
  to_hex_loop x (length p) (p ++ m ++ q) = Ret ((length p + length m)%nat, p ++ hex_text x ++ q).
Proof.
  induction x as [|b r IH]; intros p m q Hb Hm.
  - destruct m; [|discriminate]. cbn. rewrite Nat.add_0_r. reflexivity.
  - inversion Hb; subst. unfold is_byte in *. destruct m as [|m0 [|m1 m]]; try (cbn in Hm; lia).
    cbn [to_hex_loop].
    change (p ++ (m0 :: m1 :: m) ++ q) with (p ++ m0 :: (m1 :: m) ++ q). rewrite wr_app by reflexivity. cbn [bind].
    replace (p ++ hexdig (b / 16) :: (m1 :: m) ++ q) with ((p ++ [hexdig (b / 16)]) ++ m1 :: m ++ q)
      by (rewrite <- app_assoc; reflexivity).
    rewrite wr_app by (rewrite app_length; cbn; lia). cbn [bind].
    replace ((p ++ [hexdig (b / 16)]) ++ hexdig (b mod 16) :: m ++ q)
      with ((p ++ [hexdig (b / 16); hexdig (b mod 16)]) ++ m ++ q)
      by (rewrite <- !app_assoc; reflexivity).
    replace (length p + 2)%nat with (length (p ++ [hexdig (b / 16); hexdig (b mod 16)]))
      by (rewrite app_length; cbn; lia).
    rewrite IH by (auto; cbn in Hm; lia).
    f_equal. f_equal; [rewrite app_length; cbn; lia|].
    rewrite !hexdig_lower by lia. rewrite <- app_assoc. reflexivity.
Qed.

Lemma to_hex_spec x out : bytes_ok x -> (2 * length x + 1 <= length out)%nat ->
  to_hex x out = Ret ((2 * length x)%nat, hex_text x ++ 0 :: skipn (2 * length x + 1) out).
Proof.
  intros Hb Hl. unfold to_hex.
  rewrite <- (firstn_skipn (2 * length x) out) at 1.
  pose proof (to_hex_loop_spec x [] (firstn (2 * length x) out) (skipn (2 * length x) out) Hb) as H.
  cbn [app length] in H. rewrite H by (rewrite firstn_length; lia). cbn [bind].
  rewrite firstn_length. replace (0 + Nat.min (2 * length x) (length out))%nat with (2 * length x)%nat by lia.
  destruct (skipn (2 * length x) out) as [|y q] eqn:E.
  { apply (f_equal (@length N)) in E. rewrite skipn_length in E. cbn in E. lia. }
  rewrite wr_app by (rewrite hex_text_length; reflexivity). cbn [bind].
  f_equal. f_equal. f_equal. f_equal.
  rewrite <- (skipn_add (2 * length x) 1), E. reflexivity.
Qed.

Lemma hex_text_digits x : bytes_ok x -> forallb is_hex_digit (hex_text x) = true.
Proof.
  intros H. unfold hex_text. induction H as [|b r Hb _ IH]; [reflexivity|].
  cbn [flat_map app forallb]. rewrite IH. unfold is_byte in Hb.
  rewrite <- !hexdig_lower by lia.
  assert (K : forall d, d < 16 -> is_hex_digit (hexdig d) = true).
  { intros d Hd. apply (forallb_below (fun d => is_hex_digit (hexdig d)) 16); [reflexivity|assumption]. }
  rewrite !K by lia. reflexivity.
Qed.

Lemma dval_hexdig d : d < 16 -> dval (hexdig d) = d.
Proof.
  intros H. apply (forallb_below (fun d => dval (hexdig d) =? d) 16) in H; [apply N.eqb_eq; exact H|reflexivity].
Qed.

Lemma upcase_dval c : is_hex_digit c = true -> is_hex_digit (upcase c) = true /\ dval (upcase c) = dval c.
Proof.
  intros H. destruct (N.lt_ge_cases c 128) as [Hc|Hc].
  - apply (forallb_below (fun c => negb (is_hex_digit c) || (is_hex_digit (upcase c) && (dval (upcase c) =? dval c))) 128) in Hc.
    + rewrite H in Hc. cbn in Hc. apply andb_true_iff in Hc as [A B]. apply N.eqb_eq in B. auto.
    + vm_compute. reflexivity.
  - unfold is_hex_digit in H. rewrite digit_value_big in H by assumption. discriminate.
Qed.


Lemma same_case_nibbles t t' : forallb is_hex_digit t = true -> same_upto_case t t' ->
  forallb is_hex_digit t' = true /\ nibbles t' = nibbles t.
Proof.
  intros H S. induction S as [|c c' r r' Hc _ IH]; [auto|].
  cbn in H. apply andb_true_iff in H as [H1 H2]. destruct (IH H2) as [I1 I2].
  destruct (upcase_dval c H1) as [U1 U2].
  unfold nibbles in *. cbn. destruct Hc as [->| ->].
  - rewrite H1. cbn. rewrite I2. auto.
  - rewrite U1, H1. cbn. rewrite I2, U2. auto.
Qed.

Lemma emit_hex_text x : bytes_ok x -> emit false 0 (nibbles (hex_text x)) = x.
Proof.
  intros H. induction H as [|b r Hb Hr IH]; [reflexivity|].
  unfold is_byte in Hb.
  pose proof (hex_text_digits (b :: r) ltac:(constructor; assumption)) as D.
  unfold nibbles in *. rewrite filter_true in * by (auto using hex_text_digits). 
  unfold hex_text in *. cbn [flat_map app map emit].
  rewrite <- !hexdig_lower by lia. rewrite !dval_hexdig by lia. rewrite IH. f_equal. lia.
Qed.

Lemma round_trip x t' pre suf p xx h tail out :
  bytes_ok x -> x <> [] -> same_upto_case (hex_text x) t' -> is_x xx = true -> is_h h = true ->
  (length x <= length out)%nat ->
  from_hex (affixed pre suf p xx h t') tail out = Ret (length x, x ++ skipn (length x) out).
Proof.
  intros Hb Hx Hc Hxx Hh Hl.
  destruct (same_case_nibbles _ _ (hex_text_digits x Hb) Hc) as [D NB].
  assert (Hlen : length t' = (2 * length x)%nat).
  { rewrite <- hex_text_length. symmetry. eapply Forall2_len; eassumption. }
  assert (t' <> []). { destruct t'; [destruct x; [congruence|cbn in Hlen; lia]|discriminate]. }
  assert (P : parsed (affixed pre suf p xx h t') = x).
  { rewrite parsed_affixed by (auto; intros; congruence).
    rewrite NB, Hlen, Nat.odd_mul. cbn [Nat.odd andb negb]. apply emit_hex_text. assumption. }
  rewrite from_hex_spec.
  - rewrite P. destruct (Nat.leb_spec (length x) (length out)); [reflexivity|lia].
  - unfold affixed. destruct pre; [discriminate|]. destruct t'; [congruence|discriminate].
Qed.

(** ** cleaning *)
Lemma clean_loop_late cs : forall flag p m q,
  (1 <= flag)%Z -> (length m = length (filter is_hex_digit cs))%nat ->
  clean_loop cs flag (length p) (p ++ m ++ q) =
  Ret ((length p + length m)%nat, p ++ filter is_hex_digit cs ++ q).
Proof.
  induction cs as [|c r IH]; intros flag p m q Hf Hm.
  - destruct m; [|discriminate]. cbn. rewrite Nat.add_0_r. reflexivity.
  - cbn [clean_loop].
    assert (Hg : (flag <? 2)%Z && ((if (flag <? 2)%Z then (flag + 1)%Z else flag) =? 1)%Z = false).
    { destruct (Z.ltb_spec flag 2); cbn; [|reflexivity]. lia. }
    cbv zeta. rewrite Hg. cbn [andb].
    assert (Hf' : (1 <= (if flag <? 2 then flag + 1 else flag))%Z) by (destruct (flag <? 2)%Z; lia).
    revert Hf'. generalize (if (flag <? 2)%Z then (flag + 1)%Z else flag) as flag'. intros flag' Hf'.
    cbn [filter] in *. destruct (is_hex_digit c) eqn:E.
    + destruct (ch2hex_hex c E) as [_ ->]. destruct m as [|m0 m]; [discriminate|].
      change (p ++ (m0 :: m) ++ q) with (p ++ m0 :: m ++ q). rewrite wr_app by reflexivity. cbn [bind].
      replace (p ++ c :: m ++ q) with ((p ++ [c]) ++ m ++ q) by (rewrite <- app_assoc; reflexivity).
      replace (length p + 1)%nat with (length (p ++ [c])) by (rewrite app_length; reflexivity).
      rewrite IH by (auto; cbn in Hm; lia). f_equal. rewrite app_length, <- app_assoc. cbn. f_equal. lia.
    + rewrite (ch2hex_nonhex c E). apply IH; assumption.
Qed.

Lemma cleaned_le s : (length (cleaned s) <= length s)%nat.
Proof.
  unfold cleaned. assert (length (drop_prefix s) <= length s)%nat.
  { destruct s as [|a [|b r]]; cbn; try lia. destruct (_ || _); cbn; lia. }
  assert (forall l : list N, length (filter is_hex_digit l) <= length l)%nat.
  { induction l as [|c l IH]; cbn; [lia|]. destruct (is_hex_digit c); cbn; lia. }
  specialize (H0 (drop_prefix s)). lia.
Qed.

Lemma out_split (out : list N) n : (n < length out)%nat ->
  exists m y, out = m ++ y :: skipn (n + 1) out /\ length m = n.
Proof.
  intros H. destruct (app_split_at out n H) as (p & x & q & -> & Hp).
  exists p, x. split; [|assumption]. f_equal. f_equal.
  rewrite skipn_app, skipn_all2 by lia. replace (n + 1 - length p)%nat with 1%nat by lia. reflexivity.
Qed.

Lemma clean_finish cs flag p out :
  (1 <= flag)%Z -> (length (filter is_hex_digit cs) + length p < length out)%nat ->
  firstn (length p) out = p ->
  ('(k, out) <- clean_loop cs flag (length p) out ;; out <- wr out k 0 ;; Ret (k, out)) =
  Ret ((length p + length (filter is_hex_digit cs))%nat,
       p ++ filter is_hex_digit cs ++ 0 :: skipn (length p + length (filter is_hex_digit cs) + 1) out).
Proof.
  intros Hf Hl Hp. set (F := filter is_hex_digit cs) in *.
  destruct (out_split out (length p + length F) ltac:(lia)) as (m & y & Ho & Hm).
  assert (Hpm : m = p ++ skipn (length p) m).
  { rewrite <- (firstn_skipn (length p) m) at 1. f_equal.
    rewrite <- Hp at 2. rewrite Ho, firstn_app. replace (length p - length m)%nat with 0%nat by lia.
    rewrite app_nil_r. reflexivity. }
  rewrite Ho at 1. rewrite Hpm, <- app_assoc.
  rewrite clean_loop_late by (rewrite ?skipn_length; fold F; lia). cbn [bind]. fold F.
  rewrite skipn_length, Hm. replace (length p + (length p + length F - length p))%nat with (length p + length F)%nat by lia.
  rewrite app_assoc. rewrite wr_app by (rewrite app_length; reflexivity). cbn [bind].
  rewrite <- app_assoc. reflexivity.
Qed.

Lemma wr_0 (x c : N) out : wr (x :: out) 0 c = Ret (c :: out).
Proof. reflexivity. Qed.
Lemma wr_1 (x y c : N) out : wr (x :: y :: out) (0 + 1) c = Ret (x :: c :: out).
Proof. reflexivity. Qed.

Lemma clean_spec s out : (length (cleaned s) < length out)%nat ->
  clean s out = Ret (length (cleaned s), cleaned s ++ 0 :: skipn (length (cleaned s) + 1) out).
Proof.
  intros H. unfold clean.
  destruct out as [|y0 out]; [cbn in H; lia|].
  destruct s as [|a [|b r]].
  - reflexivity.
  - unfold cleaned, drop_prefix in *. cbn [clean_loop filter] in *.
    change (-1 <? 2)%Z with true. change (-1 + 1 =? 1)%Z with false. cbn [andb].
    destruct (is_hex_digit a) eqn:E.
    + destruct (ch2hex_hex a E) as [_ ->]. cbn [length] in H.
      destruct out as [|y1 out]; [cbn in H; lia|]. reflexivity.
    + rewrite (ch2hex_nonhex a E). reflexivity.
  - unfold cleaned, drop_prefix in *.
    fold (is_x b) in *.
    cbn [clean_loop].
    change (-1 <? 2)%Z with true. change (-1 + 1 =? 1)%Z with false. 
    change (-1 + 1)%Z with 0%Z. cbn [andb].
    change (0 <? 2)%Z with true. change (0 + 1 =? 1)%Z with true. change (0 + 1)%Z with 1%Z.
    change (0 =? 1)%Z with false. change (1 =? 1)%Z with true. cbn [andb].
    destruct (is_x b) eqn:Ex.
    + assert (G : forall z, ('(k, out) <- clean_loop r 1 0 (z :: out) ;; out <- wr out k 0 ;; Ret (k, out))
        = Ret (length (filter is_hex_digit r), filter is_hex_digit r ++
               0 :: skipn (length (filter is_hex_digit r) + 1) (y0 :: out))).
      { intros z. pose proof (clean_finish r 1 [] (z :: out) ltac:(lia)) as K. cbn [length app plus] in K.
        rewrite K by (auto; cbn [length] in H; lia). rewrite Nat.add_1_r. reflexivity. }
      destruct (is_hex_digit a) eqn:E.
      * destruct (ch2hex_hex a E) as [_ ->]. rewrite ?wr_0, ?wr_1; cbn [bind]; change (1 =? 1)%Z with true; cbn [andb]; cbv iota; cbn [plus].
        apply G.
      * rewrite (ch2hex_nonhex a E). apply G.
    + cbn [filter] in H |- *.
      destruct (is_hex_digit a) eqn:Ea.
      * destruct (ch2hex_hex a Ea) as [_ ->]. rewrite ?wr_0, ?wr_1; cbn [bind]; change (1 =? 1)%Z with true; cbn [andb]; cbv iota; cbn [plus].
        destruct (is_hex_digit b) eqn:Eb.
        -- destruct (ch2hex_hex b Eb) as [_ ->]. cbn [length] in H.
           destruct out as [|y1 out]; [cbn in H; lia|].
           rewrite ?wr_0, ?wr_1; cbn [bind]; change (1 =? 1)%Z with true; cbn [andb]; cbv iota; cbn [plus].
           pose proof (clean_finish r 1 [a;b] (a :: b :: out) ltac:(lia)) as K. cbn [length app plus] in K.
           rewrite K by (auto; cbn [length] in H; lia). cbn [length plus app]. rewrite ?Nat.add_1_r; reflexivity.
        -- rewrite (ch2hex_nonhex b Eb).
           pose proof (clean_finish r 1 [a] (a :: out) ltac:(lia)) as K. cbn [length app plus] in K.
           rewrite K by (auto; cbn [length] in H; lia). cbn [length plus app]. rewrite ?Nat.add_1_r; reflexivity.
      * rewrite (ch2hex_nonhex a Ea).
        destruct (is_hex_digit b) eqn:Eb.
        -- destruct (ch2hex_hex b Eb) as [_ ->].
           rewrite ?wr_0, ?wr_1; cbn [bind]; change (1 =? 1)%Z with true; cbn [andb]; cbv iota; cbn [plus].
           pose proof (clean_finish r 1 [b] (b :: out) ltac:(lia)) as K. cbn [length app plus] in K.
           rewrite K by (auto; cbn [length] in H; lia). cbn [length plus app]. rewrite ?Nat.add_1_r; reflexivity.
        -- rewrite (ch2hex_nonhex b Eb). change (1 =? 1)%Z with true; cbn [andb]; cbv iota.
           pose proof (clean_finish r 1 [] (y0 :: out) ltac:(lia)) as K. cbn [length app plus] in K.
           rewrite K by (auto; cbn [length] in H; lia). cbn [length plus app]. rewrite ?Nat.add_1_r; reflexivity.
Qed.

Lemma wr_props (l : list N) k v : (k < length l)%nat ->
  exists l', wr l k v = Ret l' /\ length l' = length l /\ firstn (k + 1) l' = firstn k l ++ [v] /\
             (forall j, (k < j)%nat -> skipn j l' = skipn j l).
Proof.
  intros H. destruct (app_split_at l k H) as (p & x & q & -> & Hp).
  exists (p ++ v :: q). split; [apply wr_app; auto|]. split; [rewrite !app_length; reflexivity|]. split.
  - rewrite !firstn_app, firstn_all2 by lia. replace (k + 1 - length p)%nat with 1%nat by lia.
    rewrite (@firstn_all2 _ k p) by lia. replace (k - length p)%nat with 0%nat by lia. cbn. rewrite app_nil_r. reflexivity.
  - intros j Hj. rewrite !skipn_app. f_equal. destruct (j - length p)%nat as [|n] eqn:E; [lia|reflexivity].
Qed.

Lemma alias_sim cs : forall flag fuel b i k o t,
  Forall (fun c => c <> 0) cs -> skipn i b = cs ++ 0 :: t -> (k <= i)%nat ->
  (length cs < fuel)%nat -> (i + length cs < length o)%nat -> firstn k b = firstn k o ->
  exists k' g o', clean_alias_loop fuel b i flag k = Ret (k', g) /\ clean_loop cs flag k o = Ret (k', o') /\
    firstn k' g = firstn k' o' /\ (k' <= i + length cs)%nat /\ length g = length b /\ length o' = length o /\
    skipn (i + length cs) g = 0 :: t.
Proof.
  induction cs as [|c r IH]; intros flag fuel b i k o t Hnz Hb Hk Hfuel Ho Hkk.
  - destruct fuel as [|fuel]; [cbn in Hfuel; lia|]. cbn [clean_alias_loop clean_loop].
    assert (rd b i = Ret 0) as ->.
    { rewrite <- (firstn_skipn i b), Hb. cbn [app]. apply rd_app_mid.
      assert (i < length b)%nat; [|rewrite firstn_length; lia].
      apply (f_equal (@length N)) in Hb. rewrite skipn_length in Hb. cbn in Hb. lia. }
    cbn. rewrite Nat.add_0_r. exists k, b, o. repeat split; auto.
  - destruct fuel as [|fuel]; [cbn in Hfuel; lia|]. cbn [clean_alias_loop clean_loop].
    assert (Hi : (i < length b)%nat).
    { apply (f_equal (@length N)) in Hb. rewrite skipn_length in Hb. cbn in Hb. lia. }
    assert (rd b i = Ret c) as ->.
    { rewrite <- (firstn_skipn i b), Hb. cbn [app]. apply rd_app_mid. rewrite firstn_length; lia. }
    cbn [bind]. inversion Hnz; subst. destruct (N.eqb_spec c 0); [contradiction|].
    assert (Hb' : skipn (i + 1) b = r ++ 0 :: t) by (rewrite <- skipn_add, Hb; reflexivity).
    cbn [length] in *. replace (i + S (length r))%nat with (i + 1 + length r)%nat in * by lia.
    cbv zeta. destruct (_ && _ && _).
    + destruct (IH (if (flag <? 2)%Z then (flag + 1)%Z else flag) fuel b (i+1)%nat 0%nat o t) as (k' & g & o' & R); auto; try lia.
      exists k', g, o'. exact R.
    + destruct (ch2hex c =? HEX_UNKNOWN).
      * destruct (IH (if (flag <? 2)%Z then (flag + 1)%Z else flag) fuel b (i+1)%nat k o t) as (k' & g & o' & R); auto; try lia.
        exists k', g, o'. exact R.
      * destruct (wr_props b k c ltac:(lia)) as (b2 & W1 & L1 & F1 & S1).
        destruct (wr_props o k c ltac:(lia)) as (o2 & W2 & L2 & F2 & S2).
        rewrite W1, W2. cbn [bind].
        destruct (IH (if (flag <? 2)%Z then (flag + 1)%Z else flag) fuel b2 (i+1)%nat (k+1)%nat o2 t) as (k' & g & o' & R); auto; try lia.
        -- rewrite S1 by lia. assumption.
        -- rewrite F1, F2, Hkk. reflexivity.
        -- exists k', g, o'. rewrite L1, L2 in R. exact R.
Qed.

Lemma skipn_split_at (l : list N) n x t : skipn n l = x :: t -> l = firstn n l ++ x :: t /\ length (firstn n l) = n.
Proof.
  intros H. split.
  - rewrite <- H. symmetry. apply firstn_skipn.
  - apply (f_equal (@length N)) in H. rewrite skipn_length in H. cbn in H. rewrite firstn_length. lia.
Qed.

Lemma clean_in_place_spec s t :
  Forall (fun c => c <> 0) s ->
  exists buf, clean_in_place (s ++ 0 :: t) = Ret (length (cleaned s), buf) /\
    length buf = length (s ++ 0 :: t) /\
    firstn (length (cleaned s) + 1) buf = cleaned s ++ [0] /\
    skipn (length s) buf = 0 :: t.
Proof.
  intros Hs. unfold clean_in_place.
  pose proof (cleaned_le s) as Hc.
  set (b := s ++ 0 :: t).
  assert (Hlb : length b = (length s + S (length t))%nat) by (unfold b; rewrite app_length; reflexivity).
  destruct (alias_sim s (-1) (S (length b)) b 0 0 b t) as (k & g & o & R1 & R2 & R3 & R4 & R5 & R6 & R7); auto; try (cbn; lia).
  rewrite R1. cbn [bind].
  pose proof (clean_spec s b ltac:(lia)) as C. unfold clean in C. rewrite R2 in C. cbn [bind] in C. cbn [plus] in R4, R7.
  destruct (wr_props o k 0 ltac:(lia)) as (o2 & W2 & L2 & F2 & S2). rewrite W2 in C. cbn [bind] in C.
  injection C as C1 C2.
  destruct (wr_props g k 0 ltac:(lia)) as (g2 & W3 & L3 & F3 & S3). rewrite W3. cbn [bind].
  exists g2. rewrite <- C1. split; [reflexivity|]. split; [congruence|].
  assert (FF : firstn (k + 1) g2 = cleaned s ++ [0]).
  { rewrite F3, R3, <- F2, C2. rewrite firstn_app, firstn_all2 by lia. replace (k + 1 - length (cleaned s))%nat with 1%nat by lia. reflexivity. }
  split; [assumption|].
  destruct (Nat.lt_ge_cases k (length s)) as [Hk|Hk].
  - rewrite S3 by assumption. assumption.
  - assert (k = length s) by lia. subst k.
    destruct (skipn_split_at _ _ _ _ R7) as [E1 E2]. rewrite E1 in W3. rewrite wr_app in W3 by lia.
    injection W3 as <-. rewrite skipn_app, skipn_all2 by lia. rewrite E2, Nat.sub_diag. reflexivity.
Qed.

Lemma cleaned_all_hex s : forallb is_hex_digit (cleaned s) = true.
Proof. unfold cleaned. apply forallb_forall. intros x Hx. apply filter_In in Hx. tauto. Qed.

Lemma drop_prefix_strip s : drop_prefix s = if strip_x s then skipn 2 s else s.
Proof. destruct s as [|a [|b r]]; reflexivity. Qed.

Lemma cleaned_hex s : forallb is_hex_digit s = true -> cleaned s = s.
Proof.
  intros H. unfold cleaned. rewrite drop_prefix_strip, hex_strip by assumption. apply filter_true. assumption.
Qed.

Lemma cleaned_idem s : cleaned (cleaned s) = cleaned s.
Proof. apply cleaned_hex, cleaned_all_hex. Qed.

Lemma upto_nul_app a t : Forall (fun c => c <> 0) a -> upto_nul (a ++ 0 :: t) = a.
Proof.
  induction 1 as [|c r Hc _ IH]; [reflexivity|]. cbn. destruct (N.eqb_spec c 0); [contradiction|]. f_equal. assumption.
Qed.

Lemma hex_digit_nonzero c : is_hex_digit c = true -> c <> 0.
Proof. intros H ->. discriminate. Qed.

Lemma hash_length_spec s g : length g = (length s + 1)%nat ->
  hash_length s g = Ret ((length (cleaned s) + 1) / 2)%nat.
Proof.
  intros Hg. unfold hash_length. pose proof (cleaned_le s).
  rewrite clean_spec by lia. cbn [bind].
  rewrite upto_nul_app.
  - f_equal. lia.
  - pose proof (cleaned_all_hex s) as H1. rewrite forallb_forall in H1. apply Forall_forall.
    intros x Hx. apply hex_digit_nonzero. auto.
Qed.

Lemma cleaned_affixed pre suf p x h s :
  forallb is_hex_digit s = true -> is_x x = true -> is_h h = true ->
  cleaned (affixed pre suf p x h s) = s.
Proof.
  intros Hs Hx Hh. unfold affixed.
  assert (Hhh : is_hex_digit h = false).
  { destruct (is_hex_digit h) eqn:E; [|reflexivity]. rewrite (hex_not_h _ E) in Hh. discriminate. }
  assert (F : filter is_hex_digit (s ++ (if suf then [h] else [])) = s).
  { rewrite filter_app, filter_true by assumption. destruct suf; cbn; rewrite ?Hhh, app_nil_r; reflexivity. }
  unfold cleaned. rewrite drop_prefix_strip. destruct pre.
  - cbn [app strip_x]. rewrite Hx. cbn [skipn]. exact F.
  - cbn [app]. assert (strip_x (s ++ (if suf then [h] else [])) = false) as ->; [|exact F].
    destruct s as [|a [|b r]].
    + destruct suf; reflexivity.
    + destruct suf; cbn; [|reflexivity]. destruct (is_x h) eqn:E; [|reflexivity].
      rewrite (is_x_not_h _ E) in Hh. discriminate.
    + cbn in Hs |- *. apply hex_not_x. destruct (is_hex_digit a), (is_hex_digit b); auto; discriminate.
Qed.

Lemma parsed_affixed_length pre suf p x h s :
  forallb is_hex_digit s = true -> is_x x = true -> is_h h = true ->
  length (parsed (affixed pre suf p x h s)) = ((length s + 1) / 2)%nat.
Proof.
  intros Hs Hx Hh.
  destruct s as [|c r].
  - destruct pre, suf; unfold affixed, parsed; cbn [app]; rewrite emit_length; cbn; rewrite ?Hx; cbn.
    all: try (destruct (Nat.odd _); reflexivity).
    all: unfold nibbles, eff_len; cbn; rewrite ?Hx; cbn.
    all: assert (Hhh : is_hex_digit h = false)
     by (destruct (is_hex_digit h) eqn:E; [|reflexivity]; rewrite (hex_not_h _ E) in Hh; discriminate).
    all: rewrite ?Hhh; cbn; unfold ends_h; cbn; rewrite ?Hh; reflexivity.
  - rewrite parsed_affixed by (auto; discriminate).
    rewrite emit_length, nibbles_length_hex by assumption.
    destruct (Nat.odd (length (c :: r))) eqn:O; [reflexivity|].
    rewrite <- Nat.negb_even in O. apply negb_false_iff, Nat.even_spec in O as [m E]. rewrite E. lia.
Qed.
