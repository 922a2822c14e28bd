(** Property theorems C64 (hex texts with separators) and C01 (printing to stdout). *)
From Coq Require Import String.
From Verif Require Import Base MUtils MUtils2 SHex SHexText PUtils.
Local Open Scope N_scope.

Lemma drop_prefix_body s : (if strip_x s then skipn 2 s else s) = drop_prefix s.
Proof. destruct s as [|a [|b r]]; reflexivity. Qed.
Lemma h_suffix_ends s : h_suffix s = if ends_h s then 1%nat else 0%nat.
Proof. unfold h_suffix, ends_h. destruct (rev s); reflexivity. Qed.
Lemma nibbles_cleaned s : nibbles (drop_prefix s) = map dval (cleaned s).
Proof. reflexivity. Qed.

Lemma parsed_emit s :
  parsed s = emit (xorb (Nat.odd (length (cleaned s))) (Nat.odd (separators s))) 0 (map dval (cleaned s)).
Proof.
  unfold parsed, eff_len. rewrite drop_prefix_body. rewrite nibbles_cleaned. f_equal.
  rewrite <- Nat.odd_add. f_equal. unfold separators. rewrite h_suffix_ends.
  assert (H : length (nibbles (drop_prefix s)) = length (cleaned s)) by (rewrite nibbles_cleaned, map_length; reflexivity).
  destruct (ends_h (drop_prefix s)) eqn:E.
  - pose proof (nibbles_ends_h _ E).
    assert (length (drop_prefix s) <> 0)%nat by (destruct (drop_prefix s); [discriminate|cbn; lia]). lia.
  - pose proof (nibbles_length_le (drop_prefix s)). lia.
Qed.

(** dropping the last digit when the parity is off *)
Lemma emit_off ds : forall odd h, Nat.odd (length ds) <> odd -> emit odd h ds = emit odd h (removelast ds).
Proof.
  induction ds as [|d r IH]; intros odd h Ho; [reflexivity|].
  cbn [length] in Ho. rewrite Nat.odd_succ, <- Nat.negb_odd in Ho.
  destruct r as [|d2 r].
  - cbn in Ho. destruct odd; [congruence|]. reflexivity.
  - remember (d2 :: r) as r2. replace (removelast (d :: r2)) with (d :: removelast r2) by (subst; reflexivity).
    cbn [emit]. destruct odd.
    + f_equal. apply IH. destruct (Nat.odd _); cbn in Ho; congruence.
    + apply IH. destruct (Nat.odd _); cbn in Ho; congruence.
Qed.

Lemma text_value_snoc s c : text_value (s ++ [c]) = 16 * text_value s + dval c.
Proof. unfold text_value. rewrite fold_left_app. reflexivity. Qed.

Lemma nibbles_of_hex s : forallb is_hex_digit s = true -> map dval s = nibbles s.
Proof. intros H. unfold nibbles. rewrite filter_true; auto. Qed.

Lemma eq_dec_nil {A} (l : list A) : {l = []} + {exists l' x, l = l' ++ [x]}.
Proof.
  destruct l as [|a l]; [left; reflexivity|right].
  destruct (@exists_last _ (a :: l) ltac:(discriminate)) as (l' & x & E). eauto.
Qed.

(** C64: with an even number of separators the parser writes the number written by the
    digits, big endian, in half as many bytes as there are digits (rounded up): the
    separators have no effect. *)
Theorem C64_separators_even : forall s tail out,
  s <> [] -> Nat.even (separators s) = true ->
  ((length (cleaned s) + 1) / 2 <= length out)%nat ->
  exists bs, bytes_ok bs /\ length bs = ((length (cleaned s) + 1) / 2)%nat /\
    be_value bs = text_value (cleaned s) /\
    from_hex s tail out = Ret (length bs, bs ++ skipn (length bs) out).
Proof.
  intros s tail out Hs He Ho. exists (parsed s).
  assert (E : parsed s = emit (Nat.odd (length (cleaned s))) 0 (map dval (cleaned s))).
  { rewrite parsed_emit. rewrite <- (Nat.negb_even (separators s)), He. cbn. rewrite xorb_false_r. reflexivity. }
  assert (L : length (parsed s) = ((length (cleaned s) + 1) / 2)%nat).
  { rewrite E, emit_length, map_length. destruct (Nat.odd (length (cleaned s))) eqn:O; [reflexivity|].
    rewrite <- Nat.negb_even in O. apply negb_false_iff, Nat.even_spec in O as [m ->]. lia. }
  repeat split.
  - apply parsed_bytes.
  - exact L.
  - rewrite E, nibbles_of_hex by apply cleaned_all_hex. apply emit_text, cleaned_all_hex.
  - rewrite from_hex_spec by assumption. destruct (Nat.leb_spec (length (parsed s)) (length out)); [reflexivity|lia].
Qed.
Print Assumptions C64_separators_even.

(** C64, violation: with an odd number of separators the last digit is always lost: what is
    written is the number divided by sixteen, in half as many bytes as there are digits
    (rounded down). *)
Theorem C64_separators_odd_refuted : forall s tail out,
  s <> [] -> Nat.odd (separators s) = true ->
  (length (cleaned s) / 2 <= length out)%nat ->
  exists bs, bytes_ok bs /\ length bs = (length (cleaned s) / 2)%nat /\
    be_value bs = text_value (cleaned s) / 16 /\
    from_hex s tail out = Ret (length bs, bs ++ skipn (length bs) out).
Proof.
  intros s tail out Hs He Ho. exists (parsed s).
  assert (E : parsed s = emit (negb (Nat.odd (length (cleaned s)))) 0 (map dval (cleaned s))).
  { rewrite parsed_emit, He. rewrite xorb_true_r. reflexivity. }
  assert (L : length (parsed s) = (length (cleaned s) / 2)%nat).
  { rewrite E, emit_length, map_length. destruct (Nat.odd (length (cleaned s))) eqn:O; cbn [negb].
    - rewrite Nat.add_0_r. reflexivity.
    - rewrite <- Nat.negb_even in O. apply negb_false_iff, Nat.even_spec in O as [m ->]. lia. }
  repeat split.
  - apply parsed_bytes.
  - exact L.
  - rewrite E. rewrite emit_off by (rewrite map_length; destruct (Nat.odd (length (cleaned s))); cbn; discriminate).
    pose proof (cleaned_all_hex s) as Hx.
    destruct (@eq_dec_nil _ (cleaned s)) as [N|(l & c & N)].
    + rewrite N. reflexivity.
    + rewrite N in *. rewrite map_app, forallb_app in *. cbn [map]. rewrite removelast_last.
      apply andb_true_iff in Hx as [Hx Hc]. rewrite nibbles_of_hex by assumption.
      rewrite app_length. cbn [length]. rewrite Nat.add_1_r, Nat.odd_succ, <- Nat.negb_odd, negb_involutive.
      rewrite emit_text by assumption. rewrite text_value_snoc.
      pose proof (dval_lt16 c). apply (N.div_unique _ _ _ (dval c)); lia.
  - rewrite from_hex_spec by assumption. destruct (Nat.leb_spec (length (parsed s)) (length out)); [reflexivity|lia].
Qed.
Print Assumptions C64_separators_odd_refuted.

(** C64: so with an even number of separators a text parses to the same bytes as the text
    without its separators. *)
Theorem C64_separators_ignored : forall s tail out,
  cleaned s <> [] -> Nat.even (separators s) = true ->
  from_hex s tail out = from_hex (cleaned s) tail out.
Proof.
  intros s tail out Hc He.
  assert (Hs : s <> []) by (intros ->; apply Hc; reflexivity).
  rewrite !from_hex_spec by assumption.
  enough (E : parsed s = parsed (cleaned s)) by (rewrite E; reflexivity).
  rewrite !parsed_emit. rewrite <- (Nat.negb_even (separators s)), He. cbn [negb].
  rewrite cleaned_idem.
  assert (D : drop_prefix (cleaned s) = cleaned s).
  { rewrite drop_prefix_strip, (hex_strip _ (cleaned_all_hex s)). reflexivity. }
  assert (Z : separators (cleaned s) = 0%nat).
  { unfold separators. rewrite cleaned_idem, D. lia. }
  rewrite Z. reflexivity.
Qed.
Print Assumptions C64_separators_ignored.

(** C64, violation: "de:ad" is read as 0d ea, while "de:ad:be" is read correctly and so is "dead". *)
Theorem C64_separators_refuted :
  from_hex (chars "de:ad") [] [7; 7; 7] = Ret (2%nat, [0x0d; 0xea; 7]) /\
  from_hex (chars "de:ad:be") [] [7; 7; 7] = Ret (3%nat, [0xde; 0xad; 0xbe]) /\
  from_hex (chars "dead") [] [7; 7; 7] = Ret (2%nat, [0xde; 0xad; 7]).
Proof. repeat split. Qed.
Print Assumptions C64_separators_refuted.

Example C64_nonvacuous :
  separators (chars "0xde:ad:beh") = 2%nat /\ separators (chars "de:ad") = 1%nat /\
  cleaned (chars "0xde:ad:beh") = chars "deadbe" /\
  from_hex (chars "0xde:ad:beh") [] [7; 7; 7] = Ret (3%nat, [0xde; 0xad; 0xbe]).
Proof. repeat split. Qed.

(** C01: pgfe_print_hash prints the same text as pgfe_hash_to_hex_string stores. *)
Theorem C01_print_hash : forall x stdout, bytes_ok x -> print_hash x stdout = stdout ++ hex_text x.
Proof.
  intros x. induction x as [|b r IH]; intros stdout H; cbn [print_hash].
  - symmetry. apply app_nil_r.
  - inversion H; subst. rewrite IH by assumption. rewrite <- app_assoc. f_equal.
    unfold is_byte in *. rewrite !hexdig_lower by lia. reflexivity.
Qed.
Print Assumptions C01_print_hash.

Example C01_print_nonvacuous : print_hash [0x0a; 0xff] (chars "h=") = chars "h=0aff".
Proof. reflexivity. Qed.
