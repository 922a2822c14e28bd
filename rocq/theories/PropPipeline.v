(** C92: ciphertexts sent as text. Everything here is about the modelled functions MBlowfish.v, MUtils.v and MBase.v used one after the other. *)
From Coq Require Import String.
From Verif Require Import Base SRfc4648 MBase PBase PropBase MUtils SHex PUtils PropHex MBlowfish PBlowfish PBlowfish2 PBlowfish3 PBfFast PropBlowfish.
From Verif Require SBlowfish PKeccak.
Local Open Scope N_scope.

(** all zero bytes of [l] are at its end *)
Definition zeros_at_end (l : list N) : Prop := exists k, l = upto_nul l ++ repeat 0 k.

Lemma pad8_full l k : length l = (8 * k)%nat -> SBlowfish.pad8 l = l.
Proof. intros L. unfold SBlowfish.pad8. rewrite L, padded_full, Nat.sub_diag. cbn [repeat]. apply app_nil_r. Qed.
Lemma ecb_pad g l : SBlowfish.ecb g (SBlowfish.pad8 l) = SBlowfish.ecb g l.
Proof.
  destruct (padded_mult (length l)) as (k & E & _). rewrite (ecb_crypted g l k E). rewrite (ecb_full g _ k); [reflexivity|]. rewrite pad8_length. exact E.
Qed.
Lemma ecb_inj g h a b k : (forall d, dword_ok d -> dword_ok (g d)) -> (forall d, h (g d) = d) -> bytes_ok a -> bytes_ok b -> length a = (8 * k)%nat -> length b = (8 * k)%nat ->
  SBlowfish.ecb g a = SBlowfish.ecb g b -> a = b.
Proof.
  intros Hg Hh Ha Hb La Lb E. rewrite <- (pad8_full a k La), <- (pad8_full b k Lb), <- (ecb_inverse g h a Hg Hh Ha), <- (ecb_inverse g h b Hg Hh Hb), E. reflexivity.
Qed.
Lemma upto_nul_length l : (length (upto_nul l) <= length l)%nat.
Proof. induction l as [|x l IH]; [auto|]. cbn [upto_nul length]. destruct (x =? 0); cbn [length]; lia. Qed.
Lemma upto_nul_ok l : bytes_ok l -> bytes_ok (upto_nul l).
Proof. unfold bytes_ok. induction 1 as [|x l Hx _ IH]; [constructor|]. cbn [upto_nul]. destruct (x =? 0); constructor; auto. Qed.

(** [e]: a ciphertext of [k > 0] blocks, [w]: what the decoder makes of its text *)
Lemma tail_padded a e k : (0 < k)%nat -> length e = (8 * k)%nat -> bytes_ok e ->
  SBlowfish.padded_length (length (without_tail a e)) = (8 * k)%nat /\ bytes_ok (without_tail a e) /\
  (SBlowfish.pad8 (without_tail a e) = e <-> zeros_at_end (skipn (before_last (coding a) e) e)).
Proof.
  intros Hk L Hb. set (b := before_last (coding a) e).
  assert (B : (8 * k - 5 <= b <= 8 * k)%nat).
  { unfold b, before_last. rewrite L. assert (O : (1 <= octets (coding a) <= 5)%nat) by (destruct a; cbn; lia). revert O. generalize (octets (coding a)). intros q O.
    pose proof (Nat.div_mod (8 * k - 1) q ltac:(lia)) as D. pose proof (Nat.mod_upper_bound (8 * k - 1) q ltac:(lia)) as M. lia. }
  unfold without_tail. fold b. set (s := skipn b e). assert (Ls : length s = (8 * k - b)%nat) by (unfold s; rewrite skipn_length; lia). pose proof (upto_nul_length s) as U.
  assert (Lw : length (firstn b e ++ upto_nul s) = (b + length (upto_nul s))%nat) by (rewrite app_length, firstn_length; lia).
  assert (P : SBlowfish.padded_length (length (firstn b e ++ upto_nul s)) = (8 * k)%nat).
  { destruct (padded_mult (length (firstn b e ++ upto_nul s))) as (j & -> & J). rewrite Lw in J. lia. }
  split; [exact P|]. split.
  { apply Forall_app. split; [exact (PKeccak.bytes_firstn _ _ Hb)|]. apply upto_nul_ok. exact (PKeccak.bytes_skipn _ _ Hb). }
  unfold SBlowfish.pad8. rewrite P. rewrite <- app_assoc. split.
  - intros E. exists (8 * k - length (firstn b e ++ upto_nul s))%nat. pose proof (firstn_skipn b e) as FS. fold s in FS. rewrite <- FS in E at 3. apply app_inv_head in E. symmetry. exact E.
  - intros (j & E). fold s in E. rewrite Lw. replace (8 * k - (b + length (upto_nul s)))%nat with j.
    + rewrite <- E. unfold s. apply firstn_skipn.
    + apply (f_equal (@length N)) in E. rewrite app_length, repeat_length in E. lia.
Qed.

Section Cipher.
Variable c : bf_ctx.
Hypothesis Hc : context c.
Let en := SBlowfish.encrypt (flat c).
Let de := SBlowfish.decrypt (flat c).
Lemma en_ok d : dword_ok d -> dword_ok (en d). Proof. apply encrypt_ok, context_words, Hc. Qed.
Lemma de_ok d : dword_ok d -> dword_ok (de d). Proof. apply decrypt_ok, context_words, Hc. Qed.
Lemma flat18 : (18 <= length (flat c))%nat. Proof. rewrite flat_length by (apply context_shaped, Hc). lia. Qed.
Lemma de_en d : de (en d) = d. Proof. apply decrypt_encrypt, flat18. Qed.
Lemma en_de d : en (de d) = d. Proof. apply encrypt_decrypt, flat18. Qed.
Lemma run_en s input out : length s = 8%nat -> (SBlowfish.padded_length (length input) <= length out)%nat ->
  blowfish_encrypt c s input out = Ret (SBlowfish.padded_length (length input), SBlowfish.ecb en input ++ skipn (SBlowfish.padded_length (length input)) out).
Proof.
  intros Ls Lo. unfold blowfish_encrypt. rewrite <- (firstn_skipn (SBlowfish.padded_length (length input)) out) at 1.
  apply (generic_ok _ _ (fun d => encrypt_unit_flat c d (context_shaped c Hc))); [exact Ls|]. rewrite firstn_length. lia.
Qed.
Lemma run_de s input out : length s = 8%nat -> (SBlowfish.padded_length (length input) <= length out)%nat ->
  blowfish_decrypt c s input out = Ret (SBlowfish.padded_length (length input), SBlowfish.ecb de input ++ skipn (SBlowfish.padded_length (length input)) out).
Proof.
  intros Ls Lo. unfold blowfish_decrypt. rewrite <- (firstn_skipn (SBlowfish.padded_length (length input)) out) at 1.
  apply (generic_ok _ _ (fun d => decrypt_unit_flat c d (context_shaped c Hc))); [exact Ls|]. rewrite firstn_length. lia.
Qed.
End Cipher.

(** the message followed by the zero bytes that fill its last block *)
Definition with_padding (input : list N) (n : nat) : list N := input ++ repeat 0 (n - length input).

(** C92: a non-empty message is encrypted, the ciphertext [e] is written as text in one of the five encodings, the text is decoded and the bytes the decoder
    counts are decrypted. Every step succeeds with big enough buffers, and the result has the length of the ciphertext; it is the message (with its padding)
    exactly if in the final unit of the encoding (1, 5 or 3 bytes, or what is left for it) no zero byte of the ciphertext is followed by a non-zero one. *)
Theorem C92_base_text : forall a c input, context c -> bytes_ok input -> input <> [] ->
  exists e, bytes_ok e /\ length e = SBlowfish.padded_length (length input) /\
    (forall scratch out, length scratch = 8%nat -> (length e <= length out)%nat -> blowfish_encrypt c scratch input out = Ret (length e, e ++ skipn (length e) out)) /\
    forall st buf, slack a st -> (length (lib_text (coding a) e) < length buf)%nat ->
    exists n text, encode a st e buf = Ret (n, text) /\
      forall dst, (octets (coding a) * ((length e + octets (coding a) - 1) / octets (coding a)) + 1 <= length dst)%nat ->
      exists m back, decode a (upto_nul text) dst = Ret (m, back) /\
        forall scratch out, length scratch = 8%nat -> (length e <= length out)%nat ->
        exists plain, blowfish_decrypt c scratch (firstn m back) out = Ret (length e, plain ++ skipn (length e) out) /\ length plain = length e /\
          (plain = with_padding input (length e) <-> zeros_at_end (skipn (before_last (coding a) e) e)).
Proof.
  intros a c input Hc Hb Hn. set (en := SBlowfish.encrypt (flat c)). set (de := SBlowfish.decrypt (flat c)). set (e := SBlowfish.ecb en input).
  assert (Le : length e = SBlowfish.padded_length (length input)) by apply ecb_length. assert (He : bytes_ok e) by apply ecb_bytes.
  destruct (padded_mult (length input)) as (k & Ek & Hk). assert (Lk : length e = (8 * k)%nat) by congruence. assert (K : (0 < k)%nat) by (destruct input; [congruence|cbn [length] in Hk; lia]).
  assert (Ne : e <> []) by (intros X; rewrite X in Lk; cbn in Lk; lia).
  exists e. split; [exact He|]. split; [exact Le|]. split. { intros s out Ls Lo. rewrite Le in *. apply (run_en c Hc); assumption. }
  intros st buf Hst Lb. rewrite C06_encode_text by assumption. do 2 eexists. split; [reflexivity|]. intros dst Ld.
  assert (NZ : ~ In 0%N (lib_text (coding a) e)).
  { pose proof (lib_text_alphabet _ _ _ (api_compat a) e) as F. rewrite Forall_forall in F. intros Hin. destruct (F _ Hin) as [H|H]; [|discriminate]. revert H. destruct a; vm_compute; intuition discriminate. }
  assert (EU : upto_nul (lib_text (coding a) e ++ 0%N :: skipn (length (lib_text (coding a) e) + 1) buf) = lib_text (coding a) e) by (apply upto_nul_cut; exact NZ).
  rewrite EU. destruct (C08_decode_encode a e _ dst (or_introl eq_refl) Ne He Ld) as (tl & ->). do 2 eexists. split; [reflexivity|].
  intros s out Ls Lo. rewrite firstn_app, firstn_all, Nat.sub_diag, app_nil_r. destruct (tail_padded a e k K Lk He) as (P & Hw & Z). set (w := without_tail a e) in *.
  exists (SBlowfish.ecb de w). rewrite (run_de c Hc) by (auto; rewrite P; lia). rewrite P, <- Lk. split; [reflexivity|]. split; [rewrite ecb_length, P; congruence|].
  rewrite <- Z. assert (Dp : SBlowfish.ecb de e = with_padding input (length e)).
  { unfold e at 1. rewrite (ecb_inverse en de input (en_ok c Hc) (de_en c Hc) Hb). unfold with_padding, SBlowfish.pad8. rewrite Le. reflexivity. }
  rewrite <- Dp, <- ecb_pad. split; [|intros ->; reflexivity]. intros X. apply (ecb_inj de en _ _ k (de_ok c Hc) (en_de c Hc)) in X; auto.
  - apply pad8_bytes, Hw.
  - rewrite pad8_length. exact P.
Qed.
Print Assumptions C92_base_text.
(** C92: with Base16 the message always comes back *)
Theorem C92_base16_condition : forall e, e <> [] -> zeros_at_end (skipn (before_last (coding B16) e) e).
Proof.
  intros e Hn. unfold before_last. cbn [coding octets Base16]. rewrite Nat.div_1_r, Nat.mul_1_l. destruct e as [|x e] using rev_ind; [congruence|]. clear IHe.
  rewrite app_length. cbn [length]. replace (length e + 1 - 1)%nat with (length e) by lia. rewrite skipn_app, skipn_all, Nat.sub_diag. cbn [skipn app]. unfold zeros_at_end. cbn [upto_nul].
  destruct (N.eqb_spec x 0) as [->|X]; [exists 1%nat|exists 0%nat]; reflexivity.
Qed.
Print Assumptions C92_base16_condition.
(** C92: with hexadecimal text it always comes back *)
Theorem C92_hex_text : forall c input, context c -> bytes_ok input -> input <> [] ->
  exists e, bytes_ok e /\ length e = SBlowfish.padded_length (length input) /\
    (forall scratch out, length scratch = 8%nat -> (length e <= length out)%nat -> blowfish_encrypt c scratch input out = Ret (length e, e ++ skipn (length e) out)) /\
    forall buf, (2 * length e + 1 <= length buf)%nat -> exists text, to_hex e buf = Ret ((2 * length e)%nat, text) /\
      forall tail dst, (length e <= length dst)%nat -> exists back, from_hex (upto_nul text) tail dst = Ret (length e, back) /\
        forall scratch out, length scratch = 8%nat -> (length e <= length out)%nat ->
        blowfish_decrypt c scratch (firstn (length e) back) out = Ret (length e, with_padding input (length e) ++ skipn (length e) out).
Proof.
  intros c input Hc Hb Hn. set (en := SBlowfish.encrypt (flat c)). set (de := SBlowfish.decrypt (flat c)). set (e := SBlowfish.ecb en input).
  assert (Le : length e = SBlowfish.padded_length (length input)) by apply ecb_length. assert (He : bytes_ok e) by apply ecb_bytes.
  destruct (padded_mult (length input)) as (k & Ek & Hk). assert (Lk : length e = (8 * k)%nat) by congruence. assert (K : (0 < k)%nat) by (destruct input; [congruence|cbn [length] in Hk; lia]).
  assert (Ne : e <> []) by (intros X; rewrite X in Lk; cbn in Lk; lia).
  exists e. split; [exact He|]. split; [exact Le|]. split. { intros s out Ls Lo. rewrite Le in *. apply (run_en c Hc); assumption. }
  intros buf Lb. rewrite C01_hex_print by assumption. eexists. split; [reflexivity|]. intros tail dst Ld.
  assert (EU : upto_nul (hex_text e ++ 0 :: skipn (2 * length e + 1) buf) = hex_text e).
  { apply upto_nul_cut. intros Hin. pose proof (hex_text_digits e He) as D. rewrite forallb_forall in D. specialize (D _ Hin). discriminate D. }
  rewrite EU. pose proof (C01_hex_round_trip e (hex_text e) false false 48 120 104 tail dst He Ne) as R. cbn [affixed app] in R. rewrite app_nil_r in R.
  rewrite R; [|clear; induction (hex_text e); constructor; auto|cbn; auto|cbn; auto|exact Ld]. eexists. split; [reflexivity|]. intros s out Ls Lo.
  rewrite firstn_app, firstn_all, Nat.sub_diag, app_nil_r. assert (P : SBlowfish.padded_length (length e) = length e) by (rewrite Lk; apply padded_full).
  rewrite (run_de c Hc) by (auto; rewrite P; exact Lo). rewrite P. f_equal. f_equal. f_equal.
  unfold e at 1. fold de. rewrite (ecb_inverse en de input (en_ok c Hc) (de_en c Hc) Hb). unfold with_padding, SBlowfish.pad8. rewrite Le. reflexivity.
Qed.
Print Assumptions C92_hex_text.
(** C92, violation: for every context there are messages of one block that do not come back through Base32 or Base64 text, in both alphabets: those whose
    ciphertext is for instance 1, 1, 1, 1, 1, 1, 0, 1. *)
Theorem C92_base_text_refuted : forall a c, context c -> a <> B16 -> exists input, bytes_ok input /\ length input = 8%nat /\
  (forall scratch out, length scratch = 8%nat -> (8 <= length out)%nat -> blowfish_encrypt c scratch input out = Ret (8%nat, [1; 1; 1; 1; 1; 1; 0; 1] ++ skipn 8 out)) /\
  ~ zeros_at_end (skipn (before_last (coding a) [1; 1; 1; 1; 1; 1; 0; 1]) [1; 1; 1; 1; 1; 1; 0; 1]).
Proof.
  intros a c Hc Ha. set (e := [1; 1; 1; 1; 1; 1; 0; 1]). set (en := SBlowfish.encrypt (flat c)). set (de := SBlowfish.decrypt (flat c)). exists (SBlowfish.ecb de e).
  assert (He : bytes_ok e) by (repeat constructor). assert (L : length (SBlowfish.ecb de e) = 8%nat) by (rewrite ecb_length; reflexivity).
  split; [apply ecb_bytes|]. split; [exact L|]. split.
  - intros s out Ls Lo. rewrite (run_en c Hc) by (auto; rewrite L; exact Lo). rewrite L. change (SBlowfish.padded_length 8) with 8%nat. f_equal. f_equal. f_equal.
    fold en. rewrite (ecb_inverse de en e (de_ok c Hc) (en_de c Hc) He). reflexivity.
  - intros (k & E). destruct a; try congruence; vm_compute in E; destruct k as [|[|k]]; try discriminate E; cbn in E; discriminate E.
Qed.
Print Assumptions C92_base_text_refuted.
(** ... so that the whole pipeline, whatever the memory it uses contains, ends with other bytes than the message. *)
Theorem C92_message_lost_refuted : forall a c, context c -> a <> B16 -> exists input, bytes_ok input /\ length input = 8%nat /\
  forall scratch out enc st buf n text dst m back scratch' out' n' plain,
    length scratch = 8%nat -> (8 <= length out)%nat -> blowfish_encrypt c scratch input out = Ret (8%nat, enc) ->
    slack a st -> (16 < length buf)%nat -> encode a st (firstn 8 enc) buf = Ret (n, text) ->
    (11 <= length dst)%nat -> decode a (upto_nul text) dst = Ret (m, back) ->
    length scratch' = 8%nat -> (8 <= length out')%nat -> blowfish_decrypt c scratch' (firstn m back) out' = Ret (n', plain) ->
    n' = 8%nat /\ firstn 8 plain <> input.
Proof.
  intros a c Hc Ha. destruct (C92_base_text_refuted a c Hc Ha) as (input & Hb & L & Enc & Bad). exists input. split; [exact Hb|]. split; [exact L|].
  intros scratch out enc st buf n text dst m back scratch' out' n' plain Ls Lo E1 Hst Lbuf E2 Ld E3 Ls' Lo' E4.
  destruct (C92_base_text a c input Hc Hb) as (e & He & Le & En & Rest); [intros ->; discriminate L|]. rewrite L in Le. change (SBlowfish.padded_length 8) with 8%nat in Le.
  assert (Ee : e = [1; 1; 1; 1; 1; 1; 0; 1]).
  { specialize (En scratch out Ls). rewrite Le in En. specialize (En Lo). rewrite (Enc scratch out Ls Lo) in En. assert (X : [1; 1; 1; 1; 1; 1; 0; 1] ++ skipn 8 out = e ++ skipn 8 out) by congruence. apply app_inv_tail in X. symmetry. exact X. }
  assert (Ef : firstn 8 enc = e).
  { rewrite (Enc scratch out Ls Lo) in E1. assert (enc = [1; 1; 1; 1; 1; 1; 0; 1] ++ skipn 8 out) as -> by congruence. rewrite Ee. reflexivity. }
  rewrite Ef in E2. rewrite <- Ee in Bad.
  destruct (Rest st buf Hst) as (n0 & text0 & X2 & Rest').
  { rewrite Ee. destruct a; try congruence; (eapply Nat.le_lt_trans; [|exact Lbuf]); apply Nat.leb_le; vm_compute; reflexivity. }
  rewrite X2 in E2. assert (text0 = text) as -> by congruence. clear E2 X2.
  destruct (Rest' dst) as (m0 & back0 & X3 & Rest'').
  { rewrite Le. destruct a; try congruence; (eapply Nat.le_trans; [|exact Ld]); apply Nat.leb_le; vm_compute; reflexivity. }
  rewrite X3 in E3. assert (m0 = m /\ back0 = back) as [-> ->] by (split; congruence).
  destruct (Rest'' scratch' out' Ls') as (plain0 & X4 & Lp & Iff); [lia|]. rewrite X4 in E4. rewrite Le in *. split; [congruence|].
  assert (plain = plain0 ++ skipn 8 out') as -> by congruence. rewrite firstn_app, Lp, Nat.sub_diag, firstn_O, app_nil_r, firstn_all2 by lia.
  intros ->. apply Bad, Iff. unfold with_padding. rewrite L. cbn [Nat.sub repeat]. symmetry. apply app_nil_r.
Qed.
Print Assumptions C92_message_lost_refuted.

(** Non-vacuity: a context of zeros and a message; its ciphertext through hexadecimal and Base64 text; and a message that does not survive Base64 *)
Definition zero_context : bf_ctx := mkBf (repeat 0 18) (repeat (repeat 0 256) 4).
Definition send (a : api) (input : list N) : outcome (list N) :=
  '(n, enc) <- blowfish_encrypt zero_context (repeat 9 8) input (repeat 7 24) ;;
  '(_, text) <- encode a wide (firstn n enc) (repeat 7 60) ;;
  '(m, back) <- decode a (upto_nul text) (repeat 7 40) ;;
  '(k, plain) <- blowfish_decrypt zero_context (repeat 9 8) (firstn m back) (repeat 7 24) ;; Ret (firstn k plain).
Example C92_case : send B64 (chars "attack at dawn") = Ret (chars "attack at dawn" ++ [0; 0]) /\ send B16 (chars "attack at dawn") = Ret (chars "attack at dawn" ++ [0; 0]) /\
  send B64 [1; 1; 0; 1; 1; 1; 1; 1] = Ret [1; 1; 0; 0; 1; 1; 1; 1] /\ context zero_context /\ slack B64 wide.
Proof.
  split; [vm_compute; reflexivity|]. split; [vm_compute; reflexivity|]. split; [vm_compute; reflexivity|]. split.
  - repeat split; try reflexivity.
    + cbn [bS zero_context]. apply Forall_forall. intros r Hr. apply repeat_spec in Hr. subst r. apply repeat_length.
    + cbn [bP zero_context]. apply Forall_forall. intros x Hx. apply repeat_spec in Hx. subst x. reflexivity.
    + cbn [bS zero_context]. apply Forall_forall. intros r Hr. apply repeat_spec in Hr. subst r. apply Forall_forall. intros x Hx. apply repeat_spec in Hx. subst x. reflexivity.
  - intros n. cbn. lia.
Qed.
