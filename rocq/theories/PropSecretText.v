(** C94: secrets typed in as Base32 text. Everything here is about the modelled calls of MCppBase.v, MBase.v, MOtpObj.v, MOtp.v and MHmac.v used one after the other. *)
From Coq Require Import String.
From Verif Require SFips202 SMd5.
From Verif Require Import Base MBase SRfc4648 PBase PropBase MCppSize MCppBase SCppBase PCppBase PCppBase2 PropCppBase.
From Verif Require Import SFips180 SShaLib MSha MFront MMd5 MKeccak SHash SKeccakFns SHashFns PTyped MHmac SHmac SHmac2 PHmac PropHmac PropHmac2 MOtp SOtp POtp PropOtp MOtpObj SOtpObj PropOtpObj PropPipeline MTotpProgram STotpProgram PropTotpProgram.
Local Open Scope N_scope.

(** the Base32 text of [x], of RFC 4648 or as this library writes it *)
Definition base32_text (x t : list N) : Prop := t = rfc_encode Base32 x \/ t = lib_text Base32 x.
(** the four calls that take a secret as Base32 text, given [t] *)
Definition enters (t : list N) (k : set_call) : Prop :=
  k = SetSecretFromBase32Str t \/ k = SetSecretStr t true \/
  exists rest, (Z.of_nat (length t + length rest + 1) < 2 ^ 62)%Z /\ (k = SetSecretFromBase32Cstr (t ++ 0 :: rest) \/ k = SetSecretCstr (t ++ 0 :: rest) true).
(** a program that at some point types in the text [t], and afterwards sets no other secret *)
Definition typed_in (t : list N) (ks : list set_call) : Prop :=
  exists before k after, ks = before ++ k :: after /\ Forall set_ok before /\ enters t k /\ Forall counter_call after.
(** uninitialised memory of a generate call *)
Definition env_ok {garbage a} (D : nat) (e : locals garbage a) : Prop := ectx_ok (lo_ctx e) /\ eloc_ok (lo_loc e) /\ length (lo_out e) = D.

(** ** Facts *)
Lemma rfc_nonzero x : ~ In 0 (rfc_encode Base32 x).
Proof.
  assert (D : Forall (fun ch => In ch (symbols Base32)) (rfc_data Base32 x)).
  { rewrite rfc_data_vals. apply Forall_map. pose proof (vals_lt (width Base32) x) as V. eapply Forall_impl; [|apply V; cbn; lia].
    intros v Hv. cbn beta in Hv. apply nth_In. change (length (symbols Base32)) with 32%nat. change (2 ^ N.of_nat (width Base32)) with 32 in Hv. lia. }
  unfold rfc_encode. intros H. apply in_app_or in H as [H|H].
  - rewrite Forall_forall in D. apply D in H. revert H. vm_compute. intuition discriminate.
  - apply repeat_spec in H. discriminate.
Qed.
Lemma lib_nonzero x : ~ In 0 (lib_text Base32 x).
Proof.
  pose proof (lib_text_alphabet _ _ _ (api_compat B32) x) as F. rewrite Forall_forall in F. intros Hin. destruct (F _ Hin) as [H|H]; [|discriminate]. revert H. vm_compute. intuition discriminate.
Qed.
Lemma text_facts x t : base32_text x t -> ~ In 0 t /\ length t = length (lib_text Base32 x).
Proof.
  intros [E|E]; subst t; (split; [apply rfc_nonzero || apply lib_nonzero|]); [|reflexivity]. symmetry. exact (text_length_eq _ _ _ x (api_compat B32)).
Qed.
Lemma text_nonempty x t : x <> [] -> base32_text x t -> t <> [].
Proof.
  intros Hx Ht. apply text_facts in Ht as [_ L]. intros C. subst t. cbn [length] in L. revert L.
  rewrite (lib_text_length _ _ _ (api_compat B32)). change (chunk_count (params B32)) with 8%nat. change (unit_size (params B32)) with 5%nat. intros L.
  assert (X : (1 <= length x)%nat) by (destruct x; [congruence|cbn [length]; lia]).
  assert (1 <= (length x + 5 - 1) / 5)%nat by (apply Nat.div_le_lower_bound; lia). lia.
Qed.
(** the secret the object holds is what the decoder makes of the text *)
Lemma c_decodes_typed x t v : x <> [] -> bytes_ok x -> base32_text x t -> c_decodes B32 t v -> v = without_tail B32 x.
Proof.
  intros Hx Hb Ht H. set (out := repeat 0 (unit_space B32 (length t) + (octets (coding B32) * ((length x + octets (coding B32) - 1) / octets (coding B32)) + 1))%nat).
  destruct (H out) as (tl & E); [unfold out; rewrite repeat_length; lia|].
  assert (Ht' : t = lib_text (coding B32) x \/ t = rfc_encode (coding B32) x) by (destruct Ht; auto).
  destruct (C08_decode_encode B32 x t out Ht' Hx Hb) as (tl2 & E2); [unfold out; rewrite repeat_length; lia|].
  rewrite E in E2. apply Ret_inj in E2. injection E2 as L E2. eapply same_prefix; eauto.
Qed.
Lemma enters_gives x t k v : x <> [] -> bytes_ok x -> base32_text x t -> enters t k -> gives k v -> v = without_tail B32 x.
Proof.
  intros Hx Hb Ht He G. apply (c_decodes_typed x t v Hx Hb Ht). destruct (text_facts _ _ Ht) as [NZ _].
  destruct He as [E|[E|(rest & _ & [E|E])]]; subst k; cbn [gives] in G; rewrite ?upto_nul_cut in G by exact NZ; rewrite ?upto_nul_id in G by exact NZ; exact G.
Qed.
Lemma enters_ok x t k : x <> [] -> base32_text x t -> (Z.of_nat (length t) < 2 ^ 62)%Z -> enters t k -> set_ok k.
Proof.
  intros Hx Ht Lt He. destruct (text_facts _ _ Ht) as [NZ _]. pose proof (text_nonempty _ _ Hx Ht) as NE.
  destruct He as [E|[E|(rest & L & [E|E])]]; subst k; cbn [set_ok SCppBase.call_ok]; rewrite ?upto_nul_cut by exact NZ; rewrite ?upto_nul_id by exact NZ; auto.
  all: split; [apply in_or_app; right; left; reflexivity|]; split; [exact NE|]; rewrite app_length; cbn [length]; lia.
Qed.
Lemma counters_ok ks : Forall counter_call ks -> Forall set_ok ks.
Proof. apply Forall_impl. intros []; cbn; tauto. Qed.

Lemma bytes_tail x : bytes_ok x -> bytes_ok (without_tail B32 x).
Proof. intros Hb. apply Forall_app. split; [exact (PKeccak.bytes_firstn _ _ Hb)|]. apply upto_nul_ok. exact (PKeccak.bytes_skipn _ _ Hb). Qed.

(** the secret after such a program *)
Lemma typed_secret x t ks r : x <> [] -> bytes_ok x -> base32_text x t -> typed_in t ks -> secret_after ks r -> r = Some (without_tail B32 x).
Proof.
  intros Hx Hb Ht (before & k & after & -> & F1 & He & F2).
  destruct r as [s|]; cbn [secret_after].
    - intros (b' & k' & af' & Eq & Gv & F'). f_equal.
      assert (NC : ~ counter_call k) by (destruct He as [E|[E|(rest & _ & [E|E])]]; subst k; exact (fun z => z)).
      assert (NC' : ~ counter_call k') by (destruct k'; cbn [gives counter_call] in *; tauto).
      assert (k = k') as <-; [|exact (enters_gives x t k s Hx Hb Ht He Gv)].
      clear - Eq F2 F' NC NC'. revert b' Eq. induction before as [|y before IH]; intros [|y' b'] Eq; cbn [app] in Eq; injection Eq as Ey Eq.
      + exact Ey.
      + exfalso. subst after. apply Forall_app in F2 as [_ F2]. inversion F2; subst. auto.
      + exfalso. subst af'. apply Forall_app in F' as [_ F']. inversion F'; subst. auto.
      + exact (IH b' Eq).
    - intros Fa. exfalso. apply Forall_app in Fa as [_ Fa]. inversion Fa as [|? ? C _]; subst. destruct He as [E|[E|(rest & _ & [E|E])]]; subst k; exact C.
Qed.

(** ** C94 *)
(** C94: a non-empty secret [x] is written as Base32 text (the RFC's or the library's) and typed in, with any one of the four calls, at any point of a program after
    which no other secret is set (counters may be). Then every password is RFC 4226's for the secret less its tail (from the first zero byte of the final group of five
    bytes on), cut to the hash's block. *)
Theorem C94_typed_secret : forall garbage a P M H B D, choice_std a P M H B D -> a <> A_MD5 ->
  forall x t ks co0, x <> [] -> bytes_ok x -> base32_text x t -> (Z.of_nat (length t) < 2 ^ 62)%Z -> typed_in t ks ->
  exists h c, do_sets true (new_hotp co0) ks = Ret h /\ counter_after ks co0 c /\
    forall (e : locals garbage a) d, env_ok D e -> hotp_generate e h d = Ret (Otp (HOTP H B (firstn B (without_tail B32 x)) c d)).
Proof.
  intros garbage a P M H B D K Ha x t ks co0 Hx Hb Ht Lt (before & k & after & -> & F1 & He & F2).
  assert (F : Forall set_ok (before ++ k :: after)).
  { apply Forall_app. split; [exact F1|]. constructor; [exact (enters_ok x t k Hx Ht Lt He)|apply counters_ok, F2]. }
  destruct (C46_hotp_history garbage a co0 _ F) as (h & E & (r & c & Hr & Hc) & G). exists h, c. split; [exact E|]. split; [exact Hc|].
  intros e d (E1 & E2 & E3). destruct (G r c Hr Hc e d) as [-> _].
  assert (R : r = Some (without_tail B32 x)) by (eapply typed_secret; eauto; exists before, k, after; auto).
  subst r. pose proof (bytes_tail x Hb) as Wb. rewrite (C39_long_secret_cut garbage a P M H B D K Ha) by assumption.
  reflexivity.
Qed.
Print Assumptions C94_typed_secret.

(** C94: the bytes that are left are, as an HMAC key, the same key exactly if no zero byte of the final group is followed by a non-zero one. *)
Theorem C94_key_kept : forall B x, (length x <= B)%nat -> (same_key B (without_tail B32 x) x <-> zeros_at_end (skipn (before_last Base32 x) x)).
Proof.
  intros B x L. unfold without_tail. change (coding B32) with Base32. set (b := before_last Base32 x). set (s := skipn b x). pose proof (upto_nul_length s) as U.
  pose proof (firstn_skipn b x) as FS. fold s in FS. set (p := firstn b x) in *. clearbody p s. rewrite <- FS in L |- *. rewrite app_length in L. split.
  - intros S. exists (length s - length (upto_nul s))%nat. apply nth_ext with (d := 0) (d' := 0).
    + rewrite app_length, repeat_length. lia.
    + intros i Hi. specialize (S (length p + i)%nat ltac:(lia)). rewrite !app_nth2 in S by lia. replace (length p + i - length p)%nat with i in S by lia. rewrite <- S.
      destruct (Nat.lt_ge_cases i (length (upto_nul s))).
      * rewrite app_nth1 by lia. reflexivity.
      * rewrite app_nth2, nth_repeat, nth_overflow by lia. reflexivity.
  - intros (j & E). rewrite E at 2. rewrite app_assoc. apply C65_trailing_zeros.
Qed.
Print Assumptions C94_key_kept.
Lemma kept_value H B x c d : (length x <= B)%nat -> zeros_at_end (skipn (before_last Base32 x) x) -> HOTP H B (firstn B (without_tail B32 x)) c d = HOTP H B x c d.
Proof.
  intros L Z. apply (C94_key_kept B x L) in Z.
  assert (W : (length (without_tail B32 x) <= length x)%nat).
  { unfold without_tail. pose proof (upto_nul_length (skipn (before_last (coding B32) x) x)) as U. rewrite skipn_length in U. rewrite app_length, firstn_length. lia. }
  rewrite firstn_all2 by lia. unfold HOTP. rewrite (C65_rfc_same_tag H B _ _ Z); [reflexivity|lia|exact L].
Qed.
(** C94: so in that case, for a secret of at most a block, every password is RFC 4226's for the secret itself. *)
Theorem C94_secret_kept : forall garbage a P M H B D, choice_std a P M H B D -> a <> A_MD5 ->
  forall x t ks co0, x <> [] -> bytes_ok x -> (length x <= B)%nat -> base32_text x t -> (Z.of_nat (length t) < 2 ^ 62)%Z -> typed_in t ks ->
  zeros_at_end (skipn (before_last Base32 x) x) ->
  exists h c, do_sets true (new_hotp co0) ks = Ret h /\ counter_after ks co0 c /\
    forall (e : locals garbage a) d, env_ok D e -> hotp_generate e h d = Ret (Otp (HOTP H B x c d)).
Proof.
  intros garbage a P M H B D K Ha x t ks co0 Hx Hb L Ht Lt Hk Z.
  destruct (C94_typed_secret garbage a P M H B D K Ha x t ks co0 Hx Hb Ht Lt Hk) as (h & c & E & Hc & G). exists h, c. split; [exact E|]. split; [exact Hc|]. intros e d He. rewrite (G e d He).
  rewrite (kept_value H B x c d L Z). reflexivity.
Qed.
Print Assumptions C94_secret_kept.

(** C94, the same on a TOTP object (an authenticator app): in every program of C91, a request made after the secret was typed in as Base32 text and before any other
    secret is set is answered with RFC 6238's value (or its text) for the secret itself, under the same condition. *)
Theorem C94_authenticator : forall garbage a P M H B D, choice_std a P M H B D -> a <> A_MD5 ->
  forall co0 iv0 (setup mid post : list (totp_call garbage a)) k iv t0, asks k = true -> program_ok co0 iv0 setup (mid ++ k :: post) iv t0 -> 0 < iv < 2 ^ 32 ->
  forall x t, x <> [] -> bytes_ok x -> (length x <= B)%nat -> base32_text x t -> (Z.of_nat (length t) < 2 ^ 62)%Z -> typed_in t (sets (setup ++ mid)) ->
  zeros_at_end (skipn (before_last Base32 x) x) ->
  exists rs r, totp_session true (new_totp co0 iv0) (setup ++ mid ++ k :: post) = Ret rs /\ nth_error rs (length (filter asks mid)) = Some r /\ answered H B t0 iv (Some x) k r.
Proof.
  intros garbage a P M H B D K Ha co0 iv0 setup mid post k iv t0 Ak (A1 & A2 & A3 & A4 & A5 & A6 & A7) Hi x t Hx Hb L Ht Lt Hk Z.
  destruct (C91_totp_program _ _ _ _ _ _ _ K Ha co0 iv0 _ _ iv t0 A1 A2 A3 A4 A5 Hi A6 A7) as (rs & R & _ & Q).
  assert (F : Forall call_fine (setup ++ mid)). { rewrite app_assoc in A1. apply Forall_app in A1 as [A1 _]. exact A1. }
  destruct (C91_settings_exist garbage a setup mid iv0 F A2) as (_ & _ & so & So).
  pose proof (typed_secret x t _ so Hx Hb Ht Hk So) as Es. subst so.
  destruct (Q mid k post eq_refl Ak _ So) as (r & N1 & V). exists rs, r. split; [exact R|]. split; [exact N1|].
  destruct k; cbn [answered] in *; try discriminate Ak.
  - destruct V as (now & W & V). exists now. split; [exact W|]. rewrite kept_value in V by assumption. rewrite (firstn_all2 x L). exact V.
  - destruct V as (now & text & W & V & Dc). exists now, text. split; [exact W|]. split; [exact V|]. rewrite kept_value in Dc by assumption. rewrite (firstn_all2 x L). exact Dc.
Qed.
Print Assumptions C94_authenticator.
(** two secrets of this form enter the same password sequence: the bytes behind the first zero byte of a final group do not matter *)
Theorem C94_merged_refuted : forall garbage a P M H B D, choice_std a P M H B D -> a <> A_MD5 ->
  forall n p y z, length p = (5 * n)%nat -> (length y <= 4)%nat -> (length z <= 4)%nat -> bytes_ok p -> bytes_ok y -> bytes_ok z ->
  forall t u ks ls co0, base32_text (p ++ 0 :: y) t -> base32_text (p ++ 0 :: z) u -> (Z.of_nat (length t) < 2 ^ 62)%Z -> (Z.of_nat (length u) < 2 ^ 62)%Z -> typed_in t ks -> typed_in u ls ->
  exists h c h' c', do_sets true (new_hotp co0) ks = Ret h /\ counter_after ks co0 c /\ do_sets true (new_hotp co0) ls = Ret h' /\ counter_after ls co0 c' /\
    (c = c' -> forall (e e' : locals garbage a) d, env_ok D e -> env_ok D e' -> hotp_generate e h d = hotp_generate e' h' d).
Proof.
  intros garbage a P M H B D K Ha n p y z Lp Ly Lz Bp By Bz t u ks ls co0 Ht Hu Lt Lu Hk Hl.
  assert (W : forall s, (length s <= 4)%nat -> without_tail B32 (p ++ 0 :: s) = p).
  { intros s Ls. unfold without_tail, before_last. change (octets (coding B32)) with 5%nat. rewrite app_length. cbn [length].
    replace ((length p + S (length s) - 1) / 5)%nat with n by (apply Nat.div_unique with (r := length s); lia).
    rewrite <- Lp, firstn_app, firstn_all, Nat.sub_diag, skipn_app, skipn_all, Nat.sub_diag. cbn [firstn skipn app upto_nul]. rewrite !app_nil_r. reflexivity. }
  assert (N : forall s, p ++ 0 :: s <> []) by (intros s; destruct p; discriminate).
  assert (Bb : forall s, bytes_ok s -> bytes_ok (p ++ 0 :: s)) by (intros s Hs; apply Forall_app; split; [exact Bp|constructor; [unfold is_byte; lia|exact Hs]]).
  destruct (C94_typed_secret garbage a P M H B D K Ha _ t ks co0 (N y) (Bb y By) Ht Lt Hk) as (h & c & E & Hc & G).
  destruct (C94_typed_secret garbage a P M H B D K Ha _ u ls co0 (N z) (Bb z Bz) Hu Lu Hl) as (h' & c' & E' & Hc' & G').
  exists h, c, h', c'. split; [exact E|]. split; [exact Hc|]. split; [exact E'|]. split; [exact Hc'|]. intros <- e e' d He He'. rewrite (G e d He), (G' e' d He'), !W by assumption. reflexivity.
Qed.
Print Assumptions C94_merged_refuted.
(** C94, violation: an ordinary 20-byte secret whose last group is "67", a zero byte, "89": RFC 4226's first password is one number, the library's another. *)
Definition unlucky : list N := chars "12345678901234567" ++ [0] ++ chars "89".
Lemma otp_inj {A} (x y : A) : Otp x = Otp y -> x = y. Proof. intros E. injection E. auto. Qed.
Lemma unlucky_left : without_tail B32 unlucky = chars "12345678901234567". Proof. vm_compute. reflexivity. Qed.
Lemma unlucky_values : HOTP SHA1 64 (chars "12345678901234567") 0 6 <> HOTP SHA1 64 unlucky 0 6.
Proof. vm_compute. discriminate. Qed.
Theorem C94_wrong_password_refuted : forall garbage co0 t ks, base32_text unlucky t -> typed_in t ks -> counter_after ks co0 0 ->
  exists h, do_sets true (new_hotp co0) ks = Ret h /\
    forall (e : locals garbage A_SHA1) r, env_ok 20 e -> hotp_generate e h 6 = Ret r -> r <> Otp (HOTP SHA1 64 unlucky 0 6).
Proof.
  intros garbage co0 t ks Ht Hk C0. assert (Hb : bytes_ok unlucky) by (unfold unlucky; cbn; repeat constructor).
  assert (Lt : (Z.of_nat (length t) < 2 ^ 62)%Z) by (destruct (text_facts _ _ Ht) as [_ EL]; rewrite EL; vm_compute; reflexivity).
  destruct (C94_typed_secret garbage A_SHA1 _ _ _ _ _ cs_sha1 ltac:(discriminate) unlucky t ks co0 ltac:(discriminate) Hb Ht Lt Hk) as (h & c & E & Hc & G).
  exists h. split; [exact E|]. intros e r He Hr. rewrite (G e 6 He), unlucky_left, firstn_all2, (C46_counter_unique _ _ _ _ Hc C0) in Hr by (apply Nat.leb_le; reflexivity).
  intros X. rewrite X in Hr. apply Ret_inj, otp_inj in Hr. exact (unlucky_values Hr).
Qed.
Print Assumptions C94_wrong_password_refuted.

(** ** concrete cases *)
(** RFC 4226's test secret, typed in as "GEZDGNBVGY3TQOJQGEZDGNBVGY3TQOJQ", then the counter set to 1: 287082 *)
Definition rfc_text : list N := chars "GEZDGNBVGY3TQOJQGEZDGNBVGY3TQOJQ".
Definition rfc_program : list set_call := [SetSecret [1; 2]; SetSecretFromBase32Str rfc_text; SetCounter 1].
Example C94_case : base32_text rfc_secret rfc_text /\ typed_in rfc_text rfc_program /\ typed_in rfc_text [SetSecretCstr (rfc_text ++ [0]) true; SetCounter 1] /\
  zeros_at_end (skipn (before_last Base32 rfc_secret) rfc_secret) /\ counter_after rfc_program 9 1 /\ env_ok 20 env1 /\
  exists h, do_sets true (new_hotp 9) rfc_program = Ret h /\ hotp_generate env1 h 6 = Ret (Otp 287082).
Proof.
  assert (Ht : base32_text rfc_secret rfc_text) by (left; vm_compute; reflexivity).
  assert (Hk : typed_in rfc_text rfc_program) by (exists [SetSecret [1; 2]], (SetSecretFromBase32Str rfc_text), [SetCounter 1]; split; [reflexivity|]; split; [repeat constructor|]; split; [left; reflexivity|repeat constructor]).
  assert (Hz : zeros_at_end (skipn (before_last Base32 rfc_secret) rfc_secret)) by (exists 0%nat; vm_compute; reflexivity).
  assert (Hc : counter_after rfc_program 9 1) by (left; exists [SetSecret [1; 2]; SetSecretFromBase32Str rfc_text], []; split; [reflexivity|constructor]).
  assert (He : env_ok 20 env1) by (destruct blank1_ok as [X Y]; split; [exact X|split; [exact Y|reflexivity]]).
  split; [exact Ht|]. split; [exact Hk|]. split.
  { exists [], (SetSecretCstr (rfc_text ++ [0]) true), [SetCounter 1]. split; [reflexivity|]. split; [constructor|]. split; [|repeat constructor]. right; right. exists []. split; [vm_compute; reflexivity|auto]. }
  split; [exact Hz|]. split; [exact Hc|]. split; [exact He|].
  assert (Hs : bytes_ok rfc_secret) by (unfold rfc_secret; cbn; repeat constructor).
  destruct (C94_secret_kept None A_SHA1 _ _ _ _ _ cs_sha1 ltac:(discriminate) rfc_secret rfc_text rfc_program 9 ltac:(discriminate) Hs ltac:(cbn; lia) Ht ltac:(vm_compute; reflexivity) Hk Hz) as (h & c & E & C & G).
  exists h. split; [exact E|]. rewrite (G env1 6 He), (C46_counter_unique _ _ _ _ C Hc), C39_case. reflexivity.
Qed.
Example C94_unlucky_case : base32_text unlucky (chars "GEZDGNBVGY3TQOJQGEZDGNBVGY3QAOBZ") /\ ~ zeros_at_end (skipn (before_last Base32 unlucky) unlucky) /\
  base32_text (chars "12345" ++ 0 :: [1]) (chars "GEZDGNBVAAAQ====") /\ base32_text (chars "12345" ++ 0 :: [2]) (chars "GEZDGNBVAABA====").
Proof.
  split; [left; vm_compute; reflexivity|]. split; [|split; left; vm_compute; reflexivity].
  intros (k & E). apply (f_equal (fun l => nth 3 l 0)) in E. rewrite app_nth2, nth_repeat in E by (vm_compute; lia). vm_compute in E. discriminate E.
Qed.
(** such a call meets C91's condition *)
Lemma typed_call_fine garbage a x t k : x <> [] -> bytes_ok x -> base32_text x t -> (Z.of_nat (length t) < 2 ^ 62)%Z -> enters t k -> @call_fine garbage a (TSet k).
Proof.
  intros Hx Hb Ht Lt He. split; [exact (enters_ok x t k Hx Ht Lt He)|]. intros s G. rewrite (enters_gives x t k s Hx Hb Ht He G). apply bytes_tail, Hb.
Qed.
(** an app that is told the interval, then the text, and is asked at second 59 *)
Definition app_setup : list (totp_call None A_SHA1) := [TSetInterval 30; TSet (SetSecretStr rfc_text true)].
Example C94_authenticator_case : program_ok 5 60 app_setup ([] ++ TGenerate env1 59 59 8 :: []) 30 0 /\ typed_in rfc_text (sets (app_setup ++ [])) /\
  answered SHA1 64 0 30 (Some rfc_secret) (TGenerate env1 59 59 8) (AValue (Otp (HOTP SHA1 64 rfc_secret 1 8))) /\
  totp_session true (new_totp 5 60) (app_setup ++ [TGenerate env1 59 59 8]) = Ret [AValue (Otp 94287082)].
Proof.
  assert (Ek : ectx_ok (lo_ctx env1) /\ eloc_ok (lo_loc env1) /\ length (lo_out env1) = digest_size A_SHA1) by (split; [apply blank1_ok|]; split; [apply blank1_ok|reflexivity]).
  assert (Hs : bytes_ok rfc_secret) by (unfold rfc_secret; cbn; repeat constructor). assert (Ht : base32_text rfc_secret rfc_text) by (left; vm_compute; reflexivity).
  split; [|split; [|split]].
  - split; [|split; [|split; [|split; [|split; [|split]]]]].
    + unfold app_setup. cbn [app]. repeat (apply Forall_cons || apply Forall_nil); try exact Ek; try exact Logic.I.
      apply (typed_call_fine None A_SHA1 rfc_secret rfc_text); [discriminate|exact Hs|exact Ht|vm_compute; reflexivity|right; left; reflexivity].
    + repeat constructor.
    + repeat (apply Forall_cons || apply Forall_nil); cbn; auto.
    + left. exists [], [TSet (SetSecretStr rfc_text true)]. split; [reflexivity|]. repeat constructor. cbn. auto.
    + right. split; [reflexivity|]. repeat (apply Forall_cons || apply Forall_nil); cbn; auto.
    + cbn [app readings flat_map]. repeat (apply Forall_cons || apply Forall_nil); unfold clock_ok; pow62; lia.
    + cbn. lia.
  - exists [], (SetSecretStr rfc_text true), []. split; [reflexivity|]. split; [constructor|]. split; [right; left; reflexivity|constructor].
  - exists 59%Z. split; [auto|]. cbn [firstn rfc_secret]. reflexivity.
  - vm_compute. reflexivity.
Qed.
