(** C77: HOTP and TOTP objects when memory runs out. *)
From Coq Require Import String.
From Verif Require SFips202 SMd5.
From Verif Require Import Base MBase SRfc4648 PropBase MCppSize PCppSize MCppBase SCppBase PCppBase PCppBase2 PropCppBase.
From Verif Require Import SFips180 SShaLib MSha MFront MMd5 MKeccak SHash SKeccakFns SHashFns PTyped MHmac SHmac PHmac PropHmac MOtp SOtp POtp PropOtp MOtpObj SOtpObj PropOtpObj MFail SFail.
Local Open Scope N_scope.

Definition decodes (k : call) : Prop := match k with DecodeCstr _ | DecodeStr _ => True | _ => False end.
Definition idle_obj (poisoned : bool) (o : object) : Prop := bufs o /\ enc_locked o = false /\ dec_locked o = poisoned.
Definition with_lock (o : object) (b : bool) : object := mkObj (en_cache o) (encsz o) (enc_locked o) (de_cache o) (decsz o) b.

Lemma job_dec k : decodes k -> call_ok k -> exists s sz, job_of k = Ret (JDec s) /\ dec_space (bitsz (CBase32 false)) (Z.of_nat (length s)) = Some sz.
Proof.
  intros D K. destruct (job_of_ok (CBase32 false) k K) as (j & E & J & _). destruct k; cbn in D; try contradiction; cbn [job_of] in E |- *.
  all: destruct (c_string _) as [x| |]; try discriminate; cbn [bind] in E |- *; injection E as <-; cbn [job_ok] in J;
    destruct (dec_space_bounds (bitsz (CBase32 false)) (Z.of_nat (length x)) (bitsz_in (CBase32 false)) ltac:(lia)) as (z & Ez & _); eauto.
Qed.
Lemma decode_stuck al o k : decodes k -> call_ok k -> dec_locked o = true -> decode_with al o k = Hang.
Proof.
  intros D K L. destruct (job_dec k D K) as (s & sz & J & S). unfold decode_with. cbn [run]. unfold step at 1. cbn [nth_error who]. unfold step_thread. cbn [at_ todo]. rewrite J. cbn [lift]. rewrite S.
  cbn [bind firstn skipn app results].
  do 6 (unfold step at 1; cbn [nth_error who]; unfold step_thread at 1; cbn [at_ todo]; rewrite L; cbn [bind]). reflexivity.
Qed.

Lemma job_dec2 k : decodes k -> call_ok k -> exists s sz, job_of k = Ret (JDec s) /\ job_ok (JDec s) /\ space (CBase32 false) (JDec s) = Some sz /\ forall v, job_value (CBase32 false) (JDec s) v -> call_value (CBase32 false) k v.
Proof.
  intros D K. destruct (job_dec k D K) as (s & sz & J & S). destruct (job_of_ok (CBase32 false) k K) as (j & E & O & V). rewrite J in E. injection E as <-. exists s, sz. auto.
Qed.
Lemma run_rest c o r sched : Forall (fun ch => who ch = 0%nat) sched -> run c (o, [mkThread [] Outside r]) sched = Ret (o, [mkThread [] Outside r]).
Proof. induction 1 as [|ch l W F IH]; [reflexivity|]. cbn [run]. unfold step. rewrite W. cbn [nth_error]. unfold step_thread. cbn [at_ todo bind]. exact IH. Qed.

Lemma decode_free al o k : decodes k -> call_ok k -> idle_obj false o ->
  (exists o' v, decode_with al o k = Ret (o', if fails al ReturnFails then None else Some v) /\ call_value (CBase32 false) k v /\ idle_obj false o') \/
  (exists o', (al = CacheFails \/ al = CopyFails) /\ decode_with al o k = Ret (o', None) /\ idle_obj true o').
Proof.
  intros D K (B & U & L). destruct (job_dec2 k D K) as (s & sz & J & O & Sp & V). pose proof B as (B1 & B2 & B3 & B4). destruct O as [On Ol].
  unfold decode_with. cbn [run].
  rewrite (step_single _ _ _ _ o (mkThread [] (AtLock (JDec s) sz) [])); [|reflexivity|unfold step_thread; cbn [at_ todo]; rewrite J; cbn [lift]; unfold space in Sp; rewrite Sp; reflexivity].
  cbn [bind]. set (o1 := with_lock o true).
  rewrite (step_single _ _ _ _ o1 (mkThread [] (AtCheck (JDec s) sz) [])); [|reflexivity|unfold step_thread; cbn [at_]; rewrite L; reflexivity].
  cbn [bind].
  assert (Hcheck : (al = CacheFails /\ step (CBase32 false) (o1, [mkThread [] (AtCheck (JDec s) sz) []]) (mkChoice 0 (negb (fails al CacheFails)) idle) = Ret (o1, [mkThread [] Outside [Threw]])) \/
    exists o2, step (CBase32 false) (o1, [mkThread [] (AtCheck (JDec s) sz) []]) (mkChoice 0 (negb (fails al CacheFails)) idle) = Ret (o2, [mkThread [] (AtCall (JDec s)) []]) /\
      bufs o2 /\ enc_locked o2 = false /\ dec_locked o2 = true /\ (unit_space B32 (length s) + 1 <= length (de_cache o2))%nat).
  { unfold step. cbn [nth_error who MCppBase.mem_ok stk]. unfold step_thread. cbn [at_]. change (decsz o1) with (decsz o). destruct (Z.leb_spec (decsz o) sz) as [G|G].
    - destruct al; cbn [fails negb]; [right|left; split; reflexivity|right|right|right];
        (eexists; split; [reflexivity|]; split; [unfold bufs; cbn [en_cache encsz de_cache decsz]; rewrite repeat_length; repeat split; auto; lia|]; split; [exact U|]; split; [reflexivity|];
         cbn [de_cache]; rewrite repeat_length; pose proof (dec_fits (CBase32 false) s sz sz Ol Sp ltac:(lia) ltac:(lia)); cbn [api_of] in *; lia).
    - right. exists o1. split; [reflexivity|]. split; [exact B|]. split; [exact U|]. split; [reflexivity|]. change (de_cache o1) with (de_cache o).
      pose proof (dec_fits (CBase32 false) s sz (decsz o) Ol Sp ltac:(lia) ltac:(lia)); cbn [api_of] in *; lia. }
  destruct Hcheck as [[-> E]|(o2 & E & Bo & Uo & Lo & Fit)]; rewrite E; cbn [bind].
  - right. exists o1. split; [auto|]. split; [|split; [exact B|split; [exact U|reflexivity]]]. reflexivity.
  - destruct (c_decodes_dec B32 s On (de_cache o2) Fit) as (tl & Ed). pose proof Bo as (C1 & C2 & C3 & C4).
    destruct (C12_decode_footprint B32 s (de_cache o2) On Fit) as (n & e2 & E2 & _ & L2 & _). rewrite Ed in E2. injection E2 as _ <-.
    set (e := dec_text B32 s ++ 0 :: tl) in *. set (o3 := mkObj (en_cache o2) (encsz o2) (enc_locked o2) e (decsz o2) (dec_locked o2)).
    assert (B3' : bufs o3) by (unfold bufs, o3; cbn [en_cache encsz de_cache decsz]; rewrite L2; auto).
    rewrite (step_single _ _ _ _ o3 (mkThread [] (AtTerminator (JDec s) (length (dec_text B32 s))) [])); [|reflexivity|unfold step_thread; cbn [at_]; rewrite decode_f_eq; cbn [api_of]; rewrite Ed; reflexivity].
    cbn [bind].
    rewrite (step_single _ _ _ _ o3 (mkThread [] (AtCopy (JDec s) (length (dec_text B32 s))) [])); [|reflexivity|unfold step_thread; cbn [at_]; change (de_cache o3) with e; unfold e; rewrite wr_app by reflexivity; reflexivity].
    cbn [bind].
    assert (Hcopy : (al = CopyFails /\ step (CBase32 false) (o3, [mkThread [] (AtCopy (JDec s) (length (dec_text B32 s))) []]) (mkChoice 0 (negb (fails al CopyFails)) idle) = Ret (o3, [mkThread [] Outside [Threw]])) \/
      step (CBase32 false) (o3, [mkThread [] (AtCopy (JDec s) (length (dec_text B32 s))) []]) (mkChoice 0 (negb (fails al CopyFails)) idle) = Ret (o3, [mkThread [] (AtUnlock (JDec s) (dec_text B32 s)) []])).
    { assert (G : step_thread (CBase32 false) true idle o3 (mkThread [] (AtCopy (JDec s) (length (dec_text B32 s))) []) = Next o3 (mkThread [] (AtUnlock (JDec s) (dec_text B32 s)) [])).
      { unfold step_thread. cbn [at_]. change (de_cache o3) with e. unfold e. destruct (Nat.leb_spec (length (dec_text B32 s)) (length (dec_text B32 s ++ 0 :: tl))) as [G|G]; [|rewrite app_length in G; lia].
        rewrite firstn_app, firstn_all, Nat.sub_diag. cbn [firstn]. rewrite app_nil_r. reflexivity. }
      unfold step. cbn [nth_error who MCppBase.mem_ok stk]. destruct al; cbn [fails negb]; try (right; rewrite G; reflexivity). left. split; reflexivity. }
    destruct Hcopy as [[-> Ec]|Ec]; rewrite Ec; cbn [bind].
    + right. exists o3. split; [auto|]. split; [reflexivity|]. split; [exact B3'|]. split; [exact Uo|exact Lo].
    + left. exists (with_lock o3 false), (dec_text B32 s). split; [reflexivity|]. split; [apply V; exact (c_decodes_dec B32 s On)|]. split; [exact B3'|]. split; [exact Uo|reflexivity].
Qed.

(** ** one call *)
Definition poisons (k : set_call) (al : failure) : Prop := takes_base32 k /\ (al = CacheFails \/ al = CopyFails).
Definition sound_step (p : bool) (h : hotp_obj) (k : set_call) (al : failure) (h' : hotp_obj) (ok : bool) : Prop :=
  if ok then idle_obj p (base32 h') /\
    ((exists c, k = SetCounter c /\ secret h' = secret h /\ co h' = c) \/ (~ counter_call k /\ co h' = co h /\ exists s, secret h' = Some s /\ gives k s))
  else secret h' = secret h /\ co h' = co h /\ al <> NoFailure /\ ~ counter_call k /\ ((poisons k al /\ idle_obj true (base32 h')) \/ (al <> CacheFails /\ al <> CopyFails /\ idle_obj p (base32 h'))).
Lemma plain_step p h al k s : idle_obj p (base32 h) -> ~ counter_call k -> gives k s -> exists h' ok, secret_with al h s = (h', ok) /\ sound_step p h k al h' ok.
Proof.
  intros H NC G. unfold secret_with. destruct al; cbn [fails]; do 2 eexists; (split; [reflexivity|]); cbn [sound_step].
  5: { repeat split; auto; try discriminate. right. repeat split; auto; try discriminate; apply H. }
  all: split; [exact H|]; right; repeat split; auto; exists s; split; [reflexivity|exact G].
Qed.
Lemma base32_step h al k kk : idle_obj false (base32 h) -> takes_base32 k -> decodes kk -> call_ok kk -> (forall v, call_value (CBase32 false) kk v -> gives k v) ->
  exists h' ok, secret_base32_with true al h kk = Ret (h', ok) /\ sound_step false h k al h' ok.
Proof.
  intros H T D K G. assert (NC : ~ counter_call k) by (destruct k; cbn in *; auto). unfold secret_base32_with.
  destruct (decode_free al (base32 h) kk D K H) as [(o' & v & E & V & I')|(o' & A & E & I')]; rewrite E; cbn [bind].
  - destruct (fails al ReturnFails) eqn:R.
    + do 2 eexists. split; [reflexivity|]. cbn [sound_step secret co base32]. assert (al = ReturnFails) as -> by (destruct al; cbn in R; congruence). repeat split; auto; try discriminate. right. repeat split; try discriminate; apply I'.
    + destruct (plain_step false (mkHotp (secret h) (co h) o') al k v I' NC (G v V)) as (h' & ok & E1 & S1). exists h', ok. cbn [secret_sd_with]. rewrite E1. split; [reflexivity|]. exact S1.
  - do 2 eexists. split; [reflexivity|]. cbn [sound_step secret co base32]. repeat split; auto; [destruct A as [-> | ->]; discriminate|]. left. split; [split; [exact T|exact A]|exact I'].
Qed.
Lemma base32_stuck h al kk : dec_locked (base32 h) = true -> decodes kk -> call_ok kk -> secret_base32_with true al h kk = Hang.
Proof. intros L D K. unfold secret_base32_with. rewrite decode_stuck by assumption. reflexivity. Qed.
Lemma set_step p h k al : idle_obj p (base32 h) -> set_ok k -> (p = true -> ~ takes_base32 k) -> exists h' ok, do_set_with true al h k = Ret (h', ok) /\ sound_step p h k al h' ok.
Proof.
  intros H K P. destruct k as [x|m []|x []|x|m|x|c]; cbn [do_set_with set_ok takes_base32] in *; try (assert (p = false) as -> by (destruct p; [exfalso; apply P; auto|reflexivity])).
  - destruct (plain_step p h al (SetSecret x) x H ltac:(cbn; auto) eq_refl) as (h' & ok & E & S). rewrite E. eauto.
  - apply base32_step; cbn; auto.
  - rewrite c_string_ok by exact K. cbn [bind]. destruct (plain_step p h al (SetSecretCstr m false) (upto_nul m) H ltac:(cbn; auto) eq_refl) as (h' & ok & E & S). rewrite E. eauto.
  - apply base32_step; cbn; auto.
  - destruct (plain_step p h al (SetSecretStr x false) x H ltac:(cbn; auto) eq_refl) as (h' & ok & E & S). rewrite E. eauto.
  - cbn [secret_sd_with]. destruct (plain_step p h al (SetSecretSD x) x H ltac:(cbn; auto) eq_refl) as (h' & ok & E & S). rewrite E. eauto.
  - apply base32_step; cbn; auto.
  - apply base32_step; cbn; auto.
  - do 2 eexists. split; [reflexivity|]. cbn [sound_step base32 secret co]. split; [exact H|]. left. eauto.
Qed.
Lemma set_stuck h k al : idle_obj true (base32 h) -> set_ok k -> takes_base32 k -> do_set_with true al h k = Hang.
Proof.
  intros (_ & _ & L) K T. destruct k as [x|m []|x []|x|m|x|c]; cbn [do_set_with set_ok takes_base32] in *; try contradiction; try discriminate; apply base32_stuck; cbn; auto.
Qed.

(** ** histories *)
Lemma takes_base32_dec k : {takes_base32 k} + {~ takes_base32 k}. Proof. destruct k as [x|m []|x []|x|m|x|c]; cbn; auto; right; discriminate. Qed.
Lemma sets_with_app ltr ks1 : forall h ks2, sets_with ltr h (ks1 ++ ks2) =
  bind (sets_with ltr h ks1) (fun '(h1, o1) => bind (sets_with ltr h1 ks2) (fun '(h2, o2) => Ret (h2, o1 ++ o2))).
Proof.
  induction ks1 as [|[k al] ks IH]; intros h ks2.
  - cbn [app sets_with bind]. destruct (sets_with ltr h ks2) as [[h2 o2]| |]; reflexivity.
  - cbn [app sets_with]. destruct (do_set_with ltr al h k) as [[h1 ok]| |]; cbn [bind]; [|reflexivity|reflexivity]. rewrite IH. destruct (sets_with ltr h1 ks) as [[h2 o2]| |]; cbn [bind]; [|reflexivity|reflexivity].
    destruct (sets_with ltr h2 ks2) as [[h3 o3]| |]; reflexivity.
Qed.
Lemma returned_app ks1 oks1 ks2 oks2 : length oks1 = length ks1 -> returned (ks1 ++ ks2) (oks1 ++ oks2) = returned ks1 oks1 ++ returned ks2 oks2.
Proof. revert oks1. induction ks1 as [|[k al] ks IH]; intros [|[] o] E; cbn [length] in E; try discriminate; cbn [app returned]; [reflexivity| |]; rewrite IH by lia; reflexivity. Qed.
Definition history (co0 : N) (ks : list (set_call * failure)) (h : hotp_obj) (oks : list bool) : Prop :=
  length oks = length ks /\ secret_after (returned ks oks) (secret h) /\ counter_after (returned ks oks) co0 (co h) /\
  (forall i, nth_error oks i = Some false -> exists k al, nth_error ks i = Some (k, al) /\ al <> NoFailure /\ ~ counter_call k) /\
  ((threw_decoding ks oks /\ idle_obj true (base32 h)) \/ (~ threw_decoding ks oks /\ idle_obj false (base32 h))).
Lemma nth_snoc {A} (l : list A) x i : nth_error (l ++ [x]) i = if Nat.eqb i (length l) then Some x else nth_error l i.
Proof.
  destruct (Nat.eqb_spec i (length l)) as [->|N]; [rewrite nth_error_app2, Nat.sub_diag by lia; reflexivity|]. destruct (Nat.lt_ge_cases i (length l)); [apply nth_error_app1; assumption|].
  rewrite nth_error_app2 by lia. destruct (i - length l)%nat eqn:E; [lia|]. cbn. rewrite (proj2 (nth_error_None l i)) by lia. destruct n; reflexivity.
Qed.
Lemma threw_snoc ks oks k al ok : length oks = length ks -> threw_decoding (ks ++ [(k, al)]) (oks ++ [ok]) <-> threw_decoding ks oks \/ (ok = false /\ (al = CacheFails \/ al = CopyFails)).
Proof.
  intros L. unfold threw_decoding. split.
  - intros (i & k' & al' & E1 & E2 & A). rewrite nth_snoc in E1. rewrite nth_snoc in E2. rewrite L in E2. destruct (Nat.eqb i (length ks)); [injection E1 as <- <-; injection E2 as ->; auto|left; eauto 8].
  - intros [(i & k' & al' & E1 & E2 & A)|[-> A]].
    + exists i, k', al'. rewrite !nth_snoc, L. assert (i < length ks)%nat by (apply nth_error_Some; congruence). destruct (Nat.eqb_spec i (length ks)); [lia|]. auto.
    + exists (length ks), k, al. rewrite !nth_snoc, L, Nat.eqb_refl. auto.
Qed.
Lemma history_ok co0 ks : Forall set_ok (map fst ks) -> forall h oks, sets_with true (new_hotp co0) ks = Ret (h, oks) -> history co0 ks h oks.
Proof.
  induction ks as [|[k al] ks IH] using rev_ind; intros K h oks E.
  - cbn in E. injection E as <- <-. split; [reflexivity|]. split; [constructor|]. split; [right; split; [reflexivity|constructor]|]. split; [intros [|i]; discriminate|].
    right. split; [intros (i & k & al & E & _); destruct i; discriminate|exact new_settled].
  - rewrite map_app in K. apply Forall_app in K as [K K1]. inversion K1 as [|? ? Hk _]; subst. cbn [fst] in Hk. rewrite sets_with_app in E. destruct (sets_with true (new_hotp co0) ks) as [[h1 o1]| |]; cbn [bind] in E; try discriminate.
    destruct (IH K h1 o1 eq_refl) as (L & S & C & X & P). cbn [sets_with] in E.
    assert (Step : exists p ok, do_set_with true al h1 k = Ret (h, ok) /\ oks = o1 ++ [ok] /\ sound_step p h1 k al h ok /\ (p = true <-> threw_decoding ks o1)).
    { destruct P as [[T I']|[T I']].
      - destruct (takes_base32_dec k) as [B|B]; [rewrite set_stuck in E by assumption; discriminate|]. destruct (set_step true h1 k al I' Hk (fun _ => B)) as (h' & ok & Ed & G). rewrite Ed in E. cbn [bind] in E. injection E as <- <-. exists true, ok. repeat split; auto.
      - destruct (set_step false h1 k al I' Hk ltac:(discriminate)) as (h' & ok & Ed & G). rewrite Ed in E. cbn [bind] in E. injection E as <- <-. exists false, ok. split; [exact Ed|]. split; [reflexivity|]. split; [exact G|]. split; [discriminate|contradiction]. }
    destruct Step as (p & ok & _ & -> & G & Hp). split; [rewrite !app_length, L; reflexivity|]. rewrite returned_app by exact L. unfold history. setoid_rewrite (threw_snoc ks o1 k al ok L).
    destruct ok; cbn [sound_step returned] in *.
    + destruct G as [I' G]. rewrite secret_snoc, counter_snoc. assert (Hs : (counter_call k /\ secret_after (returned ks o1) (secret h)) \/ exists s, secret h = Some s /\ gives k s).
      { destruct G as [(c & -> & Es & _)|(_ & _ & s & Es & Gs)]; [left; rewrite Es; split; [exact Logic.I|exact S]|right; eauto]. }
      split; [exact Hs|]. split. { destruct G as [(c & -> & _ & ->)|(NC & Ec & _)]; [left; reflexivity|right; rewrite Ec; auto]. }
      split. { intros i Ei. rewrite nth_snoc, L in Ei. setoid_rewrite nth_snoc. destruct (Nat.eqb i (length ks)); [discriminate|]. auto. }
      destruct p; [left|right]; (split; [|exact I']). { left. apply Hp. reflexivity. } { intros [T|[? _]]; [apply Hp in T|]; discriminate. }
    + destruct G as (Es & Ec & NF & NC & G). rewrite app_nil_r, Es, Ec. split; [exact S|]. split; [exact C|]. split.
      { intros i Ei. rewrite nth_snoc, L in Ei. setoid_rewrite nth_snoc. destruct (Nat.eqb i (length ks)); [|auto]. eauto. }
      destruct G as [[(T & A) I']|(A1 & A2 & I')]; [left; split; [right; auto|exact I']|]. destruct p; [left|right]; (split; [|exact I']). { left. apply Hp. reflexivity. } { intros [T|[_ [A|A]]]; [apply Hp in T; discriminate|contradiction|contradiction]. }
Qed.

(** C77: whatever allocations fail during a history of set_secret and set_counter calls, a call that throws leaves the secret and the counter as they were:
    generate uses the last secret and the last counter of the calls that returned normally. Only calls whose allocation failed throw. *)
Theorem C77_failed_calls_change_nothing : forall garbage a co0 ks h oks, Forall set_ok (map fst ks) -> sets_with true (new_hotp co0) ks = Ret (h, oks) ->
  length oks = length ks /\
  (forall i, nth_error oks i = Some false -> exists k al, nth_error ks i = Some (k, al) /\ al <> NoFailure) /\
  (exists r c, secret_after (returned ks oks) r /\ counter_after (returned ks oks) co0 c) /\
  forall r c, secret_after (returned ks oks) r -> counter_after (returned ks oks) co0 c -> forall (e : locals garbage a) d,
    hotp_generate e h d = match r with
      | None => Ret NotInitialized
      | Some s => v <- hotp_generic garbage a (lo_ctx e) (lo_loc e) (lo_out e) s c d ;; Ret (Otp v)
      end.
Proof.
  intros garbage a co0 ks h oks K E. destruct (history_ok co0 ks K h oks E) as (L & S & C & X & _). split; [exact L|]. split; [intros i Hi; destruct (X i Hi) as (k & al & ? & ? & _); eauto|]. split; [eauto|].
  intros r c Hr Hc e d. rewrite (C46_secret_unique _ _ _ Hr S), (C46_counter_unique _ _ _ _ Hc C). unfold hotp_generate. destruct (secret h); reflexivity.
Qed.
Print Assumptions C77_failed_calls_change_nothing.

(** C77, violation: once memory has run out while a Base32 secret was being decoded, every later call with a Base32 secret waits for ever,
    however much memory there is by then. *)
Theorem C77_base32_hangs_refuted : forall co0 ks h oks k al, Forall set_ok (map fst ks) -> sets_with true (new_hotp co0) ks = Ret (h, oks) ->
  threw_decoding ks oks -> set_ok k -> takes_base32 k -> do_set_with true al h k = Hang.
Proof.
  intros co0 ks h oks k al K E T Hk B. destruct (history_ok co0 ks K h oks E) as (_ & _ & _ & _ & [[_ I']|[N' _]]); [|contradiction]. apply set_stuck; assumption.
Qed.
Print Assumptions C77_base32_hangs_refuted.

(** C77: in every other case a call returns, normally or by an exception. *)
Theorem C77_otherwise_returns : forall co0 ks h oks k al, Forall set_ok (map fst ks) -> sets_with true (new_hotp co0) ks = Ret (h, oks) ->
  ~ (threw_decoding ks oks /\ takes_base32 k) -> set_ok k -> exists h' ok, do_set_with true al h k = Ret (h', ok) /\ (al = NoFailure -> ok = true).
Proof.
  intros co0 ks h oks k al K E T Hk. destruct (history_ok co0 ks K h oks E) as (_ & _ & _ & _ & [[T' I']|[N' I']]).
  - destruct (set_step true h k al I' Hk (fun _ B => T (conj T' B))) as (h' & ok & Ed & G). exists h', ok. split; [exact Ed|]. intros ->. destruct ok; [reflexivity|]. destruct G as (_ & _ & G & _). contradiction.
  - destruct (set_step false h k al I' Hk ltac:(discriminate)) as (h' & ok & Ed & G). exists h', ok. split; [exact Ed|]. intros ->. destruct ok; [reflexivity|]. destruct G as (_ & _ & G & _). contradiction.
Qed.
Print Assumptions C77_otherwise_returns.

(** Non-vacuity: a secret, then a Base32 secret for which memory runs out, then a counter: the first secret is still there, and the next Base32 secret hangs. *)
Definition story : list (set_call * failure) := [(SetSecret (chars "key"), NoFailure); (SetSecretFromBase32Str (chars "MZXW6==="), CopyFails); (SetCounter 7, NoFailure)].
Example C77_nonvacuous : exists h, sets_with true (new_hotp 99) story = Ret (h, [true; false; true]) /\ secret h = Some (chars "key") /\ co h = 7 /\
  threw_decoding story [true; false; true] /\ do_set_with true NoFailure h (SetSecretFromBase32Str (chars "MZXW6===")) = Hang /\
  (exists h', do_set_with true NoFailure h (SetSecret (chars "new")) = Ret (h', true)).
Proof.
  eexists. split; [vm_compute; reflexivity|]. split; [reflexivity|]. split; [reflexivity|]. split; [exists 1%nat, (SetSecretFromBase32Str (chars "MZXW6===")), CopyFails; auto|].
  split; [vm_compute; reflexivity|]. eexists. vm_compute. reflexivity.
Qed.
Example C77_nonvacuous_ok : Forall set_ok (map fst story).
Proof. repeat constructor; cbn; try lia; try discriminate. Qed.
(** a new object, no failure: the Base32 secret is set *)
Example C77_nonvacuous_set : exists h, sets_with true (new_hotp 99) [(SetSecretFromBase32Str (chars "MZXW6==="), NoFailure)] = Ret (h, [true]) /\ secret h = Some (chars "foo").
Proof. eexists. split; [vm_compute; reflexivity|]. reflexivity. Qed.
