(** Invariants of the shared C++ base encoding objects. *)
From Verif Require Import Base MBase SRfc4648 PUtils PBase PropBase MCppSize PCppSize MCppBase SCppBase.

Lemma encode_f_eq c : encode_f c = encode (api_of c). Proof. destruct c as [|[]|[]]; reflexivity. Qed.
Lemma decode_f_eq c : decode_f c = decode (api_of c). Proof. destruct c as [|[]|[]]; reflexivity. Qed.
Lemma bitsz_eq c : bitsz c = Z.of_nat (width (coding (api_of c))). Proof. destruct c as [|[]|[]]; reflexivity. Qed.

(** ** strings *)
Lemma upto_nul_app s tl : Forall (fun ch => ch <> 0%N) s -> upto_nul (s ++ 0%N :: tl) = s.
Proof. induction 1 as [|x s Hx Hs IH]; [reflexivity|]. cbn. destruct (N.eqb_spec x 0); [congruence|]. rewrite IH. reflexivity. Qed.
Lemma upto_nul_in m : In 0%N m -> length (upto_nul m) < length m.
Proof. induction m as [|x m IH]; intros H; [destruct H|]. cbn. destruct (N.eqb_spec x 0) as [->|]; [cbn; lia|]. destruct H as [H|H]; [congruence|]. cbn. specialize (IH H). lia. Qed.
Lemma c_string_ok m : In 0%N m -> c_string m = Ret (upto_nul m).
Proof. intros H. unfold c_string. pose proof (upto_nul_in m H). destruct (Nat.eqb_spec (length (upto_nul m)) (length m)); [lia|reflexivity]. Qed.
Lemma upto_nul_term s : upto_nul (s ++ [0%N]) = upto_nul s.
Proof. induction s as [|x s IH]; [reflexivity|]. cbn. destruct (x =? 0)%N; [reflexivity|]. rewrite IH. reflexivity. Qed.
Lemma upto_nul_bytes m : bytes_ok m -> bytes_ok (upto_nul m).
Proof. induction 1 as [|x m Hx Hm IH]; [constructor|]. cbn. destruct (x =? 0)%N; constructor; assumption. Qed.

(** ** the C functions *)
Lemma symbols_nonzero a : Forall (fun ch => ch <> 0%N) (symbols (coding a)).
Proof. destruct a; cbn; repeat (constructor; [discriminate|]); constructor. Qed.
Lemma lib_text_nonzero a x : bytes_ok x -> Forall (fun ch => ch <> 0%N) (lib_text (coding a) x).
Proof.
  intros Hb. set (st := mkStack (fun _ => [0%N]) (fun _ => repeat 0%N (quantum (coding a) + 2))).
  assert (Hs : slack a st) by (intros n; cbn; rewrite repeat_length; lia).
  set (k := quantum (coding a) * ((length x + octets (coding a) - 1) / octets (coding a))).
  destruct (C07_encode_shape a st x (repeat 0%N (S (k + length (lib_text (coding a) x)))) Hs Hb) as (t & E & L & F); [rewrite repeat_length; lia|].
  rewrite (C06_encode_text a st x) in E by (try assumption; rewrite repeat_length; lia). injection E as E1 E2. fold k in E2.
  assert (t = lib_text (coding a) x) as <-. { apply (f_equal (firstn k)) in E2. rewrite !firstn_app, E1, L in E2. fold k in E2. rewrite Nat.sub_diag in E2. cbn [firstn] in E2. rewrite !app_nil_r in E2. rewrite <- (firstn_all t), <- (firstn_all (lib_text _ x)), E1, L. fold k. symmetry. exact E2. }
  eapply Forall_impl; [|exact F]. intros ch [H| ->]; [|discriminate]. pose proof (symbols_nonzero a) as S0. rewrite Forall_forall in S0. exact (S0 ch H).
Qed.
Lemma lib_text_len a x : bytes_ok x -> length (lib_text (coding a) x) = quantum (coding a) * ((length x + octets (coding a) - 1) / octets (coding a)).
Proof.
  intros Hb. set (st := mkStack (fun _ => [0%N]) (fun _ => repeat 0%N (quantum (coding a) + 2))).
  assert (Hs : slack a st) by (intros n; cbn; rewrite repeat_length; lia).
  set (k := quantum (coding a) * ((length x + octets (coding a) - 1) / octets (coding a))).
  destruct (C07_encode_shape a st x (repeat 0%N (S (k + length (lib_text (coding a) x)))) Hs Hb) as (t & E & L & F); [rewrite repeat_length; lia|].
  rewrite (C06_encode_text a st x) in E by (try assumption; rewrite repeat_length; lia). injection E as E1 E2. exact E1.
Qed.
Lemma c_encodes_lib a x : bytes_ok x -> c_encodes a x (lib_text (coding a) x).
Proof. intros Hb st out Hs Hl. rewrite C06_encode_text by assumption. eauto. Qed.
(** the decoded bytes *)
Definition dec_text (a : api) (t : list N) : list N := trimmed (units_of (params a) (dfun a) t).
Lemma c_decodes_dec a t : t <> [] -> c_decodes a t (dec_text a t).
Proof.
  intros Ht out Ho. rewrite decode_eq. params_facts a. unfold unit_space in Ho. rewrite octets_eq, quantum_eq in Ho. unfold dec_text.
  assert (UL : length (units_of (params a) (dfun a) t) <= (length t + chunk_count (params a) - 1) / chunk_count (params a)).
  { unfold units_of. rewrite <- (map_length (dig (params a) (dfun a)) t). apply dec_units_length; auto; try lia. }
  set (us := units_of (params a) (dfun a) t) in *.
  assert (CL : length (concat us) = length us * unit_size (params a)) by apply concat_length_units.
  assert (TL : length (trimmed us) <= length us * unit_size (params a)).
  { unfold trimmed. destruct us as [|u0 us'] eqn:Eus; [cbn; lia|]. rewrite <- Eus in *.
    assert (Hne : us <> []) by (rewrite Eus; discriminate).
    rewrite (app_removelast_last [] Hne), concat_app in CL at 1. cbn [concat] in CL. rewrite app_nil_r, !app_length in *.
    pose proof (upto_nul_le (last us [])). lia. }
  set (M := (length t + chunk_count (params a) - 1) / chunk_count (params a)) in *. clearbody M.
  rewrite decode_spec; fold us; auto; try nia. eauto.
Qed.
(** the value of a job *)
Definition job_value (c : base_class) (j : job) (s : list N) : Prop :=
  match j with JEnc d => c_encodes (api_of c) d s | JDec t => c_decodes (api_of c) t s end.
Definition job_ok (j : job) : Prop :=
  match j with JEnc d => bytes_ok d /\ (Z.of_nat (length d) < 2 ^ 62)%Z | JDec t => t <> [] /\ (Z.of_nat (length t) < 2 ^ 62)%Z end.
Lemma job_of_ok c k : call_ok k -> exists j, job_of k = Ret j /\ job_ok j /\ (forall s, job_value c j s -> call_value c k s).
Proof.
  destruct k as [d|m|s|s|m|s]; cbn [call_ok job_of call_value]; intros H.
  - exists (JEnc d). auto.
  - destruct H as (H1 & H2 & H3). rewrite c_string_ok by exact H1. cbn [bind]. exists (JEnc (upto_nul m)). repeat split; auto; [apply upto_nul_bytes; exact H2|]. pose proof (upto_nul_le m). lia.
  - exists (JEnc s). auto.
  - exists (JEnc s). auto.
  - destruct H as (H1 & H2 & H3). rewrite c_string_ok by exact H1. cbn [bind]. exists (JDec (upto_nul m)). repeat split; auto. pose proof (upto_nul_le m). lia.
  - destruct H as (H2 & H3). rewrite c_string_ok by (apply in_or_app; right; left; reflexivity). rewrite upto_nul_term. cbn [bind]. exists (JDec (upto_nul s)). repeat split; auto. pose proof (upto_nul_le s). lia.
Qed.

(** ** sizes *)
Definition space (c : base_class) (j : job) : option Z :=
  match j with JEnc d => enc_space (bitsz c) (Z.of_nat (length d)) | JDec s => dec_space (bitsz c) (Z.of_nat (length s)) end.
Lemma ceil_mul q k n : 0 < k -> exists m, q * ((n + k - 1) / k) = q * m /\ k * m <= n + k - 1.
Proof. intros Hk. exists ((n + k - 1) / k). split; [reflexivity|]. apply Nat.mul_div_le. lia. Qed.
Lemma bitsz_val c : bitsz c = match c with CBase16 => 4 | CBase32 _ => 5 | CBase64 _ => 6 end%Z. Proof. destruct c; reflexivity. Qed.
Lemma bitsz_in c : In (bitsz c) [4; 5; 6]%Z. Proof. destruct c as [|[]|[]]; cbn; auto. Qed.
(** the C encoder's output and terminator fit the cache that is in use after the check *)
Lemma enc_fits c d sz cap : bytes_ok d -> (Z.of_nat (length d) < 2 ^ 62)%Z -> space c (JEnc d) = Some sz -> (127 <= cap)%Z -> (sz <= cap)%Z ->
  (Z.of_nat (length (lib_text (coding (api_of c)) d)) < cap + 1)%Z.
Proof.
  intros Hb Hl Hs Hc Hcap. cbn [space] in Hs. destruct (enc_space_bounds (bitsz c) (Z.of_nat (length d)) (bitsz_in c) ltac:(lia)) as (sz' & E & B & _).
  rewrite Hs in E. injection E as <-. rewrite lib_text_len by exact Hb. clear Hs Hl Hb. set (n := length d) in *. clearbody n.
  assert (Z.of_nat (quantum (coding (api_of c)) * ((n + octets (coding (api_of c)) - 1) / octets (coding (api_of c)))) <= cap)%Z; [|lia].
  destruct (ceil_mul (quantum (coding (api_of c))) (octets (coding (api_of c))) n) as (m & -> & Hm); [destruct c as [|[]|[]]; cbn; lia|].
  rewrite bitsz_val in B. destruct c as [|[]|[]]; cbn [api_of coding quantum octets width Base16 Base32 Base32hex Base64 Base64url] in *; lia.
Qed.
Lemma dec_fits c t sz cap : (Z.of_nat (length t) < 2 ^ 62)%Z -> space c (JDec t) = Some sz -> (64 <= cap)%Z -> (sz <= cap)%Z ->
  (Z.of_nat (unit_space (api_of c) (length t) + 1) <= cap)%Z.
Proof.
  intros Hl Hs Hc Hcap. cbn [space] in Hs. destruct (dec_space_bounds (bitsz c) (Z.of_nat (length t)) (bitsz_in c) ltac:(lia)) as (sz' & E & B & _).
  rewrite Hs in E. injection E as <-. clear Hs Hl. unfold unit_space. set (n := length t) in *. clearbody n.
  destruct (ceil_mul (octets (coding (api_of c))) (quantum (coding (api_of c))) n) as (m & -> & Hm); [destruct c as [|[]|[]]; cbn; lia|].
  rewrite bitsz_val in B. destruct c as [|[]|[]]; cbn [api_of coding quantum octets width Base16 Base32 Base32hex Base64 Base64url] in *; lia.
Qed.

(** ** the invariant of one thread *)
Definition bufs (o : object) : Prop :=
  (length (en_cache o) = Z.to_nat (encsz o + 1) /\ 127 <= encsz o /\ length (de_cache o) = Z.to_nat (decsz o) /\ 64 <= decsz o)%Z.
Definition holds (c : base_class) (j : job) (n : nat) (o : object) : Prop :=
  match j with
  | JEnc d => exists s tl, c_encodes (api_of c) d s /\ Forall (fun ch => ch <> 0%N) s /\ n = length s /\ en_cache o = s ++ 0%N :: tl
  | JDec t => exists s tl, c_decodes (api_of c) t s /\ n = length s /\ de_cache o = s ++ 0%N :: tl
  end.
Definition place_ok (c : base_class) (o : object) (p : place) : Prop :=
  match p with
  | Outside => True
  | AtLock j sz | AtCheck j sz => job_ok j /\ space c j = Some sz
  | AtCall (JEnc d) => bytes_ok d /\ length (lib_text (coding (api_of c)) d) < length (en_cache o)
  | AtCall (JDec t) => t <> [] /\ unit_space (api_of c) (length t) + 1 <= length (de_cache o)
  | AtTerminator j n | AtCopy j n => holds c j n o
  | AtUnlock j s => job_value c j s
  end.
Definition place_job (p : place) : option job := match p with AtLock j _ => Some j | _ => job_at p end.
Definition res_ok (c : base_class) (k : call) (r : result) : Prop := r = Threw \/ exists s, r = Value s /\ call_value c k s.
Definition tinv (c : base_class) (o : object) (ks : list call) (t : thread) : Prop :=
  place_ok c o (at_ t) /\ exists dn, Forall2 (res_ok c) dn (results t) /\
  match place_job (at_ t) with
  | None => ks = dn ++ todo t
  | Some j => exists k, ks = dn ++ k :: todo t /\ job_of k = Ret j /\ forall s, job_value c j s -> call_value c k s
  end.

Definition enc_b (t : thread) : bool := match job_at (at_ t) with Some (JEnc _) => true | _ => false end.
Definition dec_b (t : thread) : bool := match job_at (at_ t) with Some (JDec _) => true | _ => false end.
(** how a step of a thread moves a mutex *)
Definition lock_move (m before after : bool) (b a : bool) : Prop :=
  match before, after with
  | false, true => b = false /\ a = true
  | true, false => a = false \/ (m = false /\ a = b)
  | _, _ => a = b
  end.
Definition step_good (c : base_class) (m : bool) (ks : list call) (o : object) (t : thread) (r : tstep) : Prop :=
  match r with
  | Blocked => True
  | Fault _ => False
  | Next o' t' =>
      bufs o' /\ tinv c o' ks t' /\
      (enc_b t = false -> en_cache o' = en_cache o) /\ (dec_b t = false -> de_cache o' = de_cache o) /\
      lock_move m (enc_b t) (enc_b t') (enc_locked o) (enc_locked o') /\ lock_move m (dec_b t) (dec_b t') (dec_locked o) (dec_locked o') /\
      (m = true -> ~ In Threw (results t) -> ~ In Threw (results t'))
  end.

Lemma tinv_done c o o' ks t r : place_job (at_ t) <> None -> tinv c o ks t ->
  (forall k, (forall s j, place_job (at_ t) = Some j -> job_value c j s -> call_value c k s) -> res_ok c k r) -> tinv c o' ks (done t r).
Proof.
  intros Hn (_ & dn & F & H) Hr. split; [exact Logic.I|]. destruct (place_job (at_ t)) as [j|] eqn:E; [|congruence]. destruct H as (k & Hk & _ & Hv).
  exists (dn ++ [k]). cbn [results done todo at_ place_job job_at]. split.
  - apply Forall2_app; [exact F|]. constructor; [|constructor]. apply Hr. intros s j' Ej Hj. injection Ej as <-. apply Hv. exact Hj.
  - rewrite Hk, <- app_assoc. reflexivity.
Qed.
Lemma tinv_go c o o' ks t p : place_job (at_ t) <> None -> place_job p = place_job (at_ t) -> tinv c o ks t -> place_ok c o' p -> tinv c o' ks (go t p).
Proof. intros Hn Hp (_ & dn & F & H) Hok. split; [exact Hok|]. exists dn. cbn [results go todo at_]. split; [exact F|]. rewrite Hp. exact H. Qed.

Lemma no_threw_app (r : list result) s : ~ In Threw r -> ~ In Threw (r ++ [Value s]).
Proof. intros H K. apply in_app_or in K as [K|[K|[]]]; [auto|discriminate]. Qed.

Lemma step_thread_good c m st ks o t : Forall call_ok ks -> slack (api_of c) st -> bufs o -> tinv c o ks t -> step_good c m ks o t (step_thread c m st o t).
Proof.
  intros Hks Hst HB HT. pose proof HT as (Hp & dn & HF & HJ). pose proof HB as (B1 & B2 & B3 & B4). unfold step_thread.
  destruct (at_ t) as [|j sz|j sz|j|j n|j n|j s] eqn:Ea; cbn [place_job job_at place_ok] in *.
  - destruct (todo t) as [|k ks'] eqn:Et; [exact Logic.I|].
    assert (Hk : call_ok k). { rewrite HJ in Hks. apply Forall_app in Hks as [_ Hks]. inversion Hks; assumption. }
    destruct (job_of_ok c k Hk) as (j & Ej & Oj & Vj). rewrite Ej. cbn [lift].
    assert (Sp : exists sz, space c j = Some sz).
    { destruct j as [d|x]; cbn [space job_ok] in *; [destruct (enc_space_bounds (bitsz c) (Z.of_nat (length d)) (bitsz_in c) ltac:(lia)) as (z & E & _)|destruct (dec_space_bounds (bitsz c) (Z.of_nat (length x)) (bitsz_in c) ltac:(lia)) as (z & E & _)]; eauto. }
    destruct Sp as (sz & Es). unfold space in Es. rewrite Es. cbn [step_good]. unfold enc_b, dec_b. rewrite Ea. cbn [job_at at_ results lock_move].
    repeat split; auto. cbn [place_job at_]. exists dn. cbn [results]. split; [exact HF|]. exists k. rewrite HJ. split; [reflexivity|]. split; [exact Ej|exact Vj].
  - destruct Hp as [Oj Es]. destruct j as [d|x].
    + destruct (enc_locked o) eqn:El; [exact Logic.I|]. cbn [step_good]. unfold enc_b, dec_b. rewrite Ea. cbn [job_at at_ go results lock_move enc_locked dec_locked en_cache de_cache].
      repeat (split; [solve [auto]|]). split; [|repeat split; auto]. apply (tinv_go c o); auto; rewrite ?Ea; cbn; try congruence; auto.
    + destruct (dec_locked o) eqn:El; [exact Logic.I|]. cbn [step_good]. unfold enc_b, dec_b. rewrite Ea. cbn [job_at at_ go results lock_move enc_locked dec_locked en_cache de_cache].
      repeat (split; [solve [auto]|]). split; [|repeat split; auto]. apply (tinv_go c o); auto; rewrite ?Ea; cbn; try congruence; auto.
  - destruct Hp as [Oj Es]. destruct j as [d|x]; cbn [job_ok] in Oj.
    + destruct (Z.leb_spec (encsz o) sz) as [L|L]; [destruct m|]; cbn [step_good]; unfold enc_b, dec_b; rewrite Ea; cbn [job_at at_ go done results lock_move enc_locked dec_locked en_cache de_cache].
      * split; [unfold bufs; cbn [en_cache encsz de_cache decsz]; rewrite repeat_length; repeat split; auto; lia|]. split; [|repeat split; auto; congruence].
        apply (tinv_go c o); auto; rewrite ?Ea; cbn [place_job job_at place_ok]; try congruence. split; [apply Oj|]. cbn [en_cache]. rewrite repeat_length.
        pose proof (enc_fits c d sz sz (proj1 Oj) (proj2 Oj) Es ltac:(lia) ltac:(lia)). lia.
      * split; [exact HB|]. split; [|repeat split; auto; congruence]. apply (tinv_done c o); auto; rewrite ?Ea; [discriminate|]. intros; left; reflexivity.
      * split; [exact HB|]. split; [|repeat split; auto; congruence]. apply (tinv_go c o); auto; rewrite ?Ea; cbn [place_job job_at place_ok]; try congruence. split; [apply Oj|].
        pose proof (enc_fits c d sz (encsz o) (proj1 Oj) (proj2 Oj) Es ltac:(lia) ltac:(lia)). lia.
    + destruct (Z.leb_spec (decsz o) sz) as [L|L]; [destruct m|]; cbn [step_good]; unfold enc_b, dec_b; rewrite Ea; cbn [job_at at_ go done results lock_move enc_locked dec_locked en_cache de_cache].
      * split; [unfold bufs; cbn [en_cache encsz de_cache decsz]; rewrite repeat_length; repeat split; auto; lia|]. split; [|repeat split; auto; congruence].
        apply (tinv_go c o); auto; rewrite ?Ea; cbn [place_job job_at place_ok]; try congruence. split; [apply Oj|]. cbn [de_cache]. rewrite repeat_length.
        pose proof (dec_fits c x sz sz (proj2 Oj) Es ltac:(lia) ltac:(lia)). lia.
      * split; [exact HB|]. split; [|repeat split; auto; congruence]. apply (tinv_done c o); auto; rewrite ?Ea; [discriminate|]. intros; left; reflexivity.
      * split; [exact HB|]. split; [|repeat split; auto; congruence]. apply (tinv_go c o); auto; rewrite ?Ea; cbn [place_job job_at place_ok]; try congruence. split; [apply Oj|].
        pose proof (dec_fits c x sz (decsz o) (proj2 Oj) Es ltac:(lia) ltac:(lia)). lia.
  - destruct j as [d|x]; destruct Hp as [H1 H2].
    + rewrite encode_f_eq, C06_encode_text by assumption. cbn [lift step_good]. unfold enc_b, dec_b; rewrite Ea; cbn [job_at at_ go done results lock_move enc_locked dec_locked en_cache de_cache].
      split. { unfold bufs; cbn [en_cache encsz de_cache decsz]. rewrite app_length. cbn [length]. rewrite skipn_length. repeat split; auto; lia. }
      split; [|repeat split; auto; congruence]. apply (tinv_go c o); auto; rewrite ?Ea; cbn [place_job job_at place_ok]; try congruence.
      cbn [holds en_cache]. do 2 eexists. split; [apply c_encodes_lib; exact H1|]. split; [apply lib_text_nonzero; exact H1|]. split; reflexivity.
    + rewrite decode_f_eq. destruct (c_decodes_dec (api_of c) x H1 (de_cache o) H2) as (tl & E). rewrite E. cbn [lift step_good]. unfold enc_b, dec_b; rewrite Ea; cbn [job_at at_ go done results lock_move enc_locked dec_locked en_cache de_cache].
      split. { unfold bufs; cbn [en_cache encsz de_cache decsz]. destruct (C12_decode_footprint (api_of c) x (de_cache o) H1 H2) as (n & o2 & E2 & _ & L2 & _). rewrite E in E2. injection E2 as _ <-. rewrite L2. auto. }
      split; [|repeat split; auto; congruence]. apply (tinv_go c o); auto; rewrite ?Ea; cbn [place_job job_at place_ok]; try congruence.
      cbn [holds de_cache]. do 2 eexists. split; [apply c_decodes_dec; exact H1|]. split; reflexivity.
  - destruct j as [d|x]; cbn [holds] in Hp.
    + destruct Hp as (s & tl & V & Z & -> & E). rewrite E, wr_app by reflexivity. cbn [lift step_good]. unfold enc_b, dec_b; rewrite Ea; cbn [job_at at_ go done results lock_move enc_locked dec_locked en_cache de_cache].
      split. { unfold bufs; cbn [en_cache encsz de_cache decsz]. rewrite E in B1. auto. }
      split; [|repeat split; auto; congruence]. apply (tinv_go c o); auto; rewrite ?Ea; cbn [place_job job_at place_ok]; try congruence. cbn [holds en_cache]. eauto 6.
    + destruct Hp as (s & tl & V & -> & E). rewrite E, wr_app by reflexivity. cbn [lift step_good]. unfold enc_b, dec_b; rewrite Ea; cbn [job_at at_ go done results lock_move enc_locked dec_locked en_cache de_cache].
      split. { unfold bufs; cbn [en_cache encsz de_cache decsz]. rewrite E in B3. auto. }
      split; [|repeat split; auto; congruence]. apply (tinv_go c o); auto; rewrite ?Ea; cbn [place_job job_at place_ok]; try congruence. cbn [holds de_cache]. eauto 6.
  - destruct j as [d|x]; cbn [holds] in Hp; destruct m.
    + destruct Hp as (s & tl & V & Z & -> & E). rewrite E, c_string_ok by (apply in_or_app; right; left; reflexivity). rewrite upto_nul_app by exact Z. cbn [lift step_good].
      unfold enc_b, dec_b; rewrite Ea; cbn [job_at at_ go done results lock_move enc_locked dec_locked en_cache de_cache].
      split; [exact HB|]. split; [|repeat split; auto; congruence]. apply (tinv_go c o); auto; rewrite ?Ea; cbn [place_job job_at place_ok]; try congruence; exact V.
    + cbn [step_good]. unfold enc_b, dec_b; rewrite Ea; cbn [job_at at_ go done results lock_move enc_locked dec_locked en_cache de_cache].
      split; [exact HB|]. split; [|repeat split; auto; congruence]. apply (tinv_done c o); auto; rewrite ?Ea; [discriminate|]. intros; left; reflexivity.
    + destruct Hp as (s & tl & V & -> & E). assert (L : Nat.leb (length s) (length (de_cache o)) = true). { apply Nat.leb_le. rewrite E, app_length. lia. } rewrite L. cbn [step_good].
      unfold enc_b, dec_b; rewrite Ea; cbn [job_at at_ go done results lock_move enc_locked dec_locked en_cache de_cache].
      split; [exact HB|]. split; [|repeat split; auto; congruence]. apply (tinv_go c o); auto; rewrite ?Ea; cbn [place_job job_at place_ok]; try congruence.
      cbn [job_value]. rewrite E, firstn_app, firstn_all, Nat.sub_diag. cbn [firstn]. rewrite app_nil_r. exact V.
    + cbn [step_good]. unfold enc_b, dec_b; rewrite Ea; cbn [job_at at_ go done results lock_move enc_locked dec_locked en_cache de_cache].
      split; [exact HB|]. split; [|repeat split; auto; congruence]. apply (tinv_done c o); auto; rewrite ?Ea; [discriminate|]. intros; left; reflexivity.
  - destruct j as [d|x]; cbn [step_good]; unfold enc_b, dec_b; rewrite Ea; cbn [job_at at_ go done results lock_move enc_locked dec_locked en_cache de_cache].
    + split; [exact HB|]. split; [|repeat split; auto; intros; apply no_threw_app; assumption]. apply (tinv_done c o); auto; rewrite ?Ea; [discriminate|]. cbn [place_job job_at]. intros k Hv. right. exists s. split; [reflexivity|]. apply (Hv s (JEnc d)); [reflexivity|exact Hp].
    + split; [exact HB|]. split; [|repeat split; auto; intros; apply no_threw_app; assumption]. apply (tinv_done c o); auto; rewrite ?Ea; [discriminate|]. cbn [place_job job_at]. intros k Hv. right. exists s. split; [reflexivity|]. apply (Hv s (JDec x)); [reflexivity|exact Hp].
Qed.
