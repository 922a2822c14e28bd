(** Property theorems C89: the eight Keccak functions are kept apart (domain separation by suffix, padding and rate). *)
From Coq Require Import String.
From Verif Require Import Base MSha MFront MKeccak SFips202 SHash SKeccakFns PWords PSha PKeccak PSponge PSponge2 PKeccakFns PKeccakInj SSponge PropSponge.
Local Open Scope N_scope.

Lemma nth_xor S : forall P i, (i < length S)%nat -> nth i (xor_bits S P) false = if (i <? length P)%nat then xorb (nth i S false) (nth i P false) else nth i S false.
Proof.
  induction S as [|s S IH]; intros P i L; [cbn in L; lia|]. destruct P as [|p P]; [reflexivity|]. cbn [xor_bits length]. destruct i as [|i]; [reflexivity|].
  cbn [nth]. rewrite IH by (cbn in L; lia). reflexivity.
Qed.
Lemma last_bit r sfx m p x : (2 <= r)%nat -> sponge_blocks r sfx m = p ++ [x] -> nth (r - 1) x false = true.
Proof.
  intros R E. destruct (sponge_blocks_ok r sfx m R) as (C & F & _). rewrite E in C, F. apply Forall_app in F as [_ F]. pose proof (Forall_inv F) as L.
  rewrite concat_app in C. cbn [concat] in C. rewrite app_nil_r in C. unfold pad10star1 in C. rewrite !app_assoc in C.
  destruct x as [|b x _] using rev_ind; [cbn in L; lia|]. rewrite app_assoc in C. apply app_inj_tail in C as (_ & ->).
  rewrite app_length in L. cbn [length] in L. rewrite app_nth2 by lia. replace (r - 1 - length x)%nat with 0%nat by lia. reflexivity.
Qed.
Lemma suffixes init dig n rb sfx : sponge_fn init dig n rb sfx -> sfx = [false; true] \/ sfx = [true; true; true; true] \/ sfx = [true; true].
Proof. intros []; auto. Qed.
Lemma rates init dig n rb sfx : sponge_fn init dig n rb sfx -> (8 <= rb <= 168)%nat.
Proof. intros []; lia. Qed.
Lemma skipn_add {A} a b (l : list A) : skipn (a + b) l = skipn a (skipn b l).
Proof. revert l. induction b as [|b IH]; intros l; [rewrite Nat.add_0_r; reflexivity|]. rewrite Nat.add_succ_r. destruct l; [rewrite !skipn_nil; reflexivity|apply IH]. Qed.
Lemma app_eq_len {A} (a b x y : list A) : length a = length b -> a ++ x = b ++ y -> a = b /\ x = y.
Proof.
  revert b. induction a as [|u a IH]; intros [|v b] L E; try discriminate; [auto|]. injection E as -> E. destruct (IH b) as [-> ->]; auto.
Qed.
Lemma suffix_apart r sfx sfx' m m' : (2 <= r)%nat -> In sfx [[false; true]; [true; true; true; true]; [true; true]] -> In sfx' [[false; true]; [true; true; true; true]; [true; true]] ->
  sponge_blocks r sfx m = sponge_blocks r sfx' m' -> sfx = sfx'.
Proof.
  intros R I I' E. destruct (sponge_blocks_ok r sfx m R) as (C & _). destruct (sponge_blocks_ok r sfx' m' R) as (C' & _). rewrite E, C' in C. apply pad_inj in C.
  assert (LL : length sfx = length sfx').
  { apply (f_equal (@length bool)) in C. rewrite !app_length, !bb_len in C.
    destruct I as [<-|[<-|[<-|[]]]], I' as [<-|[<-|[<-|[]]]]; cbn [length] in *; lia. }
  apply (f_equal (@rev bool)) in C. rewrite !rev_app_distr in C. apply app_eq_len in C as (C & _); [|rewrite !rev_length; congruence].
  rewrite <- (rev_involutive sfx), <- (rev_involutive sfx'). f_equal. congruence.
Qed.
(** equal states after absorbing for two different functions *)
Lemma apart r r' sfx sfx' m m' : (2 <= r <= r')%nat -> (r' <= 1600)%nat ->
  In sfx [[false; true]; [true; true; true; true]; [true; true]] -> In sfx' [[false; true]; [true; true; true; true]; [true; true]] -> (r, sfx) <> (r', sfx') ->
  absorbed (sponge_blocks r sfx m) = absorbed (sponge_blocks r' sfx' m') -> inner_collision r' (sponge_blocks r sfx m) (sponge_blocks r' sfx' m').
Proof.
  intros R R' I I' D E. destruct (sponge_blocks_ok r sfx m ltac:(lia)) as (_ & F & N0). destruct (sponge_blocks_ok r' sfx' m' ltac:(lia)) as (_ & F' & N0').
  pose proof (suffix_apart r sfx sfx' m m' ltac:(lia) I I') as Sfx. pose proof (last_bit r' sfx' m') as Lb.
  set (bs := sponge_blocks r sfx m) in *. set (bs' := sponge_blocks r' sfx' m') in *.
  assert (Same : r = r' -> bs <> bs'). { intros <- X. apply D. f_equal. apply Sfx. exact X. }
  clearbody bs bs'. clear Sfx D.
  destruct bs as [|x p _] using rev_ind; [contradiction|]. destruct bs' as [|x' p' _] using rev_ind; [contradiction|].
  specialize (Lb p' x' ltac:(lia) eq_refl).
  apply Forall_app in F, F'. destruct F as [F Fx], F' as [F' Fx']. apply Forall_inv in Fx, Fx'. rewrite !absorbed_snoc in E.
  apply keccak_f_inj in E; [|rewrite xor_bits_len; apply absorbed_len|rewrite xor_bits_len; apply absorbed_len].
  exists p, [x], p', [x']. split; [reflexivity|]. split; [reflexivity|]. split; [discriminate|]. split; [discriminate|]. split.
  - intros <-. destruct (Nat.eq_dec r r') as [<-|Dr].
    + apply (Same eq_refl). f_equal. f_equal. apply xor_cancel in E; [exact E|congruence|rewrite absorbed_len; lia].
    + destruct p as [|b p]; [|apply Forall_inv in F, F'; congruence].
      apply (f_equal (fun l => nth (r' - 1) l false)) in E. rewrite !nth_xor in E by (rewrite absorbed_len; lia).
      rewrite Fx, Fx' in E. replace (r' - 1 <? r)%nat with false in E by (symmetry; apply Nat.ltb_ge; lia). replace (r' - 1 <? r')%nat with true in E by (symmetry; apply Nat.ltb_lt; lia).
      rewrite Lb in E. destruct (nth (r' - 1) (absorbed []) false); discriminate E.
  - apply (f_equal (skipn r')) in E. rewrite (skipn_xor (absorbed p') r' x' Fx') in E. rewrite <- E.
    replace r' with ((r' - r) + r)%nat by lia. rewrite !skipn_add. f_equal. symmetry. apply skipn_xor. exact Fx.
Qed.
Lemma inner_sym r bs bs' : inner_collision r bs bs' -> inner_collision r bs' bs.
Proof. intros (p & q & p' & q' & A & B & C & D & E & F). exists p', q', p, q. repeat split; auto. Qed.
Lemma apart_max r r' sfx sfx' m m' : (2 <= r <= 1600)%nat -> (2 <= r' <= 1600)%nat ->
  In sfx [[false; true]; [true; true; true; true]; [true; true]] -> In sfx' [[false; true]; [true; true; true; true]; [true; true]] -> (r, sfx) <> (r', sfx') ->
  absorbed (sponge_blocks r sfx m) = absorbed (sponge_blocks r' sfx' m') -> inner_collision (Nat.max r r') (sponge_blocks r sfx m) (sponge_blocks r' sfx' m').
Proof.
  intros R R' I I' D E. destruct (Nat.le_ge_cases r r') as [L|L].
  - rewrite Nat.max_r by exact L. apply apart; auto; lia.
  - rewrite Nat.max_l by exact L. apply inner_sym, apart; auto; try lia; congruence.
Qed.

(** One function's context after its digest call holds the same state as another function's: then the two computations contain a collision of
    the part of the state that neither writes its blocks into, however the two messages are related (for instance equal). *)
Theorem C89_states_apart : forall init dig n rb sfx init' dig' n' rb' sfx', sponge_fn init dig n rb sfx -> sponge_fn init' dig' n' rb' sfx' -> (rb, sfx) <> (rb', sfx') ->
  forall g g' ps ps' out out' c c' c1 c1' d d', kshape g -> kshape g' -> Forall keccak_piece ps -> Forall keccak_piece ps' ->
  (n <= length out)%nat -> (n' <= length out')%nat -> (n < rb)%nat -> (n' < rb')%nat ->
  feed_all (init g) ps = Ret c -> feed_all (init' g') ps' = Ret c' -> dig c out = Ret (c1, d) -> dig' c' out' = Ret (c1', d') ->
  kst c1 = kst c1' ->
  inner_collision (8 * Nat.max rb rb') (sponge_blocks (8 * rb) sfx (concat ps)) (sponge_blocks (8 * rb') sfx' (concat ps')).
Proof.
  intros init dig n rb sfx init' dig' n' rb' sfx' K K' Di g g' ps ps' out out' c c' c1 c1' d d' Hg Hg' HP HP' Ho Ho' Sn Sn' U U' D D' ES.
  pose proof (suffixes _ _ _ _ _ K) as I. pose proof (suffixes _ _ _ _ _ K') as I'. pose proof (rates _ _ _ _ _ K) as Rr. pose proof (rates _ _ _ _ _ K') as Rr'.
  destruct (table_sview _ _ _ _ _ K) as (lanes & O & P & L & V). destruct (table_sview _ _ _ _ _ K') as (lanes' & O' & P' & L' & V').
  destruct (run_sview _ _ _ _ _ _ _ _ _ V g ps out c c1 d Hg HP Ho U D) as (B & _ & o & k & q & v & Hk & _ & _ & ->).
  destruct (run_sview _ _ _ _ _ _ _ _ _ V' g' ps' out' c' c1' d' Hg' HP' Ho' U' D') as (B' & _ & o' & k' & q' & v' & Hk' & _ & _ & ->).
  destruct V as [Hl HPL Hrb _ Hs _]. destruct V' as [Hl' HPL' Hrb' _ Hs' _]. cbn [kst ks] in ES.
  assert (k = 0%nat) as -> by (destruct k; [reflexivity|nia]). assert (k' = 0%nat) as -> by (destruct k'; [reflexivity|nia]). change (final lanes P L (concat ps) = final lanes' P' L' (concat ps')) in ES.
  replace (8 * Nat.max rb rb')%nat with (Nat.max (8 * rb) (8 * rb')) by lia.
  apply apart_max; [lia|lia| | | |].
  - destruct I as [->|[->| ->]]; cbn; auto.
  - destruct I' as [->|[->| ->]]; cbn; auto.
  - intros X. apply Di. assert (8 * rb = 8 * rb')%nat by congruence. assert (sfx = sfx') by congruence. f_equal; [lia|assumption].
  - replace (8 * rb)%nat with (64 * lanes)%nat by lia. replace (8 * rb')%nat with (64 * lanes')%nat by lia. rewrite Hs, Hs', <- !final_absorbed by assumption. rewrite ES. reflexivity.
Qed.
Print Assumptions C89_states_apart.
(** messages shorter than the functions' blocks: never *)
Theorem C89_short_messages_apart : forall init dig n rb sfx init' dig' n' rb' sfx', sponge_fn init dig n rb sfx -> sponge_fn init' dig' n' rb' sfx' -> (rb, sfx) <> (rb', sfx') ->
  forall g g' ps ps' out out' c c' c1 c1' d d', kshape g -> kshape g' -> Forall keccak_piece ps -> Forall keccak_piece ps' ->
  (n <= length out)%nat -> (n' <= length out')%nat -> (n < rb)%nat -> (n' < rb')%nat -> (length (concat ps) < rb)%nat -> (length (concat ps') < rb')%nat ->
  feed_all (init g) ps = Ret c -> feed_all (init' g') ps' = Ret c' -> dig c out = Ret (c1, d) -> dig' c' out' = Ret (c1', d') ->
  kst c1 <> kst c1'.
Proof.
  intros init dig n rb sfx init' dig' n' rb' sfx' K K' Di g g' ps ps' out out' c c' c1 c1' d d' Hg Hg' HP HP' Ho Ho' Sn Sn' S S' U U' D D' ES.
  pose proof (suffixes _ _ _ _ _ K) as I. pose proof (suffixes _ _ _ _ _ K') as I'. pose proof (rates _ _ _ _ _ K) as Rr. pose proof (rates _ _ _ _ _ K') as Rr'.
  destruct (C89_states_apart _ _ _ _ _ _ _ _ _ _ K K' Di g g' ps ps' out out' c c' c1 c1' d d' Hg Hg' HP HP' Ho Ho' Sn Sn' U U' D D' ES)
    as (p & q & p' & q' & Eb & Eb' & Q & Q' & N & _).
  assert (E1 : length (p ++ q) = 1%nat) by (rewrite <- Eb; apply short_block; [lia|destruct I as [->|[->| ->]]; cbn; lia|lia]).
  assert (E1' : length (p' ++ q') = 1%nat) by (rewrite <- Eb'; apply short_block; [lia|destruct I' as [->|[->| ->]]; cbn; lia|lia]).
  rewrite app_length in E1, E1'. destruct q as [|? q]; [contradiction|]. destruct q' as [|? q']; [contradiction|]. cbn [length] in E1, E1'.
  destruct p; [|cbn in E1; lia]. destruct p'; [|cbn in E1'; lia]. apply N. reflexivity.
Qed.
Print Assumptions C89_short_messages_apart.
Lemma squeezed lanes P L m j : (1 <= lanes <= 24)%nat -> (P = 2 /\ L = 2) \/ (P = 15 /\ L = 4) \/ (P = 3 /\ L = 2) -> bytes_ok m -> let r := (64 * lanes)%nat in
  firstn (8 * j) (squeeze (8 * j / r + 1) r (absorbed (sponge_blocks r (wordbits (N.to_nat L) P) m))) = bits_of_bytes (sbytes lanes (final lanes P L m) 0 j).
Proof.
  intros Hl HPL B r. unfold r. rewrite <- final_absorbed by assumption. rewrite (squeeze_bytes lanes Hl P L HPL) by (apply final_ok; assumption).
  rewrite (firstn_bb lanes Hl P L HPL). f_equal.
  assert (Q : (j <= (8 * j / (64 * lanes) + 1) * (8 * lanes))%nat).
  { pose proof (Nat.div_mod_eq (8 * j) (64 * lanes)) as Dv. pose proof (Nat.mod_upper_bound (8 * j) (64 * lanes) ltac:(lia)) as Mv.
    set (u := (8 * j / (64 * lanes))%nat) in *. set (w := ((8 * j) mod (64 * lanes))%nat) in *. clearbody u w. nia. }
  set (t := ((8 * j / (64 * lanes) + 1) * (8 * lanes))%nat) in Q |- *. clearbody t. replace t with (j + (t - j))%nat by lia.
  rewrite sbytes_app, firstn_app, sbytes_len, Nat.sub_diag, firstn_O, app_nil_r, firstn_all2 by (rewrite sbytes_len; lia). reflexivity.
Qed.
(** The outputs of two functions agree in their first [j] bytes, whatever the messages: a collision as above, or two different states that agree in
    the output. *)
Theorem C89_outputs_apart : forall init dig n rb sfx init' dig' n' rb' sfx', sponge_fn init dig n rb sfx -> sponge_fn init' dig' n' rb' sfx' -> (rb, sfx) <> (rb', sfx') ->
  forall g g' ps ps' out out' c c' c1 c1' d d', kshape g -> kshape g' -> Forall keccak_piece ps -> Forall keccak_piece ps' ->
  (n <= length out)%nat -> (n' <= length out')%nat ->
  feed_all (init g) ps = Ret c -> feed_all (init' g') ps' = Ret c' -> dig c out = Ret (c1, d) -> dig' c' out' = Ret (c1', d') ->
  forall j, (j <= n)%nat -> (j <= n')%nat -> firstn j d = firstn j d' ->
  let r := (8 * rb)%nat in let r' := (8 * rb')%nat in let bs := sponge_blocks r sfx (concat ps) in let bs' := sponge_blocks r' sfx' (concat ps') in
  inner_collision (Nat.max r r') bs bs' \/
  (absorbed bs <> absorbed bs' /\ firstn (8 * j) (squeeze (8 * j / r + 1) r (absorbed bs)) = firstn (8 * j) (squeeze (8 * j / r' + 1) r' (absorbed bs'))).
Proof.
  intros init dig n rb sfx init' dig' n' rb' sfx' K K' Di g g' ps ps' out out' c c' c1 c1' d d' Hg Hg' HP HP' Ho Ho' U U' D D' j Hj Hj' E r r' bs bs'. unfold bs, bs'. clear bs bs'.
  pose proof (suffixes _ _ _ _ _ K) as I. pose proof (suffixes _ _ _ _ _ K') as I'. pose proof (rates _ _ _ _ _ K) as Rr. pose proof (rates _ _ _ _ _ K') as Rr'.
  destruct (list_eq_dec Bool.bool_dec (absorbed (sponge_blocks r sfx (concat ps))) (absorbed (sponge_blocks r' sfx' (concat ps')))) as [X|X].
  - left. apply apart_max; [unfold r; lia|unfold r'; lia| | | |exact X].
    + destruct I as [->|[->| ->]]; cbn; auto.
    + destruct I' as [->|[->| ->]]; cbn; auto.
    + intros Y. apply Di. assert (r = r') by congruence. assert (sfx = sfx') by congruence. f_equal; [unfold r, r' in *; lia|assumption].
  - right. split; [exact X|]. clear X.
    destruct (table_sview _ _ _ _ _ K) as (lanes & O & P & L & V). destruct (table_sview _ _ _ _ _ K') as (lanes' & O' & P' & L' & V').
    destruct (run_sview _ _ _ _ _ _ _ _ _ V g ps out c c1 d Hg HP Ho U D) as (B & -> & _).
    destruct (run_sview _ _ _ _ _ _ _ _ _ V' g' ps' out' c' c1' d' Hg' HP' Ho' U' D') as (B' & -> & _).
    destruct V as [Hl HPL Hrb _ Hs _]. destruct V' as [Hl' HPL' Hrb' _ Hs' _].
    assert (Fj : forall lanes st n rest, (j <= n)%nat -> firstn j (sbytes lanes st 0 n ++ rest) = sbytes lanes st 0 j).
    { intros la st m rest Hm. replace m with (j + (m - j))%nat by lia. rewrite sbytes_app, <- app_assoc, firstn_app, sbytes_len, Nat.sub_diag, firstn_O, app_nil_r.
      apply firstn_all2. rewrite sbytes_len. lia. }
    rewrite !Fj in E by assumption.
    replace r with (64 * lanes)%nat by (unfold r; lia). replace r' with (64 * lanes')%nat by (unfold r'; lia). rewrite Hs, Hs', !squeezed by assumption. rewrite E. reflexivity.
Qed.
Print Assumptions C89_outputs_apart.

(** ** Non-vacuity: the same message "abc" to SHA3-256 and SHAKE256 (same rate), and to SHA3-256 and SHA3-512 (different rates) *)
Lemma run_any init dig n rb sfx : sponge_fn init dig n rb sfx -> forall g ps out, kshape g -> Forall keccak_piece ps -> (n <= length out)%nat ->
  exists c c1 d, feed_all (init g) ps = Ret c /\ dig c out = Ret (c1, d).
Proof.
  intros K g ps out Hg HP Ho. destruct (table_sview _ _ _ _ _ K) as (lanes & O & P & L & [Hl HPL Hrb Hi Hs Hd]).
  destruct (updates_kfed lanes Hl P L HPL O ps [] _ (fed_init lanes Hl P L HPL O g Hg _ eq_refl) HP) as (c & E & F).
  destruct (Hd _ c out F ltac:(apply pieces_concat_bytes; exact HP) Ho) as (c1 & o & D & _). exists c, c1. eexists. rewrite feed_all_k, Hi. split; [exact E|exact D].
Qed.
Example C89_nonvacuous : exists c c' c'' c1 c1' c1'' d d' d'',
  feed_all (iinit impl_sha3_256 used) [chars "abc"] = Ret c /\ feed_all (iinit (impl_shake256 256) used) [chars "abc"] = Ret c' /\ feed_all (iinit impl_sha3_512 used) [chars "abc"] = Ret c'' /\
  idigest impl_sha3_256 c (repeat 0 32) = Ret (c1, d) /\ idigest (impl_shake256 256) c' (repeat 0 32) = Ret (c1', d') /\ idigest impl_sha3_512 c'' (repeat 0 64) = Ret (c1'', d'') /\
  kst c1 <> kst c1' /\ kst c1 <> kst c1''.
Proof.
  assert (P1 : Forall keccak_piece [chars "abc"]) by (repeat constructor; try reflexivity; try (intros X; discriminate X)).
  pose proof sp_sha3_256 as K. pose proof (sp_shake256 32 eq_refl) as K'. pose proof sp_sha3_512 as K''. change (8 * N.of_nat 32) with 256 in K'.
  destruct (run_any _ _ _ _ _ K used [chars "abc"] (repeat 0 32) used_ok P1 ltac:(rewrite repeat_length; lia)) as (c & c1 & d & U & D).
  destruct (run_any _ _ _ _ _ K' used [chars "abc"] (repeat 0 32) used_ok P1 ltac:(rewrite repeat_length; lia)) as (c' & c1' & d' & U' & D').
  destruct (run_any _ _ _ _ _ K'' used [chars "abc"] (repeat 0 64) used_ok P1 ltac:(rewrite repeat_length; lia)) as (c'' & c1'' & d'' & U'' & D'').
  exists c, c', c'', c1, c1', c1'', d, d', d''. split; [exact U|]. split; [exact U'|]. split; [exact U''|]. split; [exact D|]. split; [exact D'|]. split; [exact D''|]. split.
  - refine (C89_short_messages_apart _ _ _ _ _ _ _ _ _ _ K K' ltac:(discriminate) used used [chars "abc"] [chars "abc"] (repeat 0 32) (repeat 0 32) c c' c1 c1' d d' used_ok used_ok P1 P1 _ _ _ _ _ _ U U' D D');
      try (rewrite repeat_length); cbn; lia.
  - refine (C89_short_messages_apart _ _ _ _ _ _ _ _ _ _ K K'' ltac:(discriminate) used used [chars "abc"] [chars "abc"] (repeat 0 32) (repeat 0 64) c c'' c1 c1'' d d'' used_ok used_ok P1 P1 _ _ _ _ _ _ U U'' D D'');
      try (rewrite repeat_length); cbn; lia.
Qed.
