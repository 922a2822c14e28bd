(** C32, continued: the P-array of Blowfish is made of the first binary digits of pi. *)
From Coq Require Import Reals Lra.
From Verif Require Import Base SConst MBlowfish PPi.
Local Open Scope N_scope.

(** pi in 2 + 576 binary digits, as the code's table has it: 3 and the 18 words *)
Definition table_number : N := fold_left (fun v w => v * 2 ^ 32 + w) P0 3.
Lemma table_pi : (IZR (Z.of_N table_number) <= IZR (2 ^ 576) * PI < IZR (Z.of_N table_number) + 1)%R.
Proof. apply (pi_floor 576 64 100); [lia|lia| |]; vm_compute; congruence. Qed.
(** C32: the i-th word of the table P (from 0) consists of the binary digits 32 i + 1, ..., 32 i + 32 of pi after the point: it is
    the integer part of 2^(32 (i + 1)) pi, modulo 2^32. *)
Theorem C32_blowfish_P : length P0 = 18%nat /\ forall i, (i < 18)%nat ->
  exists k, integer_part (IZR (2 ^ (32 * (Z.of_nat i + 1))) * PI) k /\ nth i P0 0 = k mod 2 ^ 32.
Proof.
  split; [reflexivity|]. intros i Hi. exists (table_number / 2 ^ (32 * (17 - N.of_nat i))). split.
  - unfold integer_part. rewrite N2Z.inj_div, N2Z.inj_pow. change (Z.of_N 2) with 2%Z.
    apply floor_shift; [lia|lia|]. replace (32 * (Z.of_nat i + 1) + Z.of_N (32 * (17 - N.of_nat i)))%Z with 576%Z by lia. apply table_pi.
  - do 18 (destruct i as [|i]; [vm_compute; reflexivity|]). lia.
Qed.

(** Non-vacuity: the rule selects. *)
Example C32_pi_case : integer_part (IZR (2 ^ 32) * PI) 0x3243f6a88 /\ ~ integer_part (IZR (2 ^ 32) * PI) 0x3243f6a89 /\ nth 0 P0 0 = 0x243f6a88.
Proof.
  assert (A : integer_part (IZR (2 ^ 32) * PI) 0x3243f6a88).
  { unfold integer_part. apply (pi_floor 32 32 20); [lia|lia| |]; vm_compute; congruence. }
  split; [exact A|]. split; [|reflexivity]. unfold integer_part in *. intros B.
  change (Z.of_N 0x3243f6a89) with 0x3243f6a89%Z in B. change (Z.of_N 0x3243f6a88) with 0x3243f6a88%Z in A. lra.
Qed.
Print Assumptions C32_blowfish_P.
