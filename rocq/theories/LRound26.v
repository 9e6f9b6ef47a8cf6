(** * Concrete cosmologies for the examples of C139 and C140 *)
From Coq Require Import Reals List Arith Lra Lia ZArith.
From Verif Require LFloat9.
From Verif Require Import Num Arr Float Spec SpecFloat SpecFloat2 LFloat LFloat2 LRound12.
Open Scope R_scope.
Lemma rd_unit32 : accurate_to binary32 (/ 2 ^ 24).
Proof. exact LFloat9.unit32. Qed.
Lemma cos_demo64 : rounding_cosmology (AR := binary64) (1/2) (1/4) (-1) 0 (3/4).
Proof.
  split; [apply (rnd_dy good_binary64 1 1); [lia|lia|simpl; lra]|]. split; [apply (rnd_dy good_binary64 1 2); [lia|lia|simpl; lra]|]. split; [apply (rnd_dy good_binary64 (-1) 0); [lia|lia|simpl; lra]|].
  split; [apply (rnd_dy good_binary64 0 0); [lia|lia|simpl; lra]|]. split; [apply (rnd_dy good_binary64 3 2); [lia|lia|simpl; lra]|]. simpl. lra.
Qed.
Lemma cos_demo32 : rounding_cosmology (AR := binary32) 20 (1/4) (-3/4) (1/2) (3/4).
Proof.
  split; [apply (rnd_dy good_binary32 20 0); [lia|lia|simpl; lra]|]. split; [apply (rnd_dy good_binary32 1 2); [lia|lia|simpl; lra]|]. split; [apply (rnd_dy good_binary32 (-3) 2); [lia|lia|simpl; lra]|].
  split; [apply (rnd_dy good_binary32 1 1); [lia|lia|simpl; lra]|]. split; [apply (rnd_dy good_binary32 3 2); [lia|lia|simpl; lra]|]. simpl. lra.
Qed.
