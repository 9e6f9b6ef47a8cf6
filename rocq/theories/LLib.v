(** * A mathematical library that is not correctly rounded: double-precision arithmetic whose
    library works in single precision *)
From Coq Require Import Reals List Arith Lra Lia ZArith Bool.
From Flocq Require Import Core.Raux Core.Zaux Core.Defs Core.Generic_fmt Core.FLT Core.Round_NE.
From Verif Require Import Num Float Spec SpecFloat LOrder LFloat LFloat9.
Open Scope R_scope.

Lemma single_in_double z : round_ieee 24 (-149) 128 z = Fin z -> round_ieee 53 (-1074) 1024 z = Fin z.
Proof.
  intros E. apply ri_rep in E; try lia. destruct E as [F B]. apply ri_id; try lia.
  - apply generic_inclusion_mag with (FLT_exp (-149) 24); auto. intros _. unfold FLT_exp. lia.
  - eapply Rlt_le_trans; [exact B|]. apply bpow_le. lia.
Qed.
Lemma single_library red : accurate_library (double_precision red rounded32) (/ 2 ^ 24).
Proof.
  intros f D. destruct (accurate32 red f D) as (N & F & R & S). split; [exact N|]. split; [|split; [exact R|exact S]].
  intros z Hz. destruct (F z Hz) as [F1 F2]. split; [|exact F2]. now apply single_in_double.
Qed.
Lemma single_library_accurate red : any_order red -> accurate_to (double_precision red rounded32) (/ 2 ^ 24) /\ ieee_arithmetic (double_precision red rounded32).
Proof.
  intros O. split; split; try apply single_library; try (eapply accurate_weaken; [apply single_library|apply half_pow_le; lia]).
  - exists red, rounded32. split; auto. left. split; [now left|]. split; apply half_pow_le; lia.
  - exists red, rounded32. split; auto. left. now left.
Qed.
Lemma single_library_monotone red : monotone_library (double_precision red rounded32).
Proof. exact mono32. Qed.
(** single-precision arithmetic whose library only gives 22 correct bits: four times the error of
    a correctly rounded one *)
Definition rounded22 (f : elementary) : num := round_ieee 22 (-149) 128 (elem_value f).
Lemma sloppy_in_single z : round_ieee 22 (-149) 128 z = Fin z -> round_ieee 24 (-149) 128 z = Fin z.
Proof.
  intros E. apply ri_rep in E; try lia. destruct E as [F B]. apply ri_id; try lia; auto.
  apply generic_inclusion_mag with (FLT_exp (-149) 22); auto. intros _. unfold FLT_exp. lia.
Qed.
Lemma sloppy_library red : accurate_library (single_precision red rounded22) (/ 2 ^ 22).
Proof.
  intros f D. destruct (correct_accurate 22 (-149) 128 ltac:(lia) ltac:(lia) ltac:(lia) 0 red 22%nat ltac:(lia) eq_refl ltac:(lia) f D) as (N & F & R & S). split; [exact N|]. split; [|split; [exact R|exact S]].
  intros z Hz. destruct (F z Hz) as [F1 F2]. split; [|exact F2]. now apply sloppy_in_single.
Qed.
Lemma sloppy_library_accurate red : any_order red -> accurate_to (single_precision red rounded22) (/ 2 ^ 22) /\ ieee_arithmetic (single_precision red rounded22).
Proof.
  intros O. split; split; try apply sloppy_library.
  - exists red, rounded22. split; auto. right. split; [now left|]. split; [apply half_pow_le; lia|lra].
  - exists red, rounded22. split; auto. right. now left.
Qed.

(** ** subnormals flushed to zero *)
Lemma mono64f : monotone_library (double_flushed left_to_right rounded64f).
Proof. apply correct_monotone; [|reflexivity]. apply good_double_flushed; [apply left_to_right_any_order|]. eapply accurate_weaken; [apply accurate64f|apply half_pow_le; lia]. Qed.
Lemma mono32f : monotone_library (single_flushed left_to_right rounded32f).
Proof. apply correct_monotone; [|reflexivity]. apply good_single_flushed; [apply left_to_right_any_order|]. eapply accurate_weaken; [apply accurate32f|apply half_pow_le; lia]. Qed.
(** a product that underflows: kept by gradual underflow, zero when subnormals are flushed *)
Lemma flush_demo : @nmul binary32 (Fin (/ 2 ^ 70)) (Fin (/ 2 ^ 60)) = Fin (/ 2 ^ 130)
  /\ @nmul (single_flushed left_to_right rounded32f) (Fin (/ 2 ^ 70)) (Fin (/ 2 ^ 60)) = Fin 0.
Proof.
  assert (E : / 2 ^ 70 * / 2 ^ 60 = / 2 ^ 130) by (rewrite <- Rinv_mult, <- pow_add; reflexivity).
  assert (R : round_ieee 24 (-149) 128 (/ 2 ^ 130) = Fin (/ 2 ^ 130)).
  { assert (B : / 2 ^ 130 = bpow radix2 (-130)) by (change (-130)%Z with (- Z.of_nat 130)%Z; rewrite bpow_opp, bpow_powerRZ; change (IZR radix2) with 2; now rewrite <- pow_powerRZ).
    rewrite B. apply ri_id.
    - apply Generic_fmt.generic_format_bpow. unfold FLT.FLT_exp. lia.
    - rewrite Rabs_right by apply Rle_ge, bpow_ge_0. apply bpow_lt. lia. }
  split.
  - cbn [nmul]. rewrite E. exact R.
  - cbn [nmul rnd single_flushed]. rewrite E, R. cbn [flushed]. rewrite Rlt_bool_true; auto.
    rewrite Rabs_right by (apply Rle_ge, Rlt_le, Rinv_0_lt_compat, pow_lt; lra). change (-126)%Z with (- Z.of_nat 126)%Z. rewrite bpow_opp, bpow_powerRZ. change (IZR radix2) with 2. rewrite <- pow_powerRZ.
    apply Rinv_lt_contravar; [apply Rmult_lt_0_compat; apply pow_lt; lra|]. apply Rlt_pow; [lra|lia].
Qed.
