(** * Sensitivity to the star formation history: the properties *)
From Coq Require Import Reals List Arith Lra Lia.
From Coquelicot Require Import Coquelicot.
From Verif Require Import Num MUtils MSed MPhot Spec Spec2 SpecStab RList LUtils LAge LMet LJoint LPhot LPop LStab1 LStab2 LStab3.
Import ListNotations.
Open Scope R_scope.

Lemma sed_core_lognormal ts s s' lgmet h lgmets ages n_wave flux t_obs m c L :
  good_grids ts s h lgmets ages t_obs -> length ts = length s' -> 0 < t_obs -> 0 < m -> 0 < c -> 1 <= L ->
  sfr_follows c L (floored (1 / 10 ^ 14) s) (floored (1 / 10 ^ 14) s') -> sfr_follows c L (floored m s) (floored m s') ->
  nonneg_cube (length lgmets) (length ages) n_wave flux ->
  exists r r' sed sed',
    calc_rest_sed_sfh_table_lognormal_mdf (fins ts) (fins s) (Fin lgmet) (Fin h) (fins lgmets) (fins ages) (fins3 flux) (Fin t_obs) (Fin m) = Ok r
    /\ calc_rest_sed_sfh_table_lognormal_mdf (fins ts) (fins s') (Fin lgmet) (Fin h) (fins lgmets) (fins ages) (fins3 flux) (Fin t_obs) (Fin m) = Ok r'
    /\ rest_sed r = fins sed /\ rest_sed r' = fins sed' /\ length sed = n_wave /\ length sed' = n_wave
    /\ forall k, (k < n_wave)%nat -> 0 <= ent sed k /\ 0 <= ent sed' k /\ within_factor (L ^ 11) (c * ent sed k) (ent sed' k).
Proof.
  intros G Hl' Ht Hm Hc HL F0 Fm [Hf Pf]. pose proof G as (Hl & Hn & Hi & Ha & He & Hh & Hlm & Hme & Hff). pose proof sfr_min_pos as H14.
  destruct (weights_core ts s s' (1 / 10 ^ 14) c L t_obs ages Hl Hl' Hn Hi H14 Hc HL F0 Ha He Hff) as (Hff' & w & w' & E & E' & _ & _ & D & D' & WF).
  assert (G' : good_grids ts s' h lgmets ages t_obs) by (repeat split; auto; lia).
  destruct (C15_lemma ts s lgmet h lgmets ages t_obs G) as (W & mw & aw & EJ & EA & EM & SW & HW & HS & _).
  destruct (C15_lemma ts s' lgmet h lgmets ages t_obs G') as (W' & mw' & aw' & EJ' & EA' & EM' & SW' & HW' & HS' & _).
  assert (aw = w) by (rewrite E in EA; injection EA as EA; symmetry; now apply fins_inj). assert (aw' = w') by (rewrite E' in EA'; injection EA' as EA'; symmetry; now apply fins_inj).
  assert (mw' = mw) by (rewrite EM in EM'; injection EM' as EM'; symmetry; now apply fins_inj). subst aw aw' mw'.
  destruct (C17_lemma ts s lgmet h lgmets ages n_wave t_obs m G Ht Hm) as (V & _ & _ & PV & SED). destruct (SED flux Hf) as (r & sed & R1 & R2 & R3 & R4 & R5).
  destruct (C17_lemma ts s' lgmet h lgmets ages n_wave t_obs m G' Ht Hm) as (V' & _ & _ & PV' & SED'). destruct (SED' flux Hf) as (r' & sed' & R1' & R2' & R3' & R4' & R5').
  assert (FI2 : forall A B : list (list R), map fins A = map fins B -> A = B).
  { induction A as [|x A IH]; intros [|y B] EQ; try discriminate; auto. cbn [map] in EQ. injection EQ as Q1 Q2. f_equal; auto. now apply fins_inj. }
  assert (V = W). { unfold calc_rest_sed_sfh_table_lognormal_mdf in R1. rewrite EJ in R1. cbn [bind] in R1. apply check_ok in R1 as [_ R1]. injection R1 as R1. subst r. cbn [rs_weights weights] in R3. symmetry. now apply FI2. }
  assert (V' = W'). { unfold calc_rest_sed_sfh_table_lognormal_mdf in R1'. rewrite EJ' in R1'. cbn [bind] in R1'. apply check_ok in R1' as [_ R1']. injection R1' as R1'. subst r'. cbn [rs_weights weights] in R3'. symmetry. now apply FI2. }
  subst V V'. exists r, r', sed, sed'. do 6 (split; [assumption|]). intros k Hk.
  pose proof (mass_formed_pos ts (floored m s) t_obs) as PM. pose proof (mass_formed_pos ts (floored m s') t_obs) as PM'.
  assert (Pk : forall i j, (i < length lgmets)%nat -> (j < length ages)%nat -> 0 <= ent3 flux i j k) by (intros; now apply Pf).
  rewrite R5, R5' by auto. split; [apply Rmult_le_pos; [lra|now apply template_mix_nonneg]|]. split; [apply Rmult_le_pos; [lra|now apply template_mix_nonneg]|].
  replace (L ^ 11) with (L * L ^ 10) by ring. apply sed_scale; auto; try lra.
  - apply (core_level ts (floored m s) (floored m s')); auto using floored_pos, floored_len_eq.
  - apply (core_level ts (floored m s') (floored m s)); auto using floored_pos, floored_len_eq, Rinv_0_lt_compat, sfr_follows_sym.
  - apply pow_le; lra.
  - intros i j Hii Hj. destruct (HW i j Hii Hj) as [-> PW]. destruct (HW' i j Hii Hj) as [-> PW']. destruct (WF j Hj) as [A B].
    assert (0 <= ent mw i).
    { destruct (C10_lemma lgmet h lgmets Hh Hlm Hme) as [mw0 [E2 [L2 D2]]]. rewrite EM in E2. injection E2 as E2. apply fins_inj in E2. subst mw0.
      destruct D2 as [P2 _]. rewrite Forall_ent in P2. apply P2. lia. }
    split; [replace (L ^ 10 * (ent mw i * ent w j)) with (ent mw i * (L ^ 10 * ent w j)) by ring|replace (L ^ 10 * (ent mw i * ent w' j)) with (ent mw i * (L ^ 10 * ent w' j)) by ring]; now apply Rmult_le_compat_l.
Qed.

Lemma sed_core_met ts s s' ms h lgmets ages n_wave flux t_obs m c L :
  good_grids ts s h lgmets ages t_obs -> length ts = length s' -> length ts = length ms -> 0 < t_obs -> 0 < m -> 0 < c -> 1 <= L ->
  sfr_follows c L (floored (1 / 10 ^ 14) s) (floored (1 / 10 ^ 14) s') -> sfr_follows c L (floored m s) (floored m s') ->
  nonneg_cube (length lgmets) (length ages) n_wave flux ->
  exists r r' sed sed',
    calc_rest_sed_sfh_table_met_table (fins ts) (fins s) (fins ms) (Fin h) (fins lgmets) (fins ages) (fins3 flux) (Fin t_obs) (Fin m) = Ok r
    /\ calc_rest_sed_sfh_table_met_table (fins ts) (fins s') (fins ms) (Fin h) (fins lgmets) (fins ages) (fins3 flux) (Fin t_obs) (Fin m) = Ok r'
    /\ rest_sed r = fins sed /\ rest_sed r' = fins sed' /\ length sed = n_wave /\ length sed' = n_wave
    /\ forall k, (k < n_wave)%nat -> 0 <= ent sed k /\ 0 <= ent sed' k /\ within_factor (L ^ 11) (c * ent sed k) (ent sed' k).
Proof.
  intros G Hl' Hms Ht Hm Hc HL F0 Fm [Hf Pf]. pose proof G as (Hl & Hn & Hi & Ha & He & Hh & Hlm & Hme & Hff). pose proof sfr_min_pos as H14.
  destruct (weights_core ts s s' (1 / 10 ^ 14) c L t_obs ages Hl Hl' Hn Hi H14 Hc HL F0 Ha He Hff) as (Hff' & w & w' & E & E' & _ & _ & D & D' & WF).
  assert (G' : good_grids ts s' h lgmets ages t_obs) by (repeat split; auto; lia).
  destruct (joint_met_fins ts s ms h lgmets ages t_obs G Hms) as (aw & W & EA & LA & DA & EJ & SW & HW).
  destruct (joint_met_fins ts s' ms h lgmets ages t_obs G' Hms) as (aw' & W' & EA' & LA' & DA' & EJ' & SW' & HW').
  assert (aw = w) by (rewrite E in EA; injection EA as EA; symmetry; now apply fins_inj). assert (aw' = w') by (rewrite E' in EA'; injection EA' as EA'; symmetry; now apply fins_inj).
  subst aw aw'.
  destruct (C17_met_lemma ts s ms h lgmets ages n_wave t_obs m G Hms Ht Hm) as (V & _ & _ & PV & SED). destruct (SED flux Hf) as (r & sed & R1 & R2 & R3 & R4 & R5).
  destruct (C17_met_lemma ts s' ms h lgmets ages n_wave t_obs m G' Hms Ht Hm) as (V' & _ & _ & PV' & SED'). destruct (SED' flux Hf) as (r' & sed' & R1' & R2' & R3' & R4' & R5').
  assert (FI2 : forall A B : list (list R), map fins A = map fins B -> A = B).
  { induction A as [|x A IH]; intros [|y B] EQ; try discriminate; auto. cbn [map] in EQ. injection EQ as Q1 Q2. f_equal; auto. now apply fins_inj. }
  assert (V = W). { unfold calc_rest_sed_sfh_table_met_table in R1. rewrite EJ in R1. cbn [bind] in R1. apply check_ok in R1 as [_ R1]. injection R1 as R1. subst r. cbn [rs_weights weights] in R3. symmetry. now apply FI2. }
  assert (V' = W'). { unfold calc_rest_sed_sfh_table_met_table in R1'. rewrite EJ' in R1'. cbn [bind] in R1'. apply check_ok in R1' as [_ R1']. injection R1' as R1'. subst r'. cbn [rs_weights weights] in R3'. symmetry. now apply FI2. }
  subst V V'. exists r, r', sed, sed'. do 6 (split; [assumption|]). intros k Hk.
  pose proof (mass_formed_pos ts (floored m s) t_obs) as PM. pose proof (mass_formed_pos ts (floored m s') t_obs) as PM'.
  assert (Pk : forall i j, (i < length lgmets)%nat -> (j < length ages)%nat -> 0 <= ent3 flux i j k) by (intros; now apply Pf).
  rewrite R5, R5' by auto. split; [apply Rmult_le_pos; [lra|now apply template_mix_nonneg]|]. split; [apply Rmult_le_pos; [lra|now apply template_mix_nonneg]|].
  replace (L ^ 11) with (L * L ^ 10) by ring. apply sed_scale; auto; try lra.
  - apply (core_level ts (floored m s) (floored m s')); auto using floored_pos, floored_len_eq.
  - apply (core_level ts (floored m s') (floored m s)); auto using floored_pos, floored_len_eq, Rinv_0_lt_compat, sfr_follows_sym.
  - apply pow_le; lra.
  - intros i j Hii Hj. rewrite (HW i j Hii Hj), (HW' i j Hii Hj). destruct (WF j Hj) as [A B].
    destruct (met_weights_dist_met (lgmet_at_birth ts ms t_obs (ent ages j)) h lgmets Hh Hlm Hme) as [[P2 _] L2]. set (mw := met_weights _ _ _) in *. clearbody mw.
    assert (0 <= ent mw i) by (rewrite Forall_ent in P2; apply P2; lia).
    split; [replace (L ^ 10 * (ent mw i * ent w j)) with (ent mw i * (L ^ 10 * ent w j)) by ring|replace (L ^ 10 * (ent mw i * ent w' j)) with (ent mw i * (L ^ 10 * ent w' j)) by ring]; now apply Rmult_le_compat_l.
Qed.
