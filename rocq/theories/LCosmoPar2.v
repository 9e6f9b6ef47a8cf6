(** * C149: the lemmas behind the property theorems *)
From Coq Require Import Reals List Arith Lra Lia.
From Coquelicot Require Import Coquelicot.
From Flocq Require Import Core.Raux.
From Verif Require Import Num Arr MUtils MCosmo Spec SpecPar RList LUtils LKern LKern2 LBurst LCosmo LCosmoPar.
Import ListNotations.
Open Scope R_scope.

Lemma dv_fin z Om0 w0 wa h : -1 < z -> 0 < Om0 <= 1 -> 0 < h ->
  differential_comoving_volume_at_z (Fin z) (Fin Om0) (Fin w0) (Fin wa) (Fin h)
  = Fin (hubble_dist h * dc Om0 w0 wa h z ^ 2 / expansion Om0 w0 wa z).
Proof.
  intros Hz HO Hh. destruct (C61_lemma z Om0 w0 wa h Hz HO Hh) as (dC & dV & E1 & E2 & E3 & _).
  rewrite dc_fin in E1 by (auto; lra). injection E1 as <-. now rewrite E2, E3.
Qed.
Lemma mu_fin z Om0 w0 wa h : 0 < z -> 0 < Om0 <= 1 -> 0 < h ->
  distance_modulus_to_z (Fin z) (Fin Om0) (Fin w0) (Fin wa) (Fin h)
  = Fin (5 * log10 (dc Om0 w0 wa h z * (1 + z) * 10 ^ 6 / 10)).
Proof.
  intros Hz HO Hh. destruct (proj1 (C55_lemma Om0 w0 wa h HO Hh) z Hz) as (dL & mu & E1 & E2 & _ & E3).
  rewrite dl_fin in E1 by (auto; lra). injection E1 as <-. now rewrite E2, E3.
Qed.
Lemma log10_lt x y : 0 < x < y -> log10 x < log10 y.
Proof.
  intros H. unfold log10, Rdiv. apply Rmult_lt_compat_r.
  - apply Rinv_0_lt_compat. rewrite <- ln_1. apply ln_increasing; lra.
  - apply ln_increasing; lra.
Qed.
Lemma rho_fin z Om0 w0 wa h : -1 < z -> 0 < Om0 <= 1 ->
  rho_crit (Fin z) (Fin Om0) (Fin w0) (Fin wa) (Fin h) = Fin (277.536627 * h * h * expansion Om0 w0 wa z ^ 2).
Proof.
  intros Hz HO. unfold rho_crit, RHO_CRIT0_KPC3_UNITY_H. unlit. rewrite Ez_fin by auto. now rewrite ipow_fin, !nmul_fin.
Qed.
Lemma faster_all Om w a Om' w' a' : faster Om w a Om' w' a' -> forall h z, 0 < h -> 0 < z ->
  less (comoving_distance_to_z (Fin z) (Fin Om') (Fin w') (Fin a') (Fin h))
       (comoving_distance_to_z (Fin z) (Fin Om) (Fin w) (Fin a) (Fin h))
  /\ less (luminosity_distance_to_z (Fin z) (Fin Om') (Fin w') (Fin a') (Fin h))
          (luminosity_distance_to_z (Fin z) (Fin Om) (Fin w) (Fin a) (Fin h))
  /\ less (angular_diameter_distance_to_z (Fin z) (Fin Om') (Fin w') (Fin a') (Fin h))
          (angular_diameter_distance_to_z (Fin z) (Fin Om) (Fin w) (Fin a) (Fin h))
  /\ less (distance_modulus_to_z (Fin z) (Fin Om') (Fin w') (Fin a') (Fin h))
          (distance_modulus_to_z (Fin z) (Fin Om) (Fin w) (Fin a) (Fin h))
  /\ less (differential_comoving_volume_at_z (Fin z) (Fin Om') (Fin w') (Fin a') (Fin h))
          (differential_comoving_volume_at_z (Fin z) (Fin Om) (Fin w) (Fin a) (Fin h))
  /\ less (lookback_to_z (Fin z) (Fin Om') (Fin w') (Fin a') (Fin h))
          (lookback_to_z (Fin z) (Fin Om) (Fin w) (Fin a) (Fin h))
  /\ less (age_at_z0 (Fin Om') (Fin w') (Fin a') (Fin h)) (age_at_z0 (Fin Om) (Fin w) (Fin a) (Fin h))
  /\ less (rho_crit (Fin z) (Fin Om) (Fin w) (Fin a) (Fin h)) (rho_crit (Fin z) (Fin Om') (Fin w') (Fin a') (Fin h)).
Proof.
  intros F h z Hh Hz. pose proof F as (HO & HO' & HE). specialize (HE z Hz).
  pose proof (E_pos Om w a z HO ltac:(lra)) as EP.
  pose proof (faster_dc _ _ _ _ _ _ F h z Hh Hz) as D. pose proof (hubble_dist_pos h Hh) as HD.
  unfold less.
  split; [do 2 eexists; split; [apply dc_fin; auto; lra|split; [apply dc_fin; auto; lra|lra]]|].
  split; [do 2 eexists; split; [apply dl_fin; auto; lra|split; [apply dl_fin; auto; lra|]]; apply Rmult_lt_compat_r; lra|].
  split; [do 2 eexists; split; [apply da_fin; auto; lra|split; [apply da_fin; auto; lra|]];
    apply Rmult_lt_compat_r; [apply Rinv_0_lt_compat|]; lra|].
  split; [do 2 eexists; split; [apply mu_fin; auto; lra|split; [apply mu_fin; auto; lra|]];
    apply Rmult_lt_compat_l; [lra|]; apply log10_lt|].
  { assert (0 < dc Om' w' a' h z * (1 + z)) by (apply Rmult_lt_0_compat; lra).
    assert (dc Om' w' a' h z * (1 + z) < dc Om w a h z * (1 + z)) by (apply Rmult_lt_compat_r; lra). lra. }
  split; [do 2 eexists; split; [apply dv_fin; auto; lra|split; [apply dv_fin; auto; lra|]]|].
  { assert (A : dc Om' w' a' h z ^ 2 < dc Om w a h z ^ 2) by (rewrite <- !Rsqr_pow2; apply Rsqr_incrst_1; lra).
    assert (P : 0 < dc Om' w' a' h z ^ 2) by (apply pow_lt; lra).
    assert (I : / expansion Om' w' a' z < / expansion Om w a z).
    { apply Rinv_lt_contravar; auto. apply Rmult_lt_0_compat; lra. }
    assert (I0 : 0 < / expansion Om' w' a' z) by (apply Rinv_0_lt_compat; lra).
    unfold Rdiv. rewrite !Rmult_assoc. apply Rmult_lt_compat_l; auto. apply Rmult_gt_0_lt_compat; lra. }
  split; [do 2 eexists; split; [apply lookback_fin; auto; lra|split; [apply lookback_fin; auto; lra|]];
    eapply faster_look; eauto|].
  split; [do 2 eexists; split; [apply age0_fin; auto; lra|split; [apply age0_fin; auto; lra|]];
    eapply faster_age; eauto|].
  do 2 eexists; split; [apply rho_fin; auto; lra|split; [apply rho_fin; auto; lra|]].
  assert (0 < h * h) by (apply Rmult_lt_0_compat; lra).
  apply Rmult_lt_compat_l; [lra|]. rewrite <- !Rsqr_pow2. apply Rsqr_incrst_1; lra.
Qed.

Lemma C149_lemma : forall Om w a Om' w' a' h z, heavier (Om, w, a) (Om', w', a') -> 0 < h -> 0 < z ->
  less (comoving_distance_to_z (Fin z) (Fin Om') (Fin w') (Fin a') (Fin h))
       (comoving_distance_to_z (Fin z) (Fin Om) (Fin w) (Fin a) (Fin h))
  /\ less (luminosity_distance_to_z (Fin z) (Fin Om') (Fin w') (Fin a') (Fin h))
          (luminosity_distance_to_z (Fin z) (Fin Om) (Fin w) (Fin a) (Fin h))
  /\ less (angular_diameter_distance_to_z (Fin z) (Fin Om') (Fin w') (Fin a') (Fin h))
          (angular_diameter_distance_to_z (Fin z) (Fin Om) (Fin w) (Fin a) (Fin h))
  /\ less (distance_modulus_to_z (Fin z) (Fin Om') (Fin w') (Fin a') (Fin h))
          (distance_modulus_to_z (Fin z) (Fin Om) (Fin w) (Fin a) (Fin h))
  /\ less (differential_comoving_volume_at_z (Fin z) (Fin Om') (Fin w') (Fin a') (Fin h))
          (differential_comoving_volume_at_z (Fin z) (Fin Om) (Fin w) (Fin a) (Fin h))
  /\ less (lookback_to_z (Fin z) (Fin Om') (Fin w') (Fin a') (Fin h))
          (lookback_to_z (Fin z) (Fin Om) (Fin w) (Fin a) (Fin h))
  /\ less (age_at_z0 (Fin Om') (Fin w') (Fin a') (Fin h)) (age_at_z0 (Fin Om) (Fin w) (Fin a) (Fin h))
  /\ less (rho_crit (Fin z) (Fin Om) (Fin w) (Fin a) (Fin h)) (rho_crit (Fin z) (Fin Om') (Fin w') (Fin a') (Fin h)).
Proof. intros Om w a Om' w' a' h z H Hh Hz. apply faster_all; auto. now apply heavier_faster. Qed.

(** without the condition on dark energy more matter can make every distance larger *)
Lemma C149_stiff_lemma : forall Om Om' w a h z, 0 < Om < Om' -> Om' <= 1 -> 0 < w -> 0 <= w + a -> 0 < h -> 0 < z ->
  less (comoving_distance_to_z (Fin z) (Fin Om) (Fin w) (Fin a) (Fin h))
       (comoving_distance_to_z (Fin z) (Fin Om') (Fin w) (Fin a) (Fin h))
  /\ less (lookback_to_z (Fin z) (Fin Om) (Fin w) (Fin a) (Fin h))
          (lookback_to_z (Fin z) (Fin Om') (Fin w) (Fin a) (Fin h)).
Proof.
  intros Om Om' w a h z HO HO' Hw Ha Hh Hz.
  assert (F : faster Om' w a Om w a).
  { split; [lra|]. split; [lra|]. intros y Hy. unfold expansion. apply sqrt_lt_1.
    - pose proof (E2_pos Om' w a y ltac:(lra) ltac:(lra)); lra.
    - pose proof (E2_pos Om w a y ltac:(lra) ltac:(lra)); lra.
    - pose proof (de_gt_matter w a y Hy Hw Ha) as M.
      assert (0 < (Om' - Om) * (dark_energy w a y - (1 + y) ^ 3)) by (apply Rmult_lt_0_compat; lra). lra. }
  pose proof (faster_all _ _ _ _ _ _ F h z Hh Hz) as A. tauto.
Qed.

(** the matter fraction *)
Lemma C149_matter_lemma : forall Om w a Om' w' a' z, 0 < Om <= Om' -> Om' < 1 -> w' <= w -> a' <= a ->
  (Om, w, a) <> (Om', w', a') -> 0 < z ->
  less (Om_at_z (Fin z) (Fin Om) (Fin w) (Fin a)) (Om_at_z (Fin z) (Fin Om') (Fin w') (Fin a')).
Proof.
  intros Om w a Om' w' a' z HO HO' Hw Ha NE Hz. do 2 eexists.
  split; [apply om_fin; lra|]. split; [apply om_fin; lra|].
  assert (C : 0 < (1 + z) ^ 3) by (apply pow_lt; lra).
  pose proof (de_pos w a z) as P. pose proof (de_pos w' a' z) as P'.
  pose proof (de_le w' a' w a z ltac:(lra) Hw Ha) as D.
  assert (X : Om * ((1 - Om') * dark_energy w' a' z) < Om' * ((1 - Om) * dark_energy w a z)).
  { assert (B1 : Om * (1 - Om') <= Om' * (1 - Om)) by lra.
    destruct (Req_dec Om Om') as [EO|EO].
    - subst Om'. assert (DD : dark_energy w' a' z < dark_energy w a z).
      { apply de_lt; auto. destruct (Req_dec w w') as [->|]; auto. destruct (Req_dec a a') as [->|]; auto; congruence. }
      rewrite <- !Rmult_assoc. apply Rmult_lt_compat_l; auto. apply Rmult_lt_0_compat; lra.
    - apply Rle_lt_trans with (Om * ((1 - Om') * dark_energy w a z)).
      + apply Rmult_le_compat_l; [lra|]. apply Rmult_le_compat_l; lra.
      + rewrite <- !Rmult_assoc. apply Rmult_lt_compat_r; lra. }
  unfold omz. set (c := (1 + z) ^ 3) in *. set (d := dark_energy w a z) in *. set (d' := dark_energy w' a' z) in *.
  assert (Q : 0 < Om * c + (1 - Om) * d).
  { assert (0 < Om * c) by (apply Rmult_lt_0_compat; lra). assert (0 < (1 - Om) * d) by (apply Rmult_lt_0_compat; lra). lra. }
  assert (Q' : 0 < Om' * c + (1 - Om') * d').
  { assert (0 < Om' * c) by (apply Rmult_lt_0_compat; lra). assert (0 < (1 - Om') * d') by (apply Rmult_lt_0_compat; lra). lra. }
  apply (Rmult_lt_reg_r ((Om * c + (1 - Om) * d) * (Om' * c + (1 - Om') * d'))); [now apply Rmult_lt_0_compat|].
  replace (Om * c / (Om * c + (1 - Om) * d) * ((Om * c + (1 - Om) * d) * (Om' * c + (1 - Om') * d')))
    with (Om * c * (Om' * c + (1 - Om') * d')) by (field; lra).
  replace (Om' * c / (Om' * c + (1 - Om') * d') * ((Om * c + (1 - Om) * d) * (Om' * c + (1 - Om') * d')))
    with (Om' * c * (Om * c + (1 - Om) * d)) by (field; lra).
  apply Rminus_gt_0_lt.
  replace (Om' * c * (Om * c + (1 - Om) * d) - Om * c * (Om' * c + (1 - Om') * d'))
    with (c * (Om' * ((1 - Om) * d) - Om * ((1 - Om') * d'))) by ring.
  apply Rmult_lt_0_compat; lra.
Qed.
