(** * Properties C149-C151: dependence on the cosmological parameters and accuracy of the distances
    (cosmology/flat_wcdm.py).  Exact real arithmetic; the vocabulary is in Spec.v and SpecPar.v. *)
From Coq Require Import Reals List Arith Lra Lia.
From Coquelicot Require Import Coquelicot.
From Verif Require Import Num MUtils MCosmo Spec SpecPar RList LCosmoPar2 LCosmo4 LCosmo5.
Import ListNotations.
Open Scope R_scope.

(** C149 *)
Theorem C149_more_gravity_shorter_distances : forall Om w a Om' w' a' h z, heavier (Om, w, a) (Om', w', a') -> 0 < h -> 0 < z ->
  less (comoving_distance_to_z (Fin z) (Fin Om') (Fin w') (Fin a') (Fin h))
       (comoving_distance_to_z (Fin z) (Fin Om) (Fin w) (Fin a) (Fin h))
  /\ less (luminosity_distance_to_z (Fin z) (Fin Om') (Fin w') (Fin a') (Fin h))
          (luminosity_distance_to_z (Fin z) (Fin Om) (Fin w) (Fin a) (Fin h))
  /\ less (angular_diameter_distance_to_z (Fin z) (Fin Om') (Fin w') (Fin a') (Fin h))
          (angular_diameter_distance_to_z (Fin z) (Fin Om) (Fin w) (Fin a) (Fin h))
  /\ less (distance_modulus_to_z (Fin z) (Fin Om') (Fin w') (Fin a') (Fin h))
          (distance_modulus_to_z (Fin z) (Fin Om) (Fin w) (Fin a) (Fin h))
  /\ less (differential_comoving_volume_at_z (Fin z) (Fin Om') (Fin w') (Fin a') (Fin h))
          (differential_comoving_volume_at_z (Fin z) (Fin Om) (Fin w) (Fin a) (Fin h))
  /\ less (lookback_to_z (Fin z) (Fin Om') (Fin w') (Fin a') (Fin h))
          (lookback_to_z (Fin z) (Fin Om) (Fin w) (Fin a) (Fin h))
  /\ less (age_at_z0 (Fin Om') (Fin w') (Fin a') (Fin h)) (age_at_z0 (Fin Om) (Fin w) (Fin a) (Fin h))
  /\ less (rho_crit (Fin z) (Fin Om) (Fin w) (Fin a) (Fin h)) (rho_crit (Fin z) (Fin Om') (Fin w') (Fin a') (Fin h)).
Proof. exact C149_lemma. Qed.
Print Assumptions C149_more_gravity_shorter_distances.
Theorem C149_stiff_dark_energy_reverses : forall Om Om' w a h z, 0 < Om < Om' -> Om' <= 1 -> 0 < w -> 0 <= w + a -> 0 < h -> 0 < z ->
  less (comoving_distance_to_z (Fin z) (Fin Om) (Fin w) (Fin a) (Fin h))
       (comoving_distance_to_z (Fin z) (Fin Om') (Fin w) (Fin a) (Fin h))
  /\ less (lookback_to_z (Fin z) (Fin Om) (Fin w) (Fin a) (Fin h))
          (lookback_to_z (Fin z) (Fin Om') (Fin w) (Fin a) (Fin h)).
Proof. exact C149_stiff_lemma. Qed.
Print Assumptions C149_stiff_dark_energy_reverses.
Theorem C149_matter_fraction : forall Om w a Om' w' a' z, 0 < Om <= Om' -> Om' < 1 -> w' <= w -> a' <= a ->
  (Om, w, a) <> (Om', w', a') -> 0 < z ->
  less (Om_at_z (Fin z) (Fin Om) (Fin w) (Fin a)) (Om_at_z (Fin z) (Fin Om') (Fin w') (Fin a')).
Proof. exact C149_matter_lemma. Qed.
Print Assumptions C149_matter_fraction.
(** Planck 2015 against a model with less matter and phantom dark energy *)
Example C149_nonvacuous : heavier (0.27, -1.1, 0) (0.3075, -1, 0)
  /\ less (distance_modulus_to_z (Fin 1) (Fin 0.3075) (Fin (-1)) (Fin 0) (Fin 0.6774))
          (distance_modulus_to_z (Fin 1) (Fin 0.27) (Fin (-1.1)) (Fin 0) (Fin 0.6774)).
Proof.
  assert (H : heavier (0.27, -1.1, 0) (0.3075, -1, 0)).
  { repeat split; try lra. intros E. injection E. lra. }
  split; auto. pose proof (C149_more_gravity_shorter_distances _ _ _ _ _ _ 0.6774 1 H) as A. apply A; lra.
Qed.
Example C149_stiff_nonvacuous :
  less (comoving_distance_to_z (Fin 1) (Fin 0.3) (Fin 1) (Fin 0) (Fin 0.7))
       (comoving_distance_to_z (Fin 1) (Fin 0.4) (Fin 1) (Fin 0) (Fin 0.7)).
Proof. apply (C149_stiff_dark_energy_reverses 0.3 0.4 1 0 0.7 1); lra. Qed.
Example C149_matter_nonvacuous :
  less (Om_at_z (Fin 1) (Fin 0.3) (Fin (-0.9)) (Fin 0.1)) (Om_at_z (Fin 1) (Fin 0.3) (Fin (-1)) (Fin 0)).
Proof. apply C149_matter_fraction; try lra. intros E. injection E. lra. Qed.

(** C150 *)
Theorem C150_distance_error : forall Om0 h z, 0 < Om0 <= 1 -> 0 < h -> 0 < z -> exists D,
  comoving_distance_to_z (Fin z) (Fin Om0) (Fin (-1)) (Fin 0) (Fin h) = Fin D
  /\ Rabs (D - hubble_dist h * RInt (fun x => 1 / expansion Om0 (-1) 0 x) 0 z)
     <= hubble_dist h * (5 / 16 * (z / 255) ^ 2 * (1 + z / 255) * (z / (1 + z))).
Proof. exact C150_lemma. Qed.
Print Assumptions C150_distance_error.
Theorem C150_distance_modulus_error : forall Om0 h z, 0 < Om0 <= 1 -> 0 < h -> 0 < z <= 5 -> exists mu,
  distance_modulus_to_z (Fin z) (Fin Om0) (Fin (-1)) (Fin 0) (Fin h) = Fin mu
  /\ Rabs (mu - 5 * log10 ((1 + z) * (hubble_dist h * RInt (fun x => 1 / expansion Om0 (-1) 0 x) 0 z) * 10 ^ 6 / 10)) <= 0.001.
Proof. exact C150_modulus_lemma. Qed.
Print Assumptions C150_distance_modulus_error.
Example C150_nonvacuous : exists mu,
  distance_modulus_to_z (Fin 1) (Fin 0.3075) (Fin (-1)) (Fin 0) (Fin 0.6774) = Fin mu
  /\ Rabs (mu - 5 * log10 ((1 + 1) * (hubble_dist 0.6774 * RInt (fun x => 1 / expansion 0.3075 (-1) 0 x) 0 1) * 10 ^ 6 / 10)) <= 0.001.
Proof. apply C150_distance_modulus_error; lra. Qed.

(** C151: the true distance stays below the horizon, the reported one does not *)
Theorem C151_true_distance_below_horizon : forall Om0 w0 wa h z, 0 < Om0 <= 1 -> 0 < h -> 0 < z ->
  hubble_dist h * RInt (fun x => 1 / expansion Om0 w0 wa x) 0 z < hubble_dist h * (2 / sqrt Om0).
Proof. exact C151_horizon_lemma. Qed.
Print Assumptions C151_true_distance_below_horizon.
Theorem C151_reported_distance_below_horizon_refuted : forall Om0 w0 wa h z, 0 < Om0 <= 1 -> 0 < h -> 1020 / sqrt Om0 <= z -> exists D,
  comoving_distance_to_z (Fin z) (Fin Om0) (Fin w0) (Fin wa) (Fin h) = Fin D
  /\ hubble_dist h * (2 / sqrt Om0) <= D.
Proof. exact C151_refuted_lemma. Qed.
Print Assumptions C151_reported_distance_below_horizon_refuted.
Theorem C151_last_scattering_refuted : exists D,
  comoving_distance_to_z (Fin 1100) (cp_Om0 PLANCK15) (cp_w0 PLANCK15) (cp_wa PLANCK15) (cp_h PLANCK15) = Fin D
  /\ 1.15 * (hubble_dist 0.6774 * RInt (fun x => 1 / expansion 0.3075 (-1) 0 x) 0 1100) < D.
Proof. exact C151_cmb_lemma. Qed.
Print Assumptions C151_last_scattering_refuted.
Example C151_nonvacuous : exists D,
  comoving_distance_to_z (Fin 1020) (Fin 1) (Fin (-1)) (Fin 0) (Fin 0.7) = Fin D /\ hubble_dist 0.7 * (2 / sqrt 1) <= D.
Proof. apply C151_reported_distance_below_horizon_refuted; try lra. rewrite sqrt_1. lra. Qed.
