(** * Properties C149-C151: dependence on the cosmological parameters and accuracy of the distances
    (cosmology/flat_wcdm.py).  Exact real arithmetic; the vocabulary is in Spec.v and SpecPar.v. *)
From Coq Require Import Reals List Arith Lra Lia.
From Coquelicot Require Import Coquelicot.
From Verif Require Import Num MUtils MCosmo Spec SpecPar RList LCosmoPar2 LCosmo4 LCosmo5.
Import ListNotations.
Open Scope R_scope.

(** C149 *)
@@C149_more_gravity_shorter_distances = LCosmoPar2.C149_lemma
@@C149_stiff_dark_energy_reverses = LCosmoPar2.C149_stiff_lemma
@@C149_matter_fraction = LCosmoPar2.C149_matter_lemma
(** Planck 2015 against a model with less matter and phantom dark energy *)
Example C149_nonvacuous : heavier (0.27, -1.1, 0) (0.3075, -1, 0)
  /\ less (distance_modulus_to_z (Fin 1) (Fin 0.3075) (Fin (-1)) (Fin 0) (Fin 0.6774))
          (distance_modulus_to_z (Fin 1) (Fin 0.27) (Fin (-1.1)) (Fin 0) (Fin 0.6774)).
Proof.
  assert (H : heavier (0.27, -1.1, 0) (0.3075, -1, 0)).
  { repeat split; try lra. intros E. injection E. lra. }
  split; auto. pose proof (C149_more_gravity_shorter_distances _ _ _ _ _ _ 0.6774 1 H) as A. apply A; lra.
Qed.
Example C149_stiff_nonvacuous :
  less (comoving_distance_to_z (Fin 1) (Fin 0.3) (Fin 1) (Fin 0) (Fin 0.7))
       (comoving_distance_to_z (Fin 1) (Fin 0.4) (Fin 1) (Fin 0) (Fin 0.7)).
Proof. apply (C149_stiff_dark_energy_reverses 0.3 0.4 1 0 0.7 1); lra. Qed.
Example C149_matter_nonvacuous :
  less (Om_at_z (Fin 1) (Fin 0.3) (Fin (-0.9)) (Fin 0.1)) (Om_at_z (Fin 1) (Fin 0.3) (Fin (-1)) (Fin 0)).
Proof. apply C149_matter_fraction; try lra. intros E. injection E. lra. Qed.

(** C150 *)
@@C150_distance_error = LCosmo4.C150_lemma
@@C150_distance_modulus_error = LCosmo4.C150_modulus_lemma
Example C150_nonvacuous : exists mu,
  distance_modulus_to_z (Fin 1) (Fin 0.3075) (Fin (-1)) (Fin 0) (Fin 0.6774) = Fin mu
  /\ Rabs (mu - 5 * log10 ((1 + 1) * (hubble_dist 0.6774 * RInt (fun x => 1 / expansion 0.3075 (-1) 0 x) 0 1) * 10 ^ 6 / 10)) <= 0.001.
Proof. apply C150_distance_modulus_error; lra. Qed.

(** C151: the true distance stays below the horizon, the reported one does not *)
@@C151_true_distance_below_horizon = LCosmo5.C151_horizon_lemma
@@C151_reported_distance_below_horizon_refuted = LCosmo5.C151_refuted_lemma
@@C151_last_scattering_refuted = LCosmo5.C151_cmb_lemma
Example C151_nonvacuous : exists D,
  comoving_distance_to_z (Fin 1020) (Fin 1) (Fin (-1)) (Fin 0) (Fin 0.7) = Fin D /\ hubble_dist 0.7 * (2 / sqrt 1) <= D.
Proof. apply C151_reported_distance_below_horizon_refuted; try lra. rewrite sqrt_1. lra. Qed.
