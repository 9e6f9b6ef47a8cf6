(** * Properties C52-C62, C95, C112, C113: cosmology (cosmology/flat_wcdm.py).  Exact real arithmetic,
    except C60 and C62 which hold in any arithmetic (any rounding). *)
From Coq Require Import Reals List Arith Lra Lia.
From Coquelicot Require Import Coquelicot.
From Verif Require Import Num Arr MUtils MCosmo Spec SpecApi RList LCosmo LCosmo2.
Import ListNotations.
Open Scope R_scope.

(** C52 *)
@@C52_expansion_rate = LCosmo.C52_lemma
(** the published parameter sets meet the hypotheses of this file *)
Example C52_nonvacuous : PLANCK15 = {| cp_Om0 := Fin 0.3075; cp_w0 := Fin (-1); cp_wa := Fin 0; cp_h := Fin 0.6774 |}
  /\ 0 < 0.3075 <= 1 /\ 0 < 0.6774.
Proof. split; [reflexivity|lra]. Qed.

(** C53 *)
@@C53_comoving_distance = LCosmo.C53_lemma
Example C53_nonvacuous : exists D, comoving_distance_to_z (Fin 1) (Fin 1) (Fin (-1)) (Fin 0) (Fin 0.7) = Fin D
  /\ 0 < D <= hubble_dist 0.7 * 1.
Proof.
  destruct (C53_comoving_distance 1 (-1) 0 0.7) as (D & E & _ & P & B); try lra.
  exists (D 1). split; [apply E; lra|]. specialize (P 1). specialize (B eq_refl eq_refl 1). lra.
Qed.

(** C54 *)
@@C54_distance_duality = LCosmo.C54_lemma
Example C54_nonvacuous : exists dC dL dA, dL = (1 + 1) ^ 2 * dA /\ dL = (1 + 1) * dC
  /\ luminosity_distance_to_z (Fin 1) (Fin 0.3) (Fin (-0.9)) (Fin 0.1) (Fin 0.7) = Fin dL
  /\ angular_diameter_distance_to_z (Fin 1) (Fin 0.3) (Fin (-0.9)) (Fin 0.1) (Fin 0.7) = Fin dA.
Proof.
  destruct (C54_distance_duality 1 0.3 (-0.9) 0.1 0.7) as (dC & dL & dA & _ & E1 & E2 & A & B & _); try lra.
  exists dC, dL, dA. auto.
Qed.

(** C55 *)
@@C55_distance_modulus = LCosmo.C55_lemma
Example C55_nonvacuous : exists mu, distance_modulus_to_z (Fin 0.5) (Fin 0.3) (Fin (-1)) (Fin 0) (Fin 0.7) = Fin mu.
Proof.
  destruct (C55_distance_modulus 0.3 (-1) 0 0.7) as [H _]; try lra.
  destruct (H 0.5) as (dL & mu & _ & E & _); [lra|]. now exists mu.
Qed.

(** C56 *)
@@C56_hubble_scaling = LCosmo.C56_lemma
Example C56_nonvacuous : exists dC, comoving_distance_to_z (Fin 2) (Fin 0.3) (Fin (-1)) (Fin 0) (Fin 0.7) = Fin (dC / 0.7)
  /\ comoving_distance_to_z (Fin 2) (Fin 0.3) (Fin (-1)) (Fin 0) (Fin 1) = Fin (dC / 1).
Proof.
  destruct (C56_hubble_scaling 2 0.3 (-1) 0) as (dC & tL & t0 & rho & H); try lra.
  exists dC. split; apply H; lra.
Qed.

(** C57 *)
@@C57_age_plus_lookback = LCosmo.C57_lemma
Example C57_nonvacuous : exists t0 a l, age_at_z0 (Fin 0.3) (Fin (-1)) (Fin 0) (Fin 0.7) = Fin t0
  /\ age_at_z (Scalar (Fin 1)) (Fin 0.3) (Fin (-1)) (Fin 0) (Fin 0.7) = [Fin a]
  /\ lookback_to_z (Fin 1) (Fin 0.3) (Fin (-1)) (Fin 0) (Fin 0.7) = Fin l /\ 0 < l /\ a + l = t0.
Proof.
  destruct (C57_age_plus_lookback 0.3 (-1) 0 0.7) as (t0 & lk & ag & E0 & E1 & E2 & _ & _ & S & _ & _ & P); try lra.
  exists t0, (ag 1), (lk 1). split; [exact E0|]. split; [apply E2; lra|]. split; [apply E1; lra|]. split; [apply P; lra|apply S; lra].
Qed.

(** C58: the claim that ages are positive at every redshift is false *)
@@C58_negative_ages = LCosmo.C58_lemma
(** ... and already from redshift 200 on for every matter density from 0.05 to 1 *)
@@C58_negative_ages_from_200 = LCosmo2.C58_lemma2
Example C58_nonvacuous : exists age,
  age_at_z (Scalar (Fin 7500)) (cp_Om0 PLANCK15) (cp_w0 PLANCK15) (cp_wa PLANCK15) (cp_h PLANCK15) = [Fin age] /\ age < 0.
Proof. apply (C58_negative_ages 0.3075 0.6774 7500); lra. Qed.

(** C59 *)
@@C59_matter_fraction_and_virial_time = LCosmo.C59_lemma

(** C60: any arithmetic *)
@@C60_virial_time_refuses_scalars = LCosmo.C60_lemma

(** C61 *)
@@C61_comoving_volume = LCosmo.C61_lemma

(** C62: any arithmetic *)
@@C62_array_functions_pointwise = LCosmo.C62_lemma
@@C62_age_pointwise = LCosmo.C62_age_lemma

(** C95 *)
@@C95_comoving_distance_quadrature_error = LCosmo.C95_lemma
@@C95_lookback_quadrature_error = LCosmo.C95_lookback_lemma

(** C112: the age of the universe.  [lcdm_age] (Spec.v) is the textbook closed form in units of
    the Hubble time; the first theorem checks it against the expansion rate: it decreases at the rate
    1/((1+z)E(z)) and tends to 0 at large redshift. *)
@@C112_textbook_age = LCosmo2.C112_textbook_lemma
@@C112_age_of_the_universe = LCosmo2.C112_age_lemma
(** dsps.cosmology.TODAY (Planck15) is 13.82 Gyr to 0.01 *)
@@C112_today = LCosmo2.C112_today_lemma
(** the published Lambda-CDM parameter sets (Planck 2015, WMAP5, and the one of FSPS) *)
Theorem C112_published_parameters : List.Forall (fun c => let '(p, Om, h) := c in
    cp_Om0 p = Fin Om /\ cp_h p = Fin h /\ cp_w0 p = Fin (-1) /\ cp_wa p = Fin 0 /\ 0.05 <= Om <= 1 /\ 0 < h)
  [(PLANCK15, 0.3075, 0.6774); (WMAP5, 0.277, 0.702); (FSPS_COSMO, 0.27, 0.72)].
Proof. repeat constructor; lra. Qed.
Print Assumptions C112_published_parameters.

(** C113 *)
@@C113_age_error = LCosmo2.C113_lemma
@@C113_age_positive_to_redshift_30 = LCosmo2.C113_positive_lemma
Example C113_nonvacuous : exists age,
  age_at_z (Scalar (Fin 8)) (cp_Om0 PLANCK15) (cp_w0 PLANCK15) (cp_wa PLANCK15) (cp_h PLANCK15) = [Fin age] /\ 0 < age.
Proof. apply (C113_age_positive_to_redshift_30 0.3075 0.6774 8); lra. Qed.
