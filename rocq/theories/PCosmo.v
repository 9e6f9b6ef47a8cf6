(** * Properties C52-C62, C95, C112, C113: cosmology (cosmology/flat_wcdm.py).  Exact real arithmetic,
    except C60 and C62 which hold in any arithmetic (any rounding). *)
From Coq Require Import Reals List Arith Lra Lia.
From Coquelicot Require Import Coquelicot.
From Verif Require Import Num Arr MUtils MCosmo Spec SpecApi RList LCosmo LCosmo2 LCosmoMore.
Import ListNotations.
Open Scope R_scope.

(** C52 *)
Theorem C52_expansion_rate : forall Om0 w0 wa, 0 < Om0 <= 1 -> exists E : R -> R,
  (forall z, -1 < z -> Ez (Fin z) (Fin Om0) (Fin w0) (Fin wa) = Fin (E z))
  /\ (forall z, -1 < z -> E z = expansion Om0 w0 wa z)
  /\ E 0 = 1
  /\ (forall z, -1 < z -> 0 < E z)
  /\ (w0 = -1 -> wa = 0 -> forall x y, -1 < x < y -> E x < E y).
Proof. exact C52_lemma. Qed.
Print Assumptions C52_expansion_rate.
(** the published parameter sets meet the hypotheses of this file *)
Example C52_nonvacuous : PLANCK15 = {| cp_Om0 := Fin 0.3075; cp_w0 := Fin (-1); cp_wa := Fin 0; cp_h := Fin 0.6774 |}
  /\ 0 < 0.3075 <= 1 /\ 0 < 0.6774.
Proof. split; [reflexivity|lra]. Qed.

(** C53 *)
Theorem C53_comoving_distance : forall Om0 w0 wa h, 0 < Om0 <= 1 -> 0 < h -> exists D : R -> R,
  (forall z, -1 < z -> comoving_distance_to_z (Fin z) (Fin Om0) (Fin w0) (Fin wa) (Fin h) = Fin (D z))
  /\ D 0 = 0
  /\ (forall z, 0 < z -> 0 < D z)
  /\ (w0 = -1 -> wa = 0 -> forall z, 0 <= z ->
        hubble_dist h * z / expansion Om0 (-1) 0 z <= D z <= hubble_dist h * z).
Proof. exact C53_lemma. Qed.
Print Assumptions C53_comoving_distance.
Example C53_nonvacuous : exists D, comoving_distance_to_z (Fin 1) (Fin 1) (Fin (-1)) (Fin 0) (Fin 0.7) = Fin D
  /\ 0 < D <= hubble_dist 0.7 * 1.
Proof.
  destruct (C53_comoving_distance 1 (-1) 0 0.7) as (D & E & _ & P & B); try lra.
  exists (D 1). split; [apply E; lra|]. specialize (P 1). specialize (B eq_refl eq_refl 1). lra.
Qed.

(** C54 *)
Theorem C54_distance_duality : forall z Om0 w0 wa h, -1 < z -> 0 < Om0 <= 1 -> h <> 0 -> exists dC dL dA,
  comoving_distance_to_z (Fin z) (Fin Om0) (Fin w0) (Fin wa) (Fin h) = Fin dC
  /\ luminosity_distance_to_z (Fin z) (Fin Om0) (Fin w0) (Fin wa) (Fin h) = Fin dL
  /\ angular_diameter_distance_to_z (Fin z) (Fin Om0) (Fin w0) (Fin wa) (Fin h) = Fin dA
  /\ dL = (1 + z) ^ 2 * dA /\ dL = (1 + z) * dC /\ dC = (1 + z) * dA.
Proof. exact C54_lemma. Qed.
Print Assumptions C54_distance_duality.
Example C54_nonvacuous : exists dC dL dA, dL = (1 + 1) ^ 2 * dA /\ dL = (1 + 1) * dC
  /\ luminosity_distance_to_z (Fin 1) (Fin 0.3) (Fin (-0.9)) (Fin 0.1) (Fin 0.7) = Fin dL
  /\ angular_diameter_distance_to_z (Fin 1) (Fin 0.3) (Fin (-0.9)) (Fin 0.1) (Fin 0.7) = Fin dA.
Proof.
  destruct (C54_distance_duality 1 0.3 (-0.9) 0.1 0.7) as (dC & dL & dA & _ & E1 & E2 & A & B & _); try lra.
  exists dC, dL, dA. auto.
Qed.

(** C55 *)
Theorem C55_distance_modulus : forall Om0 w0 wa h, 0 < Om0 <= 1 -> 0 < h ->
  (forall z, 0 < z -> exists dL mu,
     luminosity_distance_to_z (Fin z) (Fin Om0) (Fin w0) (Fin wa) (Fin h) = Fin dL
     /\ distance_modulus_to_z (Fin z) (Fin Om0) (Fin w0) (Fin wa) (Fin h) = Fin mu
     /\ 0 < dL /\ mu = 5 * log10 (dL * 10 ^ 6 / 10))
  /\ distance_modulus_to_z (Fin 0) (Fin Om0) (Fin w0) (Fin wa) (Fin h) = NInf.
Proof. exact C55_lemma. Qed.
Print Assumptions C55_distance_modulus.
Example C55_nonvacuous : exists mu, distance_modulus_to_z (Fin 0.5) (Fin 0.3) (Fin (-1)) (Fin 0) (Fin 0.7) = Fin mu.
Proof.
  destruct (C55_distance_modulus 0.3 (-1) 0 0.7) as [H _]; try lra.
  destruct (H 0.5) as (dL & mu & _ & E & _); [lra|]. now exists mu.
Qed.

(** C56 *)
Theorem C56_hubble_scaling : forall z Om0 w0 wa, -1 < z -> 0 < Om0 <= 1 ->
  exists dC tL t0 tz rho, forall h, 0 < h ->
    comoving_distance_to_z (Fin z) (Fin Om0) (Fin w0) (Fin wa) (Fin h) = Fin (dC / h)
    /\ lookback_to_z (Fin z) (Fin Om0) (Fin w0) (Fin wa) (Fin h) = Fin (tL / h)
    /\ age_at_z0 (Fin Om0) (Fin w0) (Fin wa) (Fin h) = Fin (t0 / h)
    /\ age_at_z (Scalar (Fin z)) (Fin Om0) (Fin w0) (Fin wa) (Fin h) = [Fin (tz / h)]
    /\ rho_crit (Fin z) (Fin Om0) (Fin w0) (Fin wa) (Fin h) = Fin (rho * h ^ 2).
Proof. exact C56_age_lemma. Qed.
Print Assumptions C56_hubble_scaling.
Example C56_nonvacuous : exists dC, comoving_distance_to_z (Fin 2) (Fin 0.3) (Fin (-1)) (Fin 0) (Fin 0.7) = Fin (dC / 0.7)
  /\ comoving_distance_to_z (Fin 2) (Fin 0.3) (Fin (-1)) (Fin 0) (Fin 1) = Fin (dC / 1).
Proof.
  destruct (C56_hubble_scaling 2 0.3 (-1) 0) as (dC & tL & t0 & tz & rho & H); try lra.
  exists dC. split; apply H; lra.
Qed.

(** C57 *)
Theorem C57_age_plus_lookback : forall Om0 w0 wa h, 0 < Om0 <= 1 -> 0 < h -> exists (t0 : R) (look age : R -> R),
  age_at_z0 (Fin Om0) (Fin w0) (Fin wa) (Fin h) = Fin t0
  /\ (forall z, -1 < z -> lookback_to_z (Fin z) (Fin Om0) (Fin w0) (Fin wa) (Fin h) = Fin (look z))
  /\ (forall z, -1 < z -> age_at_z (Scalar (Fin z)) (Fin Om0) (Fin w0) (Fin wa) (Fin h) = [Fin (age z)])
  /\ (forall zs, List.Forall (fun z => -1 < z) zs ->
        age_at_z (Vector (fins zs)) (Fin Om0) (Fin w0) (Fin wa) (Fin h) = fins (map age zs))
  /\ 0 < t0
  /\ (forall z, -1 < z -> age z + look z = t0)
  /\ age 0 = t0 /\ look 0 = 0 /\ (forall z, 0 < z -> 0 < look z).
Proof. exact C57_lemma. Qed.
Print Assumptions C57_age_plus_lookback.
Example C57_nonvacuous : exists t0 a l, age_at_z0 (Fin 0.3) (Fin (-1)) (Fin 0) (Fin 0.7) = Fin t0
  /\ age_at_z (Scalar (Fin 1)) (Fin 0.3) (Fin (-1)) (Fin 0) (Fin 0.7) = [Fin a]
  /\ lookback_to_z (Fin 1) (Fin 0.3) (Fin (-1)) (Fin 0) (Fin 0.7) = Fin l /\ 0 < l /\ a + l = t0.
Proof.
  destruct (C57_age_plus_lookback 0.3 (-1) 0 0.7) as (t0 & lk & ag & E0 & E1 & E2 & _ & _ & S & _ & _ & P); try lra.
  exists t0, (ag 1), (lk 1). split; [exact E0|]. split; [apply E2; lra|]. split; [apply E1; lra|]. split; [apply P; lra|apply S; lra].
Qed.

(** C58: the claim that ages are positive at every redshift is false *)
Theorem C58_negative_ages : forall Om0 h z, 0 < Om0 <= 1 -> 0 < h -> 7500 <= z -> exists age,
  age_at_z (Scalar (Fin z)) (Fin Om0) (Fin (-1)) (Fin 0) (Fin h) = [Fin age] /\ age < 0.
Proof. exact C58_lemma. Qed.
Print Assumptions C58_negative_ages.
(** ... and already from redshift 200 on for every matter density from 0.05 to 1 *)
Theorem C58_negative_ages_from_200 : forall Om0 h z, 0.05 <= Om0 <= 1 -> 0 < h -> 200 <= z -> exists age,
  age_at_z (Scalar (Fin z)) (Fin Om0) (Fin (-1)) (Fin 0) (Fin h) = [Fin age] /\ age < 0.
Proof. exact C58_lemma2. Qed.
Print Assumptions C58_negative_ages_from_200.
Example C58_nonvacuous : exists age,
  age_at_z (Scalar (Fin 7500)) (cp_Om0 PLANCK15) (cp_w0 PLANCK15) (cp_wa PLANCK15) (cp_h PLANCK15) = [Fin age] /\ age < 0.
Proof. apply (C58_negative_ages 0.3075 0.6774 7500); lra. Qed.

(** C59 *)
Theorem C59_matter_fraction_and_virial_time : forall Om0 w0 wa h, 0 < Om0 <= 1 -> 0 < h -> exists om rho delta tdyn : R -> R,
  (forall zs, List.Forall (fun z => -1 < z) zs ->
     Om (Vector (fins zs)) (Fin Om0) (Fin w0) (Fin wa) = Ok (fins (map om zs))
     /\ delta_vir (Vector (fins zs)) (Fin Om0) (Fin w0) (Fin wa) = Ok (fins (map delta zs))
     /\ virial_dynamical_time (Vector (fins zs)) (Fin Om0) (Fin w0) (Fin wa) (Fin h) = Ok (fins (map tdyn zs)))
  /\ (forall z, -1 < z -> rho_crit (Fin z) (Fin Om0) (Fin w0) (Fin wa) (Fin h) = Fin (rho z))
  /\ om 0 = Om0
  /\ (forall z, -1 < z -> 0 < om z <= 1)
  /\ (forall z, -1 < z -> 0 < rho z /\ om z * rho z = Om0 * rho 0 * (1 + z) ^ 3)
  /\ (forall z, -1 < z -> 56 < delta z <= 18 * PI ^ 2)
  /\ (forall z, -1 < z -> 0 < tdyn z).
Proof. exact C59_lemma. Qed.
Print Assumptions C59_matter_fraction_and_virial_time.

(** C60: any arithmetic *)
Theorem C60_virial_time_refuses_scalars {AR : Arith} : forall z Om0 w0 wa h,
  virial_dynamical_time (Scalar z) Om0 w0 wa h = Raise ValueError
  /\ (exists t : num -> num, forall zs, virial_dynamical_time (Vector zs) Om0 w0 wa h = Ok (map t zs)).
Proof. exact C60_elementwise. Qed.
Print Assumptions C60_virial_time_refuses_scalars.

(** C61 *)
Theorem C61_comoving_volume : forall z Om0 w0 wa h, -1 < z -> 0 < Om0 <= 1 -> 0 < h -> exists dC dV,
  comoving_distance_to_z (Fin z) (Fin Om0) (Fin w0) (Fin wa) (Fin h) = Fin dC
  /\ differential_comoving_volume_at_z (Fin z) (Fin Om0) (Fin w0) (Fin wa) (Fin h) = Fin dV
  /\ dV = hubble_dist h * dC ^ 2 / expansion Om0 w0 wa z
  /\ 0 <= dV /\ (z = 0 -> dV = 0) /\ (0 < z -> 0 < dV).
Proof. exact C61_lemma. Qed.
Print Assumptions C61_comoving_volume.

(** C62: any arithmetic *)
Theorem C62_array_functions_pointwise {AR : Arith} : pointwise comoving_distance comoving_distance_to_z
  /\ pointwise distance_modulus distance_modulus_to_z
  /\ pointwise luminosity_distance luminosity_distance_to_z
  /\ pointwise angular_diameter_distance angular_diameter_distance_to_z
  /\ pointwise lookback_time lookback_to_z
  /\ pointwise differential_comoving_volume differential_comoving_volume_at_z.
Proof. exact C62_lemma. Qed.
Print Assumptions C62_array_functions_pointwise.
Theorem C62_age_pointwise {AR : Arith} : forall Om0 w0 wa h,
  (forall z, age_at_z (Scalar z) Om0 w0 wa h = [age_at_z_kern z Om0 w0 wa h])
  /\ (forall zs, length (age_at_z (Vector zs) Om0 w0 wa h) = length zs
       /\ forall i, (i < length zs)%nat ->
          [nth i (age_at_z (Vector zs) Om0 w0 wa h) NaN] = age_at_z (Scalar (nth i zs NaN)) Om0 w0 wa h).
Proof. exact C62_age_lemma. Qed.
Print Assumptions C62_age_pointwise.

(** C95 *)
Theorem C95_comoving_distance_quadrature_error : forall Om0 h z, 0 < Om0 <= 1 -> 0 < h -> 0 < z -> exists D,
  comoving_distance_to_z (Fin z) (Fin Om0) (Fin (-1)) (Fin 0) (Fin h) = Fin D
  /\ Rabs (D - hubble_dist h * RInt (fun x => 1 / expansion Om0 (-1) 0 x) 0 z)
     <= hubble_dist h * (z / 510 * (1 - 1 / expansion Om0 (-1) 0 z)).
Proof. exact C95_lemma. Qed.
Print Assumptions C95_comoving_distance_quadrature_error.
Theorem C95_lookback_quadrature_error : forall Om0 h z, 0 < Om0 <= 1 -> 0 < h -> 0 < z -> exists t tH,
  lookback_to_z (Fin z) (Fin Om0) (Fin (-1)) (Fin 0) (Fin h) = Fin t
  /\ hubble_time (Fin 0) (Fin Om0) (Fin (-1)) (Fin 0) (Fin h) = Fin tH
  /\ Rabs (t - tH * RInt (fun x => 1 / expansion Om0 (-1) 0 x / (1 + x)) 0 z)
     <= tH * (z / 1022 * (1 - 1 / expansion Om0 (-1) 0 z / (1 + z))).
Proof. exact C95_lookback_lemma. Qed.
Print Assumptions C95_lookback_quadrature_error.

(** C112: the age of the universe.  [lcdm_age] (Spec.v) is the textbook closed form in units of
    the Hubble time; the first theorem checks it against the expansion rate: it decreases at the rate
    1/((1+z)E(z)) and tends to 0 at large redshift. *)
Theorem C112_textbook_age : forall Om0 z, 0 < Om0 <= 1 -> -1 < z ->
  is_derive (lcdm_age Om0) z (- (1 / expansion Om0 (-1) 0 z / (1 + z)))
  /\ 2 / 3 / expansion Om0 (-1) 0 z <= lcdm_age Om0 z <= 2 / 3 / sqrt (Om0 * (1 + z) ^ 3).
Proof. exact C112_textbook_lemma. Qed.
Print Assumptions C112_textbook_age.
Theorem C112_age_of_the_universe : forall Om0 h, 0 < Om0 <= 1 -> 0 < h -> exists t0 tH,
  age_at_z0 (Fin Om0) (Fin (-1)) (Fin 0) (Fin h) = Fin t0
  /\ hubble_time (Fin 0) (Fin Om0) (Fin (-1)) (Fin 0) (Fin h) = Fin tH
  /\ 9.778 / h <= tH <= 9.7782 / h
  /\ tH * (lcdm_age Om0 0 - 2.2 / 10 ^ 5 / sqrt Om0) <= t0 <= tH * (1.00013 * lcdm_age Om0 0 + 7 / 10 ^ 5).
Proof. exact C112_age_lemma. Qed.
Print Assumptions C112_age_of_the_universe.
(** dsps.cosmology.TODAY (Planck15) is 13.82 Gyr to 0.01 *)
Theorem C112_today : exists t0, TODAY = Fin t0 /\ 13.81 < t0 < 13.83.
Proof. exact C112_today_lemma. Qed.
Print Assumptions C112_today.
(** the published Lambda-CDM parameter sets (Planck 2015, WMAP5, and the one of FSPS) *)
Theorem C112_published_parameters : List.Forall (fun c => let '(p, Om, h) := c in
    cp_Om0 p = Fin Om /\ cp_h p = Fin h /\ cp_w0 p = Fin (-1) /\ cp_wa p = Fin 0 /\ 0.05 <= Om <= 1 /\ 0 < h)
  [(PLANCK15, 0.3075, 0.6774); (WMAP5, 0.277, 0.702); (FSPS_COSMO, 0.27, 0.72)].
Proof. repeat constructor; lra. Qed.
Print Assumptions C112_published_parameters.

(** C113 *)
Theorem C113_age_error : forall Om0 h z, 0 < Om0 <= 1 -> 0 < h -> 0 < z -> exists age tH,
  age_at_z (Scalar (Fin z)) (Fin Om0) (Fin (-1)) (Fin 0) (Fin h) = [Fin age]
  /\ hubble_time (Fin 0) (Fin Om0) (Fin (-1)) (Fin 0) (Fin h) = Fin tH
  /\ tH * (lcdm_age Om0 z - (2.2 / 10 ^ 5 / sqrt Om0 + (z / 511) ^ 2 / 8 * (1 + 3 / 2 * Om0))) <= age
     <= tH * (lcdm_age Om0 z + (1.3 / 10 ^ 4 * lcdm_age Om0 0 + 7 / 10 ^ 5)).
Proof. exact C113_lemma. Qed.
Print Assumptions C113_age_error.
Theorem C113_age_positive_to_redshift_30 : forall Om0 h z, 0.01 <= Om0 <= 1 -> 0 < h -> 0 <= z <= 30 -> exists age,
  age_at_z (Scalar (Fin z)) (Fin Om0) (Fin (-1)) (Fin 0) (Fin h) = [Fin age] /\ 0 < age.
Proof. exact C113_positive_lemma. Qed.
Print Assumptions C113_age_positive_to_redshift_30.
Example C113_nonvacuous : exists age,
  age_at_z (Scalar (Fin 8)) (cp_Om0 PLANCK15) (cp_w0 PLANCK15) (cp_wa PLANCK15) (cp_h PLANCK15) = [Fin age] /\ 0 < age.
Proof. apply (C113_age_positive_to_redshift_30 0.3075 0.6774 8); lra. Qed.
