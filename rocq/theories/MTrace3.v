(** * Traces of the cosmology functions (dsps/cosmology/flat_wcdm.py)

    Redshift and all four parameters are traces, so each of them may be the input that is
    differentiated.  The table of [age_at_z0] depends on no argument. *)
From Coq Require Import Reals List Bool Arith ZArith.
From Verif Require Import Num Arr MUtils MCosmo MPhot MGrad MTrace MTrace2.
Import ListNotations.

Section Traces3.
  Context {AR : Arith}.
  Local Notation C r := (Cst (Fin r%R)).

  (** flat_wcdm.py:49-52 [_rho_de_z] *)
  Definition rho_de_trace (z w0 wa : trace) : trace :=
    let a := Div (C 1) (Add (C 1) z) in
    Mul (Pow a (Mul (C (-3)) (Add (Add (C 1) w0) wa))) (Exp (Mul (Mul (C (-3)) wa) (Sub (C 1) a))).
  (** flat_wcdm.py:56-61 [_Ez] *)
  Definition Ez_trace (z Om0 w0 wa : trace) : trace :=
    Sqrt (Add (Mul Om0 (IPow (Add (C 1) z) 3)) (Mul (Sub (C 1) Om0) (rho_de_trace z w0 wa))).
  (** [jnp.linspace(0, stop, n)] *)
  Definition linspace_traces (stop : trace) (n : nat) : list trace :=
    map (fun i => let step := (Fin (INR i) / Fin (INR (n - 1)))%num in
                  Add (Mul (C 0) (Sub (C 1) (Cst step))) (Mul stop (Cst step))) (seq 0 (n - 1)) ++ [stop].
  (** [jnp.trapezoid(y, x)] *)
  Definition trapz2_trace (x y : list trace) : trace :=
    Mul (C (1/2)) (Sum (map2 Mul (map2 (fun a b => Sub b a) x (tl x)) (map2 Add (tl y) y))).
  (** flat_wcdm.py:75-100 [comoving_distance_to_z] *)
  Definition comoving_trace (z Om0 w0 wa h : trace) : trace :=
    let zs := linspace_traces z 256 in
    let integrand := map (fun z => Div (C 1) (Ez_trace z Om0 w0 wa)) zs in
    Div (Mul (Mul (trapz2_trace zs integrand) (Cst C_SPEED)) (Cst (lit (1 / 10 ^ 5)%R))) h.
  (** flat_wcdm.py:108-129 [luminosity_distance_to_z] *)
  Definition luminosity_trace (z Om0 w0 wa h : trace) : trace := Mul (comoving_trace z Om0 w0 wa h) (Add (C 1) z).
  (** flat_wcdm.py:133-154 [angular_diameter_distance_to_z] *)
  Definition angular_trace (z Om0 w0 wa h : trace) : trace := Div (comoving_trace z Om0 w0 wa h) (Add (C 1) z).
  (** flat_wcdm.py:158-182 [distance_modulus_to_z] *)
  Definition modulus_trace (z Om0 w0 wa h : trace) : trace :=
    Mul (C 5) (Log10 (Mul (luminosity_trace z Om0 w0 wa h) (C (10 ^ 5)))).
  (** flat_wcdm.py:186-189 [_hubble_time] *)
  Definition hubble_time_trace (z Om0 w0 wa h : trace) : trace :=
    Div (Div (Cst (lit (1 / 10 ^ 16 * MPC / YEAR)%R)) h) (Ez_trace z Om0 w0 wa).
  (** the integrand of [lookback_to_z] and [age_at_z0] *)
  Definition time_integrand (Om0 w0 wa z : trace) : trace := Div (Div (C 1) (Ez_trace z Om0 w0 wa)) (Add (C 1) z).
  (** flat_wcdm.py:193-218 [lookback_to_z] *)
  Definition lookback_trace (z Om0 w0 wa h : trace) : trace :=
    let zs := linspace_traces z 512 in
    Mul (hubble_time_trace (C 0) Om0 w0 wa h) (trapz2_trace zs (map (time_integrand Om0 w0 wa) zs)).
  (** flat_wcdm.py:222-245 [age_at_z0] *)
  Definition age0_trace (Om0 w0 wa h : trace) : trace :=
    let zs := map (fun x => Cst (x - Fin 1)%num) (logspace (Fin 0) (Fin 3) 512) in
    Mul (hubble_time_trace (C 0) Om0 w0 wa h) (trapz2_trace zs (map (time_integrand Om0 w0 wa) zs)).
  (** flat_wcdm.py:249-252 [_age_at_z_kern] *)
  Definition age_trace (z Om0 w0 wa h : trace) : trace := Sub (age0_trace Om0 w0 wa h) (lookback_trace z Om0 w0 wa h).
  (** flat_wcdm.py:284-307 [rho_crit] *)
  Definition rho_crit_trace (z Om0 w0 wa h : trace) : trace :=
    Mul (Mul (Mul (Cst RHO_CRIT0_KPC3_UNITY_H) h) h) (IPow (Ez_trace z Om0 w0 wa) 2).
  (** flat_wcdm.py:311-313 [_Om_at_z] *)
  Definition Om_trace (z Om0 w0 wa : trace) : trace :=
    let E := Ez_trace z Om0 w0 wa in
    Div (Div (Mul Om0 (IPow (Add (C 1) z) 3)) E) E.
  (** flat_wcdm.py:325-328 [_delta_vir] *)
  Definition delta_vir_trace (z Om0 w0 wa : trace) : trace :=
    let x := Sub (Om_trace z Om0 w0 wa) (C 1) in
    Sub (Add (Cst (lit (18 * PI ^ 2)%R)) (Mul (C 82) x)) (Mul (C 39) (IPow x 2)).
  (** flat_wcdm.py:332-360 [virial_dynamical_time] *)
  Definition virial_trace (z Om0 w0 wa h : trace) : trace :=
    Mul (Mul (Cst (lit (Rpower 2 1.5)%R)) (hubble_time_trace z Om0 w0 wa h)) (Pow (delta_vir_trace z Om0 w0 wa) (C (-1/2))).
  (** flat_wcdm.py:364-368 [hubble_distance_mpc] *)
  Definition hubble_distance_trace (h : trace) : trace := Div (Cst (lit (299792458 / 1000)%R)) (Mul (C 100) h).
  (** flat_wcdm.py:372-379 [differential_comoving_volume_at_z] *)
  Definition volume_trace (z Om0 w0 wa h : trace) : trace :=
    Div (Mul (hubble_distance_trace h) (Pow (Mul (Add (C 1) z) (angular_trace z Om0 w0 wa h)) (C 2))) (Ez_trace z Om0 w0 wa).
  (** photometry_kernels.py:63-65 [_cosmological_dimming] *)
  Definition dimming_trace (z Om0 w0 wa h : trace) : trace :=
    Sub (modulus_trace z Om0 w0 wa h) (Mul (Cst (lit 2.5%R)) (Log10 (Add (C 1) z))).
  (** photometry_kernels.py:16-53 [calc_obs_mag]: spectrum and cosmology differentiated, redshift constant *)
  Definition obs_mag_cosmo_trace (wave : list num) (lum : list trace) (wf tf : list num) (z : num) (Om0 w0 wa h : trace) : trace :=
    Add (mag_trace (map (fun w => w * (Fin 1 + z))%num wave) lum wf tf) (dimming_trace (Cst z) Om0 w0 wa h).
End Traces3.
