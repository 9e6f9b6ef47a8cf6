(** * Model of dsps/cosmology/flat_wcdm.py and cosmology/defaults.py *)
From Coq Require Import Reals List Bool Arith.
From Verif Require Import Num Arr MUtils.
Import ListNotations.
Local Open Scope num_scope.

(** flat_wcdm.py:26-32 [CosmoParams] *)
Record CosmoParams := { cp_Om0 : num; cp_w0 : num; cp_wa : num; cp_h : num }.

(** an argument that may be a scalar or a one-dimensional array *)
Inductive arg : Type :=
| Scalar (x : num)
| Vector (l : list num).

Section Cosmo.
  Context {AR : Arith}.

  (** flat_wcdm.py:35-37 *)
  Definition PLANCK15 : CosmoParams :=
    {| cp_Om0 := lit 0.3075%R; cp_w0 := Fin (-1); cp_wa := Fin 0; cp_h := lit 0.6774%R |}.
  Definition WMAP5 : CosmoParams :=
    {| cp_Om0 := lit 0.277%R; cp_w0 := Fin (-1); cp_wa := Fin 0; cp_h := lit 0.702%R |}.
  Definition FSPS_COSMO : CosmoParams :=
    {| cp_Om0 := lit 0.27%R; cp_w0 := Fin (-1); cp_wa := Fin 0; cp_h := lit 0.72%R |}.

  (** flat_wcdm.py:39-45 *)
  Definition C_SPEED : num := lit 299792458%R.
  Definition RHO_CRIT0_KPC3_UNITY_H : num := lit 277.536627%R.
  (** [MPC] and [YEAR] only occur in the Python-float expression [1e-16 * MPC / YEAR], which
      Python evaluates before any array operation; the model takes it as one literal. *)
  Definition MPC : R := (3.08567758149 * 10 ^ 24)%R.
  Definition YEAR : R := 31556925.2%R.

  (** flat_wcdm.py:49-52 [_rho_de_z] *)
  Definition rho_de_z (z w0 wa : num) : num :=
    let a := Fin 1 / (Fin 1 + z) in
    npow a (Fin (-3) * (Fin 1 + w0 + wa)) * nexp (Fin (-3) * wa * (Fin 1 - a)).

  (** flat_wcdm.py:56-61 [_Ez] *)
  Definition Ez (z Om0 w0 wa : num) : num :=
    let zp1 := Fin 1 + z in
    let Ode0 := Fin 1 - Om0 in
    let t := Om0 * zp1 ^i 3 + Ode0 * rho_de_z z w0 wa in
    nsqrt t.

  (** flat_wcdm.py:65-66 [_integrand_oneOverEz] *)
  Definition integrand_oneOverEz (z Om0 w0 wa : num) : num := Fin 1 / Ez z Om0 w0 wa.
  (** flat_wcdm.py:70-71 [_integrand_oneOverEz1pz] *)
  Definition integrand_oneOverEz1pz (z Om0 w0 wa : num) : num :=
    Fin 1 / Ez z Om0 w0 wa / (Fin 1 + z).

  (** flat_wcdm.py:75-100 [comoving_distance_to_z] *)
  Definition comoving_distance_to_z (redshift Om0 w0 wa h : num) : num :=
    let z_table := linspace (Fin 0) redshift 256 in
    let integrand := map (fun z => integrand_oneOverEz z Om0 w0 wa) z_table in
    trapz_k z_table integrand * C_SPEED * lit (1 / 10 ^ 5)%R / h.

  (** flat_wcdm.py:108-129 [luminosity_distance_to_z] *)
  Definition luminosity_distance_to_z (redshift Om0 w0 wa h : num) : num :=
    comoving_distance_to_z redshift Om0 w0 wa h * (Fin 1 + redshift).

  (** flat_wcdm.py:133-154 [angular_diameter_distance_to_z] *)
  Definition angular_diameter_distance_to_z (redshift Om0 w0 wa h : num) : num :=
    comoving_distance_to_z redshift Om0 w0 wa h / (Fin 1 + redshift).

  (** flat_wcdm.py:158-182 [distance_modulus_to_z] *)
  Definition distance_modulus_to_z (redshift Om0 w0 wa h : num) : num :=
    let d_lum := luminosity_distance_to_z redshift Om0 w0 wa h in
    Fin 5 * nlog10 (d_lum * Fin (10 ^ 5)%R).

  (** flat_wcdm.py:186-189 [_hubble_time] *)
  Definition hubble_time (z Om0 w0 wa h : num) : num :=
    let E0 := Ez z Om0 w0 wa in
    lit (1 / 10 ^ 16 * MPC / YEAR)%R / h / E0.

  (** flat_wcdm.py:193-218 [lookback_to_z] *)
  Definition lookback_to_z (redshift Om0 w0 wa h : num) : num :=
    let z_table := linspace (Fin 0) redshift 512 in
    let integrand := map (fun z => Fin 1 / Ez z Om0 w0 wa / (Fin 1 + z)) z_table in
    let res := trapz_k z_table integrand in
    let th := hubble_time (Fin 0) Om0 w0 wa h in
    th * res.

  (** flat_wcdm.py:222-245 [age_at_z0] *)
  Definition age_at_z0 (Om0 w0 wa h : num) : num :=
    let z_table := map (fun x => x - Fin 1) (logspace (Fin 0) (Fin 3) 512) in
    let integrand := map (fun z => Fin 1 / Ez z Om0 w0 wa / (Fin 1 + z)) z_table in
    let res := trapz_k z_table integrand in
    let th := hubble_time (Fin 0) Om0 w0 wa h in
    th * res.

  (** flat_wcdm.py:249-252 [_age_at_z_kern] *)
  Definition age_at_z_kern (redshift Om0 w0 wa h : num) : num :=
    let t0 := age_at_z0 Om0 w0 wa h in
    let tlook := lookback_to_z redshift Om0 w0 wa h in
    t0 - tlook.

  (** [jnp.atleast_1d] *)
  Definition atleast_1d (a : arg) : list num :=
    match a with Scalar x => [x] | Vector l => l end.
  (** [vmap] over the first argument: refuses a scalar *)
  Definition vmap0 (f : num -> num) (a : arg) : res (list num) :=
    match a with Scalar _ => Raise ValueError | Vector l => Ok (map f l) end.

  (** flat_wcdm.py:259-280 [age_at_z] *)
  Definition age_at_z (redshift : arg) (Om0 w0 wa h : num) : list num :=
    map (fun z => age_at_z_kern z Om0 w0 wa h) (atleast_1d redshift).

  (** flat_wcdm.py:284-307 [rho_crit] *)
  Definition rho_crit (redshift Om0 w0 wa h : num) : num :=
    let rho_crit0 := RHO_CRIT0_KPC3_UNITY_H * h * h in
    rho_crit0 * Ez redshift Om0 w0 wa ^i 2.

  (** flat_wcdm.py:311-313 [_Om_at_z] *)
  Definition Om_at_z (z Om0 w0 wa : num) : num :=
    let E := Ez z Om0 w0 wa in
    Om0 * (Fin 1 + z) ^i 3 / E / E.

  (** flat_wcdm.py:104, 317-321: the vmapped versions *)
  Definition comoving_distance (redshift : arg) (Om0 w0 wa h : num) : res (list num) :=
    vmap0 (fun z => comoving_distance_to_z z Om0 w0 wa h) redshift.
  Definition distance_modulus (redshift : arg) (Om0 w0 wa h : num) : res (list num) :=
    vmap0 (fun z => distance_modulus_to_z z Om0 w0 wa h) redshift.
  Definition luminosity_distance (redshift : arg) (Om0 w0 wa h : num) : res (list num) :=
    vmap0 (fun z => luminosity_distance_to_z z Om0 w0 wa h) redshift.
  Definition angular_diameter_distance (redshift : arg) (Om0 w0 wa h : num) : res (list num) :=
    vmap0 (fun z => angular_diameter_distance_to_z z Om0 w0 wa h) redshift.
  Definition lookback_time (redshift : arg) (Om0 w0 wa h : num) : res (list num) :=
    vmap0 (fun z => lookback_to_z z Om0 w0 wa h) redshift.
  Definition Om (z : arg) (Om0 w0 wa : num) : res (list num) :=
    vmap0 (fun z => Om_at_z z Om0 w0 wa) z.

  (** flat_wcdm.py:325-328 [_delta_vir]; [18 * jnp.pi**2] is a Python float *)
  Definition delta_vir (z : arg) (Om0 w0 wa : num) : res (list num) :=
    let* om := Om z Om0 w0 wa in
    Ok (map (fun o => let x := o - Fin 1 in
                      lit (18 * PI ^ 2)%R + Fin 82 * x - Fin 39 * x ^i 2) om).

  (** flat_wcdm.py:332-360 [virial_dynamical_time].  The docstring says
      [redshift : float], but line 357 goes through the vmapped [_Om]. *)
  Definition virial_dynamical_time (redshift : arg) (Om0 w0 wa h : num) : res (list num) :=
    let* delta := delta_vir redshift Om0 w0 wa in
    Ok (map2 (fun z d => lit (Rpower 2 1.5)%R * hubble_time z Om0 w0 wa h
                         * npow d (Fin (-1/2)%R))
             (atleast_1d redshift) delta).

  (** flat_wcdm.py:364-368 [hubble_distance_mpc] *)
  Definition hubble_distance_mpc (h : num) : num :=
    let H0 := Fin 100 * h in
    let c_speed_kms := lit (299792458 / 1000)%R in (* Python floats *)
    c_speed_kms / H0.

  (** flat_wcdm.py:372-379 [differential_comoving_volume_at_z] *)
  Definition differential_comoving_volume_at_z (redshift Om0 w0 wa h : num) : num :=
    let dh := hubble_distance_mpc h in
    let da := angular_diameter_distance_to_z redshift Om0 w0 wa h in
    let zp1 := Fin 1 + redshift in
    let ez := Ez redshift Om0 w0 wa in
    dh * npow (zp1 * da) (Fin 2) / ez.
  (** flat_wcdm.py:383 *)
  Definition differential_comoving_volume (redshift : arg) (Om0 w0 wa h : num)
    : res (list num) :=
    vmap0 (fun z => differential_comoving_volume_at_z z Om0 w0 wa h) redshift.

  (** cosmology/defaults.py:8 [TODAY] *)
  Definition TODAY : num :=
    age_at_z0 (cp_Om0 PLANCK15) (cp_w0 PLANCK15) (cp_wa PLANCK15) (cp_h PLANCK15).
End Cosmo.
