(** * Model of dsps/dust/blackbody.py (elementwise in frequency / wavelength) *)
From Coq Require Import Reals List Bool Arith.
From Verif Require Import Num Arr.
Import ListNotations.
Local Open Scope num_scope.

Section Blackbody.
  Context {AR : Arith}.

  (** blackbody.py:12-20 *)
  Definition H_PLANCK : num := lit (6.62607015 / 10 ^ 34)%R.
  Definition K_BOLTZ : num := lit (1.380649 / 10 ^ 23)%R.
  Definition C_SPEED : num := lit 299792458%R.
  Definition WATTS_PER_LSUN : num := lit (3.828 * 10 ^ 26)%R.
  Definition LGH : num := nln H_PLANCK.
  Definition LGK : num := nln K_BOLTZ.
  Definition LGC : num := nln C_SPEED.
  Definition LG2 : num := nln (Fin 2).

  (** blackbody.py:75-80 [_freq_density_denom] *)
  Definition freq_density_denom (freq_hz temp_kelvin : num) : num :=
    let hnu := H_PLANCK * freq_hz in
    let kt := K_BOLTZ * temp_kelvin in
    let x := hnu / kt in
    Fin 1 / (nexp x - Fin 1).

  (** blackbody.py:84-88 [_jax_bb_freq_density_exparg] *)
  Definition jax_bb_freq_density_exparg (freq_hz : num) : num :=
    let lg_term1 := LG2 + LGH - Fin 2 * LGC in
    let lg_term2 := Fin 3 * nln freq_hz in
    lg_term1 + lg_term2.

  (** blackbody.py:92-96 [_blackbody_freq_density_si] *)
  Definition blackbody_freq_density_si (freq_hz temp_kelvin : num) : num :=
    let exparg := jax_bb_freq_density_exparg freq_hz in
    let denom := freq_density_denom freq_hz temp_kelvin in
    denom * nexp exparg.

  (** blackbody.py:26-45 [blackbody_freq_density] *)
  Definition blackbody_freq_density (freq_hz temp_kelvin : num) : num :=
    blackbody_freq_density_si freq_hz temp_kelvin / WATTS_PER_LSUN.

  (** blackbody.py:114-119 [_wave_density_denom] *)
  Definition wave_density_denom (wave_meters temp_kelvin : num) : num :=
    let hc := H_PLANCK * C_SPEED in
    let kt := K_BOLTZ * temp_kelvin in
    let x := hc / kt / wave_meters in
    Fin 1 / (nexp x - Fin 1).

  (** blackbody.py:123-130 [_blackbody_wave_density_si] *)
  Definition blackbody_wave_density_si (wave_m temp_kelvin : num) : num :=
    let denom_factor := wave_density_denom wave_m temp_kelvin in
    let lg_term1 := LG2 + LGH + Fin 2 * LGC in
    let lg_term2 := Fin 5 * nln wave_m in
    let exparg := lg_term1 - lg_term2 in
    let wave_factor := nexp exparg in
    wave_factor * denom_factor.

  (** blackbody.py:49-71 [blackbody_wave_density] *)
  Definition blackbody_wave_density (wave_aa temp_kelvin : num) : num :=
    let wave_m := wave_aa / Fin (10 ^ 10)%R in
    let bb_si := blackbody_wave_density_si wave_m temp_kelvin in
    let bb_lsun_per_m := bb_si / WATTS_PER_LSUN in
    let m_per_aa := lit (1 / 10 ^ 10)%R in
    bb_lsun_per_m * m_per_aa.

  (** blackbody.py:100-103 [_jax_bb_frequency_peak] *)
  Definition jax_bb_frequency_peak (temp_kelvin : num) : num :=
    lit (5.879 * 10 ^ 10)%R * temp_kelvin.

  (** blackbody.py:107-110 [_jax_bb_wavelength_peak] *)
  Definition jax_bb_wavelength_peak (temp_kelvin : num) : num :=
    C_SPEED / jax_bb_frequency_peak temp_kelvin / lit 1.76%R.
End Blackbody.
