(** * Traces of the blackbody densities, the power-law densities, the effective wavelength of a filter,
    and of the metallicity weights of a metallicity table at a moving time of observation *)
From Coq Require Import Reals List Bool Arith ZArith.
From Verif Require Import Num Arr MUtils MSed MBlackbody MDust MGrad MTrace MTrace2 MTrace3 MTrace4.
Import ListNotations.

Section Traces5.
  Context {AR : Arith}.
  Local Notation C r := (Cst (Fin r%R)).

  (** blackbody.py:75-80 [_freq_density_denom] *)
  Definition freq_denom_trace (nu T : trace) : trace :=
    Div (C 1) (Sub (Exp (Div (Mul (Cst H_PLANCK) nu) (Mul (Cst K_BOLTZ) T))) (C 1)).
  (** blackbody.py:26-45, 84-96 [blackbody_freq_density] *)
  Definition freq_density_trace (nu T : trace) : trace :=
    Div (Mul (freq_denom_trace nu T) (Exp (Add (Cst (LG2 + LGH - Fin 2 * LGC)%num) (Mul (C 3) (Ln nu))))) (Cst WATTS_PER_LSUN).
  (** blackbody.py:114-119 [_wave_density_denom] *)
  Definition wave_denom_trace (wave_m T : trace) : trace :=
    Div (C 1) (Sub (Exp (Div (Div (Cst (H_PLANCK * C_SPEED)%num) (Mul (Cst K_BOLTZ) T)) wave_m)) (C 1)).
  (** blackbody.py:49-71, 123-130 [blackbody_wave_density] *)
  Definition wave_density_trace (wave_aa T : trace) : trace :=
    let wave_m := Div wave_aa (C (10 ^ 10)) in
    Mul (Div (Mul (Exp (Sub (Cst (LG2 + LGH + Fin 2 * LGC)%num) (Mul (C 5) (Ln wave_m)))) (wave_denom_trace wave_m T)) (Cst WATTS_PER_LSUN))
        (Cst (lit (1 / 10 ^ 10)%R)).

  (** dsps/utils.py:190-215 [powerlaw_pdf] *)
  Definition powerlaw_pdf_trace (x a b g : trace) : trace :=
    Div (Mul g (Pow x (Sub g (C 1)))) (Sub (Pow b g) (Pow a g)).
  (** dsps/utils.py:218-244 [powerlaw_rvs]; [r] is the uniform draw *)
  Definition powerlaw_rvs_trace (r a b g : trace) : trace :=
    Pow (Add (Pow a g) (Mul (Sub (Pow b g) (Pow a g)) r)) (Div (C 1) g).

  (** dust/utils.py:9-30 [get_filter_effective_wavelength], wavelengths constant *)
  Definition effective_wavelength_trace (wave : list num) (trans : list trace) (z : trace) : trace :=
    Div (Div (trapz_trace wave (map2 (fun t w => Mul t (Cst w)) trans wave)) (trapz_trace wave trans)) (Add (C 1) z).

  (** metallicity_weights.py:54-128 [calc_lgmet_weights_from_lgmet_table]: time of observation differentiated *)
  Definition lgmet_matrix_t_traces (ts : list num) (lgmet_table : list trace) (scatter : trace) (ssp_lgmet ages : list num) (t_obs : trace) : list (list trace) :=
    let at_birth := map (fun a => interp_x_trace (lgt_birth_trace t_obs a) (map nlog10 ts) lgmet_table) ages in
    let edges := get_bin_edges_k ssp_lgmet LGMET_LO LGMET_HI in
    let m := map (fun g => map (fun w => Div w (Cst (Fin (INR (length ages))))) (lgmet_weight_traces g scatter edges)) at_birth in
    map (fun i => map (fun row => entry row i) m) (seq 0 (length ssp_lgmet)).
End Traces5.
