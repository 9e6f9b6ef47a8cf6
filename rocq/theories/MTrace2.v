(** * Traces of the SED pipeline: age weights, joint weights, SED and magnitudes

    The time table, the template grids, the observation time, the wavelengths and the filters are
    constants; the star formation rates, the metallicity, the scatter and the template fluxes may be
    differentiated.  (The positions of [jnp.interp] are then constants, so the index it looks up is
    one too.) *)
From Coq Require Import Reals List Bool Arith ZArith.
From Verif Require Import Num Arr MUtils MSed MCosmo MPhot MGrad MTrace.
Import ListNotations.

Section Traces2.
  Context {AR : Arith}.
  Local Notation C r := (Cst (Fin r%R)).

  (** entry of an array *)
  Definition entry (l : list trace) (i : nat) : trace := nth i l (Cst NaN).
  (** [jnp.interp(x, xp, fp, left, right)], [x] and [xp] constants *)
  Definition interp_lr_trace (left right : trace) (x : num) (xp : list num) (fp : list trace) : trace :=
    let i := clip_index (searchsorted_right xp x) (length xp) in
    let df := Sub (entry fp i) (entry fp (i - 1)) in
    let dx := Sub (Cst (at_ xp i)) (Cst (at_ xp (i - 1))) in
    let delta := Sub (Cst x) (Cst (at_ xp (i - 1))) in
    let dx0 (_ : num) := (nabs (at_ xp i - at_ xp (i - 1)) <=? Fin interp_eps)%num in
    let f := Where dx0 Arg (entry fp (i - 1))
               (Add (entry fp (i - 1)) (Mul (Div delta (Where dx0 Arg (C 1) dx)) df)) in
    let f := Where (fun _ => x <? first xp)%num Arg left f in
    Where (fun _ => x >? last_ xp)%num Arg right f.
  Definition interp_trace (x : num) (xp : list num) (fp : list trace) : trace :=
    interp_lr_trace (entry fp 0) (entry fp (length fp - 1)) x xp fp.

  (** dsps/utils.py:247-275 [cumtrapz]: the scan *)
  Fixpoint cum_traces (a : num) (fa cum : trace) (l : list (num * trace)) : list trace :=
    match l with
    | [] => []
    | (b, fb) :: l =>
        let cum := Add cum (Div (Mul (Sub (Cst b) (Cst a)) (Add fb fa)) (C 2)) in
        cum :: cum_traces b fb cum l
    end.
  (** dsps/utils.py:296-334 [cumulative_mstar_formed], tables of equal length *)
  Definition mass_traces (ts : list num) (sfrs : list trace) : list trace :=
    map (fun m => Mul m (Cst YEAR_PER_GYR))
      (tl (cum_traces T_BIRTH_MIN (Cst SFR_MIN) (C 0) (combine (T_BIRTH_MIN :: ts) (Cst SFR_MIN :: sfrs)))).
  (** stellar_age_weights.py:166-183 [_calc_logsm_table_from_sfh_table] *)
  Definition logsm_traces (ts : list num) (sfrs : list trace) (sfr_min : num) : list trace :=
    map Log10 (mass_traces ts (map (fun s => Where (fun v => v <? sfr_min)%num s (Cst sfr_min) s) sfrs)).
  (** stellar_age_weights.py:18-88 [calc_age_weights_from_sfh_table] *)
  Definition bin_mass_traces (ts : list num) (sfrs : list trace) (ages : list num) (t_obs sfr_min : num) : list trace :=
    let lgt := map nlog10 ts in
    let logsm := logsm_traces ts sfrs sfr_min in
    let edges := map (get_lgt_birth t_obs) (get_lg_age_bin_edges_k ages) in
    let sm := map (fun x => Pow10 (interp_trace x lgt logsm)) edges in
    map Neg (map2 (fun a b => Sub b a) sm (tl sm)).
  Definition shares (l : list trace) : list trace := map (fun d => Div d (Sum l)) l.
  Definition age_weight_traces (ts : list num) (sfrs : list trace) (ages : list num) (t_obs sfr_min : num) : list trace :=
    shares (bin_mass_traces ts sfrs ages t_obs sfr_min).
  (** stellar_sed.py:120-124 *)
  Definition mstar_trace (ts : list num) (sfrs : list trace) (t_obs sfr_min : num) : trace :=
    Pow10 (interp_trace (nlog10 t_obs) (map nlog10 ts) (logsm_traces ts sfrs sfr_min)).
  (** ssp_weights.py:31-90 [calc_ssp_weights_sfh_table_lognormal_mdf] *)
  Definition joint_traces (mw aw : list trace) : list (list trace) :=
    let w := map (fun m => map (fun a => Mul m a) aw) mw in
    map (map (fun x => Div x (Sum (concat w)))) w.
  (** stellar_sed.py:46-127 [calc_rest_sed_sfh_table_lognormal_mdf] *)
  Definition sed_unit_traces (n_wave : nat) (flux : list (list (list trace))) (w : list (list trace)) : list trace :=
    map (fun k => Sum (concat (map2 (map2 (fun spec x => Mul (entry spec k) x)) flux w))) (seq 0 n_wave).
  Definition sed_traces (n_wave : nat) (flux : list (list (list trace))) (w : list (list trace)) (mstar : trace) : list trace :=
    map (fun s => Mul s mstar) (sed_unit_traces n_wave flux w).

  (** metallicity_weights.py:54-128 [calc_lgmet_weights_from_lgmet_table] *)
  Definition lgmet_matrix_traces (ts : list num) (lgmet_table : list trace) (scatter : trace) (ssp_lgmet ages : list num) (t_obs : num) : list (list trace) :=
    let at_birth := map (fun x => interp_trace x (map nlog10 ts) lgmet_table) (map (get_lgt_birth t_obs) ages) in
    let edges := get_bin_edges_k ssp_lgmet LGMET_LO LGMET_HI in
    let m := map (fun g => map (fun w => Div w (Cst (Fin (INR (length ages))))) (lgmet_weight_traces g scatter edges)) at_birth in
    map (fun i => map (fun row => entry row i) m) (seq 0 (length ssp_lgmet)).
  (** ssp_weights.py:93-157 [calc_ssp_weights_sfh_table_met_table] *)
  Definition joint_table_traces (m : list (list trace)) (aw : list trace) : list (list trace) :=
    let w := map (fun row => map2 Mul row aw) m in
    map (map (fun x => Div x (Sum (concat w)))) w.

  (** photometry_kernels.py:126-147, 69-96: flux through a filter, magnitudes *)
  Definition trapz_trace (x : list num) (y : list trace) : trace :=
    Mul (C (1/2)) (Sum (map2 Mul (map2 (fun a b => Sub (Cst b) (Cst a)) x (tl x)) (map2 Add (tl y) y))).
  Definition filter_flux_trace (wave : list num) (lum : list trace) (wf tf : list num) : trace :=
    let phot := map (fun x => interp_lr_trace (C 0) (C 0) x wave lum) wf in
    trapz_trace wf (map2 (fun a w => Div a (Cst w)) (map2 (fun t l => Mul (Cst t) l) tf phot) wf).
  Definition mag_trace (wave : list num) (lum : list trace) (wf tf : list num) : trace :=
    Mul (Cst (lit (-2.5)%R)) (Log10 (Div (filter_flux_trace wave lum wf tf) (Cst (flux_ab0_at_10pc wf tf)))).
  (** photometry_kernels.py:16-53 [calc_obs_mag], redshift and cosmology constants *)
  Definition obs_mag_trace (wave : list num) (lum : list trace) (wf tf : list num) (z Om0 w0 wa h : num) : trace :=
    Add (mag_trace (map (fun w => w * (Fin 1 + z))%num wave) lum wf tf) (Cst (cosmological_dimming z Om0 w0 wa h)).
End Traces2.
