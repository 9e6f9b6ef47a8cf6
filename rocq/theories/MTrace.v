(** * The programs [jax.grad] differentiates: dsps functions traced by JAX

    Each definition is the function of the same name in MUtils/MDust/MImf/MMzr/MDiffburst/MSed,
    operation by operation, with arguments that are traces themselves (the input that is
    differentiated, a constant, or the result of another function).  [LGrad3] proves for each of
    them that evaluating the trace is calling the modelled function on the evaluated arguments, in
    every arithmetic. *)
From Coq Require Import Reals List Bool Arith ZArith.
From Verif Require Import Num Arr MUtils MSed MDiffburst MImf MMzr MDust MGrad.
Import ListNotations.

Section Traces.
  Context {AR : Arith}.
  Local Notation C r := (Cst (Fin r%R)).
  Local Notation L r := (Cst (lit r%R)).

  (** dsps/utils.py:56-63 [_tw_cuml_kern] *)
  Definition tw_poly_trace (z : trace) : trace :=
    Add (Add (Sub (Add (Div (Mul (C (-5)) (IPow z 7)) (C 69984)) (Div (Mul (C 7) (IPow z 5)) (C 2592)))
      (Div (Mul (C 35) (IPow z 3)) (C 864))) (Div (Mul (C 35) z) (C 96))) (C (1/2)).
  Definition tw_of (z : trace) : trace :=
    Where (fun v => v >? Fin 3)%num z (C 1) (Where (fun v => v <? Fin (-3))%num z (C 0) (tw_poly_trace z)).
  Definition tw_trace (x m h : trace) : trace := tw_of (Div (Sub x m) h).

  (** dsps/utils.py:66-70 [_tw_sigmoid] *)
  Definition tw_sigmoid_trace (x x0 h ymin ymax : trace) : trace :=
    Add ymin (Mul (Sub ymax ymin) (tw_trace x x0 h)).
  (** dsps/utils.py:73-78 [_triweighted_histogram_kernel] *)
  Definition hist_kernel_trace (x sig lo hi : trace) : trace := Sub (tw_trace x lo sig) (tw_trace x hi sig).
  (** dsps/utils.py:105-110 [triweight_gaussian] *)
  Definition gauss_trace (x m h : trace) : trace :=
    let z := Div (Sub x m) h in
    Where (fun z => (z <? Fin (-3)) || (z >? Fin 3))%num%bool z (C 0)
      (Div (Mul (L (35/96)) (IPow (Sub (C 1) (IPow (Div z (C 3)) 2)) 3)) h).
  (** dsps/utils.py:113-116 [_tw_sig_slope] *)
  Definition tw_sig_slope_trace (x xtp ytp x0 h lo hi : trace) : trace :=
    Add ytp (Mul (tw_sigmoid_trace x x0 h lo hi) (Sub x xtp)).
  (** dsps/utils.py:149-152 [_sigmoid] *)
  Definition sigmoid_trace (x x0 k ylo yhi : trace) : trace :=
    Add ylo (Mul (Sub yhi ylo) (Logistic (Mul k (Sub x x0)))).
  (** dsps/utils.py:155-158 [_inverse_sigmoid] *)
  Definition inverse_sigmoid_trace (y x0 k ylo yhi : trace) : trace :=
    Sub x0 (Div (Ln (Sub (Div (Sub yhi ylo) (Sub y ylo)) (C 1))) k).
  (** dsps/utils.py:161-164 [_sig_slope] *)
  Definition sig_slope_trace (x xtp ytp x0 k lo hi : trace) : trace :=
    Add ytp (Mul (sigmoid_trace x x0 k lo hi) (Sub x xtp)).

  (** remnant_mass.py:50-53 *)
  Definition remnant_mass_trace (lg_age a b lgk1 d e : trace) : trace :=
    Pow10 (sig_slope_trace lg_age b a b (Pow10 lgk1) d e).
  (** surviving_mstar.py:31-71 *)
  Definition surviving_mstar_trace (lg_age a b lgk1 d e f lgk2 h : trace) : trace :=
    let z := sig_slope_trace lg_age b a b (Pow10 lgk1) d e in
    Sub (C 1) (sigmoid_trace lg_age f (Pow10 lgk2) h z).

  (** umzr.py:84-189 [mzr_model] *)
  Definition umzr_evolution_trace (logsm t c0_y c1_y c0_e c1_e : trace) : trace :=
    let t_lookback := Sub (Cst MZR_EVOL_T0) t in
    let t_lookback := Where (fun v => v <? Fin 0)%num t_lookback (C 0) t_lookback in
    let y := Add c0_y (Mul c1_y logsm) in
    let early := Add c0_e (Mul c1_e logsm) in
    sig_slope_trace t_lookback (Cst MZR_DT_XTP) y (Cst TLOOK_C) (Cst MZR_EVOL_K) (Div y (Cst TLOOK_C)) early.
  Definition umzr_trace (logsm t ytp x0 k slope_lo slope_hi c0_y c1_y c0_e c1_e : trace) : trace :=
    let lgmet_at_t0 := Add (sig_slope_trace logsm (Cst MZR_T0_XTP) ytp x0 k slope_lo slope_hi) (Cst LGMET_SOLAR) in
    let reduction := umzr_evolution_trace logsm t c0_y c1_y c0_e c1_e in
    Add lgmet_at_t0 (Where (fun v => v >? Fin 0)%num reduction (C 0) reduction).
  (** mzr.py:51-173 [mzr_model] *)
  Definition mzr_evolution_trace (logsm t c0_y c1_y tlook_c c0_e c1_e : trace) : trace :=
    let t_lookback := Sub (Cst MZR_EVOL_T0) t in
    let t_lookback := Where (fun v => v <? Fin 0)%num t_lookback (C 0) t_lookback in
    let y := Add c0_y (Mul c1_y logsm) in
    let tc := Add tlook_c (C 0) in
    let early := Add c0_e (Mul c1_e logsm) in
    sig_slope_trace t_lookback tc y tc (Cst MZR_EVOL_K) (Div y tc) early.
  Definition mzr_trace (logsm t y0 x0 k slope_lo slope_hi c0_y c1_y tlook_c c0_e c1_e : trace) : trace :=
    let lgmet_at_t0 := Add (sig_slope_trace logsm x0 y0 x0 k slope_lo slope_hi) (Cst LGMET_SOLAR) in
    let reduction := mzr_evolution_trace logsm t c0_y c1_y tlook_c c0_e c1_e in
    Add lgmet_at_t0 (Where (fun v => v >? Fin 0)%num reduction (C 0) reduction).
  (** umzr.py:193-196 [_get_square_bounded_param] *)
  Definition bounded_param_trace (u : trace) (bound : num * num) : trace :=
    sigmoid_trace u (Mul (L 0.5) (Add (Cst (fst bound)) (Cst (snd bound)))) (Cst BOUNDING_K) (Cst (fst bound)) (Cst (snd bound)).

  (** att_curves.py:365-385 [calzetti00_k_lambda] *)
  Definition calzetti_trace (w : trace) : trace :=
    let y := Div (C 1) w in
    let k1 := Add (Mul (L 2.659) (Add (Sub (Add (L (-2.156)) (Mul (L 1.509) y)) (Mul (L 0.198) (IPow y 2))) (Mul (L 0.011) (IPow y 3)))) (Cst RV_C00) in
    let k2 := Add (Mul (L 2.659) (Add (L (-1.857)) (Mul (L 1.040) y))) (Cst RV_C00) in
    Where (fun v => v <? lit 0.63%R)%num w k1 k2.
  (** att_curves.py:389-407 [leitherer02_k_lambda] *)
  Definition leitherer_trace (w : trace) : trace :=
    let y := Div (C 1) w in
    Add (L 5.472) (Add (Sub (Mul (L 0.671) y) (Mul (Mul (L 9.218) (L 0.001)) (IPow y 2)))
                       (Mul (Mul (L 2.620) (L 0.001)) (IPow y 3))).
  (** att_curves.py:75-98 [_l02_below_c00_above] *)
  Definition l02_c00_trace (w : trace) : trace :=
    Where (fun v => v >? lit 0.15%R)%num w (calzetti_trace w) (leitherer_trace w).
  (** att_curves.py:102-123 [power_law_vband_norm] *)
  Definition power_law_trace (w slope vband : trace) : trace := Pow (Div w vband) slope.
  (** att_curves.py:448-454 [_drude_bump] *)
  Definition drude_trace (x x0 gamma ampl : trace) : trace :=
    let top := Mul (IPow x 2) (IPow gamma 2) in
    Mul ampl (Div top (Add (IPow (Sub (IPow x 2) (IPow x0 2)) 2) top)).
  (** att_curves.py:174-216 [noll09_k_lambda] and 267-309 [sbl18_k_lambda], before the clipping
      at 0, and the clipping *)
  Definition noll_raw_trace (w ampl slope bump width : trace) : trace :=
    Mul (Add (l02_c00_trace w) (drude_trace w bump width ampl)) (power_law_trace w slope (L 0.55)).
  Definition sbl_raw_trace (w ampl slope bump width : trace) : trace :=
    Add (Mul (l02_c00_trace w) (power_law_trace w slope (L 0.55))) (drude_trace w bump width ampl).
  Definition clip0_trace (k : trace) : trace := Where (fun v => v <? Fin 0)%num k (C 0) k.
  Definition noll_trace (w ampl slope bump width : trace) : trace := clip0_trace (noll_raw_trace w ampl slope bump width).
  Definition sbl_trace (w ampl slope bump width : trace) : trace := clip0_trace (sbl_raw_trace w ampl slope bump width).
  (** att_curves.py:436-444 [_att_curve_from_k_lambda] *)
  Definition att_curve_trace (k av : trace) : trace :=
    let att := Div (Mul av k) (Cst RV_C00) in
    Where (fun v => v <? Fin 0)%num att (C 0) att.
  (** att_curves.py:32-71 [_frac_transmission_from_k_lambda] *)
  Definition frac_transmission_trace (k av floor : trace) : trace :=
    let ftrans := Pow10 (Mul (L (-0.4)) (att_curve_trace k av)) in
    Add floor (Mul (Sub (C 1) floor) ftrans).
  (** att_curves.py:411-432 [triweight_k_lambda] *)
  Definition triweight_k_trace (w xtp ytp x0 h lo hi : trace) : trace :=
    Pow10 (tw_sig_slope_trace (Log10 w) xtp ytp x0 h lo hi).

  (** diffburst.py:170-193 *)
  Definition lgyr_peak_trace (u : trace) : trace :=
    let hi := Sub (Cst LGAGE_MAX) (Cst DLGAGE_MIN) in
    sigmoid_trace u (Mul (L 0.5) (Add hi (Cst LGYR_PEAK_MIN))) (Cst LGAGE_K) (Cst LGYR_PEAK_MIN) hi.
  Definition lgfburst_trace (u : trace) : trace :=
    sigmoid_trace u (Cst LGFB_X0) (Cst LGFB_K) (Cst LGFBURST_MIN) (Cst LGFBURST_MAX).
  Definition lgyr_max_trace (peak u : trace) : trace :=
    let lo := Add peak (Cst DLGAGE_MIN) in
    sigmoid_trace u (Mul (L 0.5) (Add (Cst LGAGE_MAX) lo)) (Cst LGAGE_K) lo (Cst LGAGE_MAX).
  (** diffburst.py:112-123 [_pureburst_age_weights_from_params] and 105-108 *)
  Definition pureburst_raw_traces (lgyr : list trace) (peak mx : trace) : list trace :=
    let lgyr_min := Sub peak (Sub mx peak) in
    let twx0 := Mul (L 0.5) (Add lgyr_min mx) in
    let twh := Div (Sub mx lgyr_min) (C 6) in
    map (fun x => gauss_trace x twx0 twh) lgyr.
  Definition zero_safe_traces (l : list trace) : list trace :=
    let s := Sum l in
    let s := Where (fun v => v <=? Fin 0)%num s (C 1) s in
    map (fun v => Div v s) l.
  Definition pureburst_traces (lgyr : list trace) (peak mx : trace) : list trace :=
    zero_safe_traces (pureburst_raw_traces lgyr peak mx).
  (** diffburst.py:39-71 [calc_bursty_age_weights], arrays of equal length *)
  Definition bursty_traces (lgfb peak mx : trace) (smooth lg_age_gyr : list trace) : list trace :=
    let fb := Pow10 lgfb in
    map2 (fun b s => Add (Mul fb b) (Mul (Sub (C 1) fb) s))
      (pureburst_traces (map (fun x => Add x (C 9)) lg_age_gyr) peak mx) smooth.

  (** dsps/utils.py:81-102, 119-133 and metallicity_weights.py:104-116: weights of the metallicity
      bins; the edges depend on the template grid alone and are constants.  The masks of
      [_fill_empty_weights_singlepoint] are not differentiated, so they appear as a function of the
      input. *)
  Definition hist_traces (x sig : trace) (edges : list num) : list trace :=
    map2 (fun lo hi => hist_kernel_trace x sig (Cst lo) (Cst hi)) edges (tl edges).
  Definition normalized_traces (l : list trace) : list trace :=
    let s := Sum l in
    let s := Where (fun v => v =? Fin 0)%num s (C 1) s in
    map (fun w => Div w s) l.
  Definition filled_traces (x : trace) (edges : list num) (l : list trace) : list trace :=
    let n := (length edges - 1)%nat in
    let zmsk v := forallb (fun w => eval w v =? Fin 0)%num l in
    let lo v := (zmsk v && (eval x v <? first edges))%num%bool in
    let hi v := (zmsk v && (eval x v >? last_ edges))%num%bool in
    map2 (fun h w => Where hi Arg (Cst h) w) (one_hot n (n - 1))
      (map2 (fun h w => Where lo Arg (Cst h) w) (one_hot n 0) l).
  Definition lgmet_weight_traces (x sig : trace) (edges : list num) : list trace :=
    filled_traces x edges (normalized_traces (hist_traces x sig edges)).
End Traces.
