(** * Model of dsps/metallicity: mzr.py and umzr.py *)
From Coq Require Import Reals List Bool Arith.
From Verif Require Import Num Arr MUtils.
Import ListNotations.
Local Open Scope num_scope.

(** The parameter tuple of umzr.py:26-69 [MZRParams] (9 fields, in order); the
    same record is used for [MZRUParams] (the same names with a [u_] prefix). *)
Record MZRParams := {
  mzr_t0_ytp : num; mzr_t0_x0 : num; mzr_t0_k : num;
  mzr_t0_slope_lo : num; mzr_t0_slope_hi : num;
  c0_y_at_tlook_c : num; c1_y_at_tlook_c : num;
  c0_early_time_slope : num; c1_early_time_slope : num }.

Section Mzr.
  Context {AR : Arith}.

  (** mzr.py:28-29, umzr.py:13-14 *)
  Definition MZR_EVOL_T0 : num := lit 12.5%R.
  Definition MZR_EVOL_K : num := lit 1.6%R.
  (** umzr.py:16-23, mzr.py:47 *)
  Definition MZR_T0_XTP : num := lit 10.5%R.
  Definition MZR_DT_XTP : num := lit 8.44%R.
  Definition BOUNDING_K : num := lit 0.1%R.
  Definition LGMET_SOLAR : num := nlog10 (lit 0.012%R).
  Definition TLOOK_C : num := lit 8.44%R.

  (** ** mzr.py *)

  (** mzr.py:51-64 [mzr_model_t0] *)
  Definition mzr_model_t0 (logsm y0 x0 k slope_lo slope_hi : num) : num :=
    let mzr_t0_xtp := x0 in
    let mzr_t0 := sig_slope logsm mzr_t0_xtp y0 x0 k slope_lo slope_hi in
    mzr_t0 + LGMET_SOLAR.

  (** mzr.py:68-71 [maiolino08_metallicity_evolution] *)
  Definition maiolino08_metallicity_evolution (logsm logm0 k0 : num) : num :=
    let x := logsm - logm0 in
    let xsq := x * x in
    Fin (-12) - lit 0.0864%R * xsq + k0.

  (** mzr.py:75-80 [_delta_logz_vs_t_lookback] *)
  Definition mzr_delta_logz_vs_t_lookback (t_lookback y_at_tc tc early_time_slope k : num)
    : num :=
    let late_time_slope := y_at_tc / tc in
    let xtp := tc in
    sig_slope t_lookback xtp y_at_tc tc k late_time_slope early_time_slope.

  (** mzr.py:84-95 [_get_p_at_lgmstar] ([jnp.zeros_like(lgmstar)] is 0) *)
  Definition mzr_get_p_at_lgmstar (lgmstar c0_y c1_y tlook_c c0_e c1_e : num)
    : num * num * num :=
    (c0_y + c1_y * lgmstar, tlook_c + Fin 0, c0_e + c1_e * lgmstar).

  (** mzr.py:99-119 [_delta_logz_at_t_lookback] *)
  Definition mzr_delta_logz_at_t_lookback
    (lgmstar t_lookback c0_y c1_y tlook_c c0_e c1_e : num) : num :=
    let '(y, tc, early) := mzr_get_p_at_lgmstar lgmstar c0_y c1_y tlook_c c0_e c1_e in
    let logZ_reduction := mzr_delta_logz_vs_t_lookback t_lookback y tc early MZR_EVOL_K in
    nwhere (logZ_reduction >? Fin 0) (Fin 0) logZ_reduction.

  (** mzr.py:123-143 [mzr_evolution_model] *)
  Definition mzr_evolution_model
    (logsm cosmic_time c0_y c1_y tlook_c c0_e c1_e : num) : num :=
    let t_lookback := MZR_EVOL_T0 - cosmic_time in
    let t_lookback := nwhere (t_lookback <? Fin 0) (Fin 0) t_lookback in
    mzr_delta_logz_at_t_lookback logsm t_lookback c0_y c1_y tlook_c c0_e c1_e.

  (** mzr.py:147-173 [mzr_model] *)
  Definition mzr_model
    (logsm t y0 x0 k slope_lo slope_hi c0_y c1_y tlook_c c0_e c1_e : num) : num :=
    let lgmet_at_t0 := mzr_model_t0 logsm y0 x0 k slope_lo slope_hi in
    let logZ_reduction := mzr_evolution_model logsm t c0_y c1_y tlook_c c0_e c1_e in
    lgmet_at_t0 + logZ_reduction.

  (** mzr.py:17-19, 30-46 [DEFAULT_MET_PARAMS] (the last entry is the scatter) and the call
      [mzr_model(logsm, t, *params)] with 10 positional parameters *)
  Definition DEFAULT_MET_PARAMS : list num :=
    [lit 0.05%R; lit 10.5%R; Fin 1; lit 0.4%R; lit 0.1%R;
     lit (-1.455)%R; lit 0.13%R; lit 8.44%R; lit (-0.959)%R; lit 0.067242%R; lit 0.1%R].
  Definition mzr_model_star (logsm t : num) (params : list num) : res num :=
    match params with
    | [y0; x0; k; lo; hi; a; b; tc; c; d] => Ok (mzr_model logsm t y0 x0 k lo hi a b tc c d)
    | _ => Raise TypeError
    end.

  (** ** umzr.py *)

  (** umzr.py:84-96 [mzr_model_t0] *)
  Definition umzr_model_t0 (logsm ytp x0 k slope_lo slope_hi : num) : num :=
    let mzr_t0 := sig_slope logsm MZR_T0_XTP ytp x0 k slope_lo slope_hi in
    mzr_t0 + LGMET_SOLAR.

  (** umzr.py:100-104 [_delta_logz_vs_t_lookback] *)
  Definition umzr_delta_logz_vs_t_lookback (t_lookback y_at_tc early_time_slope k : num)
    : num :=
    let late_time_slope := y_at_tc / TLOOK_C in
    sig_slope t_lookback MZR_DT_XTP y_at_tc TLOOK_C k late_time_slope early_time_slope.

  (** umzr.py:108-117 [_get_p_at_lgmstar] *)
  Definition umzr_get_p_at_lgmstar (lgmstar c0_y c1_y c0_e c1_e : num) : num * num :=
    (c0_y + c1_y * lgmstar, c0_e + c1_e * lgmstar).

  (** umzr.py:121-139 [_delta_logz_at_t_lookback] *)
  Definition umzr_delta_logz_at_t_lookback
    (lgmstar t_lookback c0_y c1_y c0_e c1_e : num) : num :=
    let '(y, early) := umzr_get_p_at_lgmstar lgmstar c0_y c1_y c0_e c1_e in
    let logZ_reduction := umzr_delta_logz_vs_t_lookback t_lookback y early MZR_EVOL_K in
    nwhere (logZ_reduction >? Fin 0) (Fin 0) logZ_reduction.

  (** umzr.py:143-161 [mzr_evolution_model] *)
  Definition umzr_evolution_model (logsm cosmic_time c0_y c1_y c0_e c1_e : num) : num :=
    let t_lookback := MZR_EVOL_T0 - cosmic_time in
    let t_lookback := nwhere (t_lookback <? Fin 0) (Fin 0) t_lookback in
    umzr_delta_logz_at_t_lookback logsm t_lookback c0_y c1_y c0_e c1_e.

  (** umzr.py:165-189 [mzr_model], called with the fields of an [MZRParams] *)
  Definition umzr_model (logsm t : num) (p : MZRParams) : num :=
    let lgmet_at_t0 := umzr_model_t0 logsm (mzr_t0_ytp p) (mzr_t0_x0 p) (mzr_t0_k p)
                         (mzr_t0_slope_lo p) (mzr_t0_slope_hi p) in
    let logZ_reduction := umzr_evolution_model logsm t (c0_y_at_tlook_c p)
        (c1_y_at_tlook_c p) (c0_early_time_slope p) (c1_early_time_slope p) in
    lgmet_at_t0 + logZ_reduction.

  (** umzr.py:26-32, 41-46, 68 [DEFAULT_MZR_PARAMS] *)
  Definition DEFAULT_MZR_PARAMS : MZRParams := {|
    mzr_t0_ytp := lit 0.05%R; mzr_t0_x0 := lit 10.5%R; mzr_t0_k := Fin 1;
    mzr_t0_slope_lo := lit 0.4%R; mzr_t0_slope_hi := lit 0.1%R;
    c0_y_at_tlook_c := lit (-1.455)%R; c1_y_at_tlook_c := lit 0.13%R;
    c0_early_time_slope := lit (-0.959)%R; c1_early_time_slope := lit 0.067242%R |}.

  (** umzr.py:33-39, 47-52, 69 [MZR_PBOUNDS]: (lo, hi) of each parameter *)
  Definition b_mzr_t0_ytp : num * num := (Fin (-1), Fin (1/4)%R).
  Definition b_mzr_t0_x0 : num * num := (lit 10.25%R, lit 10.75%R).
  Definition b_mzr_t0_k : num * num := (lit 0.5%R, Fin 2).
  Definition b_mzr_t0_slope_lo : num * num := (lit 0.1%R, Fin 1).
  Definition b_mzr_t0_slope_hi : num * num := (Fin 0, lit 0.3%R).
  Definition b_c0_y_at_tlook_c : num * num := (Fin (-2), Fin (-1)).
  Definition b_c1_y_at_tlook_c : num * num := (Fin 0, lit 0.5%R).
  Definition b_c0_early_time_slope : num * num := (lit (-1.5)%R, lit (-0.5)%R).
  Definition b_c1_early_time_slope : num * num := (Fin 0, lit 0.5%R).

  (** umzr.py:193-196 [_get_square_bounded_param] *)
  Definition get_square_bounded_param (u : num) (bound : num * num) : num :=
    let '(lo, hi) := bound in
    let mid := lit 0.5%R * (lo + hi) in
    sigmoid u mid BOUNDING_K lo hi.

  (** umzr.py:200-203 [_get_square_unbounded_param] *)
  Definition get_square_unbounded_param (x : num) (bound : num * num) : num :=
    let '(lo, hi) := bound in
    let mid := lit 0.5%R * (lo + hi) in
    inverse_sigmoid x mid BOUNDING_K lo hi.

  (** umzr.py:207-212 [_get_mzr_t0_slope_hi_from_unbounded] *)
  Definition get_mzr_t0_slope_hi_from_unbounded (slope_lo u : num) : num :=
    sigmoid u (Fin 0) BOUNDING_K (fst b_mzr_t0_slope_hi) slope_lo.

  (** umzr.py:215-220 [_get_u_mzr_t0_slope_hi_from_bounded] *)
  Definition get_u_mzr_t0_slope_hi_from_bounded (slope_lo slope_hi : num) : num :=
    inverse_sigmoid slope_hi (Fin 0) BOUNDING_K (fst b_mzr_t0_slope_hi) slope_lo.

  (** apply [f value bound] to every field (the vmapped [_get_params_kern] /
      [_get_u_params_kern], umzr.py:223-225) *)
  Definition map_bounds (f : num -> num * num -> num) (p : MZRParams) : MZRParams := {|
    mzr_t0_ytp := f (mzr_t0_ytp p) b_mzr_t0_ytp;
    mzr_t0_x0 := f (mzr_t0_x0 p) b_mzr_t0_x0;
    mzr_t0_k := f (mzr_t0_k p) b_mzr_t0_k;
    mzr_t0_slope_lo := f (mzr_t0_slope_lo p) b_mzr_t0_slope_lo;
    mzr_t0_slope_hi := f (mzr_t0_slope_hi p) b_mzr_t0_slope_hi;
    c0_y_at_tlook_c := f (c0_y_at_tlook_c p) b_c0_y_at_tlook_c;
    c1_y_at_tlook_c := f (c1_y_at_tlook_c p) b_c1_y_at_tlook_c;
    c0_early_time_slope := f (c0_early_time_slope p) b_c0_early_time_slope;
    c1_early_time_slope := f (c1_early_time_slope p) b_c1_early_time_slope |}.
  Definition replace_slope_hi (p : MZRParams) (v : num) : MZRParams := {|
    mzr_t0_ytp := mzr_t0_ytp p; mzr_t0_x0 := mzr_t0_x0 p; mzr_t0_k := mzr_t0_k p;
    mzr_t0_slope_lo := mzr_t0_slope_lo p; mzr_t0_slope_hi := v;
    c0_y_at_tlook_c := c0_y_at_tlook_c p; c1_y_at_tlook_c := c1_y_at_tlook_c p;
    c0_early_time_slope := c0_early_time_slope p;
    c1_early_time_slope := c1_early_time_slope p |}.

  (** umzr.py:229-244 [get_bounded_mzr_params] *)
  Definition get_bounded_mzr_params (u : MZRParams) : MZRParams :=
    let params := map_bounds get_square_bounded_param u in
    let slope_hi := get_mzr_t0_slope_hi_from_unbounded
                      (mzr_t0_slope_lo params) (mzr_t0_slope_hi u) in
    replace_slope_hi params slope_hi.

  (** umzr.py:248-264 [get_unbounded_mzr_params] *)
  Definition get_unbounded_mzr_params (p : MZRParams) : MZRParams :=
    let u_params := map_bounds get_square_unbounded_param p in
    let u_slope_hi := get_u_mzr_t0_slope_hi_from_bounded
                        (mzr_t0_slope_lo p) (mzr_t0_slope_hi p) in
    replace_slope_hi u_params u_slope_hi.

  (** umzr.py:72-80 [get_ran_t0_params]: one uniform draw per bound; [draws] are the
      underlying uniforms in [0,1) of [jran.uniform] *)
  Definition get_ran_t0_params (draws : list num) (bounds : list (num * num)) : list num :=
    map2 (fun r b => nmax (fst b) (r * (snd b - fst b) + fst b)) draws bounds.
End Mzr.
