(** * Model of dsps/sfh/diffburst.py *)
From Coq Require Import Reals List Bool Arith.
From Verif Require Import Num Arr MUtils.
Import ListNotations.
Local Open Scope num_scope.

(** diffburst.py:22-25 [BurstParams] *)
Record BurstParams := { lgfburst : num; lgyr_peak : num; lgyr_max : num }.
(** diffburst.py:28-31 [BurstUParams] *)
Record BurstUParams := { u_lgfburst : num; u_lgyr_peak : num; u_lgyr_max : num }.

Section Diffburst.
  Context {AR : Arith}.

  (** diffburst.py:10-19 *)
  Definition LGYR_PEAK_MIN : num := Fin 5.
  Definition LGAGE_MAX : num := Fin 9.
  Definition DLGAGE_MIN : num := Fin 1.
  Definition LGYR_PEAK_MAX : num := LGAGE_MAX - DLGAGE_MIN.
  Definition LGFBURST_MIN : num := Fin (-8).
  Definition LGFBURST_MAX : num := Fin (-1).
  Definition LGAGE_K : num := lit 0.1%R.
  Definition LGFB_X0 : num := Fin (-2).
  Definition LGFB_K : num := lit 0.1%R.

  (** diffburst.py:34 *)
  Definition DEFAULT_BURST_PARAMS : BurstParams :=
    {| lgfburst := Fin (-3); lgyr_peak := lit 5.5%R; lgyr_max := Fin 7 |}.

  (** diffburst.py:105-108 [_zero_safe_normalize] *)
  Definition zero_safe_normalize (x : list num) : list num :=
    let s := vsum x in
    let s := nwhere (s <=? Fin 0) (Fin 1) s in
    map (fun v => v / s) x.

  (** diffburst.py:112-123 [_pureburst_age_weights_from_params] *)
  Definition pureburst_age_weights_from_params
    (lgyr : list num) (peak mx : num) : list num :=
    let dlgyr_support := mx - peak in
    let lgyr_min := peak - dlgyr_support in
    let twx0 := lit 0.5%R * (lgyr_min + mx) in
    let dlgyr := mx - lgyr_min in
    let twh := dlgyr / Fin 6 in
    let tw_gauss := map (fun x => triweight_gaussian x twx0 twh) lgyr in
    zero_safe_normalize tw_gauss.

  (** diffburst.py:170-175 [_get_lgyr_peak_from_u_lgyr_peak] *)
  Definition get_lgyr_peak_from_u_lgyr_peak (u : num) : num :=
    let lo := LGYR_PEAK_MIN in
    let hi := LGAGE_MAX - DLGAGE_MIN in
    let x0 := lit 0.5%R * (hi + lo) in
    sigmoid u x0 LGAGE_K lo hi.

  (** diffburst.py:179-180 [_get_lgfburst_from_u_lgfburst] *)
  Definition get_lgfburst_from_u_lgfburst (u : num) : num :=
    sigmoid u LGFB_X0 LGFB_K LGFBURST_MIN LGFBURST_MAX.

  (** diffburst.py:184-185 [_get_u_lgfburst_from_lgfburst] *)
  Definition get_u_lgfburst_from_lgfburst (x : num) : num :=
    inverse_sigmoid x LGFB_X0 LGFB_K LGFBURST_MIN LGFBURST_MAX.

  (** diffburst.py:189-193 [_get_lgyr_max_from_lgyr_peak] *)
  Definition get_lgyr_max_from_lgyr_peak (peak u_max : num) : num :=
    let lo := peak + DLGAGE_MIN in
    let hi := LGAGE_MAX in
    let x0 := lit 0.5%R * (hi + lo) in
    sigmoid u_max x0 LGAGE_K lo hi.

  (** diffburst.py:197-201 [_get_u_lgyr_peak_from_lgyr_peak] *)
  Definition get_u_lgyr_peak_from_lgyr_peak (peak : num) : num :=
    let lo := LGYR_PEAK_MIN in
    let hi := LGYR_PEAK_MAX in
    let x0 := lit 0.5%R * (hi + lo) in
    inverse_sigmoid peak x0 LGAGE_K lo hi.

  (** diffburst.py:205-209 [_get_u_lgyr_max_from_lgyr_peak] *)
  Definition get_u_lgyr_max_from_lgyr_peak (peak mx : num) : num :=
    let lo := peak + DLGAGE_MIN in
    let hi := LGAGE_MAX in
    let x0 := lit 0.5%R * (hi + lo) in
    inverse_sigmoid mx x0 LGAGE_K lo hi.

  (** diffburst.py:127-130 [_pureburst_age_weights_from_u_params] *)
  Definition pureburst_age_weights_from_u_params
    (lgyr : list num) (u_peak u_max : num) : list num :=
    let peak := get_lgyr_peak_from_u_lgyr_peak u_peak in
    let mx := get_lgyr_max_from_lgyr_peak peak u_max in
    pureburst_age_weights_from_params lgyr peak mx.

  (** diffburst.py:145-148 [_get_tburst_params_from_tburst_u_params] *)
  Definition get_tburst_params_from_tburst_u_params (u_peak u_max : num) : num * num :=
    let peak := get_lgyr_peak_from_u_lgyr_peak u_peak in
    let mx := get_lgyr_max_from_lgyr_peak peak u_max in
    (peak, mx).

  (** diffburst.py:152-155 [_get_tburst_u_params_from_tburst_params] *)
  Definition get_tburst_u_params_from_tburst_params (peak mx : num) : num * num :=
    let u_peak := get_u_lgyr_peak_from_lgyr_peak peak in
    let u_max := get_u_lgyr_max_from_lgyr_peak peak mx in
    (u_peak, u_max).

  (** diffburst.py:134-141 [_get_params_from_u_params] *)
  Definition get_params_from_u_params (u : BurstUParams) : BurstParams :=
    let fb := get_lgfburst_from_u_lgfburst (u_lgfburst u) in
    let '(peak, mx) :=
      get_tburst_params_from_tburst_u_params (u_lgyr_peak u) (u_lgyr_max u) in
    {| lgfburst := fb; lgyr_peak := peak; lgyr_max := mx |}.

  (** diffburst.py:159-166 [_get_u_params_from_params] *)
  Definition get_u_params_from_params (p : BurstParams) : BurstUParams :=
    let u_fb := get_u_lgfburst_from_lgfburst (lgfburst p) in
    let '(u_peak, u_max) :=
      get_tburst_u_params_from_tburst_params (lgyr_peak p) (lgyr_max p) in
    {| u_lgfburst := u_fb; u_lgyr_peak := u_peak; u_lgyr_max := u_max |}.

  (** diffburst.py:39-71 [calc_bursty_age_weights].  The two arrays must have the
      same length, or one of them length 1. *)
  Definition calc_bursty_age_weights
    (p : BurstParams) (smooth_age_weights ssp_lg_age_gyr : list num) : res (list num) :=
    let ssp_lg_age_yr := map (fun x => x + Fin 9) ssp_lg_age_gyr in
    let burst_weights :=
      pureburst_age_weights_from_params ssp_lg_age_yr (lgyr_peak p) (lgyr_max p) in
    let fb := npow10 (lgfburst p) in
    bmap2 (fun b s => fb * b + (Fin 1 - fb) * s) burst_weights smooth_age_weights.

  (** diffburst.py:75-101 [calc_bursty_age_weights_from_u_params] *)
  Definition calc_bursty_age_weights_from_u_params
    (u : BurstUParams) (smooth_age_weights ssp_lg_age_gyr : list num) : res (list num) :=
    calc_bursty_age_weights (get_params_from_u_params u) smooth_age_weights ssp_lg_age_gyr.

  (** diffburst.py:218-225 [_compute_bursty_age_weights_from_params] *)
  Definition compute_bursty_age_weights_from_params
    (lgyr_since_burst age_weights : list num) (p : BurstParams) : res (list num) :=
    let fburst := npow10 (lgfburst p) in
    let burst_weights :=
      pureburst_age_weights_from_params lgyr_since_burst (lgyr_peak p) (lgyr_max p) in
    bmap2 (fun b s => fburst * b + (Fin 1 - fburst) * s) burst_weights age_weights.

  (** diffburst.py:229-234 [_compute_bursty_age_weights_from_u_params] *)
  Definition compute_bursty_age_weights_from_u_params
    (lgyr_since_burst age_weights : list num) (u : BurstUParams) : res (list num) :=
    compute_bursty_age_weights_from_params lgyr_since_burst age_weights
      (get_params_from_u_params u).
End Diffburst.
