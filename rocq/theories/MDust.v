(** * Model of dsps/dust: att_curves.py and utils.py.  All functions are elementwise
      in the wavelength; the model is one element. *)
From Coq Require Import Reals List Bool Arith.
From Verif Require Import Num Arr MUtils.
Import ListNotations.
Local Open Scope num_scope.

Section Dust.
  Context {AR : Arith}.

  (** att_curves.py:26-28 *)
  Definition RV_C00 : num := lit 4.05%R.
  Definition UV_BUMP_W0 : num := lit 0.2175%R.
  Definition UV_BUMP_DW : num := lit 0.0350%R.

  (** att_curves.py:436-444 [_att_curve_from_k_lambda] *)
  Definition att_curve_from_k_lambda (k_lambda av : num) : num :=
    let att_curve := av * k_lambda / RV_C00 in
    nwhere (att_curve <? Fin 0) (Fin 0) att_curve.

  (** att_curves.py:32-71 [_frac_transmission_from_k_lambda] *)
  Definition frac_transmission_from_k_lambda (k_lambda av ftrans_floor : num) : num :=
    let A_lambda := att_curve_from_k_lambda k_lambda av in
    let ftrans := npow10 (lit (-0.4)%R * A_lambda) in
    ftrans_floor + (Fin 1 - ftrans_floor) * ftrans.

  (** att_curves.py:365-385 [calzetti00_k_lambda] *)
  Definition calzetti00_k_lambda (wave_micron : num) : num :=
    let y := Fin 1 / wave_micron in
    let k1 := lit 2.659%R * (lit (-2.156)%R + lit 1.509%R * y - lit 0.198%R * y ^i 2
                             + lit 0.011%R * y ^i 3) + RV_C00 in
    let k2 := lit 2.659%R * (lit (-1.857)%R + lit 1.040%R * y) + RV_C00 in
    nwhere (wave_micron <? lit 0.63%R) k1 k2.

  (** att_curves.py:389-407 [leitherer02_k_lambda]; [9.218 * 1e-3] is a Python
      product of two literals *)
  Definition leitherer02_k_lambda (wave_micron : num) : num :=
    let y := Fin 1 / wave_micron in
    lit 5.472%R + (lit 0.671%R * y - lit 9.218%R * lit 0.001%R * y ^i 2
                   + lit 2.620%R * lit 0.001%R * y ^i 3).

  (** att_curves.py:75-98 [_l02_below_c00_above] *)
  Definition l02_below_c00_above (wave_micron xc : num) : num :=
    let k_lambda_c00 := calzetti00_k_lambda wave_micron in
    let k_lambda_l02 := leitherer02_k_lambda wave_micron in
    nwhere (wave_micron >? xc) k_lambda_c00 k_lambda_l02.

  (** att_curves.py:102-123 [power_law_vband_norm] *)
  Definition power_law_vband_norm (wave_micron plaw_slope vband_micron : num) : num :=
    let x := wave_micron / vband_micron in
    npow x plaw_slope.

  (** att_curves.py:448-454 [_drude_bump] *)
  Definition drude_bump (x x0 gamma ampl : num) : num :=
    let bump := x ^i 2 * gamma ^i 2 / ((x ^i 2 - x0 ^i 2) ^i 2 + x ^i 2 * gamma ^i 2) in
    ampl * bump.

  (** att_curves.py:174-216 [noll09_k_lambda] *)
  Definition noll09_k_lambda (wave_micron uv_bump_ampl plaw_slope uv_bump uv_bump_width : num)
    : num :=
    let k_lambda := l02_below_c00_above wave_micron (lit 0.15%R) in
    let k_lambda := k_lambda + drude_bump wave_micron uv_bump uv_bump_width uv_bump_ampl in
    let k_lambda := k_lambda * power_law_vband_norm wave_micron plaw_slope (lit 0.55%R) in
    nwhere (k_lambda <? Fin 0) (Fin 0) k_lambda.

  (** att_curves.py:267-309 [sbl18_k_lambda] *)
  Definition sbl18_k_lambda (wave_micron uv_bump_ampl plaw_slope uv_bump uv_bump_width : num)
    : num :=
    let k_lambda := l02_below_c00_above wave_micron (lit 0.15%R) in
    let k_lambda := k_lambda * power_law_vband_norm wave_micron plaw_slope (lit 0.55%R) in
    let k_lambda := k_lambda + drude_bump wave_micron uv_bump uv_bump_width uv_bump_ampl in
    nwhere (k_lambda <? Fin 0) (Fin 0) k_lambda.

  (** att_curves.py:127-170 [noll09_k_att_curve] *)
  Definition noll09_k_att_curve
    (wave_micron av uv_bump_ampl plaw_slope uv_bump uv_bump_width : num) : num :=
    att_curve_from_k_lambda
      (noll09_k_lambda wave_micron uv_bump_ampl plaw_slope uv_bump uv_bump_width) av.

  (** att_curves.py:220-263 [sbl18_k_att_curve] *)
  Definition sbl18_k_att_curve
    (wave_micron av uv_bump_ampl plaw_slope uv_bump uv_bump_width : num) : num :=
    att_curve_from_k_lambda
      (sbl18_k_lambda wave_micron uv_bump_ampl plaw_slope uv_bump uv_bump_width) av.

  (** att_curves.py:313-335 [calzetti00_att_curve] *)
  Definition calzetti00_att_curve (wave_micron av : num) : num :=
    att_curve_from_k_lambda (calzetti00_k_lambda wave_micron) av.

  (** att_curves.py:339-361 [leitherer02_att_curve] *)
  Definition leitherer02_att_curve (wave_micron av : num) : num :=
    att_curve_from_k_lambda (leitherer02_k_lambda wave_micron) av.

  (** att_curves.py:411-432 [triweight_k_lambda] *)
  Definition triweight_k_lambda (wave_micron xtp ytp x0 tw_h lo hi : num) : num :=
    let lgx := nlog10 wave_micron in
    let lgk_lambda := tw_sig_slope lgx xtp ytp x0 tw_h lo hi in
    npow10 lgk_lambda.
  (** the defaults of att_curves.py:411-413 *)
  Definition triweight_k_lambda_default (wave_micron : num) : num :=
    triweight_k_lambda wave_micron (Fin (-1)) (lit 1.15%R) (lit 0.5%R) (lit 0.5%R)
      (lit (-0.65)%R) (lit (-1.95)%R).

  (** att_curves.py:458-460 [_get_eb_from_delta] *)
  Definition get_eb_from_delta (delta : num) : num := lit (-1.9)%R * delta + lit 0.85%R.

  (** dust/utils.py:9-30 [get_filter_effective_wavelength] *)
  Definition get_filter_effective_wavelength
    (filter_wave filter_trans : list num) (redshift : num) : res num :=
    let* norm := trapz filter_wave filter_trans in
    let* photons := bmap2 nmul filter_trans filter_wave in
    let* num_ := trapz filter_wave photons in
    let lambda_eff_rest := num_ / norm in
    Ok (lambda_eff_rest / (Fin 1 + redshift)).
End Dust.
