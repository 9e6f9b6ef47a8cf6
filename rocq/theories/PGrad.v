(** * Properties C159-C163: what [jax.grad] returns.  Exact real arithmetic.
    [trace], [eval], [back] and [grad] (the program JAX differentiates and the derivative it
    computes) are in MGrad.v, the traced dsps functions in MTrace.v, [right_gradient] in
    SpecGrad.v.  Every theorem says two things: the trace computes the modelled function (in every
    arithmetic), and its gradient is right. *)
From Coq Require Import Reals List Arith Bool Lra Lia.
From Coquelicot Require Import Coquelicot.
From Flocq Require Import Core.Raux.
From Verif Require Import Num Arr MUtils MSed MDiffburst MImf MMzr MDust MGrad MTrace Spec Spec2 SpecGrad RList LUtils
  Demo Demo2 Demo3 LKern LKern2 LImf LGrad2 LGrad4 LGrad5 LGrad6.
Import ListNotations.
Open Scope R_scope.
#[local] Existing Instance exact.

(** C159 *)
Theorem C159_inputs : forall v c, right_gradient Arg v /\ right_gradient (Cst (Fin c)) v.
Proof. exact C159_inputs_lemma. Qed.
Print Assumptions C159_inputs.
Theorem C159_kernel_gradient : forall x m h v, right_gradient x v -> right_gradient m v -> right_gradient h v -> eval h (Fin v) <> Fin 0 ->
  (forall (AR : Arith) w, eval (AR := AR) (tw_trace x m h) w = tw_cuml_kern (eval x w) (eval m w) (eval h w))
  /\ right_gradient (tw_trace x m h) v.
Proof. exact C159_kernel_lemma. Qed.
Print Assumptions C159_kernel_gradient.
Theorem C159_density_gradient : forall x m h v, right_gradient x v -> right_gradient m v -> right_gradient h v -> eval h (Fin v) <> Fin 0 ->
  (forall (AR : Arith) w, eval (AR := AR) (gauss_trace (AR := AR) x m h) w = triweight_gaussian (eval x w) (eval m w) (eval h w))
  /\ right_gradient (gauss_trace x m h) v.
Proof. exact C159_density_lemma. Qed.
Print Assumptions C159_density_gradient.
Theorem C159_sigmoids_gradient : forall x xtp ytp m h lo hi v,
  right_gradient x v -> right_gradient xtp v -> right_gradient ytp v -> right_gradient m v -> right_gradient h v -> right_gradient lo v -> right_gradient hi v ->
  eval h (Fin v) <> Fin 0 ->
  (forall (AR : Arith) w,
     eval (AR := AR) (tw_sigmoid_trace x m h lo hi) w = tw_sigmoid (eval x w) (eval m w) (eval h w) (eval lo w) (eval hi w)
     /\ eval (AR := AR) (tw_sig_slope_trace x xtp ytp m h lo hi) w = tw_sig_slope (eval x w) (eval xtp w) (eval ytp w) (eval m w) (eval h w) (eval lo w) (eval hi w)
     /\ eval (AR := AR) (hist_kernel_trace x h lo hi) w = triweighted_histogram_kernel (eval x w) (eval h w) (eval lo w) (eval hi w))
  /\ right_gradient (tw_sigmoid_trace x m h lo hi) v /\ right_gradient (tw_sig_slope_trace x xtp ytp m h lo hi) v /\ right_gradient (hist_kernel_trace x h lo hi) v.
Proof. exact C159_sigmoids_lemma. Qed.
Print Assumptions C159_sigmoids_gradient.
(** a kernel of width 0 has the value of a step, and the gradient NaN *)
Theorem C159_zero_width_gradient_refuted : forall x m, x <> m ->
  tw_cuml_kern (Fin x) (Fin m) (Fin 0) = Fin (if Rlt_bool m x then 1 else 0)
  /\ grad (tw_trace Arg (Cst (Fin m)) (Cst (Fin 0))) (Fin x) = NaN.
Proof. exact C159_zero_width_lemma. Qed.
Print Assumptions C159_zero_width_gradient_refuted.
(** at the joint z = 3, with respect to the position and with respect to the width *)
Example C159_nonvacuous : right_gradient (tw_trace Arg (Cst (Fin 1)) (Cst (Fin (1/2)))) (5/2)
  /\ right_gradient (tw_trace (Cst (Fin (5/2))) (Cst (Fin 1)) Arg) (1/2)
  /\ right_gradient (gauss_trace (Cst (Fin (5/2))) (Cst (Fin 1)) Arg) (1/2).
Proof.
  split; [|split]; [apply C159_kernel_gradient|apply C159_kernel_gradient|apply C159_density_gradient];
    try (apply (C159_inputs _ 0)); try apply C159_inputs; cbn [eval]; apply neq_fin; lra.
Qed.
Example C159_refuted_nonvacuous : tw_cuml_kern (Fin 1) (Fin 0) (Fin 0) = Fin 1 /\ grad (tw_trace Arg (Cst (Fin 0)) (Cst (Fin 0))) (Fin 1) = NaN.
Proof. destruct (C159_zero_width_gradient_refuted 1 0) as [E G]; [lra|]. split; auto. rewrite E, Rlt_bool_true by lra. reflexivity. Qed.

(** C160 *)
Theorem C160_sigmoids_gradient : forall x xtp ytp x0 k lo hi v,
  right_gradient x v -> right_gradient xtp v -> right_gradient ytp v -> right_gradient x0 v -> right_gradient k v -> right_gradient lo v -> right_gradient hi v ->
  (forall (AR : Arith) w,
     eval (AR := AR) (sigmoid_trace x x0 k lo hi) w = sigmoid (eval x w) (eval x0 w) (eval k w) (eval lo w) (eval hi w)
     /\ eval (AR := AR) (sig_slope_trace x xtp ytp x0 k lo hi) w = sig_slope (eval x w) (eval xtp w) (eval ytp w) (eval x0 w) (eval k w) (eval lo w) (eval hi w))
  /\ right_gradient (sigmoid_trace x x0 k lo hi) v /\ right_gradient (sig_slope_trace x xtp ytp x0 k lo hi) v.
Proof. exact C160_sigmoids_lemma. Qed.
Print Assumptions C160_sigmoids_gradient.
Theorem C160_inverse_sigmoid_gradient : forall y x0 k lo hi v b l u,
  right_gradient y v -> right_gradient x0 v -> right_gradient k v -> right_gradient lo v -> right_gradient hi v ->
  eval y (Fin v) = Fin b -> eval lo (Fin v) = Fin l -> eval hi (Fin v) = Fin u -> l < b < u -> eval k (Fin v) <> Fin 0 ->
  (forall (AR : Arith) w, eval (AR := AR) (inverse_sigmoid_trace y x0 k lo hi) w = inverse_sigmoid (eval y w) (eval x0 w) (eval k w) (eval lo w) (eval hi w))
  /\ right_gradient (inverse_sigmoid_trace y x0 k lo hi) v.
Proof. exact C160_inverse_lemma. Qed.
Print Assumptions C160_inverse_sigmoid_gradient.
Theorem C160_imf_gradient : forall lg_age a b lgk1 d e f lgk2 h v,
  right_gradient lg_age v -> right_gradient a v -> right_gradient b v -> right_gradient lgk1 v -> right_gradient d v -> right_gradient e v ->
  right_gradient f v -> right_gradient lgk2 v -> right_gradient h v ->
  (forall (AR : Arith) w,
     eval (AR := AR) (remnant_mass_trace lg_age a b lgk1 d e) w = remnant_mass (eval lg_age w) {| rem_a := eval a w; rem_b := eval b w; rem_lgk1 := eval lgk1 w; rem_d := eval d w; rem_e := eval e w |}
     /\ eval (AR := AR) (surviving_mstar_trace lg_age a b lgk1 d e f lgk2 h) w = surviving_mstar (eval lg_age w)
          {| sur_a := eval a w; sur_b := eval b w; sur_lgk1 := eval lgk1 w; sur_d := eval d w; sur_e := eval e w; sur_f := eval f w; sur_lgk2 := eval lgk2 w; sur_h := eval h w |})
  /\ right_gradient (remnant_mass_trace lg_age a b lgk1 d e) v /\ right_gradient (surviving_mstar_trace lg_age a b lgk1 d e f lgk2 h) v.
Proof. exact C160_imf_lemma. Qed.
Print Assumptions C160_imf_gradient.
Theorem C160_umzr_gradient : forall logsm t ytp x0 k slo shi c0y c1y c0e c1e v,
  right_gradient logsm v -> right_gradient t v -> right_gradient ytp v -> right_gradient x0 v -> right_gradient k v -> right_gradient slo v -> right_gradient shi v ->
  right_gradient c0y v -> right_gradient c1y v -> right_gradient c0e v -> right_gradient c1e v ->
  eval t (Fin v) <> Fin 12.5 -> eval (umzr_evolution_trace logsm t c0y c1y c0e c1e) (Fin v) <> Fin 0 ->
  (forall (AR : Arith) w, eval (AR := AR) (umzr_trace (AR := AR) logsm t ytp x0 k slo shi c0y c1y c0e c1e) w = umzr_model (eval logsm w) (eval t w)
     {| mzr_t0_ytp := eval ytp w; mzr_t0_x0 := eval x0 w; mzr_t0_k := eval k w; mzr_t0_slope_lo := eval slo w; mzr_t0_slope_hi := eval shi w;
        c0_y_at_tlook_c := eval c0y w; c1_y_at_tlook_c := eval c1y w; c0_early_time_slope := eval c0e w; c1_early_time_slope := eval c1e w |})
  /\ right_gradient (umzr_trace logsm t ytp x0 k slo shi c0y c1y c0e c1e) v.
Proof. exact C160_umzr_lemma. Qed.
Print Assumptions C160_umzr_gradient.
Theorem C160_mzr_gradient : forall logsm t y0 x0 k slo shi c0y c1y tc c0e c1e v,
  right_gradient logsm v -> right_gradient t v -> right_gradient y0 v -> right_gradient x0 v -> right_gradient k v -> right_gradient slo v -> right_gradient shi v ->
  right_gradient c0y v -> right_gradient c1y v -> right_gradient tc v -> right_gradient c0e v -> right_gradient c1e v ->
  eval t (Fin v) <> Fin 12.5 -> eval tc (Fin v) <> Fin 0 -> eval (mzr_evolution_trace logsm t c0y c1y tc c0e c1e) (Fin v) <> Fin 0 ->
  (forall (AR : Arith) w, eval (AR := AR) (mzr_trace (AR := AR) logsm t y0 x0 k slo shi c0y c1y tc c0e c1e) w
     = mzr_model (eval logsm w) (eval t w) (eval y0 w) (eval x0 w) (eval k w) (eval slo w) (eval shi w) (eval c0y w) (eval c1y w) (eval tc w) (eval c0e w) (eval c1e w))
  /\ right_gradient (mzr_trace logsm t y0 x0 k slo shi c0y c1y tc c0e c1e) v.
Proof. exact C160_mzr_lemma. Qed.
Print Assumptions C160_mzr_gradient.
Theorem C160_bounding_gradient : forall u b v, right_gradient u v ->
  (exists l h, b = (Fin l, Fin h)) ->
  (forall (AR : Arith) w, eval (AR := AR) (bounded_param_trace (AR := AR) u b) w = get_square_bounded_param (eval u w) b)
  /\ right_gradient (bounded_param_trace u b) v.
Proof. exact C160_bounding_lemma. Qed.
Print Assumptions C160_bounding_gradient.
(** the mass-metallicity relation, differentiated in log M* at 10^10 Msun and t = 5 Gyr *)
Example C160_nonvacuous : right_gradient (umzr_trace Arg (Cst (Fin 5)) (Cst (Fin 0.05)) (Cst (Fin 10.5)) (Cst (Fin 1)) (Cst (Fin 0.4)) (Cst (Fin 0.1))
   (Cst (Fin (-1))) (Cst (Fin 0)) (Cst (Fin (-1))) (Cst (Fin 0))) 10.
Proof.
  apply C160_umzr_gradient; try (apply (C159_inputs _ 0)); try apply C159_inputs; [cbn [eval]; apply neq_fin; lra|].
  match goal with |- ?e <> _ => change e with
    (let t := nwhere (lit 12.5 - Fin 5 <? Fin 0)%num (Fin 0) (lit 12.5 - Fin 5)%num in
     sig_slope t (lit 8.44) (Fin (-1) + Fin 0 * Fin 10)%num (lit 8.44) (lit 1.6) ((Fin (-1) + Fin 0 * Fin 10) / lit 8.44)%num (Fin (-1) + Fin 0 * Fin 10)%num) end.
  change (lit 12.5) with (Fin 12.5). change (lit 8.44) with (Fin 8.44). change (lit 1.6) with (Fin 1.6).
  rewrite nsub_fin, nltb_fin, Rlt_bool_false by lra. cbn [nwhere]. unfold sig_slope, sigmoid. rewrite !nmul_fin, !nadd_fin, ndiv_fin, !nsub_fin, !nmul_fin, nlogistic_fin, !nmul_fin, !nadd_fin, nmul_fin, nadd_fin by lra.
  apply neq_fin. set (s := logistic _). assert (0 < s < 1) by apply logistic_bounds. lra.
Qed.

(** C161 *)
Theorem C161_attenuation_curves_gradient : forall wave v r, right_gradient wave v -> eval wave (Fin v) = Fin r -> 0 < r ->
  (forall (AR : Arith) w, eval (AR := AR) (calzetti_trace (AR := AR) wave) w = calzetti00_k_lambda (eval wave w)
     /\ eval (AR := AR) (leitherer_trace (AR := AR) wave) w = leitherer02_k_lambda (eval wave w))
  /\ (r <> 0.63 -> right_gradient (calzetti_trace wave) v) /\ right_gradient (leitherer_trace wave) v.
Proof. exact C161_curves_lemma. Qed.
Print Assumptions C161_attenuation_curves_gradient.
Theorem C161_bump_curves_gradient : forall wave ampl slope bump width v r,
  right_gradient wave v -> right_gradient ampl v -> right_gradient slope v -> right_gradient bump v -> right_gradient width v ->
  eval wave (Fin v) = Fin r -> 0 < r -> r <> 0.15 -> r <> 0.63 -> eval width (Fin v) <> Fin 0 ->
  (forall (AR : Arith) w,
     eval (AR := AR) (noll_trace (AR := AR) wave ampl slope bump width) w = noll09_k_lambda (eval wave w) (eval ampl w) (eval slope w) (eval bump w) (eval width w)
     /\ eval (AR := AR) (sbl_trace (AR := AR) wave ampl slope bump width) w = sbl18_k_lambda (eval wave w) (eval ampl w) (eval slope w) (eval bump w) (eval width w))
  /\ (eval (noll_raw_trace wave ampl slope bump width) (Fin v) <> Fin 0 -> right_gradient (noll_trace wave ampl slope bump width) v)
  /\ (eval (sbl_raw_trace wave ampl slope bump width) (Fin v) <> Fin 0 -> right_gradient (sbl_trace wave ampl slope bump width) v).
Proof. exact C161_k_lemma. Qed.
Print Assumptions C161_bump_curves_gradient.
Theorem C161_triweight_curve_gradient : forall wave xtp ytp x0 h lo hi v r,
  right_gradient wave v -> right_gradient xtp v -> right_gradient ytp v -> right_gradient x0 v -> right_gradient h v -> right_gradient lo v -> right_gradient hi v ->
  eval wave (Fin v) = Fin r -> 0 < r -> eval h (Fin v) <> Fin 0 ->
  (forall (AR : Arith) w, eval (AR := AR) (triweight_k_trace wave xtp ytp x0 h lo hi) w
     = triweight_k_lambda (eval wave w) (eval xtp w) (eval ytp w) (eval x0 w) (eval h w) (eval lo w) (eval hi w))
  /\ right_gradient (triweight_k_trace wave xtp ytp x0 h lo hi) v.
Proof. exact C161_triweight_lemma. Qed.
Print Assumptions C161_triweight_curve_gradient.
Theorem C161_transmission_gradient : forall k av floor v,
  right_gradient k v -> right_gradient av v -> right_gradient floor v -> eval k (Fin v) <> Fin 0 -> eval av (Fin v) <> Fin 0 ->
  (forall (AR : Arith) w,
     eval (AR := AR) (att_curve_trace (AR := AR) k av) w = att_curve_from_k_lambda (eval k w) (eval av w)
     /\ eval (AR := AR) (frac_transmission_trace (AR := AR) k av floor) w = frac_transmission_from_k_lambda (eval k w) (eval av w) (eval floor w))
  /\ right_gradient (att_curve_trace k av) v /\ right_gradient (frac_transmission_trace k av floor) v.
Proof. exact C161_transmission_lemma. Qed.
Print Assumptions C161_transmission_gradient.
(** at 1 micron, differentiated in the slope *)
Example C161_nonvacuous : right_gradient (noll_trace (Cst (Fin 1)) (Cst (Fin 0)) Arg (Cst (Fin 0.2175)) (Cst (Fin 0.035))) 0.
Proof.
  destruct (C161_bump_curves_gradient (Cst (Fin 1)) (Cst (Fin 0)) Arg (Cst (Fin 0.2175)) (Cst (Fin 0.035)) 0 1) as (_ & G & _);
    try (apply (C159_inputs _ 0)); try apply C159_inputs; try reflexivity; try lra; [cbn [eval]; apply neq_fin; lra|]. apply G. clear G.
  match goal with |- ?e <> _ => change e with ((l02_below_c00_above (Fin 1) (lit 0.15) + drude_bump (Fin 1) (Fin 0.2175) (Fin 0.035) (Fin 0)) * power_law_vband_norm (Fin 1) (Fin 0) (lit 0.55))%num end.
  assert (E : l02_below_c00_above (Fin 1) (lit 0.15) = Fin (2.659 * (-1.857 + 1.04 * 1) + 4.05)).
  { unfold l02_below_c00_above, calzetti00_k_lambda, RV_C00, ngtb. change (lit 0.15) with (Fin 0.15). change (lit 0.63) with (Fin 0.63). rewrite !nltb_fin, (Rlt_bool_true 0.15 1), (Rlt_bool_false 1 0.63) by lra. cbn [nwhere].
    change (lit 4.05) with (Fin 4.05). change (lit 2.659) with (Fin 2.659). change (lit (-1.857)) with (Fin (-1.857)). change (lit 1.040) with (Fin 1.040). rewrite ndiv_fin, !nmul_fin, !nadd_fin, !nmul_fin, !nadd_fin by lra. f_equal. lra. }
  assert (D : drude_bump (Fin 1) (Fin 0.2175) (Fin 0.035) (Fin 0) = Fin 0).
  { unfold drude_bump. rewrite !ipow_fin, nmul_fin, nsub_fin, ipow_fin, nadd_fin, ndiv_fin, nmul_fin; [f_equal; ring|]. change (Pos.to_nat 2) with 2%nat. pose proof (pow2_ge_0 (1 ^ 2 - 0.2175 ^ 2)). lra. }
  assert (P : power_law_vband_norm (Fin 1) (Fin 0) (lit 0.55) = Fin 1).
  { unfold power_law_vband_norm. change (lit 0.55) with (Fin 0.55). rewrite ndiv_fin by lra. unfold npow. rewrite Req_bool_true by auto. reflexivity. }
  rewrite E, D, P, nadd_fin, nmul_fin. apply neq_fin. lra.
Qed.

(** C162 *)
Theorem C162_metallicity_weights_gradient : forall lgmet scatter ssp_lgmet v m s,
  right_gradient lgmet v -> right_gradient scatter v -> eval lgmet (Fin v) = Fin m -> eval scatter (Fin v) = Fin s ->
  (3 <= length ssp_lgmet)%nat -> -10 <= m <= 10 -> 0 < s ->
  (forall (AR : Arith) w, calc_lgmet_weights_from_lognormal_mdf (eval lgmet w) (eval scatter w) (fins ssp_lgmet)
     = Ok (map (fun e => eval (AR := AR) e w) (lgmet_weight_traces (AR := AR) lgmet scatter (get_bin_edges_k (fins ssp_lgmet) LGMET_LO LGMET_HI))))
  /\ right_gradients (lgmet_weight_traces lgmet scatter (get_bin_edges_k (fins ssp_lgmet) LGMET_LO LGMET_HI)) v.
Proof. exact C162_lemma. Qed.
Print Assumptions C162_metallicity_weights_gradient.
(** with scatter 0 the weights are finite, and every gradient is NaN *)
Theorem C162_zero_scatter_gradient_refuted : forall m ssp_lgmet, (3 <= length ssp_lgmet)%nat -> ~ In m (met_edges ssp_lgmet) ->
  (exists ws, calc_lgmet_weights_from_lognormal_mdf (Fin m) (Fin 0) (fins ssp_lgmet) = Ok (fins ws))
  /\ List.Forall (fun e => grad e (Fin m) = NaN) (lgmet_weight_traces Arg (Cst (Fin 0)) (get_bin_edges_k (fins ssp_lgmet) LGMET_LO LGMET_HI)).
Proof. exact C162_zero_scatter_lemma. Qed.
Print Assumptions C162_zero_scatter_gradient_refuted.
Example C162_nonvacuous : right_gradients (lgmet_weight_traces Arg (Cst (Fin (1/5))) (get_bin_edges_k (fins demo_lgmet) LGMET_LO LGMET_HI)) (-2)
  /\ right_gradients (lgmet_weight_traces (Cst (Fin (-2))) Arg (get_bin_edges_k (fins demo_lgmet) LGMET_LO LGMET_HI)) (1/5).
Proof.
  split; [apply (C162_metallicity_weights_gradient Arg (Cst (Fin (1/5))) demo_lgmet (-2) (-2) (1/5))|apply (C162_metallicity_weights_gradient (Cst (Fin (-2))) Arg demo_lgmet (1/5) (-2) (1/5))];
    try (apply (C159_inputs _ 0)); try apply C159_inputs; try reflexivity; try lra; apply demo_lgmet3.
Qed.
Example C162_refuted_nonvacuous : ~ In (-2) (met_edges demo_lgmet).
Proof.
  assert (E : met_edges demo_lgmet = [-10; -2.5; -1.5; -0.5; 10]).
  { unfold met_edges, met_edge, node_width, ent, demo_lgmet. simpl. repeat f_equal; lra. }
  rewrite E. simpl. lra.
Qed.

(** C163 *)
Theorem C163_burst_weights_gradient : forall lgfb peak mx smooth ages v p m,
  right_gradient lgfb v -> right_gradient peak v -> right_gradient mx v -> right_gradients smooth v -> right_gradients ages v ->
  length smooth = length ages -> eval peak (Fin v) = Fin p -> eval mx (Fin v) = Fin m -> p < m ->
  (exists age a, In age ages /\ eval age (Fin v) = Fin a /\ Rabs (a + 9 - p) < m - p) ->
  (forall (AR : Arith) w, calc_bursty_age_weights {| lgfburst := eval lgfb w; lgyr_peak := eval peak w; lgyr_max := eval mx w |}
       (map (fun e => eval e w) smooth) (map (fun e => eval e w) ages)
     = Ok (map (fun e => eval (AR := AR) e w) (bursty_traces (AR := AR) lgfb peak mx smooth ages)))
  /\ right_gradients (bursty_traces lgfb peak mx smooth ages) v.
Proof. exact C163_lemma. Qed.
Print Assumptions C163_burst_weights_gradient.
Theorem C163_burst_parameters_gradient : forall u_peak u_max u_fb v,
  right_gradient u_peak v -> right_gradient u_max v -> right_gradient u_fb v ->
  (forall (AR : Arith) w, get_params_from_u_params {| u_lgfburst := eval u_fb w; u_lgyr_peak := eval u_peak w; u_lgyr_max := eval u_max w |}
     = {| lgfburst := eval (AR := AR) (lgfburst_trace (AR := AR) u_fb) w; lgyr_peak := eval (AR := AR) (lgyr_peak_trace (AR := AR) u_peak) w;
          lgyr_max := eval (AR := AR) (lgyr_max_trace (AR := AR) (lgyr_peak_trace (AR := AR) u_peak) u_max) w |})
  /\ right_gradient (lgfburst_trace u_fb) v /\ right_gradient (lgyr_peak_trace u_peak) v
  /\ right_gradient (lgyr_max_trace (lgyr_peak_trace u_peak) u_max) v.
Proof. exact C163_unbounded_lemma. Qed.
Print Assumptions C163_burst_parameters_gradient.
(** burst of peak age 10^6.5 yr and maximum age 10^8 yr, differentiated in the peak *)
Example C163_nonvacuous : right_gradients (bursty_traces (Cst (Fin (-3))) Arg (Cst (Fin 8)) [Cst (Fin 0.25); Cst (Fin 0.75)] [Cst (Fin (-3)); Cst (Fin 1)]) 6.5.
Proof.
  apply (C163_burst_weights_gradient (Cst (Fin (-3))) Arg (Cst (Fin 8)) _ _ 6.5 6.5 8);
    try (apply (C159_inputs _ 0)); try apply C159_inputs; try reflexivity; try lra.
  - repeat constructor; apply C159_inputs.
  - repeat constructor; apply C159_inputs.
  - exists (Cst (Fin (-3))), (-3). split; [simpl; auto|]. split; [reflexivity|]. apply Rabs_def1; lra.
Qed.
