(** * Properties C159-C163: what [jax.grad] returns.  Exact real arithmetic.
    [trace], [eval], [back] and [grad] (the program JAX differentiates and the derivative it
    computes) are in MGrad.v, the traced dsps functions in MTrace.v, [right_gradient] in
    SpecGrad.v.  Every theorem says two things: the trace computes the modelled function (in every
    arithmetic), and its gradient is right. *)
From Coq Require Import Reals List Arith Bool Lra Lia.
From Coquelicot Require Import Coquelicot.
From Flocq Require Import Core.Raux.
From Verif Require Import Num Arr MUtils MSed MDiffburst MImf MMzr MDust MGrad MTrace Spec Spec2 SpecGrad RList LUtils
  Demo Demo2 Demo3 LKern LKern2 LImf LGrad2 LGrad4 LGrad5 LGrad6.
Import ListNotations.
Open Scope R_scope.
#[local] Existing Instance exact.

(** C159 *)
@@C159_inputs = LGrad4.C159_inputs_lemma
@@C159_kernel_gradient = LGrad4.C159_kernel_lemma
@@C159_density_gradient = LGrad4.C159_density_lemma
@@C159_sigmoids_gradient = LGrad4.C159_sigmoids_lemma
(** a kernel of width 0 has the value of a step, and the gradient NaN *)
@@C159_zero_width_gradient_refuted = LGrad4.C159_zero_width_lemma
(** at the joint z = 3, with respect to the position and with respect to the width *)
Example C159_nonvacuous : right_gradient (tw_trace Arg (Cst (Fin 1)) (Cst (Fin (1/2)))) (5/2)
  /\ right_gradient (tw_trace (Cst (Fin (5/2))) (Cst (Fin 1)) Arg) (1/2)
  /\ right_gradient (gauss_trace (Cst (Fin (5/2))) (Cst (Fin 1)) Arg) (1/2).
Proof.
  split; [|split]; [apply C159_kernel_gradient|apply C159_kernel_gradient|apply C159_density_gradient];
    try (apply (C159_inputs _ 0)); try apply C159_inputs; cbn [eval]; apply neq_fin; lra.
Qed.
Example C159_refuted_nonvacuous : tw_cuml_kern (Fin 1) (Fin 0) (Fin 0) = Fin 1 /\ grad (tw_trace Arg (Cst (Fin 0)) (Cst (Fin 0))) (Fin 1) = NaN.
Proof. destruct (C159_zero_width_gradient_refuted 1 0) as [E G]; [lra|]. split; auto. rewrite E, Rlt_bool_true by lra. reflexivity. Qed.

(** C160 *)
@@C160_sigmoids_gradient = LGrad4.C160_sigmoids_lemma
@@C160_inverse_sigmoid_gradient = LGrad4.C160_inverse_lemma
@@C160_imf_gradient = LGrad4.C160_imf_lemma
@@C160_umzr_gradient = LGrad4.C160_umzr_lemma
@@C160_mzr_gradient = LGrad4.C160_mzr_lemma
@@C160_bounding_gradient = LGrad4.C160_bounding_lemma
(** the mass-metallicity relation, differentiated in log M* at 10^10 Msun and t = 5 Gyr *)
Example C160_nonvacuous : right_gradient (umzr_trace Arg (Cst (Fin 5)) (Cst (Fin 0.05)) (Cst (Fin 10.5)) (Cst (Fin 1)) (Cst (Fin 0.4)) (Cst (Fin 0.1))
   (Cst (Fin (-1))) (Cst (Fin 0)) (Cst (Fin (-1))) (Cst (Fin 0))) 10.
Proof.
  apply C160_umzr_gradient; try (apply (C159_inputs _ 0)); try apply C159_inputs; [cbn [eval]; apply neq_fin; lra|].
  match goal with |- ?e <> _ => change e with
    (let t := nwhere (lit 12.5 - Fin 5 <? Fin 0)%num (Fin 0) (lit 12.5 - Fin 5)%num in
     sig_slope t (lit 8.44) (Fin (-1) + Fin 0 * Fin 10)%num (lit 8.44) (lit 1.6) ((Fin (-1) + Fin 0 * Fin 10) / lit 8.44)%num (Fin (-1) + Fin 0 * Fin 10)%num) end.
  change (lit 12.5) with (Fin 12.5). change (lit 8.44) with (Fin 8.44). change (lit 1.6) with (Fin 1.6).
  rewrite nsub_fin, nltb_fin, Rlt_bool_false by lra. cbn [nwhere]. unfold sig_slope, sigmoid. rewrite !nmul_fin, !nadd_fin, ndiv_fin, !nsub_fin, !nmul_fin, nlogistic_fin, !nmul_fin, !nadd_fin, nmul_fin, nadd_fin by lra.
  apply neq_fin. set (s := logistic _). assert (0 < s < 1) by apply logistic_bounds. lra.
Qed.

(** C161 *)
@@C161_attenuation_curves_gradient = LGrad5.C161_curves_lemma
@@C161_bump_curves_gradient = LGrad5.C161_k_lemma
@@C161_triweight_curve_gradient = LGrad5.C161_triweight_lemma
@@C161_transmission_gradient = LGrad5.C161_transmission_lemma
(** at 1 micron, differentiated in the slope *)
Example C161_nonvacuous : right_gradient (noll_trace (Cst (Fin 1)) (Cst (Fin 0)) Arg (Cst (Fin 0.2175)) (Cst (Fin 0.035))) 0.
Proof.
  destruct (C161_bump_curves_gradient (Cst (Fin 1)) (Cst (Fin 0)) Arg (Cst (Fin 0.2175)) (Cst (Fin 0.035)) 0 1) as (_ & G & _);
    try (apply (C159_inputs _ 0)); try apply C159_inputs; try reflexivity; try lra; [cbn [eval]; apply neq_fin; lra|]. apply G. clear G.
  match goal with |- ?e <> _ => change e with ((l02_below_c00_above (Fin 1) (lit 0.15) + drude_bump (Fin 1) (Fin 0.2175) (Fin 0.035) (Fin 0)) * power_law_vband_norm (Fin 1) (Fin 0) (lit 0.55))%num end.
  assert (E : l02_below_c00_above (Fin 1) (lit 0.15) = Fin (2.659 * (-1.857 + 1.04 * 1) + 4.05)).
  { unfold l02_below_c00_above, calzetti00_k_lambda, RV_C00, ngtb. change (lit 0.15) with (Fin 0.15). change (lit 0.63) with (Fin 0.63). rewrite !nltb_fin, (Rlt_bool_true 0.15 1), (Rlt_bool_false 1 0.63) by lra. cbn [nwhere].
    change (lit 4.05) with (Fin 4.05). change (lit 2.659) with (Fin 2.659). change (lit (-1.857)) with (Fin (-1.857)). change (lit 1.040) with (Fin 1.040). rewrite ndiv_fin, !nmul_fin, !nadd_fin, !nmul_fin, !nadd_fin by lra. f_equal. lra. }
  assert (D : drude_bump (Fin 1) (Fin 0.2175) (Fin 0.035) (Fin 0) = Fin 0).
  { unfold drude_bump. rewrite !ipow_fin, nmul_fin, nsub_fin, ipow_fin, nadd_fin, ndiv_fin, nmul_fin; [f_equal; ring|]. change (Pos.to_nat 2) with 2%nat. pose proof (pow2_ge_0 (1 ^ 2 - 0.2175 ^ 2)). lra. }
  assert (P : power_law_vband_norm (Fin 1) (Fin 0) (lit 0.55) = Fin 1).
  { unfold power_law_vband_norm. change (lit 0.55) with (Fin 0.55). rewrite ndiv_fin by lra. unfold npow. rewrite Req_bool_true by auto. reflexivity. }
  rewrite E, D, P, nadd_fin, nmul_fin. apply neq_fin. lra.
Qed.

(** C162 *)
@@C162_metallicity_weights_gradient = LGrad6.C162_lemma
(** with scatter 0 the weights are finite, and every gradient is NaN *)
@@C162_zero_scatter_gradient_refuted = LGrad6.C162_zero_scatter_lemma
Example C162_nonvacuous : right_gradients (lgmet_weight_traces Arg (Cst (Fin (1/5))) (get_bin_edges_k (fins demo_lgmet) LGMET_LO LGMET_HI)) (-2)
  /\ right_gradients (lgmet_weight_traces (Cst (Fin (-2))) Arg (get_bin_edges_k (fins demo_lgmet) LGMET_LO LGMET_HI)) (1/5).
Proof.
  split; [apply (C162_metallicity_weights_gradient Arg (Cst (Fin (1/5))) demo_lgmet (-2) (-2) (1/5))|apply (C162_metallicity_weights_gradient (Cst (Fin (-2))) Arg demo_lgmet (1/5) (-2) (1/5))];
    try (apply (C159_inputs _ 0)); try apply C159_inputs; try reflexivity; try lra; apply demo_lgmet3.
Qed.
Example C162_refuted_nonvacuous : ~ In (-2) (met_edges demo_lgmet).
Proof.
  assert (E : met_edges demo_lgmet = [-10; -2.5; -1.5; -0.5; 10]).
  { unfold met_edges, met_edge, node_width, ent, demo_lgmet. simpl. repeat f_equal; lra. }
  rewrite E. simpl. lra.
Qed.

(** C163 *)
@@C163_burst_weights_gradient = LGrad6.C163_lemma
@@C163_burst_parameters_gradient = LGrad6.C163_unbounded_lemma
(** burst of peak age 10^6.5 yr and maximum age 10^8 yr, differentiated in the peak *)
Example C163_nonvacuous : right_gradients (bursty_traces (Cst (Fin (-3))) Arg (Cst (Fin 8)) [Cst (Fin 0.25); Cst (Fin 0.75)] [Cst (Fin (-3)); Cst (Fin 1)]) 6.5.
Proof.
  apply (C163_burst_weights_gradient (Cst (Fin (-3))) Arg (Cst (Fin 8)) _ _ 6.5 6.5 8);
    try (apply (C159_inputs _ 0)); try apply C159_inputs; try reflexivity; try lra.
  - repeat constructor; apply C159_inputs.
  - repeat constructor; apply C159_inputs.
  - exists (Cst (Fin (-3))), (-3). split; [simpl; auto|]. split; [reflexivity|]. apply Rabs_def1; lra.
Qed.
