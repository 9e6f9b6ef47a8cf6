(** * Gradients of the dust laws, the burst weights and the metallicity weights *)
From Coq Require Import Reals List Arith Lra Lia ZArith Bool.
From Coquelicot Require Import Coquelicot.
From Flocq Require Import Core.Raux.
From Verif Require Import Num Arr MUtils MSed MDiffburst MImf MMzr MDust MGrad MTrace Spec Spec2 SpecGrad RList LUtils LKern LImf LDiff LGrad LGrad2 LGrad3 LGrad4.
Import ListNotations.
Open Scope R_scope.
#[local] Existing Instance exact.

(** ** dust *)
Lemma neq_fin a b : a <> b -> Fin a <> Fin b. Proof. intros N Q. injection Q. auto. Qed.
Lemma T_inv w v r : T w v -> eval w (Fin v) = Fin r -> 0 < r -> T (Div (Cst (Fin 1)) w) v.
Proof. intros H E P. apply T_div; ts. rewrite E. apply neq_fin. lra. Qed.
Lemma T_calzetti w v r : T w v -> eval w (Fin v) = Fin r -> 0 < r -> r <> 0.63 -> T (calzetti_trace w) v.
Proof. intros H E P N. pose proof (T_inv _ _ _ H E P). unfold calzetti_trace. apply T_where_lt; ts. rewrite E. now apply neq_fin. Qed.
Lemma T_leitherer w v r : T w v -> eval w (Fin v) = Fin r -> 0 < r -> T (leitherer_trace w) v.
Proof. intros H E P. pose proof (T_inv _ _ _ H E P). unfold leitherer_trace. ts. Qed.
Lemma T_l02 w v r : T w v -> eval w (Fin v) = Fin r -> 0 < r -> r <> 0.63 -> r <> 0.15 -> T (l02_c00_trace w) v.
Proof. intros H E P N N'. unfold l02_c00_trace. apply T_where_gt; eauto using T_calzetti, T_leitherer. rewrite E. now apply neq_fin. Qed.
Lemma T_power w s v r : T w v -> T s v -> eval w (Fin v) = Fin r -> 0 < r -> T (power_law_trace w s (Cst (lit 0.55))) v.
Proof.
  intros H S E P. unfold power_law_trace. apply (T_pow _ _ _ (r / 0.55)); ts.
  - cbn [eval]. rewrite E; change (lit 0.55) with (Fin 0.55); rewrite ndiv_fin by lra. reflexivity.
  - apply Rdiv_lt_0_compat; lra.
  - apply T_div; ts. change (Fin 0.55 <> Fin 0). apply neq_fin. lra.
Qed.
Lemma T_drude w x0 g a v r rg : T w v -> T x0 v -> T g v -> T a v -> eval w (Fin v) = Fin r -> 0 < r -> eval g (Fin v) = Fin rg -> rg <> 0 -> T (drude_trace w x0 g a) v.
Proof.
  intros H X G A E P Eg Ng. unfold drude_trace. ts. apply T_div; ts. destruct (T_val _ _ X) as [r0 E0].
  change (nadd (ipow (nsub (ipow (eval w (Fin v)) 2) (ipow (eval x0 (Fin v)) 2)) 2) (nmul (ipow (eval w (Fin v)) 2) (ipow (eval g (Fin v)) 2)) <> Fin 0).
  rewrite E, Eg, E0, !ipow_fin, nsub_fin, ipow_fin, nmul_fin, nadd_fin. apply neq_fin. change (Pos.to_nat 2) with 2%nat.
  assert (0 < rg ^ 2) by (rewrite <- Rsqr_pow2; now apply Rlt_0_sqr). assert (0 < r ^ 2) by nra. pose proof (pow2_ge_0 (r ^ 2 - r0 ^ 2)). nra.
Qed.
Lemma C161_k_lemma : forall wave ampl slope bump width v r,
  right_gradient wave v -> right_gradient ampl v -> right_gradient slope v -> right_gradient bump v -> right_gradient width v ->
  eval wave (Fin v) = Fin r -> 0 < r -> r <> 0.15 -> r <> 0.63 -> eval width (Fin v) <> Fin 0 ->
  (forall (AR : Arith) w,
     eval (AR := AR) (noll_trace (AR := AR) wave ampl slope bump width) w = noll09_k_lambda (eval wave w) (eval ampl w) (eval slope w) (eval bump w) (eval width w)
     /\ eval (AR := AR) (sbl_trace (AR := AR) wave ampl slope bump width) w = sbl18_k_lambda (eval wave w) (eval ampl w) (eval slope w) (eval bump w) (eval width w))
  /\ (eval (noll_raw_trace wave ampl slope bump width) (Fin v) <> Fin 0 -> right_gradient (noll_trace wave ampl slope bump width) v)
  /\ (eval (sbl_raw_trace wave ampl slope bump width) (Fin v) <> Fin 0 -> right_gradient (sbl_trace wave ampl slope bump width) v).
Proof.
  intros wave ampl slope bump width v r W A S B D E P N N' Nw. toT. split; [split; reflexivity|].
  destruct (T_val _ _ D) as [rw Ew]. assert (rw <> 0) by (intros ->; auto).
  assert (T (l02_c00_trace wave) v) by (eapply T_l02; eauto). assert (T (power_law_trace wave slope (Cst (lit 0.55))) v) by (eapply T_power; eauto).
  assert (T (drude_trace wave bump width ampl) v) by (eapply T_drude; eauto).
  split; intros Nr; toT; apply T_clip0; auto; [unfold noll_raw_trace|unfold sbl_raw_trace]; ts.
Qed.
Lemma C161_curves_lemma : forall wave v r, right_gradient wave v -> eval wave (Fin v) = Fin r -> 0 < r ->
  (forall (AR : Arith) w, eval (AR := AR) (calzetti_trace (AR := AR) wave) w = calzetti00_k_lambda (eval wave w)
     /\ eval (AR := AR) (leitherer_trace (AR := AR) wave) w = leitherer02_k_lambda (eval wave w))
  /\ (r <> 0.63 -> right_gradient (calzetti_trace wave) v) /\ right_gradient (leitherer_trace wave) v.
Proof. intros wave v r W E P. toT. split; [split; reflexivity|]. split; [intros N|]; toT; eauto using T_calzetti, T_leitherer. Qed.
Lemma T_att k av v : T k v -> T av v -> eval k (Fin v) <> Fin 0 -> eval av (Fin v) <> Fin 0 -> T (att_curve_trace k av) v.
Proof.
  intros K A Nk Na. assert (T (Div (Mul av k) (Cst RV_C00)) v) by (apply T_div; ts; change (Fin 4.05 <> Fin 0); apply neq_fin; lra).
  unfold att_curve_trace. apply T_where_lt; ts. destruct (T_val _ _ K) as [rk Ek], (T_val _ _ A) as [ra Ea]. cbn [eval]. change RV_C00 with (Fin 4.05). rewrite Ek, Ea in *. rewrite nmul_fin, ndiv_fin by lra.
  apply neq_fin. intros Q. assert (rk <> 0) by (intros ->; auto). assert (ra <> 0) by (intros ->; auto). assert (ra * rk <> 0) by (now apply Rmult_integral_contrapositive_currified). lra.
Qed.
Lemma C161_transmission_lemma : forall k av floor v,
  right_gradient k v -> right_gradient av v -> right_gradient floor v -> eval k (Fin v) <> Fin 0 -> eval av (Fin v) <> Fin 0 ->
  (forall (AR : Arith) w,
     eval (AR := AR) (att_curve_trace (AR := AR) k av) w = att_curve_from_k_lambda (eval k w) (eval av w)
     /\ eval (AR := AR) (frac_transmission_trace (AR := AR) k av floor) w = frac_transmission_from_k_lambda (eval k w) (eval av w) (eval floor w))
  /\ right_gradient (att_curve_trace k av) v /\ right_gradient (frac_transmission_trace k av floor) v.
Proof. intros k av floor v K A F Nk Na. toT. assert (T (att_curve_trace k av) v) by now apply T_att. split; [split; reflexivity|]. split; toT; auto. unfold frac_transmission_trace. ts. Qed.
(** where the curve is clipped, no gradient flows back: it is 0, not NaN *)
Lemma C161_triweight_lemma : forall wave xtp ytp x0 h lo hi v r,
  right_gradient wave v -> right_gradient xtp v -> right_gradient ytp v -> right_gradient x0 v -> right_gradient h v -> right_gradient lo v -> right_gradient hi v ->
  eval wave (Fin v) = Fin r -> 0 < r -> eval h (Fin v) <> Fin 0 ->
  (forall (AR : Arith) w, eval (AR := AR) (triweight_k_trace wave xtp ytp x0 h lo hi) w
     = triweight_k_lambda (eval wave w) (eval xtp w) (eval ytp w) (eval x0 w) (eval h w) (eval lo w) (eval hi w))
  /\ right_gradient (triweight_k_trace wave xtp ytp x0 h lo hi) v.
Proof. intros. split; [reflexivity|]. toT. unfold triweight_k_trace. ts. apply T_tw_sig_slope; auto. eapply T_log10; eauto. Qed.
