(** * Gradients of the dsps functions *)
From Coq Require Import Reals List Arith Lra Lia ZArith Bool.
From Coquelicot Require Import Coquelicot.
From Flocq Require Import Core.Raux.
From Verif Require Import Num Arr MUtils MSed MDiffburst MImf MMzr MDust MGrad MTrace Spec Spec2 SpecGrad RList LUtils LKern LImf LDiff LGrad LGrad2 LGrad3.
Import ListNotations.
Open Scope R_scope.
#[local] Existing Instance exact.

Ltac ts := repeat first [assumption | lazymatch goal with
  | |- T (Add _ _) _ => apply T_add | |- T (Sub _ _) _ => apply T_sub | |- T (Mul _ _) _ => apply T_mul
  | |- T (Cst _) _ => apply T_cst | |- T Arg _ => apply T_arg | |- T (Pow10 _) _ => apply T_pow10
  | |- T (Logistic _) _ => apply T_logistic | |- T (IPow _ _) _ => apply T_ipow; [lia|] end].
Ltac toT := repeat match goal with H : right_gradient _ _ |- _ => apply T_right in H end; repeat match goal with |- right_gradient _ _ => apply T_right end.

Lemma C159_inputs_lemma : forall v c, right_gradient Arg v /\ right_gradient (Cst (Fin c)) v.
Proof. intros v c. split; toT; ts. Qed.
Lemma T_tw_sigmoid a m h lo hi x : eval h (Fin x) <> Fin 0 -> T a x -> T m x -> T h x -> T lo x -> T hi x -> T (tw_sigmoid_trace a m h lo hi) x.
Proof. intros. unfold tw_sigmoid_trace. ts. now apply T_tw. Qed.
Lemma T_hist a h lo hi x : eval h (Fin x) <> Fin 0 -> T a x -> T h x -> T lo x -> T hi x -> T (hist_kernel_trace a h lo hi) x.
Proof. intros. unfold hist_kernel_trace. ts; now apply T_tw. Qed.
Lemma T_tw_sig_slope a xtp ytp m h lo hi x : eval h (Fin x) <> Fin 0 -> T a x -> T xtp x -> T ytp x -> T m x -> T h x -> T lo x -> T hi x -> T (tw_sig_slope_trace a xtp ytp m h lo hi) x.
Proof. intros. unfold tw_sig_slope_trace. ts. now apply T_tw_sigmoid. Qed.
Lemma C159_kernel_lemma : forall x m h v, right_gradient x v -> right_gradient m v -> right_gradient h v -> eval h (Fin v) <> Fin 0 ->
  (forall (AR : Arith) w, eval (AR := AR) (tw_trace x m h) w = tw_cuml_kern (eval x w) (eval m w) (eval h w))
  /\ right_gradient (tw_trace x m h) v.
Proof. intros x m h v X M H N. split; [reflexivity|]. toT. now apply T_tw. Qed.
Lemma C159_density_lemma : forall x m h v, right_gradient x v -> right_gradient m v -> right_gradient h v -> eval h (Fin v) <> Fin 0 ->
  (forall (AR : Arith) w, eval (AR := AR) (gauss_trace (AR := AR) x m h) w = triweight_gaussian (eval x w) (eval m w) (eval h w))
  /\ right_gradient (gauss_trace x m h) v.
Proof. intros x m h v X M H N. split; [reflexivity|]. toT. now apply T_gauss. Qed.
Lemma C159_sigmoids_lemma : forall x xtp ytp m h lo hi v,
  right_gradient x v -> right_gradient xtp v -> right_gradient ytp v -> right_gradient m v -> right_gradient h v -> right_gradient lo v -> right_gradient hi v ->
  eval h (Fin v) <> Fin 0 ->
  (forall (AR : Arith) w,
     eval (AR := AR) (tw_sigmoid_trace x m h lo hi) w = tw_sigmoid (eval x w) (eval m w) (eval h w) (eval lo w) (eval hi w)
     /\ eval (AR := AR) (tw_sig_slope_trace x xtp ytp m h lo hi) w = tw_sig_slope (eval x w) (eval xtp w) (eval ytp w) (eval m w) (eval h w) (eval lo w) (eval hi w)
     /\ eval (AR := AR) (hist_kernel_trace x h lo hi) w = triweighted_histogram_kernel (eval x w) (eval h w) (eval lo w) (eval hi w))
  /\ right_gradient (tw_sigmoid_trace x m h lo hi) v /\ right_gradient (tw_sig_slope_trace x xtp ytp m h lo hi) v /\ right_gradient (hist_kernel_trace x h lo hi) v.
Proof. intros. split; [repeat split; reflexivity|]. toT. split; [|split]; toT; auto using T_tw_sigmoid, T_tw_sig_slope, T_hist. Qed.

(** a kernel of width 0 is a step function, but its gradient is NaN *)
Lemma poly_back_nan z v i : eval z v = i -> i = PInf \/ i = NInf -> depends z = true -> back z v NaN = NaN -> back (tw_poly_trace z) v (Fin 0) = NaN.
Proof.
  intros E I D B. assert (E6 : ipow i 6 = PInf) by (destruct I as [->| ->]; reflexivity).
  assert (A : back (Div (Mul (Cst (Fin (-5))) (IPow z 7)) (Cst (Fin 69984))) v (Fin 0) = NaN).
  { cbn [back depends orb]. rewrite D. cbn [both eval]. rewrite E. change (Pos.pred 7) with 6%positive. rewrite E6, ndiv_fin, nmul_fin by lra.
    replace (nmul (Fin 7) PInf) with PInf by (cbn [nmul]; unfold inf_times; rewrite Rlt_bool_true by lra; reflexivity).
    replace (nmul (Fin (-5 * (0 / 69984))) PInf) with NaN; [exact B|]. cbn [nmul]. unfold inf_times. replace (-5 * (0 / 69984)) with 0 by lra. rewrite Rlt_bool_false by lra. reflexivity. }
  unfold tw_poly_trace. cbn [back] in A |- *. cbn [depends orb] in A |- *. rewrite D in A |- *. cbn [both orb] in A |- *. rewrite A. reflexivity.
Qed.
Lemma C159_zero_width_lemma : forall x m, x <> m ->
  tw_cuml_kern (Fin x) (Fin m) (Fin 0) = Fin (if Rlt_bool m x then 1 else 0)
  /\ grad (tw_trace Arg (Cst (Fin m)) (Cst (Fin 0))) (Fin x) = NaN.
Proof.
  intros x m N. assert (Z : ndiv (nsub (Fin x) (Fin m)) (Fin 0) = if Rlt_bool m x then PInf else NInf).
  { rewrite nsub_fin. unfold ndiv. rewrite Req_bool_true by auto. destruct (Rlt_bool_spec m x); [rewrite Rlt_bool_true by lra|rewrite Rlt_bool_false, Rlt_bool_true by lra]; reflexivity. }
  split.
  - unfold tw_cuml_kern. rewrite Z. destruct (Rlt_bool m x); reflexivity.
  - unfold grad, tw_trace. set (z := Div (Sub Arg (Cst (Fin m))) (Cst (Fin 0))).
    assert (P : back (tw_poly_trace z) (Fin x) (Fin 0) = NaN) by (apply (poly_back_nan z _ (if Rlt_bool m x then PInf else NInf)); [exact Z|destruct (Rlt_bool m x); auto|reflexivity|reflexivity]).
    change (depends (tw_of z)) with true. cbv iota. unfold tw_of. cbn [back]. replace (eval z (Fin x)) with (if Rlt_bool m x then PInf else NInf) by (symmetry; exact Z).
    change (depends (Cst (Fin 1))) with false. change (depends (Cst (Fin 0))) with false. change (depends (tw_poly_trace z)) with true. change (depends (Where (fun v : num => (v <? Fin (-3))%num) z (Cst (Fin 0)) (tw_poly_trace z))) with true. cbn [both].
    destruct (Rlt_bool m x); cbn [ngtb nltb nwhere]; exact P.
Qed.

(** ** smooth scalar functions *)
Lemma T_sigmoid a m k lo hi x : T a x -> T m x -> T k x -> T lo x -> T hi x -> T (sigmoid_trace a m k lo hi) x.
Proof. intros. unfold sigmoid_trace. ts. Qed.
Lemma T_sig_slope a xtp ytp m k lo hi x : T a x -> T xtp x -> T ytp x -> T m x -> T k x -> T lo x -> T hi x -> T (sig_slope_trace a xtp ytp m k lo hi) x.
Proof. intros. unfold sig_slope_trace. ts. now apply T_sigmoid. Qed.
Lemma C160_sigmoids_lemma : forall x xtp ytp x0 k lo hi v,
  right_gradient x v -> right_gradient xtp v -> right_gradient ytp v -> right_gradient x0 v -> right_gradient k v -> right_gradient lo v -> right_gradient hi v ->
  (forall (AR : Arith) w,
     eval (AR := AR) (sigmoid_trace x x0 k lo hi) w = sigmoid (eval x w) (eval x0 w) (eval k w) (eval lo w) (eval hi w)
     /\ eval (AR := AR) (sig_slope_trace x xtp ytp x0 k lo hi) w = sig_slope (eval x w) (eval xtp w) (eval ytp w) (eval x0 w) (eval k w) (eval lo w) (eval hi w))
  /\ right_gradient (sigmoid_trace x x0 k lo hi) v /\ right_gradient (sig_slope_trace x xtp ytp x0 k lo hi) v.
Proof. intros. split; [split; reflexivity|]. split; toT; auto using T_sigmoid, T_sig_slope. Qed.
Lemma C160_inverse_lemma : forall y x0 k lo hi v b l u,
  right_gradient y v -> right_gradient x0 v -> right_gradient k v -> right_gradient lo v -> right_gradient hi v ->
  eval y (Fin v) = Fin b -> eval lo (Fin v) = Fin l -> eval hi (Fin v) = Fin u -> l < b < u -> eval k (Fin v) <> Fin 0 ->
  (forall (AR : Arith) w, eval (AR := AR) (inverse_sigmoid_trace y x0 k lo hi) w = inverse_sigmoid (eval y w) (eval x0 w) (eval k w) (eval lo w) (eval hi w))
  /\ right_gradient (inverse_sigmoid_trace y x0 k lo hi) v.
Proof.
  intros y x0 k lo hi v b l u Y X K L H Ey El Eu B Nk. split; [reflexivity|]. toT. unfold inverse_sigmoid_trace. ts. apply T_div; auto.
  assert (Nd : eval (Sub y lo) (Fin v) = Fin (b - l)) by (cbn [eval]; rewrite Ey, El, nsub_fin; reflexivity).
  apply (T_ln _ _ ((u - l) / (b - l) - 1)).
  - change (eval (Sub (Div (Sub hi lo) (Sub y lo)) (Cst (Fin 1))) (Fin v)) with (nsub (ndiv (nsub (eval hi (Fin v)) (eval lo (Fin v))) (eval (Sub y lo) (Fin v))) (Fin 1)).
    rewrite Nd, Eu, El, !nsub_fin, ndiv_fin, nsub_fin by lra. reflexivity.
  - replace ((u - l) / (b - l) - 1) with ((u - b) / (b - l)) by (field; lra). apply Rdiv_lt_0_compat; lra.
  - ts. apply T_div; ts. rewrite Nd. intros Q. injection Q. lra.
Qed.
Lemma C160_imf_lemma : forall lg_age a b lgk1 d e f lgk2 h v,
  right_gradient lg_age v -> right_gradient a v -> right_gradient b v -> right_gradient lgk1 v -> right_gradient d v -> right_gradient e v ->
  right_gradient f v -> right_gradient lgk2 v -> right_gradient h v ->
  (forall (AR : Arith) w,
     eval (AR := AR) (remnant_mass_trace lg_age a b lgk1 d e) w = remnant_mass (eval lg_age w) {| rem_a := eval a w; rem_b := eval b w; rem_lgk1 := eval lgk1 w; rem_d := eval d w; rem_e := eval e w |}
     /\ eval (AR := AR) (surviving_mstar_trace lg_age a b lgk1 d e f lgk2 h) w = surviving_mstar (eval lg_age w)
          {| sur_a := eval a w; sur_b := eval b w; sur_lgk1 := eval lgk1 w; sur_d := eval d w; sur_e := eval e w; sur_f := eval f w; sur_lgk2 := eval lgk2 w; sur_h := eval h w |})
  /\ right_gradient (remnant_mass_trace lg_age a b lgk1 d e) v /\ right_gradient (surviving_mstar_trace lg_age a b lgk1 d e f lgk2 h) v.
Proof.
  intros. split; [split; reflexivity|]. split; toT.
  - unfold remnant_mass_trace. ts. apply T_sig_slope; ts.
  - unfold surviving_mstar_trace. ts. apply T_sigmoid; ts. apply T_sig_slope; ts.
Qed.
Lemma solar_fin : LGMET_SOLAR = Fin (log10 0.012). Proof. unfold LGMET_SOLAR. rewrite lit_fin, nlog10_fin by lra. reflexivity. Qed.
Lemma neq_sub a b v c : eval b v <> Fin c -> (exists r, eval b v = Fin r) -> eval a v = Fin c -> eval (Sub a b) v <> Fin 0.
Proof. intros N [r R] A. cbn [eval]. rewrite A, R, nsub_fin. rewrite R in N. intros Q. injection Q as Q. apply N. f_equal. lra. Qed.
Lemma T_clip0 e x : eval e (Fin x) <> Fin 0 -> T e x -> T (clip0_trace e) x.
Proof. intros N H. unfold clip0_trace. apply T_where_lt; ts. Qed.
Lemma C160_umzr_lemma : forall logsm t ytp x0 k slo shi c0y c1y c0e c1e v,
  right_gradient logsm v -> right_gradient t v -> right_gradient ytp v -> right_gradient x0 v -> right_gradient k v -> right_gradient slo v -> right_gradient shi v ->
  right_gradient c0y v -> right_gradient c1y v -> right_gradient c0e v -> right_gradient c1e v ->
  eval t (Fin v) <> Fin 12.5 -> eval (umzr_evolution_trace logsm t c0y c1y c0e c1e) (Fin v) <> Fin 0 ->
  (forall (AR : Arith) w, eval (AR := AR) (umzr_trace (AR := AR) logsm t ytp x0 k slo shi c0y c1y c0e c1e) w = umzr_model (eval logsm w) (eval t w)
     {| mzr_t0_ytp := eval ytp w; mzr_t0_x0 := eval x0 w; mzr_t0_k := eval k w; mzr_t0_slope_lo := eval slo w; mzr_t0_slope_hi := eval shi w;
        c0_y_at_tlook_c := eval c0y w; c1_y_at_tlook_c := eval c1y w; c0_early_time_slope := eval c0e w; c1_early_time_slope := eval c1e w |})
  /\ right_gradient (umzr_trace logsm t ytp x0 k slo shi c0y c1y c0e c1e) v.
Proof.
  intros logsm t ytp x0 k slo shi c0y c1y c0e c1e v H H0 H1 H2 H3 H4 H5 H6 H7 H8 H9 Nt Nr. split; [reflexivity|]. toT. unfold umzr_trace. ts.
  - apply T_sig_slope; ts.
  - rewrite solar_fin. ts.
  - assert (TE : T (umzr_evolution_trace logsm t c0y c1y c0e c1e) v); [|apply T_where_gt; ts].
    unfold umzr_evolution_trace. apply T_sig_slope; ts.
    + apply T_where_lt; ts. apply (neq_sub _ _ _ 12.5); auto using T_val.
    + apply T_div; ts. cbn [eval]. unfold TLOOK_C. rewrite lit_fin. intros Q. injection Q. lra.
Qed.
Lemma C160_mzr_lemma : forall logsm t y0 x0 k slo shi c0y c1y tc c0e c1e v,
  right_gradient logsm v -> right_gradient t v -> right_gradient y0 v -> right_gradient x0 v -> right_gradient k v -> right_gradient slo v -> right_gradient shi v ->
  right_gradient c0y v -> right_gradient c1y v -> right_gradient tc v -> right_gradient c0e v -> right_gradient c1e v ->
  eval t (Fin v) <> Fin 12.5 -> eval tc (Fin v) <> Fin 0 -> eval (mzr_evolution_trace logsm t c0y c1y tc c0e c1e) (Fin v) <> Fin 0 ->
  (forall (AR : Arith) w, eval (AR := AR) (mzr_trace (AR := AR) logsm t y0 x0 k slo shi c0y c1y tc c0e c1e) w
     = mzr_model (eval logsm w) (eval t w) (eval y0 w) (eval x0 w) (eval k w) (eval slo w) (eval shi w) (eval c0y w) (eval c1y w) (eval tc w) (eval c0e w) (eval c1e w))
  /\ right_gradient (mzr_trace logsm t y0 x0 k slo shi c0y c1y tc c0e c1e) v.
Proof.
  intros logsm t ytp x0 k slo shi c0y c1y tc c0e c1e v H H0 H1 H2 H3 H4 H5 H6 H7 H8 H9 H10 Nt Nc Nr. split; [reflexivity|]. toT. unfold mzr_trace. ts.
  - apply T_sig_slope; ts.
  - rewrite solar_fin. ts.
  - assert (TE : T (mzr_evolution_trace logsm t c0y c1y tc c0e c1e) v); [|apply T_where_gt; ts].
    unfold mzr_evolution_trace. apply T_sig_slope; ts.
    + apply T_where_lt; ts. apply (neq_sub _ _ _ 12.5); auto using T_val.
    + apply T_div; ts. cbn [eval]. destruct (T_val _ _ H8) as [r R]. rewrite R in Nc |- *. rewrite nadd_fin, Rplus_0_r. auto.
Qed.
Lemma C160_bounding_lemma : forall u b v, right_gradient u v ->
  (exists l h, b = (Fin l, Fin h)) ->
  (forall (AR : Arith) w, eval (AR := AR) (bounded_param_trace (AR := AR) u b) w = get_square_bounded_param (eval u w) b)
  /\ right_gradient (bounded_param_trace u b) v.
Proof.
  intros u b v H (l & h & ->). split; [reflexivity|]. toT. unfold bounded_param_trace. cbn [fst snd]. apply T_sigmoid; ts.
Qed.
