(** * Bursts: the bounding maps are increasing, their centres, and the defaults *)
From Coq Require Import Reals List Arith Lra Lia Bool.
From Verif Require Import Num Arr MUtils MDiffburst Spec RList LKern2 LBurst.
Import ListNotations.
Open Scope R_scope.

Lemma bnd_lt x0 lo hi u v : lo < hi -> u < v -> bnd x0 0.1 lo hi u < bnd x0 0.1 lo hi v.
Proof.
  intros H U. unfold bnd. assert (logistic (0.1 * (u - x0)) < logistic (0.1 * (v - x0))) by (apply logistic_lt; lra).
  nra.
Qed.
Lemma bnd_mid x0 lo hi : bnd x0 0.1 lo hi x0 = (lo + hi) / 2.
Proof. unfold bnd. replace (0.1 * (x0 - x0)) with 0 by ring. rewrite logistic_0. lra. Qed.

Lemma burst_params_increasing : forall uf up um uf' up' um',
  exists fb peak mx fb' peak' mx',
    get_params_from_u_params {| u_lgfburst := Fin uf; u_lgyr_peak := Fin up; u_lgyr_max := Fin um |}
    = {| lgfburst := Fin fb; lgyr_peak := Fin peak; lgyr_max := Fin mx |}
    /\ get_params_from_u_params {| u_lgfburst := Fin uf'; u_lgyr_peak := Fin up'; u_lgyr_max := Fin um' |}
    = {| lgfburst := Fin fb'; lgyr_peak := Fin peak'; lgyr_max := Fin mx' |}
    /\ (uf < uf' <-> fb < fb') /\ (up < up' <-> peak < peak')
    /\ (up = up' -> um < um' <-> mx < mx').
Proof.
  intros uf up um uf' up' um'.
  pose proof (params_fin uf up um) as E. pose proof (params_fin uf' up' um') as E'.
  unfold fin_uburst, fin_burst in E, E'. cbv zeta in E, E'.
  do 6 eexists. split; [exact E|]. split; [exact E'|].
  assert (I : forall x0 lo hi u v, lo < hi -> u < v <-> bnd x0 0.1 lo hi u < bnd x0 0.1 lo hi v).
  { intros x0 lo hi u v H. split; [now apply bnd_lt|]. intros B. destruct (Rlt_le_dec u v) as [|[L|L]]; auto.
    - pose proof (bnd_lt x0 lo hi v u H L). lra.
    - subst. lra. }
  split; [apply I; lra|]. split; [apply I; lra|]. intros ->. apply I.
  pose proof (bnd_bounds 6.5 0.1 5 8 up' ltac:(lra)). lra.
Qed.

(** ** the published bounding formula *)
Lemma burst_params_formula : forall uf up um,
  exists fb peak mx,
    get_params_from_u_params {| u_lgfburst := Fin uf; u_lgyr_peak := Fin up; u_lgyr_max := Fin um |}
    = {| lgfburst := Fin fb; lgyr_peak := Fin peak; lgyr_max := Fin mx |}
    /\ fb = -8 + 7 / (1 + exp (- (uf + 2) / 10))
    /\ peak = 5 + 3 / (1 + exp (- (up - 6.5) / 10))
    /\ mx = (peak + 1) + (8 - peak) / (1 + exp (- (um - (peak + 10) / 2) / 10)).
Proof.
  intros uf up um. pose proof (params_fin uf up um) as E.
  unfold fin_uburst, fin_burst in E. cbv zeta in E.
  do 3 eexists. split; [exact E|].
  split; [|split].
  - unfold bnd, logistic. replace (- (0.1 * (uf - -2))) with (- (uf + 2) / 10) by lra. generalize (1 + exp (- (uf + 2) / 10)); intros d; unfold Rdiv; ring.
  - unfold bnd, logistic. replace (- (0.1 * (up - 6.5))) with (- (up - 6.5) / 10) by lra. generalize (1 + exp (- (up - 6.5) / 10)); intros d; unfold Rdiv; ring.
  - set (p := bnd 6.5 _ _ _ _). unfold bnd, logistic.
    replace (- (0.1 * (um - 0.5 * (9 + (p + 1))))) with (- (um - (p + 10) / 2) / 10) by lra. generalize (1 + exp (- (um - (p + 10) / 2) / 10)); intros d; unfold Rdiv; ring.
Qed.

(** ** the default burst *)
Lemma default_burst_lemma :
  exists fb peak mx uf up um,
    DEFAULT_BURST_PARAMS = {| lgfburst := Fin fb; lgyr_peak := Fin peak; lgyr_max := Fin mx |}
    /\ fb = -3 /\ peak = 5.5 /\ mx = 7
    /\ -8 < fb < -1 /\ 5 < peak < 8 /\ peak + 1 < mx < 9
    /\ get_u_params_from_params DEFAULT_BURST_PARAMS
       = {| u_lgfburst := Fin uf; u_lgyr_peak := Fin up; u_lgyr_max := Fin um |}
    /\ get_params_from_u_params {| u_lgfburst := Fin uf; u_lgyr_peak := Fin up; u_lgyr_max := Fin um |}
       = DEFAULT_BURST_PARAMS.
Proof.
  assert (D : DEFAULT_BURST_PARAMS = {| lgfburst := Fin (-3); lgyr_peak := Fin 5.5; lgyr_max := Fin 7 |}) by reflexivity.
  pose proof (burst_roundtrip (-3) 5.5 7 ltac:(lra) ltac:(lra) ltac:(lra)) as RT. rewrite <- D in RT.
  assert (U : exists uf up um, get_u_params_from_params DEFAULT_BURST_PARAMS
     = {| u_lgfburst := Fin uf; u_lgyr_peak := Fin up; u_lgyr_max := Fin um |}).
  { rewrite D. unfold get_u_params_from_params, get_tburst_u_params_from_tburst_params.
    cbn [lgfburst lgyr_peak lgyr_max].
    unfold get_u_lgfburst_from_lgfburst, get_u_lgyr_peak_from_lgyr_peak, get_u_lgyr_max_from_lgyr_peak,
      LGYR_PEAK_MIN, LGYR_PEAK_MAX, LGAGE_MAX, DLGAGE_MIN, LGAGE_K, LGFB_X0, LGFB_K, LGFBURST_MIN, LGFBURST_MAX.
    unlit. rewrite !nsub_fin, !nadd_fin, !nmul_fin.
    assert (IS : forall x x0 lo hi, lo < x < hi -> exists u, inverse_sigmoid (Fin x) (Fin x0) (Fin 0.1) (Fin lo) (Fin hi) = Fin u).
    { intros x x0 lo hi H. eexists. apply inverse_sigmoid_fin; lra. }
    destruct (IS (-3) (-2) (-8) (-1) ltac:(lra)) as (a & ->).
    destruct (IS 5.5 (0.5 * (9 - 1 + 5)) 5 (9 - 1) ltac:(lra)) as (b & ->).
    destruct (IS 7 (0.5 * (9 + (5.5 + 1))) (5.5 + 1) 9 ltac:(lra)) as (c & ->).
    eauto. }
  destruct U as (uf & up & um & U). exists (-3), 5.5, 7, uf, up, um.
  repeat (split; [try exact D; try lra|]); auto. now rewrite U in RT.
Qed.
