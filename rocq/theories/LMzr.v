(** * Mass-metallicity relation (dsps/metallicity) *)
From Coq Require Import Reals List Arith Lra Lia Bool.
From Coquelicot Require Import Coquelicot.
From Flocq Require Import Core.Raux.
From Verif Require Import Num Arr MUtils MMzr Spec SpecApi RList LUtils LCalc LKern LKern2 LBurst LImf.
Import ListNotations.
Open Scope R_scope.

Definition bnd (u lo hi : R) : R := lo + (hi - lo) * logistic (0.1 * (u - 0.5 * (lo + hi))).
Lemma square_fin u lo hi : get_square_bounded_param (Fin u) (Fin lo, Fin hi) = Fin (bnd u lo hi).
Proof. unfold get_square_bounded_param, BOUNDING_K. unlit. rewrite nadd_fin, nmul_fin. apply sigmoid_fin. Qed.
Lemma bnd_range u lo hi : lo < hi -> lo < bnd u lo hi < hi.
Proof. intros. unfold bnd. pose proof (logistic_bounds (0.1 * (u - 0.5 * (lo + hi)))). split; nra. Qed.
Definition bnd_hi (u lo : R) : R := lo * logistic (0.1 * u).
Lemma slope_hi_fin lo u : get_mzr_t0_slope_hi_from_unbounded (Fin lo) (Fin u) = Fin (bnd_hi u lo).
Proof.
  unfold get_mzr_t0_slope_hi_from_unbounded, BOUNDING_K, b_mzr_t0_slope_hi. cbn [fst]. unlit. rewrite sigmoid_fin.
  unfold bnd_hi. rewrite !Rminus_0_r. f_equal. lra.
Qed.
Lemma bounded_fin y x k lo hi a b c d : get_bounded_mzr_params (mzr_of y x k lo hi a b c d)
  = mzr_of (bnd y (-1) (1/4)) (bnd x 10.25 10.75) (bnd k 0.5 2) (bnd lo 0.1 1) (bnd_hi hi (bnd lo 0.1 1))
           (bnd a (-2) (-1)) (bnd b 0 0.5) (bnd c (-1.5) (-0.5)) (bnd d 0 0.5).
Proof.
  unfold get_bounded_mzr_params, map_bounds, replace_slope_hi, mzr_of.
  cbn [mzr_t0_ytp mzr_t0_x0 mzr_t0_k mzr_t0_slope_lo mzr_t0_slope_hi c0_y_at_tlook_c c1_y_at_tlook_c
       c0_early_time_slope c1_early_time_slope].
  unfold b_mzr_t0_ytp, b_mzr_t0_x0, b_mzr_t0_k, b_mzr_t0_slope_lo, b_mzr_t0_slope_hi, b_c0_y_at_tlook_c,
    b_c1_y_at_tlook_c, b_c0_early_time_slope, b_c1_early_time_slope. unlit.
  rewrite !square_fin. now rewrite slope_hi_fin.
Qed.
Lemma C72_lemma : forall y x k lo hi a b c d, exists y' x' k' lo' hi' a' b' c' d',
  get_bounded_mzr_params (mzr_of y x k lo hi a b c d) = mzr_of y' x' k' lo' hi' a' b' c' d'
  /\ mzr_admissible y' x' k' lo' hi' a' b' c' d'.
Proof.
  intros. do 9 eexists. split; [apply bounded_fin|]. unfold mzr_admissible.
  do 4 (split; [apply bnd_range; lra|]).
  split; [pose proof (bnd_range lo 0.1 1 ltac:(lra)); unfold bnd_hi; pose proof (logistic_bounds (0.1 * hi)); split; nra|].
  do 3 (split; [apply bnd_range; lra|]). apply bnd_range; lra.
Qed.
Definition ubnd (p lo hi : R) : R := 0.5 * (lo + hi) - ln ((hi - lo) / (p - lo) - 1) / 0.1.
Lemma usquare_fin p lo hi : lo < p < hi -> get_square_unbounded_param (Fin p) (Fin lo, Fin hi) = Fin (ubnd p lo hi).
Proof. intros. unfold get_square_unbounded_param, BOUNDING_K. unlit. rewrite nadd_fin, nmul_fin. apply inverse_sigmoid_fin; lra. Qed.
Definition ubnd_hi (p lo : R) : R := 0 - ln ((lo - 0) / (p - 0) - 1) / 0.1.
Lemma uslope_hi_fin lo p : 0 < p < lo -> get_u_mzr_t0_slope_hi_from_bounded (Fin lo) (Fin p) = Fin (ubnd_hi p lo).
Proof.
  intros. unfold get_u_mzr_t0_slope_hi_from_bounded, BOUNDING_K, b_mzr_t0_slope_hi. cbn [fst]. unlit.
  rewrite inverse_sigmoid_fin by lra. reflexivity.
Qed.
Lemma unbounded_fin y x k lo hi a b c d : mzr_admissible y x k lo hi a b c d ->
  get_unbounded_mzr_params (mzr_of y x k lo hi a b c d)
  = mzr_of (ubnd y (-1) (1/4)) (ubnd x 10.25 10.75) (ubnd k 0.5 2) (ubnd lo 0.1 1) (ubnd_hi hi lo)
           (ubnd a (-2) (-1)) (ubnd b 0 0.5) (ubnd c (-1.5) (-0.5)) (ubnd d 0 0.5).
Proof.
  unfold mzr_admissible. intros H.
  unfold get_unbounded_mzr_params, map_bounds, replace_slope_hi, mzr_of.
  cbn [mzr_t0_ytp mzr_t0_x0 mzr_t0_k mzr_t0_slope_lo mzr_t0_slope_hi c0_y_at_tlook_c c1_y_at_tlook_c
       c0_early_time_slope c1_early_time_slope].
  unfold b_mzr_t0_ytp, b_mzr_t0_x0, b_mzr_t0_k, b_mzr_t0_slope_lo, b_mzr_t0_slope_hi, b_c0_y_at_tlook_c,
    b_c1_y_at_tlook_c, b_c0_early_time_slope, b_c1_early_time_slope. unlit.
  rewrite !usquare_fin by lra. now rewrite uslope_hi_fin by lra.
Qed.
Lemma bnd_ubnd p lo hi : lo < p < hi -> bnd (ubnd p lo hi) lo hi = p.
Proof.
  intros H. pose proof (inverse_sigmoid_inverse p (0.5 * (lo + hi)) 0.1 lo hi ltac:(lra) H) as E.
  rewrite inverse_sigmoid_fin, sigmoid_fin in E by lra. injection E as E. exact E.
Qed.
Lemma ubnd_bnd u lo hi : lo < hi -> ubnd (bnd u lo hi) lo hi = u.
Proof.
  intros H. pose proof (sigmoid_inverse u (0.5 * (lo + hi)) 0.1 lo hi ltac:(lra) H) as E.
  rewrite sigmoid_fin in E. rewrite inverse_sigmoid_fin in E by (try lra; apply (bnd_range u lo hi H)).
  injection E as E. exact E.
Qed.
Lemma bnd_hi_range u lo : 0 < lo -> 0 < bnd_hi u lo < lo.
Proof. intros. unfold bnd_hi. pose proof (logistic_bounds (0.1 * u)). split; nra. Qed.
Lemma bnd_ubnd_hi p lo : 0 < p < lo -> bnd_hi (ubnd_hi p lo) lo = p.
Proof.
  intros H. pose proof (inverse_sigmoid_inverse p 0 0.1 0 lo ltac:(lra) H) as E.
  rewrite inverse_sigmoid_fin, sigmoid_fin in E by lra. injection E as E. rewrite <- E at 2.
  unfold bnd_hi, ubnd_hi. rewrite !Rminus_0_r. lra.
Qed.
Lemma ubnd_bnd_hi u lo : 0 < lo -> ubnd_hi (bnd_hi u lo) lo = u.
Proof.
  intros H. pose proof (sigmoid_inverse u 0 0.1 0 lo ltac:(lra) H) as E.
  pose proof (bnd_hi_range u lo H) as B.
  rewrite sigmoid_fin in E. replace (0 + (lo - 0) * logistic (0.1 * (u - 0))) with (bnd_hi u lo) in E
    by (unfold bnd_hi; rewrite !Rminus_0_r; lra).
  rewrite inverse_sigmoid_fin in E by lra. injection E as E. exact E.
Qed.
Lemma C74_lemma :
  (forall y x k lo hi a b c d, mzr_admissible y x k lo hi a b c d ->
     exists y' x' k' lo' hi' a' b' c' d',
       get_unbounded_mzr_params (mzr_of y x k lo hi a b c d) = mzr_of y' x' k' lo' hi' a' b' c' d'
       /\ get_bounded_mzr_params (mzr_of y' x' k' lo' hi' a' b' c' d') = mzr_of y x k lo hi a b c d)
  /\ (forall y x k lo hi a b c d,
       get_unbounded_mzr_params (get_bounded_mzr_params (mzr_of y x k lo hi a b c d)) = mzr_of y x k lo hi a b c d).
Proof.
  split.
  - intros y x k lo hi a b c d H. do 9 eexists. split; [now apply unbounded_fin|]. rewrite bounded_fin.
    unfold mzr_admissible in H. rewrite !bnd_ubnd by lra. now rewrite bnd_ubnd_hi by lra.
  - intros. rewrite bounded_fin. rewrite unbounded_fin.
    + pose proof (bnd_range lo 0.1 1 ltac:(lra)). rewrite !ubnd_bnd by lra. now rewrite ubnd_bnd_hi by lra.
    + destruct (C72_lemma y x k lo hi a b c d) as (y' & x' & k' & lo' & hi' & a' & b' & c' & d' & E & A).
      rewrite bounded_fin in E. unfold mzr_of in E. injection E as E1 E2 E3 E4 E5 E6 E7 E8 E9.
      rewrite <- E1, <- E2, <- E3, <- E4, <- E5, <- E6, <- E7, <- E8, <- E9 in A. exact A.
Qed.
Lemma C73_lemma : ~ (forall y x k lo hi a b c d y' x' k' lo' hi' a' b' c' d',
  get_bounded_mzr_params (mzr_of y x k lo hi a b c d) = mzr_of y' x' k' lo' hi' a' b' c' d' -> 0 <= hi' <= 0.3).
Proof.
  intros H. destruct C74_lemma as [K _].
  destruct (K 0 10.5 1 0.9 0.8 (-1.5) 0.1 (-1) 0.1) as (y & x & k & lo & hi & a & b & c & d & _ & E).
  - unfold mzr_admissible. lra.
  - apply H in E. lra.
Qed.

(** ** time evolution *)
Definition evol (y tc e t : R) : R :=
  let tl := Rmax (12.5 - t) 0 in
  Rmin 0 (y + (y / tc + (e - y / tc) * logistic (1.6 * (tl - tc))) * (tl - tc)).
Lemma where_neg x : nwhere (nltb (Fin x) (Fin 0)) (Fin 0) (Fin x) = Fin (Rmax x 0).
Proof.
  cbn [nltb]. destruct (Rlt_bool_spec x 0); cbn [nwhere]; f_equal; unfold Rmax; destruct (Rle_dec x 0); lra.
Qed.
Lemma where_pos x : nwhere (ngtb (Fin x) (Fin 0)) (Fin 0) (Fin x) = Fin (Rmin 0 x).
Proof.
  unfold ngtb. cbn [nltb]. destruct (Rlt_bool_spec 0 x); cbn [nwhere]; f_equal; unfold Rmin; destruct (Rle_dec 0 x); lra.
Qed.
Lemma mzr_evol_fin m t a b tc c d : tc <> 0 ->
  mzr_evolution_model (Fin m) (Fin t) (Fin a) (Fin b) (Fin tc) (Fin c) (Fin d) = Fin (evol (a + b * m) tc (c + d * m) t).
Proof.
  intros H. unfold mzr_evolution_model, mzr_delta_logz_at_t_lookback, mzr_get_p_at_lgmstar, mzr_delta_logz_vs_t_lookback,
    MZR_EVOL_T0, MZR_EVOL_K. unlit.
  rewrite nsub_fin, where_neg, !nmul_fin, !nadd_fin, Rplus_0_r, ndiv_fin, sig_slope_fin, where_pos by auto. reflexivity.
Qed.
Lemma umzr_evol_fin m t a b c d :
  umzr_evolution_model (Fin m) (Fin t) (Fin a) (Fin b) (Fin c) (Fin d) = Fin (evol (a + b * m) 8.44 (c + d * m) t).
Proof.
  unfold umzr_evolution_model, umzr_delta_logz_at_t_lookback, umzr_get_p_at_lgmstar, umzr_delta_logz_vs_t_lookback,
    MZR_EVOL_T0, MZR_EVOL_K, TLOOK_C, MZR_DT_XTP. unlit.
  rewrite nsub_fin, where_neg, !nmul_fin, !nadd_fin, ndiv_fin, sig_slope_fin, where_pos by lra. reflexivity.
Qed.
Definition zsun : R := log10 0.012.
Lemma solar_fin : LGMET_SOLAR = Fin zsun.
Proof. unfold LGMET_SOLAR. unlit. rewrite nlog10_fin by lra. reflexivity. Qed.
Definition mz0 (xtp y x0 k lo hi m : R) : R := y + (lo + (hi - lo) * logistic (k * (m - x0))) * (m - xtp) + zsun.
Lemma mzr_t0_fin m y x k lo hi : mzr_model_t0 (Fin m) (Fin y) (Fin x) (Fin k) (Fin lo) (Fin hi) = Fin (mz0 x y x k lo hi m).
Proof. unfold mzr_model_t0. now rewrite sig_slope_fin, solar_fin, nadd_fin. Qed.
Lemma umzr_t0_fin m y x k lo hi : umzr_model_t0 (Fin m) (Fin y) (Fin x) (Fin k) (Fin lo) (Fin hi) = Fin (mz0 10.5 y x k lo hi m).
Proof. unfold umzr_model_t0, MZR_T0_XTP. unlit. now rewrite sig_slope_fin, solar_fin, nadd_fin. Qed.
Lemma umzr_fin m t y x k lo hi a b c d : umzr_model (Fin m) (Fin t) (mzr_of y x k lo hi a b c d)
  = Fin (mz0 10.5 y x k lo hi m + evol (a + b * m) 8.44 (c + d * m) t).
Proof.
  unfold umzr_model, mzr_of. cbn [mzr_t0_ytp mzr_t0_x0 mzr_t0_k mzr_t0_slope_lo mzr_t0_slope_hi c0_y_at_tlook_c
    c1_y_at_tlook_c c0_early_time_slope c1_early_time_slope].
  now rewrite umzr_t0_fin, umzr_evol_fin, nadd_fin.
Qed.
Lemma mzr_fin m t y x k lo hi a b tc c d : tc <> 0 ->
  mzr_model (Fin m) (Fin t) (Fin y) (Fin x) (Fin k) (Fin lo) (Fin hi) (Fin a) (Fin b) (Fin tc) (Fin c) (Fin d)
  = Fin (mz0 x y x k lo hi m + evol (a + b * m) tc (c + d * m) t).
Proof. intros. unfold mzr_model. now rewrite mzr_t0_fin, mzr_evol_fin, nadd_fin. Qed.
Lemma evol_le y tc e t : evol y tc e t <= 0.
Proof. unfold evol. apply Rmin_l. Qed.
Lemma evol_late y tc e t : 12.5 <= t -> evol y tc e t = evol y tc e 12.5.
Proof. intros. unfold evol. rewrite !Rmax_right by lra. reflexivity. Qed.
(** at late times (no lookback) *)
Lemma C75_lemma : forall m y x k lo hi a b c d,
  (exists z0, umzr_model_t0 (Fin m) (Fin y) (Fin x) (Fin k) (Fin lo) (Fin hi) = Fin z0
    /\ (forall t, exists z, umzr_model (Fin m) (Fin t) (mzr_of y x k lo hi a b c d) = Fin z /\ z <= z0)
    /\ (forall t, 12.5 <= t -> umzr_model (Fin m) (Fin t) (mzr_of y x k lo hi a b c d)
                              = umzr_model (Fin m) (Fin 12.5) (mzr_of y x k lo hi a b c d)))
  /\ (forall tc, tc <> 0 ->
      let model t := mzr_model (Fin m) t (Fin y) (Fin x) (Fin k) (Fin lo) (Fin hi) (Fin a) (Fin b) (Fin tc) (Fin c) (Fin d) in
      exists z0, mzr_model_t0 (Fin m) (Fin y) (Fin x) (Fin k) (Fin lo) (Fin hi) = Fin z0
      /\ (forall t, exists z, model (Fin t) = Fin z /\ z <= z0)
      /\ (forall t, 12.5 <= t -> model (Fin t) = model (Fin 12.5))).
Proof.
  intros. split.
  - eexists. split; [apply umzr_t0_fin|]. split.
    + intros t. eexists. split; [apply umzr_fin|]. pose proof (evol_le (a + b * m) 8.44 (c + d * m) t). lra.
    + intros t Ht. rewrite !umzr_fin. now rewrite (evol_late _ _ _ t Ht).
  - intros tc Htc. cbv zeta. eexists. split; [apply mzr_t0_fin|]. split.
    + intros t. eexists. split; [now apply mzr_fin|]. pose proof (evol_le (a + b * m) tc (c + d * m) t). lra.
    + intros t Ht. rewrite !mzr_fin by auto. now rewrite (evol_late _ _ _ t Ht).
Qed.
Lemma C76_lemma : forall m t,
  (forall y k lo hi a b c d,
    mzr_model m t y (Fin 10.5) k lo hi a b (Fin 8.44) c d
    = umzr_model m t {| mzr_t0_ytp := y; mzr_t0_x0 := Fin 10.5; mzr_t0_k := k; mzr_t0_slope_lo := lo; mzr_t0_slope_hi := hi;
        c0_y_at_tlook_c := a; c1_y_at_tlook_c := b; c0_early_time_slope := c; c1_early_time_slope := d |})
  /\ mzr_model_star m t (firstn (length DEFAULT_MET_PARAMS - 1) DEFAULT_MET_PARAMS) = Ok (umzr_model m t DEFAULT_MZR_PARAMS).
Proof.
  intros m t.
  assert (K : forall y k lo hi a b c d,
    mzr_model m t y (Fin 10.5) k lo hi a b (Fin 8.44) c d
    = umzr_model m t {| mzr_t0_ytp := y; mzr_t0_x0 := Fin 10.5; mzr_t0_k := k; mzr_t0_slope_lo := lo; mzr_t0_slope_hi := hi;
        c0_y_at_tlook_c := a; c1_y_at_tlook_c := b; c0_early_time_slope := c; c1_early_time_slope := d |}).
  { intros. unfold mzr_model, umzr_model.
    cbn [mzr_t0_ytp mzr_t0_x0 mzr_t0_k mzr_t0_slope_lo mzr_t0_slope_hi c0_y_at_tlook_c
      c1_y_at_tlook_c c0_early_time_slope c1_early_time_slope].
    unfold mzr_evolution_model, umzr_evolution_model, mzr_delta_logz_at_t_lookback, umzr_delta_logz_at_t_lookback,
      mzr_get_p_at_lgmstar, umzr_get_p_at_lgmstar, mzr_delta_logz_vs_t_lookback, umzr_delta_logz_vs_t_lookback, TLOOK_C, MZR_DT_XTP.
    rewrite nadd_fin, Rplus_0_r. reflexivity. }
  split; [exact K|]. unfold DEFAULT_MET_PARAMS. cbn [length Nat.sub firstn mzr_model_star]. f_equal.
  unlit. rewrite K. reflexivity.
Qed.
(** ** sharp bound on the slope factor, evolution with time *)
Lemma exp_24 : 11 < exp 2.4.
Proof.
  pose proof (exp_ge_3 0.15 ltac:(lra)) as A.
  assert (E : exp 0.15 ^ 16 = exp 2.4) by (rewrite <- exp_mult_nat; f_equal; simpl; lra).
  rewrite <- E. assert (B : 1.1618 <= exp 0.15) by lra. clear A E. set (x := exp 0.15) in *.
  assert (B2 : 1.34977 <= x ^ 2) by nra. assert (B4 : 1.82187 <= (x ^ 2) ^ 2) by nra.
  assert (B8 : 3.3192 <= ((x ^ 2) ^ 2) ^ 2) by nra. replace (x ^ 16) with (((x ^ 2) ^ 2) ^ 2 * (((x ^ 2) ^ 2) ^ 2)) by ring. nra.
Qed.
Lemma swish_sharp y : logistic y + y * (logistic y * (1 - logistic y)) < 1.1.
Proof.
  assert (T1 : 11 * (1 + (y - ln 11)) <= exp y).
  { pose proof (exp_ge_1 (y - ln 11)) as A. replace (exp y) with (11 * exp (y - ln 11)); [lra|].
    unfold Rminus. rewrite exp_plus, exp_Ropp, exp_ln by lra. field. }
  assert (T2 : / 11 * (1 - (y - ln 11)) <= exp (- y)).
  { pose proof (exp_ge_1 (ln 11 - y)) as A. replace (exp (- y)) with (/ 11 * exp (ln 11 - y)); [lra|].
    unfold Rminus. rewrite exp_plus, exp_ln by lra. field. }
  assert (L : ln 11 < 2.4). { rewrite <- (ln_exp 2.4). apply ln_increasing; [lra|apply exp_24]. }
  assert (H : y < 0.1 * exp y + 1.2 + 1.1 * exp (- y)) by lra.
  unfold logistic. rewrite exp_Ropp in *. pose proof (exp_pos y) as P. set (E := exp y) in *.
  assert (PE : 0 < / E) by now apply Rinv_0_lt_compat.
  replace (1 / (1 + / E) + y * (1 / (1 + / E) * (1 - 1 / (1 + / E)))) with ((E * (1 + E + y)) / (1 + E) ^ 2) by (field; lra).
  apply div_lt_iff; [nra|].
  assert (H' : y * E < (0.1 * E + 1.2 + 1.1 * / E) * E) by (apply Rmult_lt_compat_r; lra).
  replace ((0.1 * E + 1.2 + 1.1 * / E) * E) with (0.1 * E ^ 2 + 1.2 * E + 1.1) in H' by (field; lra). nra.
Qed.
(** ** monotonicity at the present day *)
Lemma mz0_derive y k lo hi m : is_derive (mz0 10.5 y 10.5 k lo hi) m
  (lo + (hi - lo) * (logistic (k * (m - 10.5)) + k * (m - 10.5) * (logistic (k * (m - 10.5)) * (1 - logistic (k * (m - 10.5)))))).
Proof.
  unfold mz0, logistic. pose proof (exp_pos (- (k * (m - 10.5)))). auto_derive.
  - unfold Rminus in *. lra.
  - unfold Rminus in *. set (E := exp (- (k * (m + - (10.5))))) in *. field. lra.
Qed.
Lemma mz0_increasing y k lo hi m m' : m < m' -> 0 < lo -> hi <= lo -> lo <= 11 * hi ->
  mz0 10.5 y 10.5 k lo hi m < mz0 10.5 y 10.5 k lo hi m'.
Proof.
  intros Hm Hlo H1 H2. eapply increasing_of_derive; [exact Hm|intros; apply mz0_derive|].
  intros c _. pose proof (swish_sharp (k * (c - 10.5))) as S. cbv beta.
  set (g := logistic (k * (c - 10.5)) + _) in *. destruct (Req_dec hi lo); [subst; lra|].
  assert ((lo - hi) * g < (lo - hi) * 1.1) by (apply Rmult_lt_compat_l; lra). lra.
Qed.
Lemma C77_lemma : forall m m', m < m' ->
  (forall p, p = DEFAULT_MZR_PARAMS -> exists z z',
     umzr_model_t0 (Fin m) (mzr_t0_ytp p) (mzr_t0_x0 p) (mzr_t0_k p) (mzr_t0_slope_lo p) (mzr_t0_slope_hi p) = Fin z
     /\ umzr_model_t0 (Fin m') (mzr_t0_ytp p) (mzr_t0_x0 p) (mzr_t0_k p) (mzr_t0_slope_lo p) (mzr_t0_slope_hi p) = Fin z' /\ z < z')
  /\ (forall y k lo hi, 0 < lo -> lo <= 11 * hi -> hi <= lo -> exists z z',
     umzr_model_t0 (Fin m) (Fin y) (Fin 10.5) (Fin k) (Fin lo) (Fin hi) = Fin z
     /\ umzr_model_t0 (Fin m') (Fin y) (Fin 10.5) (Fin k) (Fin lo) (Fin hi) = Fin z' /\ z < z').
Proof.
  intros m m' Hm. split.
  - intros p ->. unfold DEFAULT_MZR_PARAMS. cbn [mzr_t0_ytp mzr_t0_x0 mzr_t0_k mzr_t0_slope_lo mzr_t0_slope_hi]. unlit.
    do 2 eexists. split; [apply umzr_t0_fin|]. split; [apply umzr_t0_fin|]. apply mz0_increasing; lra.
  - intros y k lo hi H1 H2 H3. do 2 eexists. split; [apply umzr_t0_fin|]. split; [apply umzr_t0_fin|]. apply mz0_increasing; lra.
Qed.
Lemma exp_2_ub : exp 2 <= 8.
Proof.
  assert (exp (-1/2) >= 1/2) by (pose proof (exp_ge_1 (-1/2)); lra).
  assert (A : 0.354 <= exp (-1)).
  { pose proof (exp_ge_1 (-1/16)) as A. pose proof (pow_incr (15/16) (exp (-1/16)) 16 ltac:(lra)) as B.
    assert (E : exp (-1/16) ^ 16 = exp (-1)). { rewrite <- exp_mult_nat. f_equal. simpl. lra. }
    rewrite E in B. assert (0.354 <= (15/16)^16) by lra. lra. }
  assert (B : exp (-1) * exp (-1) * exp 2 = 1). { rewrite <- !exp_plus. replace (-1 + -1 + 2) with 0 by lra. apply exp_0. }
  pose proof (exp_pos 2). nra.
Qed.
Lemma C78_lemma : ~ (forall u y x k lo hi a b c d, get_bounded_mzr_params u = mzr_of y x k lo hi a b c d ->
  forall m m' z z', m < m' ->
    umzr_model_t0 (Fin m) (Fin y) (Fin x) (Fin k) (Fin lo) (Fin hi) = Fin z ->
    umzr_model_t0 (Fin m') (Fin y) (Fin x) (Fin k) (Fin lo) (Fin hi) = Fin z' -> z <= z').
Proof.
  intros H. destruct C74_lemma as [K _].
  destruct (K 0 10.5 1 0.9 0.01 (-1.5) 0.1 (-1) 0.1) as (y & x & k & lo & hi & a & b & c & d & _ & E).
  { unfold mzr_admissible. lra. }
  pose proof (H _ _ _ _ _ _ _ _ _ _ E 12.5 13.5 _ _ ltac:(lra) (umzr_t0_fin _ _ _ _ _ _) (umzr_t0_fin _ _ _ _ _ _)) as L.
  unfold mz0 in L. replace (1 * (12.5 - 10.5)) with 2 in L by lra. replace (1 * (13.5 - 10.5)) with 3 in L by lra.
  assert (A : logistic 2 <= 0.889).
  { unfold logistic. pose proof exp_2_ub. pose proof (exp_pos 2). rewrite exp_Ropp.
    assert (1/8 <= / exp 2). { apply (Rmult_le_reg_r (exp 2)); [lra|]. rewrite Rinv_l by lra. lra. }
    apply div_le_iff; lra. }
  assert (B : 0.95 <= logistic 3).
  { unfold logistic. pose proof exp_3. rewrite exp_Ropp.
    assert (/ exp 3 <= 1/19). { apply (Rmult_le_reg_r (exp 3)); [lra|]. rewrite Rinv_l by lra. lra. }
    pose proof (Rinv_0_lt_compat _ (exp_pos 3)). apply le_div_iff; lra. }
  lra.
Qed.

Definition swish (y : R) : R := logistic y + y * (logistic y * (1 - logistic y)).
Lemma swish_range y : -0.1 < swish y < 1.1.
Proof.
  split; [|apply swish_sharp]. pose proof (swish_sharp (- y)) as H. rewrite logistic_opp in H. unfold swish. lra.
Qed.
Lemma mix_pos A E g : 0 <= A -> A <= 11 * E -> E <= 11 * A -> -0.1 < g < 1.1 -> 0 <= A + (E - A) * g.
Proof. intros HA H1 H2 Hg. destruct (Rle_dec A E); nra. Qed.
Definition evf (y tc e u : R) : R := y + (y / tc + (e - y / tc) * logistic (1.6 * (u - tc))) * (u - tc).
Lemma evf_derive y tc e u : is_derive (fun u => evf y tc e u) u (y / tc + (e - y / tc) * swish (1.6 * (u - tc))).
Proof.
  unfold evf, swish, logistic. pose proof (exp_pos (- (1.6 * (u - tc)))). auto_derive.
  - unfold Rminus in *. lra.
  - unfold Rminus in *. set (E := exp (- (1.6 * (u + - tc)))) in *. set (q := y / tc). field. lra.
Qed.
Lemma evf_decreasing y tc e u v : y / tc <= 0 -> - (y / tc) <= 11 * - e -> - e <= 11 * - (y / tc) -> u <= v ->
  evf y tc e v <= evf y tc e u.
Proof.
  intros H0 H1 H2 Huv.
  assert (K : - evf y tc e u <= - evf y tc e v).
  { apply (nondecreasing_of_derive (fun u => - evf y tc e u) (fun u => - (y / tc + (e - y / tc) * swish (1.6 * (u - tc)))) u v Huv).
    - intros c _. apply (is_derive_opp (fun u => evf y tc e u)). apply evf_derive.
    - intros c _. pose proof (mix_pos (- (y / tc)) (- e) (swish (1.6 * (c - tc))) ltac:(lra) H1 H2 (swish_range _)).
      set (q := y / tc) in *. set (g := swish _) in *. replace (- (q + (e - q) * g)) with (- q + (- e - - q) * g) by ring. auto. }
  lra.
Qed.
Lemma evol_mono y tc e t t' : y / tc <= 0 -> - (y / tc) <= 11 * - e -> - e <= 11 * - (y / tc) -> t <= t' ->
  evol y tc e t <= evol y tc e t'.
Proof.
  intros H0 H1 H2 Ht. unfold evol. cbv zeta. fold (evf y tc e (Rmax (12.5 - t) 0)). fold (evf y tc e (Rmax (12.5 - t') 0)).
  apply Rle_min_compat_l. apply evf_decreasing; auto. apply Rle_max_compat_r. lra.
Qed.
Lemma C96_lemma : forall m t t', t <= t' ->
  (m <= 9 -> exists z z', umzr_model (Fin m) (Fin t) DEFAULT_MZR_PARAMS = Fin z
     /\ umzr_model (Fin m) (Fin t') DEFAULT_MZR_PARAMS = Fin z' /\ z <= z')
  /\ (forall y x k lo hi a b c d, (* late slope and early slope at this mass *)
      let late := (a + b * m) / 8.44 in let early := c + d * m in
      late <= 0 -> 11 * early <= late -> 11 * late <= early ->
      exists z z', umzr_model (Fin m) (Fin t) (mzr_of y x k lo hi a b c d) = Fin z
       /\ umzr_model (Fin m) (Fin t') (mzr_of y x k lo hi a b c d) = Fin z' /\ z <= z').
Proof.
  intros m t t' Ht.
  assert (K : forall y x k lo hi a b c d,
      let late := (a + b * m) / 8.44 in let early := c + d * m in
      late <= 0 -> 11 * early <= late -> 11 * late <= early ->
      exists z z', umzr_model (Fin m) (Fin t) (mzr_of y x k lo hi a b c d) = Fin z
       /\ umzr_model (Fin m) (Fin t') (mzr_of y x k lo hi a b c d) = Fin z' /\ z <= z').
  { intros y x k lo hi a b c d late early H0 H1 H2. unfold late, early in *.
    do 2 eexists. split; [apply umzr_fin|]. split; [apply umzr_fin|]. apply Rplus_le_compat_l. apply evol_mono; auto; lra. }
  split; [|exact K]. intros Hm. apply (K 0.05 10.5 1 0.4 0.1 (-1.455) 0.13 (-0.959) 0.067242); cbv zeta; lra.
Qed.
Lemma C97_lemma : exists z z', umzr_model (Fin 11) (Fin 5.5) DEFAULT_MZR_PARAMS = Fin z
  /\ umzr_model (Fin 11) (Fin 7.5) DEFAULT_MZR_PARAMS = Fin z' /\ z' < z.
Proof.
  do 2 eexists. split; [apply (umzr_fin 11 5.5 0.05 10.5 1 0.4 0.1 (-1.455) 0.13 (-0.959) 0.067242)|].
  split; [apply (umzr_fin 11 7.5 0.05 10.5 1 0.4 0.1 (-1.455) 0.13 (-0.959) 0.067242)|].
  apply Rplus_lt_compat_l. unfold evol. cbv zeta.
  rewrite (Rmax_left (12.5 - 7.5)), (Rmax_left (12.5 - 5.5)) by lra.
  assert (A : logistic (1.6 * (12.5 - 7.5 - 8.44)) <= 0.005).
  { replace (1.6 * (12.5 - 7.5 - 8.44)) with (- 5.504) by lra. unfold logistic. replace (- (- 5.504)) with 5.504 by lra.
    assert (199 <= exp 5.504).
    { apply Rle_trans with (exp 5.5); [|apply Rlt_le, exp_increasing; lra].
      replace 5.5 with (INR 11 / 2) by (simpl; lra). eapply Rle_trans; [|apply exp_lb_half]. lra. }
    pose proof (exp_pos 5.504). apply div_le_iff; lra. }
  assert (B : 0.0722 <= logistic (1.6 * (12.5 - 5.5 - 8.44))).
  { replace (1.6 * (12.5 - 5.5 - 8.44)) with (- 2.304) by lra. unfold logistic. replace (- (- 2.304)) with 2.304 by lra.
    assert (exp 2.304 <= 11).
    { assert (exp (-2.304) * exp 2.304 = 1) by (rewrite <- exp_plus; replace (-2.304 + 2.304) with 0 by lra; apply exp_0).
      assert (E : exp (-0.144) ^ 16 = exp (-2.304)) by (rewrite <- exp_mult_nat; f_equal; simpl; lra).
      assert (F : 0.8645 <= exp (-0.144)).
      { pose proof (exp_ge_1 (-0.072)). assert (G : exp (-0.072) ^ 2 = exp (-0.144)) by (rewrite <- exp_mult_nat; f_equal; simpl; lra).
        pose proof (exp_ge_1 (-0.036)). assert (G' : exp (-0.036) ^ 2 = exp (-0.072)) by (rewrite <- exp_mult_nat; f_equal; simpl; lra).
        pose proof (exp_ge_1 (-0.018)). assert (G'' : exp (-0.018) ^ 2 = exp (-0.036)) by (rewrite <- exp_mult_nat; f_equal; simpl; lra).
        assert (0.9643 <= exp (-0.036)) by nra. assert (0.9298 <= exp (-0.072)) by nra. nra. }
      assert (Q : 0.0912 <= exp (-2.304)).
      { rewrite <- E. set (x := exp (-0.144)) in *. assert (0.747 <= x ^ 2) by nra.
        assert (0.558 <= (x ^ 2) ^ 2) by nra. assert (0.311 <= ((x ^ 2) ^ 2) ^ 2) by nra.
        replace (x ^ 16) with (((x ^ 2) ^ 2) ^ 2 * (((x ^ 2) ^ 2) ^ 2)) by ring. nra. }
      pose proof (exp_pos 2.304). nra. }
    pose proof (exp_pos 2.304). apply le_div_iff; lra. }
  set (s1 := logistic (1.6 * (12.5 - 7.5 - 8.44))) in *. set (s2 := logistic (1.6 * (12.5 - 5.5 - 8.44))) in *.
  eapply Rle_lt_trans; [apply Rmin_r|]. rewrite (Rmin_left 0) by lra. lra.
Qed.

(** ** random draws *)
Lemma C98_lemma : forall draws bounds, length draws = length bounds ->
  List.Forall (fun r => 0 <= r < 1) draws -> List.Forall (fun b => fst b < snd b) bounds ->
  exists l, get_ran_t0_params (fins draws) (map (fun b => (Fin (fst b), Fin (snd b))) bounds) = fins l
   /\ length l = length bounds
   /\ forall i, (i < length bounds)%nat -> fst (nth i bounds (0, 0)) <= ent l i < snd (nth i bounds (0, 0)).
Proof.
  intros draws. induction draws as [|r draws IH]; intros [|[lo hi] bounds] L D B; try discriminate.
  - exists []. split; [reflexivity|]. split; [reflexivity|]. intros i Hi. simpl in Hi. lia.
  - inversion D; inversion B; subst. destruct (IH bounds ltac:(simpl in L; lia) H2 H6) as (l & E & Ll & P).
    exists ((r * (hi - lo) + lo) :: l). split; [|split; [simpl; lia|]].
    + unfold get_ran_t0_params in *. cbn [fins map map2 fst snd]. change (map Fin draws) with (fins draws). rewrite E.
      rewrite nsub_fin, nmul_fin, nadd_fin. cbn [fst snd] in *. f_equal. unfold nmax. cbn [nisnan orb nltb].
      destruct (Rlt_bool_spec lo (r * (hi - lo) + lo)) as [K|K]; auto. f_equal. nra.
    + intros [|i] Hi; cbn [nth fst snd] in *; unfold ent; cbn [nth]; [split; nra|]. apply (P i). simpl in Hi. lia.
Qed.
Lemma C99_lemma :
  (forall y x k lo hi a b c d, 0 < lo < hi ->
     mzr_t0_slope_hi (get_unbounded_mzr_params (mzr_of y x k lo hi a b c d)) = NaN)
  /\ (exists draws, List.Forall (fun r => 0 <= r < 1) draws /\
        exists y x k lo hi, get_ran_t0_params (fins draws)
          [b_mzr_t0_ytp; b_mzr_t0_x0; b_mzr_t0_k; b_mzr_t0_slope_lo; b_mzr_t0_slope_hi] = [Fin y; Fin x; Fin k; Fin lo; Fin hi]
        /\ 0 < lo < hi).
Proof.
  split.
  - intros y x k lo hi a b c d H. unfold get_unbounded_mzr_params, replace_slope_hi, mzr_of.
    cbn [mzr_t0_slope_lo mzr_t0_slope_hi].
    unfold get_u_mzr_t0_slope_hi_from_bounded, BOUNDING_K, b_mzr_t0_slope_hi, inverse_sigmoid. cbn [fst]. unlit.
    rewrite !nsub_fin, ndiv_fin, nsub_fin by lra.
    assert ((lo - 0) / (hi - 0) - 1 < 0). { assert ((lo - 0) / (hi - 0) < 1) by (apply div_lt_iff; lra). lra. }
    unfold nln. rewrite Rlt_bool_false, Req_bool_false by lra. reflexivity.
  - exists [0; 0; 0; 0; 0.5]. split; [repeat constructor; lra|].
    destruct (C98_lemma [0; 0; 0; 0; 0.5] [(-1, 1/4); (10.25, 10.75); (0.5, 2); (0.1, 1); (0, 0.3)]) as (l & E & _ & _);
      try reflexivity; try (repeat constructor; simpl; lra).
    unfold get_ran_t0_params in *. unfold b_mzr_t0_ytp, b_mzr_t0_x0, b_mzr_t0_k, b_mzr_t0_slope_lo, b_mzr_t0_slope_hi. unlit.
    cbn [fins map map2 fst snd]. rewrite !nsub_fin, !nmul_fin, !nadd_fin.
    assert (K : forall u v, u <= v -> nmax (Fin u) (Fin v) = Fin v).
    { intros u v Huv. unfold nmax. cbn [nisnan orb nltb]. destruct (Rlt_bool_spec u v); auto. f_equal. lra. }
    rewrite !K by lra. do 5 eexists. split; [reflexivity|]. lra.
Qed.
