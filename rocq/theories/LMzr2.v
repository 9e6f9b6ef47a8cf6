(** * Closed form of the mass-metallicity models *)
From Coq Require Import Reals List Arith Lra Lia Bool.
From Coquelicot Require Import Coquelicot.
From Flocq Require Import Core.Raux.
From Verif Require Import Num Arr MUtils MMzr Spec Spec2 SpecApi RList LUtils LCalc LKern LKern2 LBurst LImf LMzr.
Import ListNotations.
Open Scope R_scope.

Lemma C114_umzr_lemma : forall m t y x k lo hi a b c d,
  umzr_model (Fin m) (Fin t) (mzr_of y x k lo hi a b c d)
  = Fin (log10 0.012 + sigmoid_slope_line 10.5 y x k lo hi m
         + Rmin 0 (sigmoid_slope_line 8.44 (a + b * m) 8.44 1.6 ((a + b * m) / 8.44) (c + d * m) (Rmax 0 (12.5 - t)))).
Proof.
  intros. rewrite umzr_fin. f_equal. unfold mz0, evol, sigmoid_slope_line, zsun. rewrite (Rmax_comm 0). lra.
Qed.
Lemma C114_mzr_lemma : forall m t y x k lo hi a b tc c d, tc <> 0 ->
  mzr_model (Fin m) (Fin t) (Fin y) (Fin x) (Fin k) (Fin lo) (Fin hi) (Fin a) (Fin b) (Fin tc) (Fin c) (Fin d)
  = Fin (log10 0.012 + sigmoid_slope_line x y x k lo hi m
         + Rmin 0 (sigmoid_slope_line tc (a + b * m) tc 1.6 ((a + b * m) / tc) (c + d * m) (Rmax 0 (12.5 - t)))).
Proof.
  intros. rewrite mzr_fin by auto. f_equal. unfold mz0, evol, sigmoid_slope_line, zsun. rewrite (Rmax_comm 0). lra.
Qed.
(** at the pivot mass the present-day relation is solar metallicity plus the offset, whatever the slopes *)
Lemma C114_pivot_lemma : forall y x k lo hi,
  umzr_model_t0 (Fin 10.5) (Fin y) (Fin x) (Fin k) (Fin lo) (Fin hi) = Fin (log10 0.012 + y)
  /\ mzr_model_t0 (Fin x) (Fin y) (Fin x) (Fin k) (Fin lo) (Fin hi) = Fin (log10 0.012 + y).
Proof.
  intros. rewrite umzr_t0_fin, mzr_t0_fin. unfold mz0, zsun. split; f_equal; unfold Rminus; rewrite Rplus_opp_r, Rmult_0_r; lra.
Qed.
(** the relation lies between the two lines through the pivot, and at the critical look-back time
    the drop is the stated one *)
Lemma C114_between_lemma : forall m y x k lo hi, hi < lo -> m <> 10.5 -> exists v,
  umzr_model_t0 (Fin m) (Fin y) (Fin x) (Fin k) (Fin lo) (Fin hi) = Fin v
  /\ hi < (v - (log10 0.012 + y)) / (m - 10.5) < lo.
Proof.
  intros. eexists. split; [apply umzr_t0_fin|]. unfold mz0, zsun. pose proof (logistic_bounds (k * (m - x))) as L.
  replace (_ / (m - 10.5)) with (lo + (hi - lo) * logistic (k * (m - x))) by (field; lra). split; nra.
Qed.
Lemma C114_lookback_lemma : forall m y x k lo hi a b c d, exists v,
  umzr_model_t0 (Fin m) (Fin y) (Fin x) (Fin k) (Fin lo) (Fin hi) = Fin v
  /\ umzr_model (Fin m) (Fin (12.5 - 8.44)) (mzr_of y x k lo hi a b c d) = Fin (v + Rmin 0 (a + b * m))
  /\ forall t, 12.5 <= t ->
     umzr_model (Fin m) (Fin t) (mzr_of y x k lo hi a b c d)
     = Fin (v + Rmin 0 (((a + b * m) - 8.44 * (c + d * m)) * logistic (- (1.6 * 8.44)))).
Proof.
  intros. eexists. split; [apply umzr_t0_fin|]. split; [|intros t Ht].
  - rewrite C114_umzr_lemma. replace (12.5 - (12.5 - 8.44)) with 8.44 by lra.
    rewrite (Rmax_right 0 8.44) by lra. unfold mz0, zsun, sigmoid_slope_line. f_equal.
    replace (8.44 - 8.44) with 0 by lra. rewrite Rmult_0_r, Rplus_0_r. lra.
  - rewrite C114_umzr_lemma. rewrite (Rmax_left 0 (12.5 - t)) by lra. unfold mz0, zsun, sigmoid_slope_line. f_equal.
    replace (1.6 * (0 - 8.44)) with (- (1.6 * 8.44)) by lra.
    set (s := a + b * m). set (e := c + d * m). set (q := logistic (- (1.6 * 8.44))).
    replace (s + (s / 8.44 + (e - s / 8.44) * q) * (0 - 8.44)) with ((s - 8.44 * e) * q) by (field; lra). lra.
Qed.
