(** * Properties C72-C78, C96-C99, C114: mass-metallicity relation (metallicity/mzr.py, umzr.py).
    Exact real arithmetic. *)
From Coq Require Import Reals List Arith Lra Lia.
From Verif Require Import Num Arr MUtils MMzr Spec Spec2 SpecApi RList LMzr LMzr2 LMore1.
Import ListNotations.
Open Scope R_scope.

(** C72 *)
Theorem C72_bounded_parameters : forall y x k lo hi a b c d, exists y' x' k' lo' hi' a' b' c' d',
  get_bounded_mzr_params (mzr_of y x k lo hi a b c d) = mzr_of y' x' k' lo' hi' a' b' c' d'
  /\ mzr_admissible y' x' k' lo' hi' a' b' c' d'.
Proof. exact C72_lemma. Qed.
Print Assumptions C72_bounded_parameters.

(** C73: the claim that mzr_t0_slope_hi stays inside its documented bounds (0, 0.3) is false *)
Theorem C73_slope_hi_leaves_bounds_refuted : ~ (forall y x k lo hi a b c d y' x' k' lo' hi' a' b' c' d',
  get_bounded_mzr_params (mzr_of y x k lo hi a b c d) = mzr_of y' x' k' lo' hi' a' b' c' d' -> 0 <= hi' <= 0.3).
Proof. exact C73_lemma. Qed.
Print Assumptions C73_slope_hi_leaves_bounds_refuted.

(** C74 *)
Theorem C74_round_trips : (forall y x k lo hi a b c d, mzr_admissible y x k lo hi a b c d ->
     exists y' x' k' lo' hi' a' b' c' d',
       get_unbounded_mzr_params (mzr_of y x k lo hi a b c d) = mzr_of y' x' k' lo' hi' a' b' c' d'
       /\ get_bounded_mzr_params (mzr_of y' x' k' lo' hi' a' b' c' d') = mzr_of y x k lo hi a b c d)
  /\ (forall y x k lo hi a b c d,
       get_unbounded_mzr_params (get_bounded_mzr_params (mzr_of y x k lo hi a b c d)) = mzr_of y x k lo hi a b c d).
Proof. exact C74_lemma. Qed.
Print Assumptions C74_round_trips.
Example C74_nonvacuous : mzr_admissible 0.05 10.5 1 0.4 0.1 (-1.455) 0.13 (-0.959) 0.067242
  /\ DEFAULT_MZR_PARAMS = mzr_of 0.05 10.5 1 0.4 0.1 (-1.455) 0.13 (-0.959) 0.067242.
Proof. split; [unfold mzr_admissible; lra|reflexivity]. Qed.

(** C75 *)
Theorem C75_evolution_lowers_metallicity : forall m y x k lo hi a b c d,
  (exists z0, umzr_model_t0 (Fin m) (Fin y) (Fin x) (Fin k) (Fin lo) (Fin hi) = Fin z0
    /\ (forall t, exists z, umzr_model (Fin m) (Fin t) (mzr_of y x k lo hi a b c d) = Fin z /\ z <= z0)
    /\ (forall t, 12.5 <= t -> umzr_model (Fin m) (Fin t) (mzr_of y x k lo hi a b c d)
                              = umzr_model (Fin m) (Fin 12.5) (mzr_of y x k lo hi a b c d)))
  /\ (forall tc, tc <> 0 ->
      let model t := mzr_model (Fin m) t (Fin y) (Fin x) (Fin k) (Fin lo) (Fin hi) (Fin a) (Fin b) (Fin tc) (Fin c) (Fin d) in
      exists z0, mzr_model_t0 (Fin m) (Fin y) (Fin x) (Fin k) (Fin lo) (Fin hi) = Fin z0
      /\ (forall t, exists z, model (Fin t) = Fin z /\ z <= z0)
      /\ (forall t, 12.5 <= t -> model (Fin t) = model (Fin 12.5))).
Proof. exact C75_lemma. Qed.
Print Assumptions C75_evolution_lowers_metallicity.

(** C76 *)
Theorem C76_modules_agree : forall m t,
  (forall y k lo hi a b c d,
    mzr_model m t y (Fin 10.5) k lo hi a b (Fin 8.44) c d
    = umzr_model m t {| mzr_t0_ytp := y; mzr_t0_x0 := Fin 10.5; mzr_t0_k := k; mzr_t0_slope_lo := lo; mzr_t0_slope_hi := hi;
        c0_y_at_tlook_c := a; c1_y_at_tlook_c := b; c0_early_time_slope := c; c1_early_time_slope := d |})
  /\ mzr_model_star m t (firstn (length DEFAULT_MET_PARAMS - 1) DEFAULT_MET_PARAMS) = Ok (umzr_model m t DEFAULT_MZR_PARAMS).
Proof. exact C76_lemma. Qed.
Print Assumptions C76_modules_agree.
(** mzr_model takes ten parameters besides mass and time.  The default parameter list has eleven
    entries (the last is the scatter), so unpacking all of it raises *)
Theorem C76_number_of_parameters {AR : Arith} : forall m t params,
  (length params <> 10%nat -> mzr_model_star m t params = Raise TypeError)
  /\ (length params = 10%nat -> exists z, mzr_model_star m t params = Ok z)
  /\ mzr_model_star m t DEFAULT_MET_PARAMS = Raise TypeError.
Proof. exact C76_count_lemma. Qed.
Print Assumptions C76_number_of_parameters.

(** C77 *)
Theorem C77_t0_relation_increasing : forall m m', m < m' ->
  (forall p, p = DEFAULT_MZR_PARAMS -> exists z z',
     umzr_model_t0 (Fin m) (mzr_t0_ytp p) (mzr_t0_x0 p) (mzr_t0_k p) (mzr_t0_slope_lo p) (mzr_t0_slope_hi p) = Fin z
     /\ umzr_model_t0 (Fin m') (mzr_t0_ytp p) (mzr_t0_x0 p) (mzr_t0_k p) (mzr_t0_slope_lo p) (mzr_t0_slope_hi p) = Fin z' /\ z < z')
  /\ (forall y k lo hi, 0 < lo -> lo <= 11 * hi -> hi <= lo -> exists z z',
     umzr_model_t0 (Fin m) (Fin y) (Fin 10.5) (Fin k) (Fin lo) (Fin hi) = Fin z
     /\ umzr_model_t0 (Fin m') (Fin y) (Fin 10.5) (Fin k) (Fin lo) (Fin hi) = Fin z' /\ z < z').
Proof. exact C77_lemma. Qed.
Print Assumptions C77_t0_relation_increasing.

(** C78: the claim that the present-day relation is increasing for all allowed parameters is
    false *)
Theorem C78_t0_relation_can_decrease_refuted : ~ (forall u y x k lo hi a b c d, get_bounded_mzr_params u = mzr_of y x k lo hi a b c d ->
  forall m m' z z', m < m' ->
    umzr_model_t0 (Fin m) (Fin y) (Fin x) (Fin k) (Fin lo) (Fin hi) = Fin z ->
    umzr_model_t0 (Fin m') (Fin y) (Fin x) (Fin k) (Fin lo) (Fin hi) = Fin z' -> z <= z').
Proof. exact C78_lemma. Qed.
Print Assumptions C78_t0_relation_can_decrease_refuted.

(** C96 *)
Theorem C96_metallicity_grows_with_time : forall m t t', t <= t' ->
  (m <= 9 -> exists z z', umzr_model (Fin m) (Fin t) DEFAULT_MZR_PARAMS = Fin z
     /\ umzr_model (Fin m) (Fin t') DEFAULT_MZR_PARAMS = Fin z' /\ z <= z')
  /\ (forall y x k lo hi a b c d, (* late slope and early slope at this mass *)
      let late := (a + b * m) / 8.44 in let early := c + d * m in
      late <= 0 -> 11 * early <= late -> 11 * late <= early ->
      exists z z', umzr_model (Fin m) (Fin t) (mzr_of y x k lo hi a b c d) = Fin z
       /\ umzr_model (Fin m) (Fin t') (mzr_of y x k lo hi a b c d) = Fin z' /\ z <= z').
Proof. exact C96_lemma. Qed.
Print Assumptions C96_metallicity_grows_with_time.

(** C97: at the default parameters a galaxy of 10^11 Msun is more metal rich at 5.5 Gyr than at
    7.5 Gyr *)
Theorem C97_metallicity_can_drop_with_time : exists z z', umzr_model (Fin 11) (Fin 5.5) DEFAULT_MZR_PARAMS = Fin z
  /\ umzr_model (Fin 11) (Fin 7.5) DEFAULT_MZR_PARAMS = Fin z' /\ z' < z.
Proof. exact C97_lemma. Qed.
Print Assumptions C97_metallicity_can_drop_with_time.

(** C98 *)
Theorem C98_random_parameters_in_bounds : forall draws bounds, length draws = length bounds ->
  List.Forall (fun r => 0 <= r < 1) draws -> List.Forall (fun b => fst b < snd b) bounds ->
  exists l, get_ran_t0_params (fins draws) (map (fun b => (Fin (fst b), Fin (snd b))) bounds) = fins l
   /\ length l = length bounds
   /\ forall i, (i < length bounds)%nat -> fst (nth i bounds (0, 0)) <= ent l i < snd (nth i bounds (0, 0)).
Proof. exact C98_lemma. Qed.
Print Assumptions C98_random_parameters_in_bounds.
Example C98_nonvacuous : Forall (fun r => 0 <= r < 1) [0.5; 0] /\ Forall (fun b => fst b < snd b) [(-1, 1/4); (10.25, 10.75)].
Proof. split; repeat constructor; simpl; lra. Qed.

(** C99 *)
Theorem C99_random_parameters_can_be_inadmissible : (forall y x k lo hi a b c d, 0 < lo < hi ->
     mzr_t0_slope_hi (get_unbounded_mzr_params (mzr_of y x k lo hi a b c d)) = NaN)
  /\ (exists draws, List.Forall (fun r => 0 <= r < 1) draws /\
        exists y x k lo hi, get_ran_t0_params (fins draws)
          [b_mzr_t0_ytp; b_mzr_t0_x0; b_mzr_t0_k; b_mzr_t0_slope_lo; b_mzr_t0_slope_hi] = [Fin y; Fin x; Fin k; Fin lo; Fin hi]
        /\ 0 < lo < hi).
Proof. exact C99_lemma. Qed.
Print Assumptions C99_random_parameters_can_be_inadmissible.

(** C114 *)
Theorem C114_umzr_closed_form : forall m t y x k lo hi a b c d,
  umzr_model (Fin m) (Fin t) (mzr_of y x k lo hi a b c d)
  = Fin (log10 0.012 + sigmoid_slope_line 10.5 y x k lo hi m
         + Rmin 0 (sigmoid_slope_line 8.44 (a + b * m) 8.44 1.6 ((a + b * m) / 8.44) (c + d * m) (Rmax 0 (12.5 - t)))).
Proof. exact C114_umzr_lemma. Qed.
Print Assumptions C114_umzr_closed_form.
Theorem C114_mzr_closed_form : forall m t y x k lo hi a b tc c d, tc <> 0 ->
  mzr_model (Fin m) (Fin t) (Fin y) (Fin x) (Fin k) (Fin lo) (Fin hi) (Fin a) (Fin b) (Fin tc) (Fin c) (Fin d)
  = Fin (log10 0.012 + sigmoid_slope_line x y x k lo hi m
         + Rmin 0 (sigmoid_slope_line tc (a + b * m) tc 1.6 ((a + b * m) / tc) (c + d * m) (Rmax 0 (12.5 - t)))).
Proof. exact C114_mzr_lemma. Qed.
Print Assumptions C114_mzr_closed_form.
Theorem C114_pivot_mass : forall y x k lo hi,
  umzr_model_t0 (Fin 10.5) (Fin y) (Fin x) (Fin k) (Fin lo) (Fin hi) = Fin (log10 0.012 + y)
  /\ mzr_model_t0 (Fin x) (Fin y) (Fin x) (Fin k) (Fin lo) (Fin hi) = Fin (log10 0.012 + y).
Proof. exact C114_pivot_lemma. Qed.
Print Assumptions C114_pivot_mass.
Theorem C114_slopes : forall m y x k lo hi, hi < lo -> m <> 10.5 -> exists v,
  umzr_model_t0 (Fin m) (Fin y) (Fin x) (Fin k) (Fin lo) (Fin hi) = Fin v
  /\ hi < (v - (log10 0.012 + y)) / (m - 10.5) < lo.
Proof. exact C114_between_lemma. Qed.
Print Assumptions C114_slopes.
Theorem C114_lookback_times : forall m y x k lo hi a b c d, exists v,
  umzr_model_t0 (Fin m) (Fin y) (Fin x) (Fin k) (Fin lo) (Fin hi) = Fin v
  /\ umzr_model (Fin m) (Fin (12.5 - 8.44)) (mzr_of y x k lo hi a b c d) = Fin (v + Rmin 0 (a + b * m))
  /\ forall t, 12.5 <= t ->
     umzr_model (Fin m) (Fin t) (mzr_of y x k lo hi a b c d)
     = Fin (v + Rmin 0 (((a + b * m) - 8.44 * (c + d * m)) * logistic (- (1.6 * 8.44)))).
Proof. exact C114_lookback_lemma. Qed.
Print Assumptions C114_lookback_times.
