(** * Properties C72-C78, C96-C99, C114: mass-metallicity relation (metallicity/mzr.py, umzr.py).
    Exact real arithmetic. *)
From Coq Require Import Reals List Arith Lra Lia.
From Verif Require Import Num Arr MUtils MMzr Spec Spec2 SpecApi RList LMzr LMzr2 LMore1.
Import ListNotations.
Open Scope R_scope.

(** C72 *)
@@C72_bounded_parameters = LMzr.C72_lemma

(** C73: the claim that mzr_t0_slope_hi stays inside its documented bounds (0, 0.3) is false *)
@@C73_slope_hi_leaves_bounds_refuted = LMzr.C73_lemma

(** C74 *)
@@C74_round_trips = LMzr.C74_lemma
Example C74_nonvacuous : mzr_admissible 0.05 10.5 1 0.4 0.1 (-1.455) 0.13 (-0.959) 0.067242
  /\ DEFAULT_MZR_PARAMS = mzr_of 0.05 10.5 1 0.4 0.1 (-1.455) 0.13 (-0.959) 0.067242.
Proof. split; [unfold mzr_admissible; lra|reflexivity]. Qed.

(** C75 *)
@@C75_evolution_lowers_metallicity = LMzr.C75_lemma

(** C76 *)
@@C76_modules_agree = LMzr.C76_lemma
(** mzr_model takes ten parameters besides mass and time.  The default parameter list has eleven
    entries (the last is the scatter), so unpacking all of it raises *)
@@C76_number_of_parameters = LMore1.C76_count_lemma

(** C77 *)
@@C77_t0_relation_increasing = LMzr.C77_lemma

(** C78: the claim that the present-day relation is increasing for all allowed parameters is
    false *)
@@C78_t0_relation_can_decrease_refuted = LMzr.C78_lemma

(** C96 *)
@@C96_metallicity_grows_with_time = LMzr.C96_lemma

(** C97: at the default parameters a galaxy of 10^11 Msun is more metal rich at 5.5 Gyr than at
    7.5 Gyr *)
@@C97_metallicity_can_drop_with_time = LMzr.C97_lemma

(** C98 *)
@@C98_random_parameters_in_bounds = LMzr.C98_lemma
Example C98_nonvacuous : Forall (fun r => 0 <= r < 1) [0.5; 0] /\ Forall (fun b => fst b < snd b) [(-1, 1/4); (10.25, 10.75)].
Proof. split; repeat constructor; simpl; lra. Qed.

(** C99 *)
@@C99_random_parameters_can_be_inadmissible = LMzr.C99_lemma

(** C114 *)
@@C114_umzr_closed_form = LMzr2.C114_umzr_lemma
@@C114_mzr_closed_form = LMzr2.C114_mzr_lemma
@@C114_pivot_mass = LMzr2.C114_pivot_lemma
@@C114_slopes = LMzr2.C114_between_lemma
@@C114_lookback_times = LMzr2.C114_lookback_lemma
