(** * Properties C31-C36: bursts (sfh/diffburst.py).  Exact real arithmetic, except C36
    which holds in any arithmetic (any rounding) and for any numbers. *)
From Coq Require Import Reals List Arith Lra Lia.
From Verif Require Import Num Arr MUtils MDiffburst Spec RList LKern2 LBurst LBurst2 LMore1.
Import ListNotations.
Open Scope R_scope.

(** C31 *)
@@C31_burst_parameters_bounded = LBurst.C31_lemma
Example C31_nonvacuous : exists fb peak mx,
  get_params_from_u_params {| u_lgfburst := Fin (-1000); u_lgyr_peak := Fin 77; u_lgyr_max := Fin 0 |}
  = {| lgfburst := Fin fb; lgyr_peak := Fin peak; lgyr_max := Fin mx |}
  /\ -8 < fb < -1 /\ 5 < peak < 8 /\ peak + 1 < mx < 9.
Proof. apply C31_burst_parameters_bounded. Qed.

(** each bounded parameter increases strictly with its own unbounded counterpart, and is given
    by the logistic formula with the documented bounds, centres and slope *)
@@C31_parameters_increasing = LBurst2.burst_params_increasing
@@C31_bounding_formula = LBurst2.burst_params_formula
Example C31_increasing_nonvacuous : exists fb peak mx fb' peak' mx',
  get_params_from_u_params {| u_lgfburst := Fin 0; u_lgyr_peak := Fin 6; u_lgyr_max := Fin 7 |}
  = {| lgfburst := Fin fb; lgyr_peak := Fin peak; lgyr_max := Fin mx |}
  /\ get_params_from_u_params {| u_lgfburst := Fin 1; u_lgyr_peak := Fin 6; u_lgyr_max := Fin 8 |}
  = {| lgfburst := Fin fb'; lgyr_peak := Fin peak'; lgyr_max := Fin mx' |}
  /\ fb < fb' /\ mx < mx'.
Proof.
  destruct (C31_parameters_increasing 0 6 7 1 6 8) as (a & b & c & a' & b' & c' & E & E' & F & P & M).
  exists a, b, c, a', b', c'. split; [exact E|]. split; [exact E'|].
  split; [apply F; lra|apply M; [reflexivity|lra]].
Qed.

(** C32 *)
@@C32_unbounded_round_trip = LBurst.burst_u_roundtrip
@@C32_bounded_round_trip = LBurst.burst_roundtrip
@@C32_default_parameters = LBurst2.default_burst_lemma
(** the default parameters are in the bounded region *)
Example C32_nonvacuous : DEFAULT_BURST_PARAMS = {| lgfburst := Fin (-3); lgyr_peak := Fin 5.5; lgyr_max := Fin 7 |}
  /\ -8 < -3 < -1 /\ 5 < 5.5 < 8 /\ 5.5 + 1 < 7 < 9.
Proof. split; [reflexivity|lra]. Qed.

(** C33 *)
@@C33_bursty_weights_distribution = LBurst.C33_lemma
Example C33_nonvacuous : exists w,
  calc_bursty_age_weights {| lgfburst := Fin (-3); lgyr_peak := Fin 5.5; lgyr_max := Fin 7 |}
    (fins [1/2; 0; 1/2]) (fins [-3.5; -2; 1]) = Ok (fins w)
  /\ length w = 3%nat /\ distribution w.
Proof.
  apply (C33_bursty_weights_distribution (-3) 5.5 7 [1/2; 0; 1/2] [-3.5; -2; 1]); try lra.
  - reflexivity.
  - split; [repeat constructor; lra|simpl; lra].
  - exists 0%nat. split; [simpl; lia|unfold ent; simpl; lra].
Qed.

(** C34: the claim that bursty weights always sum to 1 is false *)
@@C34_unresolved_burst_loses_mass = LBurst.C34_lemma
Example C34_refuted_concretely : exists w,
  distribution [1/2; 0; 1/2] /\
  calc_bursty_age_weights {| lgfburst := Fin (-1); lgyr_peak := Fin 5.5; lgyr_max := Fin 7 |}
    (fins [1/2; 0; 1/2]) (fins [-2; 0; 1]) = Ok (fins w) /\ Rsum w = 0.9.
Proof.
  assert (D : distribution [1/2; 0; 1/2]) by (split; [repeat constructor; lra|simpl; lra]).
  destruct (C34_unresolved_burst_loses_mass (-1) 5.5 7 [1/2; 0; 1/2] [-2; 0; 1]) as (w & E & _ & H).
  - reflexivity.
  - lra.
  - intros j Hj. simpl in Hj. left. destruct j as [|[|[|j]]]; try lia; unfold ent; simpl; lra.
  - exists w. split; [exact D|]. split; [exact E|]. destruct (H D) as [-> _].
    unfold pow10. replace (-1) with (- (1)) by lra. rewrite Rpower_Ropp, Rpower_1 by lra. lra.
Qed.

(** C35 *)
@@C35_burst_support = LBurst.C35_lemma
@@C35_outside_the_burst = LBurst.C35_outside_lemma
Example C35_nonvacuous : exists w,
  pureburst_age_weights_from_params (fins [3; 5; 6; 8]) (Fin 5.5) (Fin 7) = fins w
  /\ 0 < ent w 1 /\ ent w 1 = ent w 2 /\ 0 <= ent w 3.
Proof.
  destruct (C35_burst_support 5.5 7 [3; 5; 6; 8]) as (w & E & L & H0 & H & S & _); [lra|].
  exists w. split; [exact E|]. split; [|split].
  - apply H; [simpl; lia|unfold ent; simpl; lra].
  - apply S; [simpl; lia|simpl; lia|unfold ent; simpl; lra].
  - apply H0. simpl; lia.
Qed.

(** C36: any arithmetic, any numbers, any lengths *)
@@C36_two_burst_apis_agree = LBurst.C36_lemma
@@C36_two_unbounded_burst_apis_agree = LBurst.C36_u_lemma
@@C36_pure_burst_from_unbounded = LMore1.C36_pure_lemma
@@C36_entry_depends_on_own_smooth_weight = LBurst.C36_local_lemma
Example C36_nonvacuous : exists w w',
  calc_bursty_age_weights DEFAULT_BURST_PARAMS (fins [1; 2; 3]) (fins [0; 1; 2]) = Ok w
  /\ calc_bursty_age_weights DEFAULT_BURST_PARAMS (fins [7; 2; 9]) (fins [0; 1; 2]) = Ok w'
  /\ nth 1 (fins [1; 2; 3]) NaN = nth 1 (fins [7; 2; 9]) NaN.
Proof. do 2 eexists. split; [reflexivity|]. split; reflexivity. Qed.
