(** * Properties C31-C36: bursts (sfh/diffburst.py).  Exact real arithmetic, except C36
    which holds in any arithmetic (any rounding) and for any numbers. *)
From Coq Require Import Reals List Arith Lra Lia.
From Verif Require Import Num Arr MUtils MDiffburst Spec RList LKern2 LBurst LBurst2 LMore1.
Import ListNotations.
Open Scope R_scope.

(** C31 *)
Theorem C31_burst_parameters_bounded : forall u_lgfb u_peak u_max,
  exists fb peak mx,
    get_params_from_u_params {| u_lgfburst := Fin u_lgfb; u_lgyr_peak := Fin u_peak; u_lgyr_max := Fin u_max |}
    = {| lgfburst := Fin fb; lgyr_peak := Fin peak; lgyr_max := Fin mx |}
    /\ -8 < fb < -1 /\ 5 < peak < 8 /\ peak + 1 < mx < 9.
Proof. exact C31_lemma. Qed.
Print Assumptions C31_burst_parameters_bounded.
Example C31_nonvacuous : exists fb peak mx,
  get_params_from_u_params {| u_lgfburst := Fin (-1000); u_lgyr_peak := Fin 77; u_lgyr_max := Fin 0 |}
  = {| lgfburst := Fin fb; lgyr_peak := Fin peak; lgyr_max := Fin mx |}
  /\ -8 < fb < -1 /\ 5 < peak < 8 /\ peak + 1 < mx < 9.
Proof. apply C31_burst_parameters_bounded. Qed.

(** each bounded parameter increases strictly with its own unbounded counterpart, and is given
    by the logistic formula with the documented bounds, centres and slope *)
Theorem C31_parameters_increasing : forall uf up um uf' up' um',
  exists fb peak mx fb' peak' mx',
    get_params_from_u_params {| u_lgfburst := Fin uf; u_lgyr_peak := Fin up; u_lgyr_max := Fin um |}
    = {| lgfburst := Fin fb; lgyr_peak := Fin peak; lgyr_max := Fin mx |}
    /\ get_params_from_u_params {| u_lgfburst := Fin uf'; u_lgyr_peak := Fin up'; u_lgyr_max := Fin um' |}
    = {| lgfburst := Fin fb'; lgyr_peak := Fin peak'; lgyr_max := Fin mx' |}
    /\ (uf < uf' <-> fb < fb') /\ (up < up' <-> peak < peak')
    /\ (up = up' -> um < um' <-> mx < mx').
Proof. exact burst_params_increasing. Qed.
Print Assumptions C31_parameters_increasing.
Theorem C31_bounding_formula : forall uf up um,
  exists fb peak mx,
    get_params_from_u_params {| u_lgfburst := Fin uf; u_lgyr_peak := Fin up; u_lgyr_max := Fin um |}
    = {| lgfburst := Fin fb; lgyr_peak := Fin peak; lgyr_max := Fin mx |}
    /\ fb = -8 + 7 / (1 + exp (- (uf + 2) / 10))
    /\ peak = 5 + 3 / (1 + exp (- (up - 6.5) / 10))
    /\ mx = (peak + 1) + (8 - peak) / (1 + exp (- (um - (peak + 10) / 2) / 10)).
Proof. exact burst_params_formula. Qed.
Print Assumptions C31_bounding_formula.
Example C31_increasing_nonvacuous : exists fb peak mx fb' peak' mx',
  get_params_from_u_params {| u_lgfburst := Fin 0; u_lgyr_peak := Fin 6; u_lgyr_max := Fin 7 |}
  = {| lgfburst := Fin fb; lgyr_peak := Fin peak; lgyr_max := Fin mx |}
  /\ get_params_from_u_params {| u_lgfburst := Fin 1; u_lgyr_peak := Fin 6; u_lgyr_max := Fin 8 |}
  = {| lgfburst := Fin fb'; lgyr_peak := Fin peak'; lgyr_max := Fin mx' |}
  /\ fb < fb' /\ mx < mx'.
Proof.
  destruct (C31_parameters_increasing 0 6 7 1 6 8) as (a & b & c & a' & b' & c' & E & E' & F & P & M).
  exists a, b, c, a', b', c'. split; [exact E|]. split; [exact E'|].
  split; [apply F; lra|apply M; [reflexivity|lra]].
Qed.

(** C32 *)
Theorem C32_unbounded_round_trip : forall uf up um,
  get_u_params_from_params (get_params_from_u_params
    {| u_lgfburst := Fin uf; u_lgyr_peak := Fin up; u_lgyr_max := Fin um |})
  = {| u_lgfburst := Fin uf; u_lgyr_peak := Fin up; u_lgyr_max := Fin um |}.
Proof. exact burst_u_roundtrip. Qed.
Print Assumptions C32_unbounded_round_trip.
Theorem C32_bounded_round_trip : forall fb peak mx,
  -8 < fb < -1 -> 5 < peak < 8 -> peak + 1 < mx < 9 ->
  get_params_from_u_params (get_u_params_from_params
    {| lgfburst := Fin fb; lgyr_peak := Fin peak; lgyr_max := Fin mx |})
  = {| lgfburst := Fin fb; lgyr_peak := Fin peak; lgyr_max := Fin mx |}.
Proof. exact burst_roundtrip. Qed.
Print Assumptions C32_bounded_round_trip.
Theorem C32_default_parameters : exists fb peak mx uf up um,
    DEFAULT_BURST_PARAMS = {| lgfburst := Fin fb; lgyr_peak := Fin peak; lgyr_max := Fin mx |}
    /\ fb = -3 /\ peak = 5.5 /\ mx = 7
    /\ -8 < fb < -1 /\ 5 < peak < 8 /\ peak + 1 < mx < 9
    /\ get_u_params_from_params DEFAULT_BURST_PARAMS
       = {| u_lgfburst := Fin uf; u_lgyr_peak := Fin up; u_lgyr_max := Fin um |}
    /\ get_params_from_u_params {| u_lgfburst := Fin uf; u_lgyr_peak := Fin up; u_lgyr_max := Fin um |}
       = DEFAULT_BURST_PARAMS.
Proof. exact default_burst_lemma. Qed.
Print Assumptions C32_default_parameters.
(** the default parameters are in the bounded region *)
Example C32_nonvacuous : DEFAULT_BURST_PARAMS = {| lgfburst := Fin (-3); lgyr_peak := Fin 5.5; lgyr_max := Fin 7 |}
  /\ -8 < -3 < -1 /\ 5 < 5.5 < 8 /\ 5.5 + 1 < 7 < 9.
Proof. split; [reflexivity|lra]. Qed.

(** C33 *)
Theorem C33_bursty_weights_distribution : forall lgfb peak mx smooth ages,
  length smooth = length ages -> distribution smooth -> lgfb <= 0 -> peak < mx ->
  (exists j, (j < length ages)%nat /\ 2 * peak - mx < ent ages j + 9 < mx) ->
  exists w,
    calc_bursty_age_weights {| lgfburst := Fin lgfb; lgyr_peak := Fin peak; lgyr_max := Fin mx |}
      (fins smooth) (fins ages) = Ok (fins w)
    /\ length w = length ages /\ distribution w.
Proof. exact C33_lemma. Qed.
Print Assumptions C33_bursty_weights_distribution.
Example C33_nonvacuous : exists w,
  calc_bursty_age_weights {| lgfburst := Fin (-3); lgyr_peak := Fin 5.5; lgyr_max := Fin 7 |}
    (fins [1/2; 0; 1/2]) (fins [-3.5; -2; 1]) = Ok (fins w)
  /\ length w = 3%nat /\ distribution w.
Proof.
  apply (C33_bursty_weights_distribution (-3) 5.5 7 [1/2; 0; 1/2] [-3.5; -2; 1]); try lra.
  - reflexivity.
  - split; [repeat constructor; lra|simpl; lra].
  - exists 0%nat. split; [simpl; lia|unfold ent; simpl; lra].
Qed.

(** C34: the claim that bursty weights always sum to 1 is false *)
Theorem C34_unresolved_burst_loses_mass : forall lgfb peak mx smooth ages,
  length smooth = length ages -> peak < mx ->
  (forall j, (j < length ages)%nat -> mx <= ent ages j + 9 \/ ent ages j + 9 <= 2 * peak - mx) ->
  exists w,
    calc_bursty_age_weights {| lgfburst := Fin lgfb; lgyr_peak := Fin peak; lgyr_max := Fin mx |}
      (fins smooth) (fins ages) = Ok (fins w)
    /\ (forall j, (j < length ages)%nat -> ent w j = (1 - pow10 lgfb) * ent smooth j)
    /\ (distribution smooth -> Rsum w = 1 - pow10 lgfb /\ Rsum w < 1).
Proof. exact C34_lemma. Qed.
Print Assumptions C34_unresolved_burst_loses_mass.
Example C34_refuted_concretely : exists w,
  distribution [1/2; 0; 1/2] /\
  calc_bursty_age_weights {| lgfburst := Fin (-1); lgyr_peak := Fin 5.5; lgyr_max := Fin 7 |}
    (fins [1/2; 0; 1/2]) (fins [-2; 0; 1]) = Ok (fins w) /\ Rsum w = 0.9.
Proof.
  assert (D : distribution [1/2; 0; 1/2]) by (split; [repeat constructor; lra|simpl; lra]).
  destruct (C34_unresolved_burst_loses_mass (-1) 5.5 7 [1/2; 0; 1/2] [-2; 0; 1]) as (w & E & _ & H).
  - reflexivity.
  - lra.
  - intros j Hj. simpl in Hj. left. destruct j as [|[|[|j]]]; try lia; unfold ent; simpl; lra.
  - exists w. split; [exact D|]. split; [exact E|]. destruct (H D) as [-> _].
    unfold pow10. replace (-1) with (- (1)) by lra. rewrite Rpower_Ropp, Rpower_1 by lra. lra.
Qed.

(** C35 *)
Theorem C35_burst_support : forall peak mx lgyr, peak < mx ->
  exists w,
    pureburst_age_weights_from_params (fins lgyr) (Fin peak) (Fin mx) = fins w
    /\ length w = length lgyr
    /\ (forall j, (j < length lgyr)%nat -> 0 <= ent w j)
    /\ (forall j, (j < length lgyr)%nat ->
        (0 < ent w j <-> 2 * peak - mx < ent lgyr j < mx))
    /\ (forall i j, (i < length lgyr)%nat -> (j < length lgyr)%nat ->
        ent lgyr i + ent lgyr j = 2 * peak -> ent w i = ent w j)
    /\ (forall i j, (i < length lgyr)%nat -> (j < length lgyr)%nat ->
        Rabs (ent lgyr i - peak) < Rabs (ent lgyr j - peak) -> Rabs (ent lgyr i - peak) < mx - peak ->
        ent w j < ent w i).
Proof. exact C35_lemma. Qed.
Print Assumptions C35_burst_support.
Theorem C35_outside_the_burst : forall lgfb peak mx smooth ages j,
  length smooth = length ages -> peak < mx -> (j < length ages)%nat ->
  mx <= ent ages j + 9 \/ ent ages j + 9 <= 2 * peak - mx ->
  exists w,
    calc_bursty_age_weights {| lgfburst := Fin lgfb; lgyr_peak := Fin peak; lgyr_max := Fin mx |}
      (fins smooth) (fins ages) = Ok (fins w)
    /\ ent w j = (1 - pow10 lgfb) * ent smooth j.
Proof. exact C35_outside_lemma. Qed.
Print Assumptions C35_outside_the_burst.
Example C35_nonvacuous : exists w,
  pureburst_age_weights_from_params (fins [3; 5; 6; 8]) (Fin 5.5) (Fin 7) = fins w
  /\ 0 < ent w 1 /\ ent w 1 = ent w 2 /\ 0 <= ent w 3.
Proof.
  destruct (C35_burst_support 5.5 7 [3; 5; 6; 8]) as (w & E & L & H0 & H & S & _); [lra|].
  exists w. split; [exact E|]. split; [|split].
  - apply H; [simpl; lia|unfold ent; simpl; lra].
  - apply S; [simpl; lia|simpl; lia|unfold ent; simpl; lra].
  - apply H0. simpl; lia.
Qed.

(** C36: any arithmetic, any numbers, any lengths *)
Theorem C36_two_burst_apis_agree {AR : Arith} : forall p smooth ssp_lg_age_gyr,
  calc_bursty_age_weights p smooth ssp_lg_age_gyr
  = compute_bursty_age_weights_from_params (map (fun x => nadd x (Fin 9)) ssp_lg_age_gyr) smooth p.
Proof. exact C36_lemma. Qed.
Print Assumptions C36_two_burst_apis_agree.
Theorem C36_two_unbounded_burst_apis_agree {AR : Arith} : forall u smooth ssp_lg_age_gyr,
  calc_bursty_age_weights_from_u_params u smooth ssp_lg_age_gyr
  = calc_bursty_age_weights (get_params_from_u_params u) smooth ssp_lg_age_gyr
  /\ calc_bursty_age_weights_from_u_params u smooth ssp_lg_age_gyr
     = compute_bursty_age_weights_from_u_params (map (fun x => nadd x (Fin 9)) ssp_lg_age_gyr) smooth u.
Proof. exact C36_u_lemma. Qed.
Print Assumptions C36_two_unbounded_burst_apis_agree.
Theorem C36_pure_burst_from_unbounded {AR : Arith} : forall lgyr u smooth,
  pureburst_age_weights_from_u_params lgyr (u_lgyr_peak u) (u_lgyr_max u)
  = pureburst_age_weights_from_params lgyr
      (lgyr_peak (get_params_from_u_params u)) (lgyr_max (get_params_from_u_params u))
  /\ (length smooth = length lgyr ->
      compute_bursty_age_weights_from_u_params lgyr smooth u
      = Ok (map2 (fun b s => nadd (nmul (npow10 (lgfburst (get_params_from_u_params u))) b)
                                 (nmul (nsub (Fin 1) (npow10 (lgfburst (get_params_from_u_params u)))) s))
              (pureburst_age_weights_from_u_params lgyr (u_lgyr_peak u) (u_lgyr_max u)) smooth)).
Proof. exact C36_pure_lemma. Qed.
Print Assumptions C36_pure_burst_from_unbounded.
Theorem C36_entry_depends_on_own_smooth_weight {AR : Arith} : forall p smooth smooth' ages w w' j,
  length smooth = length ages -> length smooth' = length ages ->
  calc_bursty_age_weights p smooth ages = Ok w -> calc_bursty_age_weights p smooth' ages = Ok w' ->
  nth j smooth NaN = nth j smooth' NaN -> nth j w NaN = nth j w' NaN.
Proof. exact C36_local_lemma. Qed.
Print Assumptions C36_entry_depends_on_own_smooth_weight.
Example C36_nonvacuous : exists w w',
  calc_bursty_age_weights DEFAULT_BURST_PARAMS (fins [1; 2; 3]) (fins [0; 1; 2]) = Ok w
  /\ calc_bursty_age_weights DEFAULT_BURST_PARAMS (fins [7; 2; 9]) (fins [0; 1; 2]) = Ok w'
  /\ nth 1 (fins [1; 2; 3]) NaN = nth 1 (fins [7; 2; 9]) NaN.
Proof. do 2 eexists. split; [reflexivity|]. split; reflexivity. Qed.
