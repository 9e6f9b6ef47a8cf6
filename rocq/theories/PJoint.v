(** * Properties C15-C21 (and the SED part of C06, C07): joint weights and rest SED.
    Exact real arithmetic; [good_grids] in Spec.v collects the input conditions. *)
From Coq Require Import Reals List Arith Lra Lia.
From Verif Require Import Num MUtils MSed Spec RList LUtils LAge LMet LJoint LJointMet Demo Demo2.
Import ListNotations.
Open Scope R_scope.

(** The hypotheses of this file are met by the demonstration galaxy. *)
Example joint_hypotheses_nonvacuous :
  good_grids demo_t demo_sfr (1/5) demo_lgmet demo_ages demo_tobs
  /\ length demo_t = length demo_met_table
  /\ is_cube (length demo_lgmet) (length demo_ages) 2 demo_flux.
Proof. auto with demo. Qed.

(** C15 *)
Theorem C15_joint_weights_lognormal : forall ts sfrs lgmet scatter ssp_lgmet ages t_obs,
  good_grids ts sfrs scatter ssp_lgmet ages t_obs ->
  exists W mw aw,
    calc_ssp_weights_sfh_table_lognormal_mdf (fins ts) (fins sfrs) (Fin lgmet) (Fin scatter)
      (fins ssp_lgmet) (fins ages) (Fin t_obs)
    = Ok {| weights := map fins W; lgmet_weights := fins mw; age_weights := fins aw |}
    /\ calc_age_weights_from_sfh_table (fins ts) (fins sfrs) (fins ages) (Fin t_obs) (Fin (1 / 10 ^ 14))
       = Ok (fins aw)
    /\ calc_lgmet_weights_from_lognormal_mdf (Fin lgmet) (Fin scatter) (fins ssp_lgmet) = Ok (fins mw)
    /\ is_matrix (length ssp_lgmet) (length ages) W
    /\ (forall i j, (i < length ssp_lgmet)%nat -> (j < length ages)%nat ->
        ent2 W i j = ent mw i * ent aw j /\ 0 <= ent2 W i j)
    /\ Rsum2 W = 1
    /\ (forall i, (i < length ssp_lgmet)%nat -> Rsum (nth i W []) = ent mw i)
    /\ (forall j, (j < length ages)%nat ->
        Rsum (map (fun i => ent2 W i j) (seq 0 (length ssp_lgmet))) = ent aw j).
Proof. exact C15_lemma. Qed.
Print Assumptions C15_joint_weights_lognormal.
Example C15_nonvacuous : exists W mw aw,
  calc_ssp_weights_sfh_table_lognormal_mdf (fins demo_t) (fins demo_sfr) (Fin (-2)) (Fin (1/5))
    (fins demo_lgmet) (fins demo_ages) (Fin demo_tobs)
  = Ok {| weights := map fins W; lgmet_weights := fins mw; age_weights := fins aw |} /\ Rsum2 W = 1.
Proof.
  destruct (C15_joint_weights_lognormal demo_t demo_sfr (-2) (1/5) demo_lgmet demo_ages demo_tobs)
    as (W & mw & aw & E & _ & _ & _ & _ & H & _); eauto with demo.
Qed.

(** C16 *)
Theorem C16_joint_weights_met_table : forall ts sfrs lgmet_table scatter ssp_lgmet ages t_obs,
  good_grids ts sfrs scatter ssp_lgmet ages t_obs -> length ts = length lgmet_table ->
  exists W M aw,
    calc_ssp_weights_sfh_table_met_table (fins ts) (fins sfrs) (fins lgmet_table) (Fin scatter)
      (fins ssp_lgmet) (fins ages) (Fin t_obs)
    = Ok {| weights := map fins W; lgmet_weights := map fins M; age_weights := fins aw |}
    /\ calc_age_weights_from_sfh_table (fins ts) (fins sfrs) (fins ages) (Fin t_obs) (Fin (1 / 10 ^ 14))
       = Ok (fins aw)
    /\ calc_lgmet_weights_from_lgmet_table (fins ts) (fins lgmet_table) (Fin scatter)
         (fins ssp_lgmet) (fins ages) (Fin t_obs) = Ok (map fins M)
    /\ is_matrix (length ssp_lgmet) (length ages) W
    /\ (forall i j, (i < length ssp_lgmet)%nat -> (j < length ages)%nat ->
        ent2 W i j = INR (length ages) * ent2 M i j * ent aw j /\ 0 <= ent2 W i j)
    /\ Rsum2 W = 1
    /\ (forall j, (j < length ages)%nat ->
        Rsum (map (fun i => ent2 W i j) (seq 0 (length ssp_lgmet))) = ent aw j).
Proof. exact C16_lemma. Qed.
Print Assumptions C16_joint_weights_met_table.
Example C16_nonvacuous : exists W M aw,
  calc_ssp_weights_sfh_table_met_table (fins demo_t) (fins demo_sfr) (fins demo_met_table) (Fin (1/5))
    (fins demo_lgmet) (fins demo_ages) (Fin demo_tobs)
  = Ok {| weights := map fins W; lgmet_weights := map fins M; age_weights := fins aw |} /\ Rsum2 W = 1.
Proof.
  destruct (C16_joint_weights_met_table demo_t demo_sfr demo_met_table (1/5) demo_lgmet demo_ages demo_tobs)
    as (W & mw & aw & E & _ & _ & _ & _ & H & _); eauto with demo.
Qed.

(** C17 *)
Theorem C17_sed_is_mass_times_template_mix : forall ts sfrs lgmet scatter ssp_lgmet ages n_wave t_obs sfr_min,
  good_grids ts sfrs scatter ssp_lgmet ages t_obs -> 0 < t_obs -> 0 < sfr_min ->
  exists W,
    is_matrix (length ssp_lgmet) (length ages) W /\ Rsum2 W = 1
    /\ (forall i j, (i < length ssp_lgmet)%nat -> (j < length ages)%nat -> 0 <= ent2 W i j)
    /\ forall flux, is_cube (length ssp_lgmet) (length ages) n_wave flux ->
       exists r sed,
         calc_rest_sed_sfh_table_lognormal_mdf (fins ts) (fins sfrs) (Fin lgmet) (Fin scatter)
           (fins ssp_lgmet) (fins ages) (fins3 flux) (Fin t_obs) (Fin sfr_min) = Ok r
         /\ rest_sed r = fins sed /\ rs_weights r = map fins W /\ length sed = n_wave
         /\ forall k, (k < n_wave)%nat ->
            ent sed k = mass_formed_by ts (floored sfr_min sfrs) t_obs
                        * template_mix (length ssp_lgmet) (length ages) W flux k.
Proof. exact C17_lemma. Qed.
Print Assumptions C17_sed_is_mass_times_template_mix.
Theorem C17_sed_is_mass_times_template_mix_met_table : forall ts sfrs lgmet_table scatter ssp_lgmet ages n_wave t_obs sfr_min,
  good_grids ts sfrs scatter ssp_lgmet ages t_obs -> length ts = length lgmet_table ->
  0 < t_obs -> 0 < sfr_min ->
  exists W,
    is_matrix (length ssp_lgmet) (length ages) W /\ Rsum2 W = 1
    /\ (forall i j, (i < length ssp_lgmet)%nat -> (j < length ages)%nat -> 0 <= ent2 W i j)
    /\ forall flux, is_cube (length ssp_lgmet) (length ages) n_wave flux ->
       exists r sed,
         calc_rest_sed_sfh_table_met_table (fins ts) (fins sfrs) (fins lgmet_table) (Fin scatter)
           (fins ssp_lgmet) (fins ages) (fins3 flux) (Fin t_obs) (Fin sfr_min) = Ok r
         /\ rest_sed r = fins sed /\ rs_weights r = map fins W /\ length sed = n_wave
         /\ forall k, (k < n_wave)%nat ->
            ent sed k = mass_formed_by ts (floored sfr_min sfrs) t_obs
                        * template_mix (length ssp_lgmet) (length ages) W flux k.
Proof. exact C17_met_lemma. Qed.
Print Assumptions C17_sed_is_mass_times_template_mix_met_table.
Theorem C17_sed_within_template_range : forall ts sfrs lgmet scatter ssp_lgmet ages n_wave t_obs sfr_min flux lo hi,
  good_grids ts sfrs scatter ssp_lgmet ages t_obs -> 0 < t_obs -> 0 < sfr_min ->
  is_cube (length ssp_lgmet) (length ages) n_wave flux ->
  (forall i j k, (i < length ssp_lgmet)%nat -> (j < length ages)%nat -> (k < n_wave)%nat ->
     lo <= ent3 flux i j k <= hi) ->
  exists r sed,
    calc_rest_sed_sfh_table_lognormal_mdf (fins ts) (fins sfrs) (Fin lgmet) (Fin scatter)
      (fins ssp_lgmet) (fins ages) (fins3 flux) (Fin t_obs) (Fin sfr_min) = Ok r
    /\ rest_sed r = fins sed
    /\ let mass := mass_formed_by ts (floored sfr_min sfrs) t_obs in
       0 < mass /\ List.Forall (fun s => mass * lo <= s <= mass * hi) sed.
Proof. exact C17_range_lemma. Qed.
Print Assumptions C17_sed_within_template_range.
Theorem C17_sed_linear_in_templates : forall ts sfrs lgmet scatter ssp_lgmet ages n_wave t_obs sfr_min f g h a b,
  good_grids ts sfrs scatter ssp_lgmet ages t_obs -> 0 < t_obs -> 0 < sfr_min ->
  is_cube (length ssp_lgmet) (length ages) n_wave f ->
  is_cube (length ssp_lgmet) (length ages) n_wave g ->
  is_cube (length ssp_lgmet) (length ages) n_wave h ->
  (forall i j k, (i < length ssp_lgmet)%nat -> (j < length ages)%nat -> (k < n_wave)%nat ->
     ent3 h i j k = a * ent3 f i j k + b * ent3 g i j k) ->
  exists sf sg sh,
    let sed flux s := exists r,
      calc_rest_sed_sfh_table_lognormal_mdf (fins ts) (fins sfrs) (Fin lgmet) (Fin scatter)
        (fins ssp_lgmet) (fins ages) (fins3 flux) (Fin t_obs) (Fin sfr_min) = Ok r
      /\ rest_sed r = fins s in
    sed f sf /\ sed g sg /\ sed h sh
    /\ forall k, (k < n_wave)%nat -> ent sh k = a * ent sf k + b * ent sg k.
Proof. exact C17_linear_lemma. Qed.
Print Assumptions C17_sed_linear_in_templates.
Theorem C17_sed_within_template_range_met_table : forall ts sfrs lgmet_table scatter ssp_lgmet ages n_wave t_obs sfr_min flux lo hi,
  good_grids ts sfrs scatter ssp_lgmet ages t_obs -> length ts = length lgmet_table -> 0 < t_obs -> 0 < sfr_min ->
  is_cube (length ssp_lgmet) (length ages) n_wave flux ->
  (forall i j k, (i < length ssp_lgmet)%nat -> (j < length ages)%nat -> (k < n_wave)%nat ->
     lo <= ent3 flux i j k <= hi) ->
  exists r sed,
    calc_rest_sed_sfh_table_met_table (fins ts) (fins sfrs) (fins lgmet_table) (Fin scatter)
      (fins ssp_lgmet) (fins ages) (fins3 flux) (Fin t_obs) (Fin sfr_min) = Ok r
    /\ rest_sed r = fins sed
    /\ let mass := mass_formed_by ts (floored sfr_min sfrs) t_obs in
       0 < mass /\ List.Forall (fun s => mass * lo <= s <= mass * hi) sed.
Proof. exact C17_range_met_lemma. Qed.
Print Assumptions C17_sed_within_template_range_met_table.
Theorem C17_sed_linear_in_templates_met_table : forall ts sfrs lgmet_table scatter ssp_lgmet ages n_wave t_obs sfr_min f g h a b,
  good_grids ts sfrs scatter ssp_lgmet ages t_obs -> length ts = length lgmet_table -> 0 < t_obs -> 0 < sfr_min ->
  is_cube (length ssp_lgmet) (length ages) n_wave f ->
  is_cube (length ssp_lgmet) (length ages) n_wave g ->
  is_cube (length ssp_lgmet) (length ages) n_wave h ->
  (forall i j k, (i < length ssp_lgmet)%nat -> (j < length ages)%nat -> (k < n_wave)%nat ->
     ent3 h i j k = a * ent3 f i j k + b * ent3 g i j k) ->
  exists sf sg sh,
    let sed flux s := exists r,
      calc_rest_sed_sfh_table_met_table (fins ts) (fins sfrs) (fins lgmet_table) (Fin scatter)
        (fins ssp_lgmet) (fins ages) (fins3 flux) (Fin t_obs) (Fin sfr_min) = Ok r
      /\ rest_sed r = fins s in
    sed f sf /\ sed g sg /\ sed h sh
    /\ forall k, (k < n_wave)%nat -> ent sh k = a * ent sf k + b * ent sg k.
Proof. exact C17_linear_met_lemma. Qed.
Print Assumptions C17_sed_linear_in_templates_met_table.
Example C17_met_table_nonvacuous : exists r sed,
  calc_rest_sed_sfh_table_met_table (fins demo_t) (fins demo_sfr) (fins demo_met_table) (Fin (1/5))
    (fins demo_lgmet) (fins demo_ages) (fins3 demo_flux) (Fin demo_tobs) (Fin demo_min) = Ok r
  /\ rest_sed r = fins sed
  /\ let mass := mass_formed_by demo_t (floored demo_min demo_sfr) demo_tobs in
     0 < mass /\ List.Forall (fun s => mass * 0 <= s <= mass * 9) sed.
Proof.
  apply (C17_sed_within_template_range_met_table demo_t demo_sfr demo_met_table (1/5) demo_lgmet demo_ages 2);
    auto with demo; try (unfold demo_tobs; lra).
  exact demo_flux_range.
Qed.
Example C17_nonvacuous : exists r sed,
  calc_rest_sed_sfh_table_lognormal_mdf (fins demo_t) (fins demo_sfr) (Fin (-2)) (Fin (1/5))
    (fins demo_lgmet) (fins demo_ages) (fins3 demo_flux) (Fin demo_tobs) (Fin demo_min) = Ok r
  /\ rest_sed r = fins sed
  /\ let mass := mass_formed_by demo_t (floored demo_min demo_sfr) demo_tobs in
     0 < mass /\ List.Forall (fun s => mass * 0 <= s <= mass * 9) sed.
Proof.
  apply (C17_sed_within_template_range demo_t demo_sfr (-2) (1/5) demo_lgmet demo_ages 2);
    auto with demo; try (unfold demo_tobs; lra).
  exact demo_flux_range.
Qed.

(** C18 *)
Theorem C18_mass_normalisation : forall ts sfrs sfr_min,
  length ts = length sfrs -> ts <> [] -> increasing (0.001 :: ts) -> 0 < sfr_min ->
  exists mass : R -> R,
    (forall lgmet scatter ssp_lgmet ages n_wave flux t,
       good_grids ts sfrs scatter ssp_lgmet ages t -> 0 < t ->
       is_cube (length ssp_lgmet) (length ages) n_wave flux ->
       (forall i j k, (i < length ssp_lgmet)%nat -> (j < length ages)%nat -> (k < n_wave)%nat ->
          ent3 flux i j k = 1) ->
       exists r,
         calc_rest_sed_sfh_table_lognormal_mdf (fins ts) (fins sfrs) (Fin lgmet) (Fin scatter)
           (fins ssp_lgmet) (fins ages) (fins3 flux) (Fin t) (Fin sfr_min) = Ok r
         /\ rest_sed r = fins (repeat (mass t) n_wave))
    /\ (forall i m, (i < length ts)%nat ->
        cumulative_mstar_formed (fins ts) (fins (floored sfr_min sfrs)) = Ok (fins m) ->
        mass (ent ts i) = ent m i)
    /\ (forall t, 0 < t -> 0 < mass t)
    /\ (forall t t', 0 < t -> t <= t' -> mass t <= mass t')
    /\ (forall t, 0 < t -> t <= ent ts 0 -> mass t = mass (ent ts 0))
    /\ (forall t, ent ts (length ts - 1) <= t -> mass t = mass (ent ts (length ts - 1))).
Proof. exact C18_lemma. Qed.
Print Assumptions C18_mass_normalisation.
Theorem C18_mass_normalisation_met_table : forall ts sfrs sfr_min,
  length ts = length sfrs -> ts <> [] -> increasing (0.001 :: ts) -> 0 < sfr_min ->
  exists mass : R -> R,
    (forall lgmet_table scatter ssp_lgmet ages n_wave flux t,
       good_grids ts sfrs scatter ssp_lgmet ages t -> length ts = length lgmet_table -> 0 < t ->
       is_cube (length ssp_lgmet) (length ages) n_wave flux ->
       (forall i j k, (i < length ssp_lgmet)%nat -> (j < length ages)%nat -> (k < n_wave)%nat ->
          ent3 flux i j k = 1) ->
       exists r,
         calc_rest_sed_sfh_table_met_table (fins ts) (fins sfrs) (fins lgmet_table) (Fin scatter)
           (fins ssp_lgmet) (fins ages) (fins3 flux) (Fin t) (Fin sfr_min) = Ok r
         /\ rest_sed r = fins (repeat (mass t) n_wave))
    /\ (forall i m, (i < length ts)%nat ->
        cumulative_mstar_formed (fins ts) (fins (floored sfr_min sfrs)) = Ok (fins m) ->
        mass (ent ts i) = ent m i)
    /\ (forall t, 0 < t -> 0 < mass t)
    /\ (forall t t', 0 < t -> t <= t' -> mass t <= mass t')
    /\ (forall t, 0 < t -> t <= ent ts 0 -> mass t = mass (ent ts 0))
    /\ (forall t, ent ts (length ts - 1) <= t -> mass t = mass (ent ts (length ts - 1))).
Proof. exact C18_met_lemma. Qed.
Print Assumptions C18_mass_normalisation_met_table.
Example C18_nonvacuous :
  length demo_t = length demo_sfr /\ demo_t <> [] /\ increasing (0.001 :: demo_t) /\ 0 < demo_min.
Proof. auto with demo. Qed.

(** C19 *)
Theorem C19_constant_metallicity_history : forall ts sfrs lgmet scatter ssp_lgmet ages flux n_wave t_obs sfr_min,
  good_grids ts sfrs scatter ssp_lgmet ages t_obs -> 0 < t_obs -> 0 < sfr_min ->
  is_cube (length ssp_lgmet) (length ages) n_wave flux ->
  exists sed W mw M aw,
    calc_rest_sed_sfh_table_lognormal_mdf (fins ts) (fins sfrs) (Fin lgmet) (Fin scatter)
      (fins ssp_lgmet) (fins ages) (fins3 flux) (Fin t_obs) (Fin sfr_min)
    = Ok {| rest_sed := fins sed; rs_weights := map fins W; rs_lgmet_weights := fins mw;
            rs_age_weights := fins aw |}
    /\ calc_rest_sed_sfh_table_met_table (fins ts) (fins sfrs) (fins (repeat lgmet (length ts)))
         (Fin scatter) (fins ssp_lgmet) (fins ages) (fins3 flux) (Fin t_obs) (Fin sfr_min)
       = Ok {| rest_sed := fins sed; rs_weights := map fins W; rs_lgmet_weights := map fins M;
               rs_age_weights := fins aw |}
    /\ forall i j, (i < length ssp_lgmet)%nat -> (j < length ages)%nat ->
       ent2 M i j = ent mw i / INR (length ages).
Proof. exact C19_lemma. Qed.
Print Assumptions C19_constant_metallicity_history.
Example C19_nonvacuous : exists sed W mw M aw,
    calc_rest_sed_sfh_table_lognormal_mdf (fins demo_t) (fins demo_sfr) (Fin (-2)) (Fin (1/5))
      (fins demo_lgmet) (fins demo_ages) (fins3 demo_flux) (Fin demo_tobs) (Fin demo_min)
    = Ok {| rest_sed := fins sed; rs_weights := map fins W; rs_lgmet_weights := fins mw;
            rs_age_weights := fins aw |}
    /\ calc_rest_sed_sfh_table_met_table (fins demo_t) (fins demo_sfr) (fins [-2; -2; -2])
         (Fin (1/5)) (fins demo_lgmet) (fins demo_ages) (fins3 demo_flux) (Fin demo_tobs) (Fin demo_min)
       = Ok {| rest_sed := fins sed; rs_weights := map fins W; rs_lgmet_weights := map fins M;
               rs_age_weights := fins aw |}.
Proof.
  destruct (C19_constant_metallicity_history demo_t demo_sfr (-2) (1/5) demo_lgmet demo_ages demo_flux 2
    demo_tobs demo_min) as (sed & W & mw & M & aw & E1 & E2 & _); auto with demo.
  - unfold demo_tobs; lra.
  - exists sed, W, mw, M, aw. auto.
Qed.

(** C20: any numbers (NaN, infinite, ...), any shapes *)
Theorem C20_shape_errors : forall t sfr lgmet scatter ssp_lgmet ages flux t_obs sfr_min,
  (exists r, calc_rest_sed_sfh_table_lognormal_mdf t sfr lgmet scatter ssp_lgmet ages flux t_obs sfr_min
             = Ok r)
  <-> stands_for (length sfr) (length t) /\ t <> [] /\ (3 <= length ages)%nat /\ (3 <= length ssp_lgmet)%nat
      /\ has_shape (length ssp_lgmet) (length ages) flux.
Proof. exact C20_lemma. Qed.
Print Assumptions C20_shape_errors.
Theorem C20_shape_errors_met_table : forall t sfr lgmet_table scatter ssp_lgmet ages flux t_obs sfr_min,
  (exists r, calc_rest_sed_sfh_table_met_table t sfr lgmet_table scatter ssp_lgmet ages flux t_obs sfr_min
             = Ok r)
  <-> stands_for (length sfr) (length t) /\ length t = length lgmet_table /\ t <> []
      /\ (3 <= length ages)%nat /\ (3 <= length ssp_lgmet)%nat
      /\ has_shape (length ssp_lgmet) (length ages) flux.
Proof. exact C20_met_lemma. Qed.
Print Assumptions C20_shape_errors_met_table.
Theorem C20_shape_errors_age_weights : forall t s a o m,
  (exists r, calc_age_weights_from_sfh_table t s a o m = Ok r) <->
  stands_for (length s) (length t) /\ t <> [] /\ (3 <= length a)%nat.
Proof. exact age_weights_returns. Qed.
Print Assumptions C20_shape_errors_age_weights.
Theorem C20_shape_errors_lognormal_mdf : forall x h a,
  (exists r, calc_lgmet_weights_from_lognormal_mdf x h a = Ok r) <-> (3 <= length a)%nat.
Proof. exact lognormal_returns. Qed.
Print Assumptions C20_shape_errors_lognormal_mdf.
Theorem C20_shape_errors_lgmet_table : forall t m h a ages o,
  (exists r, calc_lgmet_weights_from_lgmet_table t m h a ages o = Ok r) <->
  length t = length m /\ t <> [] /\ (3 <= length a)%nat.
Proof. exact lgmet_table_returns. Qed.
Print Assumptions C20_shape_errors_lgmet_table.
Example C20_nonvacuous :
  (exists r, calc_rest_sed_sfh_table_lognormal_mdf [PInf] [NaN] NaN NaN (fins demo_lgmet) (fins demo_ages)
     (fins3 demo_flux) NInf NaN = Ok r)
  /\ (exists r, calc_rest_sed_sfh_table_lognormal_mdf [PInf; NaN] [NaN] NaN NaN (fins demo_lgmet)
     (fins demo_ages) (fins3 [[[1; 2]]]) NInf NaN = Ok r)
  /\ ~ (exists r, calc_rest_sed_sfh_table_lognormal_mdf [PInf; NaN; NaN] [NaN; NaN] NaN NaN (fins demo_lgmet)
     (fins demo_ages) (fins3 demo_flux) NInf NaN = Ok r).
Proof.
  rewrite !C20_shape_errors. split; [|split].
  - split; [now left|]. split; [discriminate|]. split; [simpl; lia|]. split; [simpl; lia|].
    exists 4%nat, 3%nat, 2%nat. split; [now left|]. split; [now left|]. repeat constructor.
  - split; [now right|]. split; [discriminate|]. split; [simpl; lia|]. split; [simpl; lia|].
    exists 1%nat, 1%nat, 2%nat. split; [now right|]. split; [now right|]. repeat constructor.
  - intros [[H|H] _]; discriminate H.
Qed.

(** C21: any numbers, any shapes *)
Theorem C21_sfr_min_only_scales : forall t sfr lgmet scatter ssp_lgmet ages flux t_obs sfr_min sfr_min' r,
  calc_rest_sed_sfh_table_lognormal_mdf t sfr lgmet scatter ssp_lgmet ages flux t_obs sfr_min = Ok r ->
  exists r',
    calc_rest_sed_sfh_table_lognormal_mdf t sfr lgmet scatter ssp_lgmet ages flux t_obs sfr_min' = Ok r'
    /\ rs_weights r' = rs_weights r /\ rs_lgmet_weights r' = rs_lgmet_weights r
    /\ rs_age_weights r' = rs_age_weights r.
Proof. exact C21_lemma. Qed.
Print Assumptions C21_sfr_min_only_scales.
Theorem C21_sfr_min_only_scales_met_table : forall t sfr lgmet_table scatter ssp_lgmet ages flux t_obs sfr_min sfr_min' r,
  calc_rest_sed_sfh_table_met_table t sfr lgmet_table scatter ssp_lgmet ages flux t_obs sfr_min = Ok r ->
  exists r',
    calc_rest_sed_sfh_table_met_table t sfr lgmet_table scatter ssp_lgmet ages flux t_obs sfr_min' = Ok r'
    /\ rs_weights r' = rs_weights r /\ rs_lgmet_weights r' = rs_lgmet_weights r
    /\ rs_age_weights r' = rs_age_weights r.
Proof. exact C21_met_lemma. Qed.
Print Assumptions C21_sfr_min_only_scales_met_table.
Example C21_nonvacuous : exists r,
  calc_rest_sed_sfh_table_lognormal_mdf (fins demo_t) (fins demo_sfr) (Fin (-2)) (Fin (1/5))
    (fins demo_lgmet) (fins demo_ages) (fins3 demo_flux) (Fin demo_tobs) (Fin demo_min) = Ok r.
Proof.
  apply C20_shape_errors. split; [now left|]. split; [discriminate|]. split; [simpl; lia|]. split; [simpl; lia|].
  exists 4%nat, 3%nat, 2%nat. split; [now left|]. split; [now left|]. repeat constructor.
Qed.

(** C06 for the SED *)
Theorem C06_sed_sfr_floor : forall ts sfrs sfrs' lgmet scatter ssp_lgmet ages flux t_obs sfr_min,
  length ts = length sfrs -> ts <> [] -> increasing (0.001 :: ts) -> 0 < t_obs -> 0 < sfr_min ->
  (3 <= length ages)%nat ->
  map (Rmax (1 / 10 ^ 14)) sfrs = map (Rmax (1 / 10 ^ 14)) sfrs' ->
  map (Rmax sfr_min) sfrs = map (Rmax sfr_min) sfrs' ->
  calc_rest_sed_sfh_table_lognormal_mdf (fins ts) (fins sfrs) lgmet scatter ssp_lgmet (fins ages) flux
    (Fin t_obs) (Fin sfr_min)
  = calc_rest_sed_sfh_table_lognormal_mdf (fins ts) (fins sfrs') lgmet scatter ssp_lgmet (fins ages) flux
    (Fin t_obs) (Fin sfr_min).
Proof. exact C06_sed_lemma. Qed.
Print Assumptions C06_sed_sfr_floor.
Theorem C06_sed_sfr_floor_met_table : forall ts sfrs sfrs' lgmet_table scatter ssp_lgmet ages flux t_obs sfr_min,
  length ts = length sfrs -> ts <> [] -> increasing (0.001 :: ts) -> 0 < t_obs -> 0 < sfr_min ->
  (3 <= length ages)%nat ->
  map (Rmax (1 / 10 ^ 14)) sfrs = map (Rmax (1 / 10 ^ 14)) sfrs' ->
  map (Rmax sfr_min) sfrs = map (Rmax sfr_min) sfrs' ->
  calc_rest_sed_sfh_table_met_table (fins ts) (fins sfrs) lgmet_table scatter ssp_lgmet (fins ages) flux
    (Fin t_obs) (Fin sfr_min)
  = calc_rest_sed_sfh_table_met_table (fins ts) (fins sfrs') lgmet_table scatter ssp_lgmet (fins ages) flux
    (Fin t_obs) (Fin sfr_min).
Proof. exact C06_sed_met_lemma. Qed.
Print Assumptions C06_sed_sfr_floor_met_table.
Example C06_sed_nonvacuous :
  map (Rmax demo_min) demo_sfr = map (Rmax demo_min) [-7; 3; 0] /\ demo_sfr <> [-7; 3; 0].
Proof.
  pose proof demo_min_pos. unfold demo_sfr. cbn [map].
  rewrite (Rmax_left demo_min 0), (Rmax_left demo_min (-1)), (Rmax_left demo_min (-7)) by lra.
  split; [reflexivity|]. intros E. injection E. lra.
Qed.

(** C07 for the SED *)
Theorem C07_sed_causality : forall ts sfrs sfrs' lgmet scatter ssp_lgmet ages flux t_obs sfr_min,
  length ts = length sfrs -> length ts = length sfrs' -> ts <> [] -> increasing (0.001 :: ts) ->
  0 < t_obs -> 0 < sfr_min -> (3 <= length ages)%nat -> same_past ts t_obs sfrs sfrs' ->
  calc_rest_sed_sfh_table_lognormal_mdf (fins ts) (fins sfrs) lgmet scatter ssp_lgmet (fins ages) flux
    (Fin t_obs) (Fin sfr_min)
  = calc_rest_sed_sfh_table_lognormal_mdf (fins ts) (fins sfrs') lgmet scatter ssp_lgmet (fins ages) flux
    (Fin t_obs) (Fin sfr_min).
Proof. exact C07_sed_lemma. Qed.
Print Assumptions C07_sed_causality.
Theorem C07_sed_causality_met_table : forall ts sfrs sfrs' ms ms' scatter ssp_lgmet ages flux t_obs sfr_min,
  length ts = length sfrs -> length ts = length sfrs' ->
  length ts = length ms -> length ts = length ms' ->
  ts <> [] -> increasing (0.001 :: ts) ->
  0 < t_obs -> 0 < sfr_min -> (3 <= length ages)%nat ->
  same_past ts t_obs sfrs sfrs' -> same_past ts t_obs ms ms' ->
  calc_rest_sed_sfh_table_met_table (fins ts) (fins sfrs) (fins ms) scatter ssp_lgmet (fins ages) flux
    (Fin t_obs) (Fin sfr_min)
  = calc_rest_sed_sfh_table_met_table (fins ts) (fins sfrs') (fins ms') scatter ssp_lgmet (fins ages) flux
    (Fin t_obs) (Fin sfr_min).
Proof. exact C07_sed_met_lemma. Qed.
Print Assumptions C07_sed_causality_met_table.
Example C07_sed_nonvacuous : same_past demo_t 4 [1; 2; 3] [1; 2; 99].
Proof.
  intros i Hi Hc. simpl in Hi.
  destruct i as [|[|[|i]]]; try lia; try reflexivity.
  destruct Hc as [Hc|Hc]; [lia|]. unfold ent, demo_t in Hc. simpl in Hc. lra.
Qed.
