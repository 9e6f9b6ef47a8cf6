(** * Properties C144, C145, C147 and C148: sensitivity of weights, spectra and magnitudes to the star
    formation history and the metallicity, superposition.  Exact real arithmetic; the vocabulary ([within_factor],
    [tables_within], [mags_shifted]) is in SpecStab.v and SpecMetStab.v. *)
From Coq Require Import Reals List Arith Lra Lia.
From Coquelicot Require Import Coquelicot.
From Verif Require Import Num Arr MUtils MSed MPhot Spec Spec2 SpecStab RList LUtils LAge LMet LJoint LStab5 LStabMet LSuper LSuper2 SpecMetStab LMetStab2 Demo Demo2.
Import ListNotations.
Open Scope R_scope.

(** two histories that agree within 10 per cent *)
Definition stab_sfr : list R := [1; 3; 2].
Definition stab_sfr' : list R := [1.05; 2.8; 2.1].
Lemma stab_formed m : 0 < m -> let formed lg_age := mass_formed_by demo_t (floored m stab_sfr) (birth_time demo_tobs lg_age) in
  formed (age_edge demo_ages 0) <> formed (age_edge demo_ages (length demo_ages)).
Proof.
  intros Hm. apply (edge_mass_neq demo_t stab_sfr demo_ages demo_tobs m); auto with demo.
  rewrite demo_e0, demo_e3. lra.
Qed.
Lemma stab_grids : good_grids demo_t stab_sfr (1/5) demo_lgmet demo_ages demo_tobs.
Proof.
  unfold good_grids. repeat (split; [solve [auto using demo_lgmet3, demo_met_edges with demo|lra|reflexivity]|]). apply stab_formed. lra.
Qed.
Lemma stab_within : tables_within 1.1 stab_sfr stab_sfr'.
Proof. split; [reflexivity|]. intros i Hi. simpl in Hi. unfold within_factor, ent. destruct i as [|[|[|i]]]; simpl; try lra; lia. Qed.
Lemma stab_cube : nonneg_cube (length demo_lgmet) (length demo_ages) 2 demo_flux.
Proof. split; [auto with demo|]. intros i j k Hi Hj Hk. apply demo_flux_range; auto. Qed.

(** C144 *)
Theorem C144_age_weights : forall ts s s' ages t_obs sfr_min L,
  length ts = length s -> ts <> [] -> increasing (0.001 :: ts) -> 0 < sfr_min -> (3 <= length ages)%nat -> nondecreasing (age_edges ages) ->
  (let formed lg_age := mass_formed_by ts (floored sfr_min s) (birth_time t_obs lg_age) in formed (age_edge ages 0) <> formed (age_edge ages (length ages))) ->
  1 <= L -> tables_within L s s' ->
  exists w w',
    calc_age_weights_from_sfh_table (fins ts) (fins s) (fins ages) (Fin t_obs) (Fin sfr_min) = Ok (fins w)
    /\ calc_age_weights_from_sfh_table (fins ts) (fins s') (fins ages) (Fin t_obs) (Fin sfr_min) = Ok (fins w')
    /\ length w = length ages /\ length w' = length ages
    /\ forall j, (j < length ages)%nat -> within_factor (L ^ 10) (ent w j) (ent w' j).
Proof. exact C144_weights_lemma. Qed.
Print Assumptions C144_age_weights.
Theorem C144_sed_and_magnitudes : forall ts s s' lgmet scatter ssp_lgmet ages n_wave flux t_obs sfr_min L,
  good_grids ts s scatter ssp_lgmet ages t_obs -> 0 < t_obs -> 0 < sfr_min -> 1 <= L -> tables_within L s s' ->
  nonneg_cube (length ssp_lgmet) (length ages) n_wave flux ->
  exists r r' sed sed',
    calc_rest_sed_sfh_table_lognormal_mdf (fins ts) (fins s) (Fin lgmet) (Fin scatter) (fins ssp_lgmet) (fins ages) (fins3 flux) (Fin t_obs) (Fin sfr_min) = Ok r
    /\ calc_rest_sed_sfh_table_lognormal_mdf (fins ts) (fins s') (Fin lgmet) (Fin scatter) (fins ssp_lgmet) (fins ages) (fins3 flux) (Fin t_obs) (Fin sfr_min) = Ok r'
    /\ rest_sed r = fins sed /\ rest_sed r' = fins sed'
    /\ (forall k, (k < n_wave)%nat -> within_factor (L ^ 11) (ent sed k) (ent sed' k))
    /\ forall ws, length ws = n_wave -> ws <> [] -> increasing ws -> mags_shifted ws sed sed' 0 (27.5 * log10 L).
Proof. exact C144_sed_lemma. Qed.
Print Assumptions C144_sed_and_magnitudes.
Theorem C144_sed_and_magnitudes_met_table : forall ts s s' lgmet_table scatter ssp_lgmet ages n_wave flux t_obs sfr_min L,
  good_grids ts s scatter ssp_lgmet ages t_obs -> length ts = length lgmet_table -> 0 < t_obs -> 0 < sfr_min -> 1 <= L -> tables_within L s s' ->
  nonneg_cube (length ssp_lgmet) (length ages) n_wave flux ->
  exists r r' sed sed',
    calc_rest_sed_sfh_table_met_table (fins ts) (fins s) (fins lgmet_table) (Fin scatter) (fins ssp_lgmet) (fins ages) (fins3 flux) (Fin t_obs) (Fin sfr_min) = Ok r
    /\ calc_rest_sed_sfh_table_met_table (fins ts) (fins s') (fins lgmet_table) (Fin scatter) (fins ssp_lgmet) (fins ages) (fins3 flux) (Fin t_obs) (Fin sfr_min) = Ok r'
    /\ rest_sed r = fins sed /\ rest_sed r' = fins sed'
    /\ (forall k, (k < n_wave)%nat -> within_factor (L ^ 11) (ent sed k) (ent sed' k))
    /\ forall ws, length ws = n_wave -> ws <> [] -> increasing ws -> mags_shifted ws sed sed' 0 (27.5 * log10 L).
Proof. exact C144_met_lemma. Qed.
Print Assumptions C144_sed_and_magnitudes_met_table.
Example C144_nonvacuous :
  (exists w w', calc_age_weights_from_sfh_table (fins demo_t) (fins stab_sfr) (fins demo_ages) (Fin demo_tobs) (Fin demo_min) = Ok (fins w)
   /\ calc_age_weights_from_sfh_table (fins demo_t) (fins stab_sfr') (fins demo_ages) (Fin demo_tobs) (Fin demo_min) = Ok (fins w')
   /\ within_factor (1.1 ^ 10) (ent w 1) (ent w' 1))
  /\ (exists r r' sed sed',
    calc_rest_sed_sfh_table_lognormal_mdf (fins demo_t) (fins stab_sfr) (Fin (-2)) (Fin (1/5)) (fins demo_lgmet) (fins demo_ages) (fins3 demo_flux) (Fin demo_tobs) (Fin demo_min) = Ok r
    /\ calc_rest_sed_sfh_table_lognormal_mdf (fins demo_t) (fins stab_sfr') (Fin (-2)) (Fin (1/5)) (fins demo_lgmet) (fins demo_ages) (fins3 demo_flux) (Fin demo_tobs) (Fin demo_min) = Ok r'
    /\ rest_sed r = fins sed /\ rest_sed r' = fins sed' /\ mags_shifted [1000; 9000] sed sed' 0 (27.5 * log10 1.1)).
Proof.
  split.
  - destruct (C144_age_weights demo_t stab_sfr stab_sfr' demo_ages demo_tobs demo_min 1.1) as (w & w' & E & E' & _ & _ & W);
      [reflexivity|auto with demo|auto with demo|auto with demo|auto with demo|auto with demo|apply stab_formed; auto with demo|lra|apply stab_within|].
    exists w, w'. split; [exact E|]. split; [exact E'|]. apply W. simpl. lia.
  - destruct (C144_sed_and_magnitudes demo_t stab_sfr stab_sfr' (-2) (1/5) demo_lgmet demo_ages 2 demo_flux demo_tobs demo_min 1.1)
      as (r & r' & sed & sed' & E & E' & R & R' & _ & M);
      [apply stab_grids|unfold demo_tobs; lra|auto with demo|lra|apply stab_within|apply stab_cube|].
    exists r, r', sed, sed'. repeat (split; [assumption|]). apply M; [reflexivity|discriminate|solve_increasing].
Qed.

(** C145 *)
Theorem C145_age_weights_scale_free : forall ts s ages t_obs sfr_min c eps,
  length ts = length s -> ts <> [] -> increasing (0.001 :: ts) -> 0 < sfr_min -> (3 <= length ages)%nat -> nondecreasing (age_edges ages) ->
  (let formed lg_age := mass_formed_by ts (floored sfr_min s) (birth_time t_obs lg_age) in formed (age_edge ages 0) <> formed (age_edge ages (length ages))) ->
  0 < c -> 0 <= eps -> List.Forall (fun x => sfr_min <= x /\ sfr_min <= c * x) s -> 1 / 10 ^ 14 <= eps * ent s 0 -> 1 / 10 ^ 14 <= eps * (c * ent s 0) ->
  exists w w',
    calc_age_weights_from_sfh_table (fins ts) (fins s) (fins ages) (Fin t_obs) (Fin sfr_min) = Ok (fins w)
    /\ calc_age_weights_from_sfh_table (fins ts) (fins (map (Rmult c) s)) (fins ages) (Fin t_obs) (Fin sfr_min) = Ok (fins w')
    /\ length w = length ages /\ length w' = length ages
    /\ forall j, (j < length ages)%nat -> within_factor ((1 + eps) ^ 10) (ent w j) (ent w' j).
Proof. exact C145_lemma. Qed.
Print Assumptions C145_age_weights_scale_free.
Theorem C145_sed_scales_with_sfh : forall ts s lgmet scatter ssp_lgmet ages n_wave flux t_obs sfr_min c eps,
  good_grids ts s scatter ssp_lgmet ages t_obs -> 0 < t_obs -> 0 < sfr_min -> 0 < c -> 0 <= eps ->
  List.Forall (fun x => sfr_min <= x /\ sfr_min <= c * x /\ 1 / 10 ^ 14 <= x /\ 1 / 10 ^ 14 <= c * x) s ->
  1 / 10 ^ 14 <= eps * ent s 0 -> 1 / 10 ^ 14 <= eps * (c * ent s 0) ->
  nonneg_cube (length ssp_lgmet) (length ages) n_wave flux ->
  exists r r' sed sed',
    calc_rest_sed_sfh_table_lognormal_mdf (fins ts) (fins s) (Fin lgmet) (Fin scatter) (fins ssp_lgmet) (fins ages) (fins3 flux) (Fin t_obs) (Fin sfr_min) = Ok r
    /\ calc_rest_sed_sfh_table_lognormal_mdf (fins ts) (fins (map (Rmult c) s)) (Fin lgmet) (Fin scatter) (fins ssp_lgmet) (fins ages) (fins3 flux) (Fin t_obs) (Fin sfr_min) = Ok r'
    /\ rest_sed r = fins sed /\ rest_sed r' = fins sed'
    /\ (forall k, (k < n_wave)%nat -> within_factor ((1 + eps) ^ 11) (c * ent sed k) (ent sed' k))
    /\ forall ws, length ws = n_wave -> ws <> [] -> increasing ws -> mags_shifted ws sed sed' (- (2.5 * log10 c)) (27.5 * log10 (1 + eps)).
Proof. exact C145_sed_lemma. Qed.
Print Assumptions C145_sed_scales_with_sfh.
Theorem C145_sed_scales_with_sfh_met_table : forall ts s lgmet_table scatter ssp_lgmet ages n_wave flux t_obs sfr_min c eps,
  good_grids ts s scatter ssp_lgmet ages t_obs -> length ts = length lgmet_table -> 0 < t_obs -> 0 < sfr_min -> 0 < c -> 0 <= eps ->
  List.Forall (fun x => sfr_min <= x /\ sfr_min <= c * x /\ 1 / 10 ^ 14 <= x /\ 1 / 10 ^ 14 <= c * x) s ->
  1 / 10 ^ 14 <= eps * ent s 0 -> 1 / 10 ^ 14 <= eps * (c * ent s 0) ->
  nonneg_cube (length ssp_lgmet) (length ages) n_wave flux ->
  exists r r' sed sed',
    calc_rest_sed_sfh_table_met_table (fins ts) (fins s) (fins lgmet_table) (Fin scatter) (fins ssp_lgmet) (fins ages) (fins3 flux) (Fin t_obs) (Fin sfr_min) = Ok r
    /\ calc_rest_sed_sfh_table_met_table (fins ts) (fins (map (Rmult c) s)) (fins lgmet_table) (Fin scatter) (fins ssp_lgmet) (fins ages) (fins3 flux) (Fin t_obs) (Fin sfr_min) = Ok r'
    /\ rest_sed r = fins sed /\ rest_sed r' = fins sed'
    /\ (forall k, (k < n_wave)%nat -> within_factor ((1 + eps) ^ 11) (c * ent sed k) (ent sed' k))
    /\ forall ws, length ws = n_wave -> ws <> [] -> increasing ws -> mags_shifted ws sed sed' (- (2.5 * log10 c)) (27.5 * log10 (1 + eps)).
Proof. exact C145_sed_met_lemma. Qed.
Print Assumptions C145_sed_scales_with_sfh_met_table.
Example C145_nonvacuous :
  (exists w w', calc_age_weights_from_sfh_table (fins demo_t) (fins stab_sfr) (fins demo_ages) (Fin demo_tobs) (Fin demo_min) = Ok (fins w)
   /\ calc_age_weights_from_sfh_table (fins demo_t) (fins (map (Rmult 7) stab_sfr)) (fins demo_ages) (Fin demo_tobs) (Fin demo_min) = Ok (fins w')
   /\ within_factor ((1 + 1 / 10 ^ 14) ^ 10) (ent w 1) (ent w' 1))
  /\ (exists r r' sed sed',
    calc_rest_sed_sfh_table_lognormal_mdf (fins demo_t) (fins stab_sfr) (Fin (-2)) (Fin (1/5)) (fins demo_lgmet) (fins demo_ages) (fins3 demo_flux) (Fin demo_tobs) (Fin demo_min) = Ok r
    /\ calc_rest_sed_sfh_table_lognormal_mdf (fins demo_t) (fins (map (Rmult 7) stab_sfr)) (Fin (-2)) (Fin (1/5)) (fins demo_lgmet) (fins demo_ages) (fins3 demo_flux) (Fin demo_tobs) (Fin demo_min) = Ok r'
    /\ rest_sed r = fins sed /\ rest_sed r' = fins sed'
    /\ mags_shifted [1000; 9000] sed sed' (- (2.5 * log10 7)) (27.5 * log10 (1 + 1 / 10 ^ 14))).
Proof.
  split.
  - destruct (C145_age_weights_scale_free demo_t stab_sfr demo_ages demo_tobs demo_min 7 (1 / 10 ^ 14)) as (w & w' & E & E' & _ & _ & W);
      [reflexivity|auto with demo|auto with demo|auto with demo|auto with demo|auto with demo|apply stab_formed; auto with demo|lra|lra
      |unfold stab_sfr, demo_min; repeat constructor; lra|unfold stab_sfr, ent; simpl; lra|unfold stab_sfr, ent; simpl; lra|].
    exists w, w'. split; [exact E|]. split; [exact E'|]. apply W. simpl. lia.
  - destruct (C145_sed_scales_with_sfh demo_t stab_sfr (-2) (1/5) demo_lgmet demo_ages 2 demo_flux demo_tobs demo_min 7 (1 / 10 ^ 14))
      as (r & r' & sed & sed' & E & E' & R & R' & _ & M);
      [apply stab_grids|unfold demo_tobs; lra|auto with demo|lra|lra
      |unfold stab_sfr, demo_min; repeat constructor; lra|unfold stab_sfr, ent; simpl; lra|unfold stab_sfr, ent; simpl; lra|apply stab_cube|].
    exists r, r', sed, sed'. repeat (split; [assumption|]). apply M; [reflexivity|discriminate|solve_increasing].
Qed.
Example C145_met_nonvacuous : exists r r' sed sed',
    calc_rest_sed_sfh_table_met_table (fins demo_t) (fins stab_sfr) (fins demo_met_table) (Fin (1/5)) (fins demo_lgmet) (fins demo_ages) (fins3 demo_flux) (Fin demo_tobs) (Fin demo_min) = Ok r
    /\ calc_rest_sed_sfh_table_met_table (fins demo_t) (fins (map (Rmult 7) stab_sfr)) (fins demo_met_table) (Fin (1/5)) (fins demo_lgmet) (fins demo_ages) (fins3 demo_flux) (Fin demo_tobs) (Fin demo_min) = Ok r'
    /\ rest_sed r = fins sed /\ rest_sed r' = fins sed'
    /\ mags_shifted [1000; 9000] sed sed' (- (2.5 * log10 7)) (27.5 * log10 (1 + 1 / 10 ^ 14)).
Proof.
  destruct (C145_sed_scales_with_sfh_met_table demo_t stab_sfr demo_met_table (1/5) demo_lgmet demo_ages 2 demo_flux demo_tobs demo_min 7 (1 / 10 ^ 14))
      as (r & r' & sed & sed' & E & E' & R & R' & _ & M);
      [apply stab_grids|reflexivity|unfold demo_tobs; lra|auto with demo|lra|lra
      |unfold stab_sfr, demo_min; repeat constructor; lra|unfold stab_sfr, ent; simpl; lra|unfold stab_sfr, ent; simpl; lra|apply stab_cube|].
  exists r, r', sed, sed'. repeat (split; [assumption|]). apply M; [reflexivity|discriminate|solve_increasing].
Qed.

(** C147 *)
Theorem C147_mass_table_superposes : forall ts s s', length ts = length s -> length ts = length s' -> increasing (0.001 :: ts) ->
  exists m m' m2,
    cumulative_mstar_formed (fins ts) (fins s) = Ok (fins m) /\ cumulative_mstar_formed (fins ts) (fins s') = Ok (fins m')
    /\ cumulative_mstar_formed (fins ts) (fins (map2 Rplus s s')) = Ok (fins m2)
    /\ length m = length ts /\ length m' = length ts /\ length m2 = length ts
    /\ (forall i, (i < length ts)%nat -> ent m2 i = ent m i + ent m' i - 10 ^ 9 * (1 / 10 ^ 14) * (ent ts 0 - 0.001) / 2)
    /\ ((forall i, (i < length ts)%nat -> ent s i <= ent s' i) -> forall i, (i < length ts)%nat -> ent m i <= ent m' i).
Proof. exact C147_tables_lemma. Qed.
Print Assumptions C147_mass_table_superposes.
Theorem C147_superposition_within_one_step : forall ts s s' lgmet scatter ssp_lgmet ages n_wave flux t_obs sfr_min i,
  good_grids ts s scatter ssp_lgmet ages t_obs -> good_grids ts s' scatter ssp_lgmet ages t_obs ->
  good_grids ts (map2 Rplus s s') scatter ssp_lgmet ages t_obs -> 0 < t_obs -> 0 < sfr_min ->
  List.Forall (fun x => sfr_min <= x) s -> List.Forall (fun x => sfr_min <= x) s' ->
  is_cube (length ssp_lgmet) (length ages) n_wave flux ->
  (forall i j k, (i < length ssp_lgmet)%nat -> (j < length ages)%nat -> (k < n_wave)%nat -> ent3 flux i j k = 1) ->
  (S i < length ts)%nat -> ent ts i <= t_obs <= ent ts (S i) ->
  exists r r' r2 m m' m2,
    calc_rest_sed_sfh_table_lognormal_mdf (fins ts) (fins s) (Fin lgmet) (Fin scatter) (fins ssp_lgmet) (fins ages) (fins3 flux) (Fin t_obs) (Fin sfr_min) = Ok r
    /\ calc_rest_sed_sfh_table_lognormal_mdf (fins ts) (fins s') (Fin lgmet) (Fin scatter) (fins ssp_lgmet) (fins ages) (fins3 flux) (Fin t_obs) (Fin sfr_min) = Ok r'
    /\ calc_rest_sed_sfh_table_lognormal_mdf (fins ts) (fins (map2 Rplus s s')) (Fin lgmet) (Fin scatter) (fins ssp_lgmet) (fins ages) (fins3 flux) (Fin t_obs) (Fin sfr_min) = Ok r2
    /\ rest_sed r = fins (repeat m n_wave) /\ rest_sed r' = fins (repeat m' n_wave) /\ rest_sed r2 = fins (repeat m2 n_wave)
    /\ Rabs (m2 - (m + m')) <= 10 ^ 9 * ((ent ts (S i) - ent ts i) * (ent s i + ent s' i + (ent s (S i) + ent s' (S i))) / 2 + 1 / 10 ^ 14 * (ent ts 0 - 0.001) / 2)
    /\ ((t_obs = ent ts i \/ t_obs = ent ts (S i)) -> m2 = m + m' - 10 ^ 9 * (1 / 10 ^ 14) * (ent ts 0 - 0.001) / 2).
Proof. exact C147_step_lemma. Qed.
Print Assumptions C147_superposition_within_one_step.
Theorem C147_superposition_within_one_step_met_table : forall ts s s' lgmet_table scatter ssp_lgmet ages n_wave flux t_obs sfr_min i,
  good_grids ts s scatter ssp_lgmet ages t_obs -> good_grids ts s' scatter ssp_lgmet ages t_obs ->
  good_grids ts (map2 Rplus s s') scatter ssp_lgmet ages t_obs -> length ts = length lgmet_table -> 0 < t_obs -> 0 < sfr_min ->
  List.Forall (fun x => sfr_min <= x) s -> List.Forall (fun x => sfr_min <= x) s' ->
  is_cube (length ssp_lgmet) (length ages) n_wave flux ->
  (forall i j k, (i < length ssp_lgmet)%nat -> (j < length ages)%nat -> (k < n_wave)%nat -> ent3 flux i j k = 1) ->
  (S i < length ts)%nat -> ent ts i <= t_obs <= ent ts (S i) ->
  exists r r' r2 m m' m2,
    calc_rest_sed_sfh_table_met_table (fins ts) (fins s) (fins lgmet_table) (Fin scatter) (fins ssp_lgmet) (fins ages) (fins3 flux) (Fin t_obs) (Fin sfr_min) = Ok r
    /\ calc_rest_sed_sfh_table_met_table (fins ts) (fins s') (fins lgmet_table) (Fin scatter) (fins ssp_lgmet) (fins ages) (fins3 flux) (Fin t_obs) (Fin sfr_min) = Ok r'
    /\ calc_rest_sed_sfh_table_met_table (fins ts) (fins (map2 Rplus s s')) (fins lgmet_table) (Fin scatter) (fins ssp_lgmet) (fins ages) (fins3 flux) (Fin t_obs) (Fin sfr_min) = Ok r2
    /\ rest_sed r = fins (repeat m n_wave) /\ rest_sed r' = fins (repeat m' n_wave) /\ rest_sed r2 = fins (repeat m2 n_wave)
    /\ Rabs (m2 - (m + m')) <= 10 ^ 9 * ((ent ts (S i) - ent ts i) * (ent s i + ent s' i + (ent s (S i) + ent s' (S i))) / 2 + 1 / 10 ^ 14 * (ent ts 0 - 0.001) / 2)
    /\ ((t_obs = ent ts i \/ t_obs = ent ts (S i)) -> m2 = m + m' - 10 ^ 9 * (1 / 10 ^ 14) * (ent ts 0 - 0.001) / 2).
Proof. exact C147_step_met_lemma. Qed.
Print Assumptions C147_superposition_within_one_step_met_table.
Theorem C147_exact_superposition_refuted : exists ts s s' lgmet scatter ssp_lgmet ages flux t_obs sfr_min r r' r2 m m' m2,
  good_grids ts s scatter ssp_lgmet ages t_obs /\ good_grids ts s' scatter ssp_lgmet ages t_obs
  /\ good_grids ts (map2 Rplus s s') scatter ssp_lgmet ages t_obs /\ 0 < t_obs < ent ts (length ts - 1) /\ 0 < sfr_min
  /\ List.Forall (fun x => sfr_min <= x) s /\ List.Forall (fun x => sfr_min <= x) s'
  /\ is_cube (length ssp_lgmet) (length ages) 1 flux
  /\ calc_rest_sed_sfh_table_lognormal_mdf (fins ts) (fins s) (Fin lgmet) (Fin scatter) (fins ssp_lgmet) (fins ages) (fins3 flux) (Fin t_obs) (Fin sfr_min) = Ok r
  /\ calc_rest_sed_sfh_table_lognormal_mdf (fins ts) (fins s') (Fin lgmet) (Fin scatter) (fins ssp_lgmet) (fins ages) (fins3 flux) (Fin t_obs) (Fin sfr_min) = Ok r'
  /\ calc_rest_sed_sfh_table_lognormal_mdf (fins ts) (fins (map2 Rplus s s')) (Fin lgmet) (Fin scatter) (fins ssp_lgmet) (fins ages) (fins3 flux) (Fin t_obs) (Fin sfr_min) = Ok r2
  /\ rest_sed r = [Fin m] /\ rest_sed r' = [Fin m'] /\ rest_sed r2 = [Fin m2]
  /\ 1.5 * (m + m') < m2.
Proof. exact C147_refuted_lemma. Qed.
Print Assumptions C147_exact_superposition_refuted.
Example C147_nonvacuous : exists r r' r2 m m' m2,
    calc_rest_sed_sfh_table_lognormal_mdf (fins sp_t) (fins sp_a) (Fin (-2)) (Fin (1/5)) (fins demo_lgmet) (fins demo_ages) (fins3 (ones 4 3 2)) (Fin 2) (Fin demo_min) = Ok r
    /\ calc_rest_sed_sfh_table_lognormal_mdf (fins sp_t) (fins sp_b) (Fin (-2)) (Fin (1/5)) (fins demo_lgmet) (fins demo_ages) (fins3 (ones 4 3 2)) (Fin 2) (Fin demo_min) = Ok r'
    /\ calc_rest_sed_sfh_table_lognormal_mdf (fins sp_t) (fins (map2 Rplus sp_a sp_b)) (Fin (-2)) (Fin (1/5)) (fins demo_lgmet) (fins demo_ages) (fins3 (ones 4 3 2)) (Fin 2) (Fin demo_min) = Ok r2
    /\ rest_sed r = fins (repeat m 2) /\ rest_sed r' = fins (repeat m' 2) /\ rest_sed r2 = fins (repeat m2 2)
    /\ Rabs (m2 - (m + m')) <= 10 ^ 9 * 15.4.
Proof.
  destruct (C147_superposition_within_one_step sp_t sp_a sp_b (-2) (1/5) demo_lgmet demo_ages 2 (ones 4 3 2) 2 demo_min 0)
    as (r & r' & r2 & m & m' & m2 & E & E' & E2 & R & R' & R2 & B & _);
    [apply sp_grids; reflexivity|apply sp_grids; reflexivity|apply sp_grids; reflexivity|lra|auto with demo
    |unfold sp_a, demo_min; repeat constructor; lra|unfold sp_b, demo_min; repeat constructor; lra|apply (ones_cube 4 3 2)|apply (ones_ent 4 3 2)
    |simpl; lia|unfold sp_t, ent; simpl; lra|].
  exists r, r', r2, m, m', m2. do 6 (split; [assumption|]). eapply Rle_trans; [exact B|]. unfold sp_t, sp_a, sp_b, ent. simpl. lra.
Qed.
Example C147_met_nonvacuous : exists r r' r2 m m' m2,
    calc_rest_sed_sfh_table_met_table (fins sp_t) (fins sp_a) (fins [-2; -1]) (Fin (1/5)) (fins demo_lgmet) (fins demo_ages) (fins3 (ones 4 3 2)) (Fin 2) (Fin demo_min) = Ok r
    /\ calc_rest_sed_sfh_table_met_table (fins sp_t) (fins sp_b) (fins [-2; -1]) (Fin (1/5)) (fins demo_lgmet) (fins demo_ages) (fins3 (ones 4 3 2)) (Fin 2) (Fin demo_min) = Ok r'
    /\ calc_rest_sed_sfh_table_met_table (fins sp_t) (fins (map2 Rplus sp_a sp_b)) (fins [-2; -1]) (Fin (1/5)) (fins demo_lgmet) (fins demo_ages) (fins3 (ones 4 3 2)) (Fin 2) (Fin demo_min) = Ok r2
    /\ rest_sed r = fins (repeat m 2) /\ rest_sed r' = fins (repeat m' 2) /\ rest_sed r2 = fins (repeat m2 2)
    /\ Rabs (m2 - (m + m')) <= 10 ^ 9 * 15.4.
Proof.
  destruct (C147_superposition_within_one_step_met_table sp_t sp_a sp_b [-2; -1] (1/5) demo_lgmet demo_ages 2 (ones 4 3 2) 2 demo_min 0)
    as (r & r' & r2 & m & m' & m2 & E & E' & E2 & R & R' & R2 & B & _);
    [apply sp_grids; reflexivity|apply sp_grids; reflexivity|apply sp_grids; reflexivity|reflexivity|lra|auto with demo
    |unfold sp_a, demo_min; repeat constructor; lra|unfold sp_b, demo_min; repeat constructor; lra|apply (ones_cube 4 3 2)|apply (ones_ent 4 3 2)
    |simpl; lia|unfold sp_t, ent; simpl; lra|].
  exists r, r', r2, m, m', m2. do 6 (split; [assumption|]). eapply Rle_trans; [exact B|]. unfold sp_t, sp_a, sp_b, ent. simpl. lra.
Qed.

(** C148 *)
Theorem C148_metallicity_weights : forall lgmet scatter lgmet' scatter' ssp_lgmet, (3 <= length ssp_lgmet)%nat -> nondecreasing (met_edges ssp_lgmet) ->
  mdf_inside lgmet scatter -> mdf_inside lgmet' scatter' ->
  exists w w',
    calc_lgmet_weights_from_lognormal_mdf (Fin lgmet) (Fin scatter) (fins ssp_lgmet) = Ok (fins w)
    /\ calc_lgmet_weights_from_lognormal_mdf (Fin lgmet') (Fin scatter') (fins ssp_lgmet) = Ok (fins w')
    /\ length w = length ssp_lgmet /\ length w' = length ssp_lgmet
    /\ (forall k, (k <= length ssp_lgmet)%nat -> Rabs (Rsum (firstn k w) - Rsum (firstn k w')) <= mdf_shift (Rabs (lgmet - lgmet')) scatter scatter')
    /\ (forall i, (i < length ssp_lgmet)%nat -> Rabs (ent w i - ent w' i) <= 2 * mdf_shift (Rabs (lgmet - lgmet')) scatter scatter').
Proof. exact C148_weights_lemma. Qed.
Print Assumptions C148_metallicity_weights.
Theorem C148_sed : forall ts sfrs lgmet scatter lgmet' scatter' ssp_lgmet ages n_wave flux t_obs sfr_min V,
  good_grids ts sfrs scatter ssp_lgmet ages t_obs -> 0 < t_obs -> 0 < sfr_min ->
  mdf_inside lgmet scatter -> mdf_inside lgmet' scatter' ->
  is_cube (length ssp_lgmet) (length ages) n_wave flux ->
  (forall j k, (j < length ages)%nat -> (k < n_wave)%nat -> met_variation (length ssp_lgmet) flux j k <= V) ->
  exists r r' sed sed',
    calc_rest_sed_sfh_table_lognormal_mdf (fins ts) (fins sfrs) (Fin lgmet) (Fin scatter) (fins ssp_lgmet) (fins ages) (fins3 flux) (Fin t_obs) (Fin sfr_min) = Ok r
    /\ calc_rest_sed_sfh_table_lognormal_mdf (fins ts) (fins sfrs) (Fin lgmet') (Fin scatter') (fins ssp_lgmet) (fins ages) (fins3 flux) (Fin t_obs) (Fin sfr_min) = Ok r'
    /\ rest_sed r = fins sed /\ rest_sed r' = fins sed' /\ length sed = n_wave /\ length sed' = n_wave
    /\ forall k, (k < n_wave)%nat ->
       Rabs (ent sed k - ent sed' k) <= mass_formed_by ts (floored sfr_min sfrs) t_obs * (mdf_shift (Rabs (lgmet - lgmet')) scatter scatter' * V).
Proof. exact C148_sed_lemma. Qed.
Print Assumptions C148_sed.
Theorem C148_sed_met_table : forall ts sfrs lgmet_table scatter lgmet_table' scatter' ssp_lgmet ages n_wave flux t_obs sfr_min V dx,
  good_grids ts sfrs scatter ssp_lgmet ages t_obs -> 0 < t_obs -> 0 < sfr_min ->
  length ts = length lgmet_table -> length ts = length lgmet_table' ->
  List.Forall (fun x => mdf_inside x scatter) lgmet_table -> List.Forall (fun x => mdf_inside x scatter') lgmet_table' ->
  (forall i, (i < length ts)%nat -> Rabs (ent lgmet_table i - ent lgmet_table' i) <= dx) ->
  is_cube (length ssp_lgmet) (length ages) n_wave flux ->
  (forall j k, (j < length ages)%nat -> (k < n_wave)%nat -> met_variation (length ssp_lgmet) flux j k <= V) ->
  exists r r' sed sed',
    calc_rest_sed_sfh_table_met_table (fins ts) (fins sfrs) (fins lgmet_table) (Fin scatter) (fins ssp_lgmet) (fins ages) (fins3 flux) (Fin t_obs) (Fin sfr_min) = Ok r
    /\ calc_rest_sed_sfh_table_met_table (fins ts) (fins sfrs) (fins lgmet_table') (Fin scatter') (fins ssp_lgmet) (fins ages) (fins3 flux) (Fin t_obs) (Fin sfr_min) = Ok r'
    /\ rest_sed r = fins sed /\ rest_sed r' = fins sed' /\ length sed = n_wave /\ length sed' = n_wave
    /\ forall k, (k < n_wave)%nat ->
       Rabs (ent sed k - ent sed' k) <= mass_formed_by ts (floored sfr_min sfrs) t_obs * (mdf_shift dx scatter scatter' * V).
Proof. exact C148_met_lemma. Qed.
Print Assumptions C148_sed_met_table.
Lemma demo_variation j k : (j < length demo_ages)%nat -> (k < 2)%nat -> met_variation (length demo_lgmet) demo_flux j k <= 27.
Proof.
  intros Hj Hk. unfold met_variation. cbn [length demo_lgmet Nat.sub seq map Rsum].
  assert (B : forall i, (i < 3)%nat -> Rabs (ent3 demo_flux (S i) j k - ent3 demo_flux i j k) <= 9).
  { intros i Hi. pose proof (demo_flux_range i j k ltac:(simpl; lia) Hj Hk). pose proof (demo_flux_range (S i) j k ltac:(simpl; lia) Hj Hk). apply Rabs_le. lra. }
  pose proof (B 0%nat ltac:(lia)). pose proof (B 1%nat ltac:(lia)). pose proof (B 2%nat ltac:(lia)). lra.
Qed.
Example C148_nonvacuous :
  (exists w w', calc_lgmet_weights_from_lognormal_mdf (Fin (-2)) (Fin (1/5)) (fins demo_lgmet) = Ok (fins w)
   /\ calc_lgmet_weights_from_lognormal_mdf (Fin (-2.01)) (Fin (0.21)) (fins demo_lgmet) = Ok (fins w')
   /\ Rabs (ent w 1 - ent w' 1) <= 2 * mdf_shift (Rabs (-2 - -2.01)) (1/5) 0.21)
  /\ (exists r r' sed sed',
    calc_rest_sed_sfh_table_met_table (fins demo_t) (fins demo_sfr) (fins demo_met_table) (Fin (1/5)) (fins demo_lgmet) (fins demo_ages) (fins3 demo_flux) (Fin demo_tobs) (Fin demo_min) = Ok r
    /\ calc_rest_sed_sfh_table_met_table (fins demo_t) (fins demo_sfr) (fins [-2.51; -2; -1.49]) (Fin 0.21) (fins demo_lgmet) (fins demo_ages) (fins3 demo_flux) (Fin demo_tobs) (Fin demo_min) = Ok r'
    /\ rest_sed r = fins sed /\ rest_sed r' = fins sed'
    /\ Rabs (ent sed 1 - ent sed' 1) <= mass_formed_by demo_t (floored demo_min demo_sfr) demo_tobs * (mdf_shift 0.01 (1/5) 0.21 * 27)).
Proof.
  split.
  - destruct (C148_metallicity_weights (-2) (1/5) (-2.01) 0.21 demo_lgmet) as (w & w' & E & E' & _ & _ & _ & W);
      [auto with demo|auto with demo|unfold mdf_inside; lra|unfold mdf_inside; lra|].
    exists w, w'. split; [exact E|]. split; [exact E'|]. apply W. simpl. lia.
  - destruct (C148_sed_met_table demo_t demo_sfr demo_met_table (1/5) [-2.51; -2; -1.49] 0.21 demo_lgmet demo_ages 2 demo_flux demo_tobs demo_min 27 0.01)
      as (r & r' & sed & sed' & E & E' & R & R' & _ & _ & W);
      [auto with demo|unfold demo_tobs; lra|auto with demo|reflexivity|reflexivity|unfold demo_met_table, mdf_inside; repeat constructor; lra
      |unfold mdf_inside; repeat constructor; lra| |auto with demo|exact demo_variation|].
    + intros i Hi. unfold demo_met_table, ent. simpl in Hi. apply Rabs_le. destruct i as [|[|[|i]]]; simpl; try lra; lia.
    + exists r, r', sed, sed'. do 4 (split; [assumption|]). apply W. lia.
Qed.
