(** * Properties C01-C09: stellar age weights and stellar mass history.
    Exact real arithmetic; [fins] injects lists of reals.  Vocabulary: Spec.v. *)
From Coq Require Import Reals List Arith Lra Lia.
From Coquelicot Require Import Coquelicot.
From Verif Require Import Num MUtils MSed Spec RList LUtils LAge LAge2 Demo.
Import ListNotations.
Open Scope R_scope.

(** C01 *)
Theorem C01_age_weights_are_a_distribution : forall ts sfrs ages t_obs sfr_min,
  length ts = length sfrs -> ts <> [] -> increasing (0.001 :: ts) -> 0 < sfr_min ->
  (3 <= length ages)%nat -> nondecreasing (age_edges ages) ->
  (let formed lg_age := mass_formed_by ts (floored sfr_min sfrs) (birth_time t_obs lg_age) in
   formed (age_edge ages 0) <> formed (age_edge ages (length ages))) ->
  exists w,
    calc_age_weights_from_sfh_table (fins ts) (fins sfrs) (fins ages) (Fin t_obs) (Fin sfr_min)
      = Ok (fins w)
    /\ length w = length ages /\ distribution w.
Proof. exact C01_lemma. Qed.
Example C01_nonvacuous : exists w,
  calc_age_weights_from_sfh_table (fins demo_t) (fins demo_sfr) (fins demo_ages)
    (Fin demo_tobs) (Fin demo_min) = Ok (fins w)
  /\ length w = length demo_ages /\ distribution w.
Proof. apply C01_age_weights_are_a_distribution; auto with demo. Qed.
Print Assumptions C01_age_weights_are_a_distribution.

(** C01 with explicit conditions on the grids and the observation time instead of
    conditions on bin edges and formed mass *)
Theorem C01_age_weights_explicit_conditions : forall ts sfrs ages t_obs sfr_min,
  length ts = length sfrs -> (2 <= length ts)%nat -> increasing (0.001 :: ts) -> 0 < sfr_min ->
  (3 <= length ages)%nat -> increasing ages ->
  gap ages 1 <= 5 * gap ages 0 ->
  (forall i, (1 <= i)%nat -> (i + 3 <= length ages)%nat ->
     gap ages (S i) <= 4 * gap ages i + gap ages (i - 1)) ->
  ent ts 0 < t_obs - pow10 (age_edge ages 0) ->
  t_obs - pow10 (age_edge ages (length ages)) < ent ts (length ts - 1) ->
  exists w,
    calc_age_weights_from_sfh_table (fins ts) (fins sfrs) (fins ages) (Fin t_obs) (Fin sfr_min)
      = Ok (fins w)
    /\ length w = length ages /\ distribution w.
Proof. exact C01_explicit_lemma. Qed.
Example C01_explicit_nonvacuous : exists w,
  calc_age_weights_from_sfh_table (fins demo_t) (fins demo_sfr) (fins demo_ages)
    (Fin demo_tobs) (Fin demo_min) = Ok (fins w)
  /\ length w = length demo_ages /\ distribution w.
Proof. apply C01_age_weights_explicit_conditions; auto with demo. Qed.
Print Assumptions C01_age_weights_explicit_conditions.

(** C02: a grid whose second spacing is more than 5 times the first gives a negative
    weight, and exactly which increasing grids have ordered edges. *)
Theorem C02_increasing_grid_insufficient : forall ts sfrs ages t_obs sfr_min,
  length ts = length sfrs -> (2 <= length ts)%nat -> increasing (0.001 :: ts) -> 0 < sfr_min ->
  (3 <= length ages)%nat -> increasing ages ->
  5 * gap ages 0 < gap ages 1 ->
  ent ts 0 < t_obs - pow10 (age_edge ages 0) < ent ts (length ts - 1) ->
  exists w,
    calc_age_weights_from_sfh_table (fins ts) (fins sfrs) (fins ages) (Fin t_obs) (Fin sfr_min)
      = Ok (fins w)
    /\ ent w 0 < 0.
Proof. exact C02_lemma. Qed.
Example C02_refuted_concretely : increasing [0; 1/10; 11/10] /\ exists w,
  calc_age_weights_from_sfh_table (fins demo_t) (fins demo_sfr) (fins [0; 1/10; 11/10])
    (Fin demo_tobs) (Fin demo_min) = Ok (fins w) /\ ent w 0 < 0.
Proof.
  assert (H : increasing [0; 1/10; 11/10]) by solve_increasing. split; [exact H|].
  apply C02_increasing_grid_insufficient; try (simpl; lia); auto with demo.
  - unfold gap, ent; simpl; lra.
  - replace (age_edge [0; 1/10; 11/10] 0) with (-1/20) by (unfold age_edge, node_width, ent; simpl; lra).
    unfold demo_tobs, demo_t, ent. simpl. pose proof (pow10_pos (-1/20)).
    pose proof (pow10_lt (-1/20) 0 ltac:(lra)) as P. rewrite pow10_0 in P. lra.
Qed.
Print Assumptions C02_increasing_grid_insufficient.

Theorem C02_bin_edges_ordered_iff : forall ages,
  (3 <= length ages)%nat -> increasing ages ->
  (nondecreasing (age_edges ages) <->
   gap ages 1 <= 5 * gap ages 0 /\
   (forall i, (1 <= i)%nat -> (i + 3 <= length ages)%nat ->
      gap ages (S i) <= 4 * gap ages i + gap ages (i - 1))).
Proof. exact age_edges_ordered_iff. Qed.
Example C02_iff_nonvacuous : (3 <= length demo_ages)%nat /\ increasing demo_ages.
Proof. auto with demo. Qed.
Print Assumptions C02_bin_edges_ordered_iff.

(** the edges of the specification are those of the code *)
Theorem C02_code_edges : forall ages, (3 <= length ages)%nat ->
  get_lg_age_bin_edges_k (fins ages) = fins (age_edges ages).
Proof. exact get_lg_age_bin_edges_fins. Qed.
Print Assumptions C02_code_edges.

(** C03 *)
Theorem C03_cumulative_weights_are_mass_fractions : forall ts sfrs ages t_obs sfr_min,
  length ts = length sfrs -> ts <> [] -> increasing (0.001 :: ts) -> 0 < sfr_min ->
  (3 <= length ages)%nat ->
  let formed lg_age := mass_formed_by ts (floored sfr_min sfrs) (birth_time t_obs lg_age) in
  let youngest := age_edge ages 0 in
  let oldest := age_edge ages (length ages) in
  formed youngest <> formed oldest ->
  exists w,
    calc_age_weights_from_sfh_table (fins ts) (fins sfrs) (fins ages) (Fin t_obs) (Fin sfr_min)
      = Ok (fins w)
    /\ length w = length ages
    /\ forall j, (j <= length ages)%nat ->
       Rsum (skipn j w)
       = (formed (age_edge ages j) - formed oldest) / (formed youngest - formed oldest).
Proof. exact C03_lemma. Qed.
Example C03_nonvacuous : exists w,
  calc_age_weights_from_sfh_table (fins demo_t) (fins demo_sfr) (fins demo_ages)
    (Fin demo_tobs) (Fin demo_min) = Ok (fins w) /\ Rsum (skipn 0 w) = 1.
Proof.
  destruct (C03_cumulative_weights_are_mass_fractions demo_t demo_sfr demo_ages demo_tobs demo_min)
    as [w [E [_ H]]]; auto with demo.
  exists w. split; auto. rewrite H by (simpl; lia). field.
  pose proof demo_formed as D. cbv zeta in D. lra.
Qed.
Print Assumptions C03_cumulative_weights_are_mass_fractions.

(** C04 *)
Theorem C04_nan_iff_no_mass : forall ts sfrs ages t_obs sfr_min,
  length ts = length sfrs -> ts <> [] -> increasing (0.001 :: ts) -> 0 < sfr_min ->
  (3 <= length ages)%nat -> nondecreasing (age_edges ages) ->
  let formed lg_age := mass_formed_by ts (floored sfr_min sfrs) (birth_time t_obs lg_age) in
  exists w,
    calc_age_weights_from_sfh_table (fins ts) (fins sfrs) (fins ages) (Fin t_obs) (Fin sfr_min)
      = Ok w
    /\ (formed (age_edge ages 0) = formed (age_edge ages (length ages)) ->
        w = repeat NaN (length ages))
    /\ (formed (age_edge ages 0) <> formed (age_edge ages (length ages)) ->
        exists r, w = fins r).
Proof. exact C04_lemma. Qed.
Print Assumptions C04_nan_iff_no_mass.

Theorem C04_nan_outside_table : forall ts sfrs ages t_obs sfr_min,
  length ts = length sfrs -> ts <> [] -> increasing (0.001 :: ts) -> 0 < sfr_min ->
  (3 <= length ages)%nat -> nondecreasing (age_edges ages) ->
  t_obs - pow10 (age_edge ages 0) <= ent ts 0
  \/ ent ts (length ts - 1) <= t_obs - pow10 (age_edge ages (length ages)) ->
  calc_age_weights_from_sfh_table (fins ts) (fins sfrs) (fins ages) (Fin t_obs) (Fin sfr_min)
  = Ok (repeat NaN (length ages)).
Proof. exact C04_when_lemma. Qed.
Example C04_nonvacuous :
  calc_age_weights_from_sfh_table (fins demo_t) (fins demo_sfr) (fins demo_ages)
    (Fin (1/2)) (Fin demo_min) = Ok [NaN; NaN; NaN].
Proof.
  apply (C04_nan_outside_table demo_t demo_sfr demo_ages); auto with demo.
  left. pose proof (pow10_pos (age_edge demo_ages 0)). unfold demo_t, ent. simpl. lra.
Qed.
Print Assumptions C04_nan_outside_table.

(** C05 (stronger than stated: bins older than the first table time, not only older
    than t_obs - 1 Myr) *)
Theorem C05_no_weight_before_the_table : forall ts sfrs ages t_obs sfr_min j,
  length ts = length sfrs -> ts <> [] -> increasing (0.001 :: ts) -> 0 < sfr_min ->
  (3 <= length ages)%nat -> nondecreasing (age_edges ages) ->
  (let formed lg_age := mass_formed_by ts (floored sfr_min sfrs) (birth_time t_obs lg_age) in
   formed (age_edge ages 0) <> formed (age_edge ages (length ages))) ->
  (j < length ages)%nat -> t_obs - pow10 (age_edge ages j) <= ent ts 0 ->
  exists w,
    calc_age_weights_from_sfh_table (fins ts) (fins sfrs) (fins ages) (Fin t_obs) (Fin sfr_min)
      = Ok (fins w)
    /\ ent w j = 0.
Proof. exact C05_lemma. Qed.
Example C05_nonvacuous : exists w,
  calc_age_weights_from_sfh_table (fins demo_t) (fins demo_sfr) (fins demo_ages)
    (Fin 3) (Fin demo_min) = Ok (fins w) /\ ent w 2 = 0.
Proof.
  assert (P : pow10 (-3/2) < 1) by (rewrite <- pow10_0; apply pow10_lt; lra).
  apply C05_no_weight_before_the_table; try (simpl; lia); auto with demo.
  - apply (edge_mass_neq demo_t demo_sfr demo_ages 3 demo_min); auto with demo.
    + rewrite demo_e0, demo_e3. lra.
    + rewrite demo_e0. unfold demo_t, ent. simpl. lra.
    + unfold demo_t, ent. simpl. pose proof (pow10_pos (age_edge demo_ages 3)). lra.
  - replace (age_edge demo_ages 2) with (1/2) by (unfold age_edge, node_width, ent; simpl; lra).
    unfold demo_t, ent. simpl.
    assert (H : pow10 (1/2) * pow10 (1/2) = 10) by (rewrite <- pow10_plus; replace (1/2+1/2) with 1 by lra; apply pow10_1).
    pose proof (pow10_pos (1/2)). nra.
Qed.
Print Assumptions C05_no_weight_before_the_table.

(** C06 (the mass factor of the SED: C06_sed_sfr_floor in PJoint.v) *)
Theorem C06_sfr_floor : forall ts sfrs sfrs' ages t_obs sfr_min,
  length ts = length sfrs -> ts <> [] -> increasing (0.001 :: ts) -> 0 < sfr_min ->
  (3 <= length ages)%nat ->
  map (Rmax sfr_min) sfrs = map (Rmax sfr_min) sfrs' ->
  calc_age_weights_from_sfh_table (fins ts) (fins sfrs) (fins ages) (Fin t_obs) (Fin sfr_min)
  = calc_age_weights_from_sfh_table (fins ts) (fins sfrs') (fins ages) (Fin t_obs) (Fin sfr_min).
Proof. exact C06_lemma. Qed.
Example C06_nonvacuous :
  calc_age_weights_from_sfh_table (fins demo_t) (fins demo_sfr) (fins demo_ages) (Fin demo_tobs) (Fin demo_min)
  = calc_age_weights_from_sfh_table (fins demo_t) (fins [-7; 3; 0]) (fins demo_ages) (Fin demo_tobs) (Fin demo_min).
Proof.
  apply C06_sfr_floor; auto with demo. pose proof demo_min_pos. unfold demo_sfr. cbn [map].
  rewrite (Rmax_left demo_min 0), (Rmax_left demo_min (-1)), (Rmax_left demo_min (-7)) by lra.
  reflexivity.
Qed.
Print Assumptions C06_sfr_floor.

Theorem C06_mass_history_is_finite : forall ts sfrs sfr_min,
  length ts = length sfrs -> increasing (0.001 :: ts) -> 0 < sfr_min ->
  exists logm,
    calc_logsm_table_from_sfh_table (fins ts) (fins sfrs) (Fin sfr_min) = fins logm
    /\ length logm = length ts /\ increasing logm.
Proof. exact C06_finite_lemma. Qed.
Example C06_finite_nonvacuous : exists logm,
  calc_logsm_table_from_sfh_table (fins demo_t) (fins demo_sfr) (Fin demo_min) = fins logm
  /\ length logm = length demo_t /\ increasing logm.
Proof. apply C06_mass_history_is_finite; auto with demo. Qed.
Print Assumptions C06_mass_history_is_finite.

(** C07 (joint weights and SED: C07_sed_causality in PJoint.v) *)
Theorem C07_age_weights_causality : forall ts sfrs sfrs' ages t_obs sfr_min,
  length ts = length sfrs -> length ts = length sfrs' -> increasing (0.001 :: ts) -> ts <> [] ->
  0 < sfr_min -> (3 <= length ages)%nat -> same_past ts t_obs sfrs sfrs' ->
  calc_age_weights_from_sfh_table (fins ts) (fins sfrs) (fins ages) (Fin t_obs) (Fin sfr_min)
  = calc_age_weights_from_sfh_table (fins ts) (fins sfrs') (fins ages) (Fin t_obs) (Fin sfr_min).
Proof. exact age_weights_past. Qed.
Example C07_nonvacuous :
  calc_age_weights_from_sfh_table (fins demo_t) (fins [1; 2; 3]) (fins demo_ages) (Fin 4) (Fin demo_min)
  = calc_age_weights_from_sfh_table (fins demo_t) (fins [1; 2; 99]) (fins demo_ages) (Fin 4) (Fin demo_min).
Proof.
  apply C07_age_weights_causality; auto with demo. intros i Hi Hc. simpl in Hi.
  destruct i as [|[|[|i]]]; try lia; try reflexivity.
  destruct Hc as [Hc|Hc]; [lia|]. unfold ent, demo_t in Hc. simpl in Hc. lra.
Qed.
Print Assumptions C07_age_weights_causality.

(** C08 *)
Theorem C08_cumulative_mass_grows : forall ts sfrs,
  length ts = length sfrs -> increasing (0.001 :: ts) -> List.Forall (fun s => 0 < s) sfrs ->
  exists m, cumulative_mstar_formed (fins ts) (fins sfrs) = Ok (fins m)
    /\ length m = length ts /\ List.Forall (fun x => 0 < x) m /\ increasing m.
Proof. exact C08_lemma. Qed.
Example C08_nonvacuous : exists m, cumulative_mstar_formed (fins demo_t) (fins [1; 2; 3]) = Ok (fins m)
    /\ length m = length demo_t /\ List.Forall (fun x => 0 < x) m /\ increasing m.
Proof. apply C08_cumulative_mass_grows; auto with demo.
  repeat (constructor; [lra|]). constructor. Qed.
Print Assumptions C08_cumulative_mass_grows.

(** C09 *)
Theorem C09_cumulative_mass_is_the_integral : forall ts sfrs,
  length ts = length sfrs -> increasing (0.001 :: ts) ->
  exists m, cumulative_mstar_formed (fins ts) (fins sfrs) = Ok (fins m)
    /\ length m = length ts
    /\ forall i, (i < length ts)%nat ->
       is_RInt (pwlin (combine (0.001 :: ts) (1 / 10 ^ 14 :: sfrs))) 0.001 (ent ts i)
               (ent m i / 10 ^ 9).
Proof. exact C09_lemma. Qed.
Example C09_nonvacuous : exists m,
  cumulative_mstar_formed (fins demo_t) (fins demo_sfr) = Ok (fins m) /\ length m = length demo_t.
Proof.
  destruct (C09_cumulative_mass_is_the_integral demo_t demo_sfr) as [m [H1 [H2 _]]]; auto with demo.
  eauto.
Qed.
Print Assumptions C09_cumulative_mass_is_the_integral.
