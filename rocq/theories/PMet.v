(** * Properties C10-C14: metallicity weights.  Exact real arithmetic. *)
From Coq Require Import Reals List Arith Lra Lia.
From Verif Require Import Num MUtils MSed Spec RList LUtils LAge LMet LMet2 Demo Demo2.
Import ListNotations.
Open Scope R_scope.

(** C10 *)
Theorem C10_metallicity_weights_are_a_distribution : forall lgmet scatter ssp_lgmet,
  0 < scatter -> (3 <= length ssp_lgmet)%nat -> nondecreasing (met_edges ssp_lgmet) ->
  exists w,
    calc_lgmet_weights_from_lognormal_mdf (Fin lgmet) (Fin scatter) (fins ssp_lgmet) = Ok (fins w)
    /\ length w = length ssp_lgmet /\ distribution w.
Proof. exact C10_lemma. Qed.
Print Assumptions C10_metallicity_weights_are_a_distribution.
(** a metallicity far outside the grid *)
Example C10_nonvacuous : exists w,
  calc_lgmet_weights_from_lognormal_mdf (Fin (-500)) (Fin (1/10)) (fins demo_lgmet) = Ok (fins w)
  /\ length w = length demo_lgmet /\ distribution w.
Proof. apply C10_metallicity_weights_are_a_distribution; auto with demo; lra. Qed.

(** C10: the weights in closed form, and what happens off the grid *)
Theorem C10_weights_in_closed_form : forall lgmet scatter ssp_lgmet,
  0 < scatter -> (3 <= length ssp_lgmet)%nat -> nondecreasing (met_edges ssp_lgmet) ->
  let n := length ssp_lgmet in
  let F k := triweight_cdf ((lgmet - met_edge ssp_lgmet k) / scatter) in
  exists w,
    calc_lgmet_weights_from_lognormal_mdf (Fin lgmet) (Fin scatter) (fins ssp_lgmet) = Ok (fins w)
    /\ (lgmet <= -10 - 3 * scatter -> w = unit_vec n 0)
    /\ (10 + 3 * scatter <= lgmet -> w = unit_vec n (n - 1))
    /\ (-10 - 3 * scatter < lgmet < 10 + 3 * scatter ->
        forall k, (k < n)%nat -> ent w k = (F k - F (S k)) / (F 0%nat - F n)).
Proof. exact C10_closed_form_lemma. Qed.
Print Assumptions C10_weights_in_closed_form.
Example C10_closed_form_nonvacuous :
  calc_lgmet_weights_from_lognormal_mdf (Fin (-500)) (Fin (1/10)) (fins demo_lgmet)
    = Ok (fins [1; 0; 0; 0])
  /\ calc_lgmet_weights_from_lognormal_mdf (Fin 500) (Fin (1/10)) (fins demo_lgmet)
    = Ok (fins [0; 0; 0; 1]).
Proof.
  destruct (C10_weights_in_closed_form (-500) (1/10) demo_lgmet) as (w & E & A & _); auto with demo; try lra.
  destruct (C10_weights_in_closed_form 500 (1/10) demo_lgmet) as (w' & E' & _ & B & _); auto with demo; try lra.
  rewrite E, E', A, B by lra. split; reflexivity.
Qed.

(** C11 *)
Theorem C11_increasing_grid_insufficient : forall lgmet scatter ssp_lgmet,
  0 < scatter -> (4 <= length ssp_lgmet)%nat -> increasing ssp_lgmet ->
  4 * gap ssp_lgmet 1 + gap ssp_lgmet 0 < gap ssp_lgmet 2 ->
  -10 <= lgmet <= 10 ->
  met_edge ssp_lgmet 2 - 3 * scatter < lgmet < met_edge ssp_lgmet 1 + 3 * scatter ->
  exists w,
    calc_lgmet_weights_from_lognormal_mdf (Fin lgmet) (Fin scatter) (fins ssp_lgmet) = Ok (fins w)
    /\ ent w 1 < 0.
Proof. exact C11_lemma. Qed.
Print Assumptions C11_increasing_grid_insufficient.
Example C11_refuted_concretely : increasing [-3; -2; -1.9; 0] /\ exists w,
  calc_lgmet_weights_from_lognormal_mdf (Fin (-2)) (Fin 1) (fins [-3; -2; -1.9; 0]) = Ok (fins w)
  /\ ent w 1 < 0.
Proof.
  assert (H : increasing [-3; -2; -1.9; 0]) by solve_increasing. split; [exact H|].
  apply C11_increasing_grid_insufficient; auto; try (simpl; lia); try lra;
    unfold gap, met_edge, node_width, ent; simpl; lra.
Qed.
Theorem C11_bin_edges_ordered_iff : forall a,
  (3 <= length a)%nat -> increasing a ->
  (nondecreasing (met_edges a) <->
   -10 <= met_edge a 1 /\ met_edge a (length a - 1) <= 10 /\
   (forall i, (1 <= i)%nat -> (i + 3 <= length a)%nat -> gap a (S i) <= 4 * gap a i + gap a (i - 1))).
Proof. exact met_edges_ordered_iff. Qed.
Print Assumptions C11_bin_edges_ordered_iff.
Example C11_iff_nonvacuous : (3 <= length demo_lgmet)%nat /\ increasing demo_lgmet.
Proof. auto with demo. Qed.

(** C12 *)
Theorem C12_metallicity_weights_are_local : forall lgmet scatter ssp_lgmet,
  0 < scatter -> (3 <= length ssp_lgmet)%nat -> nondecreasing (met_edges ssp_lgmet) ->
  -10 <= lgmet <= 10 ->
  exists w,
    calc_lgmet_weights_from_lognormal_mdf (Fin lgmet) (Fin scatter) (fins ssp_lgmet) = Ok (fins w)
    /\ (forall k, (k < length ssp_lgmet)%nat ->
        lgmet + 3 * scatter <= met_edge ssp_lgmet k
        \/ met_edge ssp_lgmet (S k) <= lgmet - 3 * scatter -> ent w k = 0)
    /\ (-10 <= lgmet - 3 * scatter -> lgmet + 3 * scatter <= 10 ->
        forall k, (k < length ssp_lgmet)%nat ->
        ent w k = triweight_cdf ((lgmet - met_edge ssp_lgmet k) / scatter)
                  - triweight_cdf ((lgmet - met_edge ssp_lgmet (S k)) / scatter)).
Proof. exact C12_lemma. Qed.
Print Assumptions C12_metallicity_weights_are_local.
Example C12_nonvacuous : exists w,
  calc_lgmet_weights_from_lognormal_mdf (Fin (-2)) (Fin (1/10)) (fins demo_lgmet) = Ok (fins w)
  /\ ent w 3 = 0.
Proof.
  destruct (C12_metallicity_weights_are_local (-2) (1/10) demo_lgmet) as (w & E & H & _);
    auto with demo; try lra.
  exists w. split; auto. apply H; [simpl; lia|].
  left. unfold met_edge, node_width, ent. simpl. lra.
Qed.

Theorem C12_stochastic_order : forall lgmet lgmet' scatter ssp_lgmet,
  0 < scatter -> (3 <= length ssp_lgmet)%nat -> nondecreasing (met_edges ssp_lgmet) ->
  -10 + 3 * scatter <= lgmet -> lgmet <= lgmet' -> lgmet' <= 10 - 3 * scatter ->
  exists w w',
    calc_lgmet_weights_from_lognormal_mdf (Fin lgmet) (Fin scatter) (fins ssp_lgmet) = Ok (fins w)
    /\ calc_lgmet_weights_from_lognormal_mdf (Fin lgmet') (Fin scatter) (fins ssp_lgmet) = Ok (fins w')
    /\ forall j, (j <= length ssp_lgmet)%nat -> Rsum (firstn j w') <= Rsum (firstn j w).
Proof. exact C12_order_lemma. Qed.
Print Assumptions C12_stochastic_order.
Example C12_order_nonvacuous : exists w w',
  calc_lgmet_weights_from_lognormal_mdf (Fin (-2)) (Fin (1/10)) (fins demo_lgmet) = Ok (fins w)
  /\ calc_lgmet_weights_from_lognormal_mdf (Fin (-1)) (Fin (1/10)) (fins demo_lgmet) = Ok (fins w')
  /\ Rsum (firstn 2 w') <= Rsum (firstn 2 w).
Proof.
  destruct (C12_stochastic_order (-2) (-1) (1/10) demo_lgmet) as (w & w' & E & E' & H);
    auto with demo; try lra.
  exists w, w'. split; [exact E|]. split; [exact E'|]. apply H. simpl. lia.
Qed.

(** C13 *)
Theorem C13_zero_scatter_selects_one_bin : forall lgmet ssp_lgmet k,
  (3 <= length ssp_lgmet)%nat -> nondecreasing (met_edges ssp_lgmet) ->
  (k < length ssp_lgmet)%nat -> met_edge ssp_lgmet k < lgmet < met_edge ssp_lgmet (S k) ->
  calc_lgmet_weights_from_lognormal_mdf (Fin lgmet) (Fin 0) (fins ssp_lgmet)
  = Ok (fins (unit_vec (length ssp_lgmet) k)).
Proof. exact C13_inside_lemma. Qed.
Print Assumptions C13_zero_scatter_selects_one_bin.
Example C13_nonvacuous :
  calc_lgmet_weights_from_lognormal_mdf (Fin (-1.9)) (Fin 0) (fins demo_lgmet)
  = Ok (fins [0; 1; 0; 0]).
Proof.
  change [0;1;0;0] with (unit_vec (length demo_lgmet) 1).
  apply C13_zero_scatter_selects_one_bin; auto with demo; try (simpl; lia).
  unfold met_edge, node_width, ent; simpl; lra.
Qed.
Theorem C13_zero_scatter_on_an_edge_is_nan : forall lgmet ssp_lgmet k,
  (3 <= length ssp_lgmet)%nat ->
  (k <= length ssp_lgmet)%nat -> lgmet = met_edge ssp_lgmet k ->
  calc_lgmet_weights_from_lognormal_mdf (Fin lgmet) (Fin 0) (fins ssp_lgmet)
  = Ok (repeat NaN (length ssp_lgmet)).
Proof. exact C13_edge_lemma. Qed.
Print Assumptions C13_zero_scatter_on_an_edge_is_nan.
Example C13_edge_nonvacuous :
  calc_lgmet_weights_from_lognormal_mdf (Fin (-5/2)) (Fin 0) (fins demo_lgmet)
  = Ok [NaN; NaN; NaN; NaN].
Proof.
  apply (C13_zero_scatter_on_an_edge_is_nan (-5/2) demo_lgmet 1); auto with demo; try (simpl; lia).
  unfold met_edge, node_width, ent; simpl; lra.
Qed.

(** C14 *)
Theorem C14_metallicity_table_weights : forall ts lgmet_table scatter ssp_lgmet ages t_obs,
  length ts = length lgmet_table -> ts <> [] -> (forall t, In t ts -> 0 < t) -> increasing ts ->
  0 < scatter -> (3 <= length ssp_lgmet)%nat -> nondecreasing (met_edges ssp_lgmet) ->
  ages <> [] ->
  exists w,
    calc_lgmet_weights_from_lgmet_table (fins ts) (fins lgmet_table) (Fin scatter)
      (fins ssp_lgmet) (fins ages) (Fin t_obs) = Ok (map fins w)
    /\ is_matrix (length ssp_lgmet) (length ages) w
    /\ (forall i j, (i < length ssp_lgmet)%nat -> (j < length ages)%nat -> 0 <= ent2 w i j)
    /\ (forall j, (j < length ages)%nat ->
        Rsum (map (fun i => ent2 w i j) (seq 0 (length ssp_lgmet))) = 1 / INR (length ages))
    /\ Rsum2 w = 1.
Proof. exact C14_lemma. Qed.
Print Assumptions C14_metallicity_table_weights.
Example C14_nonvacuous : exists w,
  calc_lgmet_weights_from_lgmet_table (fins demo_t) (fins demo_met_table) (Fin (1/5))
    (fins demo_lgmet) (fins demo_ages) (Fin demo_tobs) = Ok (map fins w)
  /\ is_matrix (length demo_lgmet) (length demo_ages) w /\ Rsum2 w = 1.
Proof.
  destruct (C14_metallicity_table_weights demo_t demo_met_table (1/5) demo_lgmet demo_ages demo_tobs)
    as (w & E & S & _ & _ & H); auto with demo; try lra; try discriminate.
  - apply times_pos; auto with demo.
  - apply (increasing_tl 0.001); auto with demo.
  - eauto.
Qed.

Theorem C14_columns_are_birth_time_distributions : forall ts lgmet_table scatter ssp_lgmet ages t_obs,
  length ts = length lgmet_table -> ts <> [] -> (forall t, In t ts -> 0 < t) -> increasing ts ->
  0 < scatter -> (3 <= length ssp_lgmet)%nat -> nondecreasing (met_edges ssp_lgmet) ->
  exists w,
    calc_lgmet_weights_from_lgmet_table (fins ts) (fins lgmet_table) (Fin scatter)
      (fins ssp_lgmet) (fins ages) (Fin t_obs) = Ok (map fins w)
    /\ forall j, (j < length ages)%nat -> exists v,
        calc_lgmet_weights_from_lognormal_mdf
          (Fin (lgmet_at_birth ts lgmet_table t_obs (ent ages j))) (Fin scatter) (fins ssp_lgmet)
          = Ok (fins v)
        /\ forall i, (i < length ssp_lgmet)%nat -> ent2 w i j = ent v i / INR (length ages).
Proof. exact C14_columns_lemma. Qed.
Print Assumptions C14_columns_are_birth_time_distributions.
Example C14_columns_nonvacuous : exists w v,
  calc_lgmet_weights_from_lgmet_table (fins demo_t) (fins demo_met_table) (Fin (1/5))
    (fins demo_lgmet) (fins demo_ages) (Fin demo_tobs) = Ok (map fins w)
  /\ calc_lgmet_weights_from_lognormal_mdf
       (Fin (lgmet_at_birth demo_t demo_met_table demo_tobs (ent demo_ages 1))) (Fin (1/5))
       (fins demo_lgmet) = Ok (fins v)
  /\ ent2 w 2 1 = ent v 2 / INR (length demo_ages).
Proof.
  destruct (C14_columns_are_birth_time_distributions demo_t demo_met_table (1/5) demo_lgmet demo_ages demo_tobs)
    as (w & E & H); auto with demo; try lra; try discriminate.
  - apply times_pos; auto with demo.
  - apply (increasing_tl 0.001); auto with demo.
  - destruct (H 1%nat) as (v & Ev & Hv); [simpl; lia|].
    exists w, v. split; [exact E|]. split; [exact Ev|]. apply Hv. simpl; lia.
Qed.

(** C100 *)
Theorem C100_triweight_bin_weights : forall x sig edges,
  0 < sig -> (2 <= length edges)%nat -> nondecreasing edges ->
  ent edges 0 < ent edges (length edges - 1) ->
  exists w,
    get_triweights_singlepoint (Fin x) (Fin sig) (fins edges) = fins w
    /\ length w = (length edges - 1)%nat /\ distribution w
    /\ (x <= ent edges 0 - 3 * sig -> w = unit_vec (length edges - 1) 0)
    /\ (ent edges (length edges - 1) + 3 * sig <= x ->
        w = unit_vec (length edges - 1) (length edges - 2))
    /\ (ent edges 0 - 3 * sig < x < ent edges (length edges - 1) + 3 * sig ->
        forall k, (k < length edges - 1)%nat ->
        ent w k =
        (triweight_cdf ((x - ent edges k) / sig) - triweight_cdf ((x - ent edges (S k)) / sig))
        / (triweight_cdf ((x - ent edges 0) / sig)
           - triweight_cdf ((x - ent edges (length edges - 1)) / sig))).
Proof. exact C100_lemma. Qed.
Print Assumptions C100_triweight_bin_weights.
Example C100_nonvacuous : exists w,
  get_triweights_singlepoint (Fin 100) (Fin 1) (fins [0; 1; 5]) = fins w /\ w = [0; 1].
Proof.
  destruct (C100_triweight_bin_weights 100 1 [0; 1; 5]) as (w & E & _ & _ & _ & B & _);
    try (simpl; lia); try lra.
  - apply increasing_nondecreasing. solve_increasing.
  - unfold ent; simpl; lra.
  - exists w. split; [exact E|]. rewrite B; [reflexivity|unfold ent; simpl; lra].
Qed.
