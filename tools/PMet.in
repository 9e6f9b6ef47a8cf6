(** * Properties C10-C14: metallicity weights.  Exact real arithmetic. *)
From Coq Require Import Reals List Arith Lra Lia.
From Verif Require Import Num MUtils MSed Spec RList LUtils LAge LMet LMet2 Demo Demo2.
Import ListNotations.
Open Scope R_scope.

(** C10 *)
@@C10_metallicity_weights_are_a_distribution = LMet.C10_lemma
(** a metallicity far outside the grid *)
Example C10_nonvacuous : exists w,
  calc_lgmet_weights_from_lognormal_mdf (Fin (-500)) (Fin (1/10)) (fins demo_lgmet) = Ok (fins w)
  /\ length w = length demo_lgmet /\ distribution w.
Proof. apply C10_metallicity_weights_are_a_distribution; auto with demo; lra. Qed.

(** C10: the weights in closed form, and what happens off the grid *)
@@C10_weights_in_closed_form = LMet2.C10_closed_form_lemma
Example C10_closed_form_nonvacuous :
  calc_lgmet_weights_from_lognormal_mdf (Fin (-500)) (Fin (1/10)) (fins demo_lgmet)
    = Ok (fins [1; 0; 0; 0])
  /\ calc_lgmet_weights_from_lognormal_mdf (Fin 500) (Fin (1/10)) (fins demo_lgmet)
    = Ok (fins [0; 0; 0; 1]).
Proof.
  destruct (C10_weights_in_closed_form (-500) (1/10) demo_lgmet) as (w & E & A & _); auto with demo; try lra.
  destruct (C10_weights_in_closed_form 500 (1/10) demo_lgmet) as (w' & E' & _ & B & _); auto with demo; try lra.
  rewrite E, E', A, B by lra. split; reflexivity.
Qed.

(** C11 *)
@@C11_increasing_grid_insufficient = LMet.C11_lemma
Example C11_refuted_concretely : increasing [-3; -2; -1.9; 0] /\ exists w,
  calc_lgmet_weights_from_lognormal_mdf (Fin (-2)) (Fin 1) (fins [-3; -2; -1.9; 0]) = Ok (fins w)
  /\ ent w 1 < 0.
Proof.
  assert (H : increasing [-3; -2; -1.9; 0]) by solve_increasing. split; [exact H|].
  apply C11_increasing_grid_insufficient; auto; try (simpl; lia); try lra;
    unfold gap, met_edge, node_width, ent; simpl; lra.
Qed.
@@C11_bin_edges_ordered_iff = LMet.met_edges_ordered_iff
Example C11_iff_nonvacuous : (3 <= length demo_lgmet)%nat /\ increasing demo_lgmet.
Proof. auto with demo. Qed.

(** C12 *)
@@C12_metallicity_weights_are_local = LMet.C12_lemma
Example C12_nonvacuous : exists w,
  calc_lgmet_weights_from_lognormal_mdf (Fin (-2)) (Fin (1/10)) (fins demo_lgmet) = Ok (fins w)
  /\ ent w 3 = 0.
Proof.
  destruct (C12_metallicity_weights_are_local (-2) (1/10) demo_lgmet) as (w & E & H & _);
    auto with demo; try lra.
  exists w. split; auto. apply H; [simpl; lia|].
  left. unfold met_edge, node_width, ent. simpl. lra.
Qed.

@@C12_stochastic_order = LMet2.C12_order_lemma
Example C12_order_nonvacuous : exists w w',
  calc_lgmet_weights_from_lognormal_mdf (Fin (-2)) (Fin (1/10)) (fins demo_lgmet) = Ok (fins w)
  /\ calc_lgmet_weights_from_lognormal_mdf (Fin (-1)) (Fin (1/10)) (fins demo_lgmet) = Ok (fins w')
  /\ Rsum (firstn 2 w') <= Rsum (firstn 2 w).
Proof.
  destruct (C12_stochastic_order (-2) (-1) (1/10) demo_lgmet) as (w & w' & E & E' & H);
    auto with demo; try lra.
  exists w, w'. split; [exact E|]. split; [exact E'|]. apply H. simpl. lia.
Qed.

(** C13 *)
@@C13_zero_scatter_selects_one_bin = LMet.C13_inside_lemma
Example C13_nonvacuous :
  calc_lgmet_weights_from_lognormal_mdf (Fin (-1.9)) (Fin 0) (fins demo_lgmet)
  = Ok (fins [0; 1; 0; 0]).
Proof.
  change [0;1;0;0] with (unit_vec (length demo_lgmet) 1).
  apply C13_zero_scatter_selects_one_bin; auto with demo; try (simpl; lia).
  unfold met_edge, node_width, ent; simpl; lra.
Qed.
@@C13_zero_scatter_on_an_edge_is_nan = LMet.C13_edge_lemma
Example C13_edge_nonvacuous :
  calc_lgmet_weights_from_lognormal_mdf (Fin (-5/2)) (Fin 0) (fins demo_lgmet)
  = Ok [NaN; NaN; NaN; NaN].
Proof.
  apply (C13_zero_scatter_on_an_edge_is_nan (-5/2) demo_lgmet 1); auto with demo; try (simpl; lia).
  unfold met_edge, node_width, ent; simpl; lra.
Qed.

(** C14 *)
@@C14_metallicity_table_weights = LMet.C14_lemma
Example C14_nonvacuous : exists w,
  calc_lgmet_weights_from_lgmet_table (fins demo_t) (fins demo_met_table) (Fin (1/5))
    (fins demo_lgmet) (fins demo_ages) (Fin demo_tobs) = Ok (map fins w)
  /\ is_matrix (length demo_lgmet) (length demo_ages) w /\ Rsum2 w = 1.
Proof.
  destruct (C14_metallicity_table_weights demo_t demo_met_table (1/5) demo_lgmet demo_ages demo_tobs)
    as (w & E & S & _ & _ & H); auto with demo; try lra; try discriminate.
  - apply times_pos; auto with demo.
  - apply (increasing_tl 0.001); auto with demo.
  - eauto.
Qed.

@@C14_columns_are_birth_time_distributions = LMet2.C14_columns_lemma
Example C14_columns_nonvacuous : exists w v,
  calc_lgmet_weights_from_lgmet_table (fins demo_t) (fins demo_met_table) (Fin (1/5))
    (fins demo_lgmet) (fins demo_ages) (Fin demo_tobs) = Ok (map fins w)
  /\ calc_lgmet_weights_from_lognormal_mdf
       (Fin (lgmet_at_birth demo_t demo_met_table demo_tobs (ent demo_ages 1))) (Fin (1/5))
       (fins demo_lgmet) = Ok (fins v)
  /\ ent2 w 2 1 = ent v 2 / INR (length demo_ages).
Proof.
  destruct (C14_columns_are_birth_time_distributions demo_t demo_met_table (1/5) demo_lgmet demo_ages demo_tobs)
    as (w & E & H); auto with demo; try lra; try discriminate.
  - apply times_pos; auto with demo.
  - apply (increasing_tl 0.001); auto with demo.
  - destruct (H 1%nat) as (v & Ev & Hv); [simpl; lia|].
    exists w, v. split; [exact E|]. split; [exact Ev|]. apply Hv. simpl; lia.
Qed.

(** C100 *)
@@C100_triweight_bin_weights = LMet2.C100_lemma
Example C100_nonvacuous : exists w,
  get_triweights_singlepoint (Fin 100) (Fin 1) (fins [0; 1; 5]) = fins w /\ w = [0; 1].
Proof.
  destruct (C100_triweight_bin_weights 100 1 [0; 1; 5]) as (w & E & _ & _ & _ & B & _);
    try (simpl; lia); try lra.
  - apply increasing_nondecreasing. solve_increasing.
  - unfold ent; simpl; lra.
  - exists w. split; [exact E|]. rewrite B; [reflexivity|unfold ent; simpl; lra].
Qed.
