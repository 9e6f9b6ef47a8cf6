(** * The demonstration grids meet the hypotheses of the joint-weight theorems *)
From Coq Require Import Reals List Arith Lra Lia.
From Verif Require Import Num Spec RList LUtils MSed LAge LMet LJoint Demo.
Import ListNotations.
Open Scope R_scope.

Lemma demo_lgmet3 : (3 <= length demo_lgmet)%nat. Proof. simpl; lia. Qed.
Lemma demo_lgmet_inc : increasing demo_lgmet. Proof. unfold demo_lgmet. solve_increasing. Qed.
Lemma demo_met_edges : nondecreasing (met_edges demo_lgmet).
Proof.
  apply met_edges_ordered_iff; [apply demo_lgmet3|apply demo_lgmet_inc|].
  split; [|split].
  - unfold met_edge, node_width, ent; simpl; lra.
  - unfold met_edge, node_width, ent; simpl; lra.
  - intros i H1 H2. simpl in H2. destruct i as [|[|i]]; try lia. unfold gap, ent; simpl; lra.
Qed.
Lemma demo_good : good_grids demo_t demo_sfr (1/5) demo_lgmet demo_ages demo_tobs.
Proof.
  unfold good_grids. repeat (split; [solve [auto using demo_lgmet3, demo_met_edges with demo|lra]|]).
  apply demo_formed.
Qed.
Lemma demo_met_len : length demo_t = length demo_met_table. Proof. reflexivity. Qed.
Lemma demo_cube : is_cube (length demo_lgmet) (length demo_ages) 2 demo_flux.
Proof. split; [reflexivity|]. repeat constructor. Qed.
Lemma demo_flux_range : forall i j k, (i < length demo_lgmet)%nat -> (j < length demo_ages)%nat ->
  (k < 2)%nat -> 0 <= ent3 demo_flux i j k <= 9.
Proof.
  intros i j k Hi Hj Hk. simpl in Hi, Hj.
  destruct i as [|[|[|[|i]]]]; try lia; destruct j as [|[|[|j]]]; try lia;
  destruct k as [|[|k]]; try lia; unfold ent3, ent2, ent; simpl; lra.
Qed.
#[global] Hint Resolve demo_lgmet3 demo_lgmet_inc demo_met_edges demo_good demo_met_len demo_cube : demo.
