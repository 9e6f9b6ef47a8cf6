(** * A concrete galaxy and template grid used to show that hypotheses are satisfiable *)
From Coq Require Import Reals List Arith Lra Lia.
From Verif Require Import Num Spec RList LUtils MSed LAge.
Import ListNotations.
Open Scope R_scope.

Definition demo_t : list R := [1; 5; 14].
(** a history with a zero and an unphysical negative entry *)
Definition demo_sfr : list R := [0; 3; -1].
Definition demo_ages : list R := [-1; 0; 1].
Definition demo_lgmet : list R := [-3; -2; -1; 0].
Definition demo_met_table : list R := [-2.5; -2; -1.5].
Definition demo_flux : list (list (list R)) :=
  [ [[1; 2]; [3; 4]; [5; 6]]; [[2; 1]; [4; 3]; [6; 5]];
    [[0; 0]; [1; 1]; [2; 2]]; [[7; 8]; [9; 1]; [2; 3]] ].
Definition demo_tobs : R := 13.
Definition demo_min : R := 1 / 10 ^ 14.

Lemma demo_len : length demo_t = length demo_sfr. Proof. reflexivity. Qed.
Lemma demo_nn : demo_t <> []. Proof. discriminate. Qed.
Lemma demo_len2 : (2 <= length demo_t)%nat. Proof. simpl; lia. Qed.
Lemma demo_inc : increasing (0.001 :: demo_t). Proof. unfold demo_t. solve_increasing. Qed.
Lemma demo_min_pos : 0 < demo_min. Proof. unfold demo_min. lra. Qed.
Lemma demo_ages3 : (3 <= length demo_ages)%nat. Proof. simpl; lia. Qed.
Lemma demo_ages_inc : increasing demo_ages. Proof. unfold demo_ages. solve_increasing. Qed.
Lemma demo_gap0 : gap demo_ages 1 <= 5 * gap demo_ages 0.
Proof. unfold gap, ent, demo_ages; simpl; lra. Qed.
Lemma demo_gapi : forall i, (1 <= i)%nat -> (i + 3 <= length demo_ages)%nat ->
  gap demo_ages (S i) <= 4 * gap demo_ages i + gap demo_ages (i - 1).
Proof. intros i H1 H2. simpl in H2. lia. Qed.
Lemma demo_edges : nondecreasing (age_edges demo_ages).
Proof.
  apply age_edges_ordered_iff; [apply demo_ages3|apply demo_ages_inc|].
  split; [apply demo_gap0|apply demo_gapi].
Qed.
Lemma demo_e0 : age_edge demo_ages 0 = -3/2.
Proof. unfold age_edge, node_width, ent, demo_ages. simpl. lra. Qed.
Lemma demo_e3 : age_edge demo_ages (length demo_ages) = 3/2.
Proof. unfold age_edge, node_width, ent, demo_ages. simpl. lra. Qed.
Lemma pow10_1 : pow10 1 = 10. Proof. unfold pow10. apply Rpower_1. lra. Qed.
Lemma demo_lo : ent demo_t 0 < demo_tobs - pow10 (age_edge demo_ages 0).
Proof.
  rewrite demo_e0. unfold demo_tobs, demo_t, ent. simpl.
  pose proof (pow10_lt (-3/2) 0 ltac:(lra)). rewrite pow10_0 in *. lra.
Qed.
Lemma demo_hi : demo_tobs - pow10 (age_edge demo_ages (length demo_ages))
                < ent demo_t (length demo_t - 1).
Proof.
  rewrite demo_e3. unfold demo_tobs, demo_t, ent. simpl. pose proof (pow10_pos (3/2)). lra.
Qed.
Lemma demo_formed :
  let formed lg_age := mass_formed_by demo_t (floored demo_min demo_sfr) (birth_time demo_tobs lg_age) in
  formed (age_edge demo_ages 0) <> formed (age_edge demo_ages (length demo_ages)).
Proof.
  apply (edge_mass_neq demo_t demo_sfr demo_ages demo_tobs demo_min);
    auto using demo_len, demo_inc, demo_len2, demo_min_pos, demo_lo, demo_hi.
  rewrite demo_e0, demo_e3. lra.
Qed.
#[global] Hint Resolve demo_len demo_nn demo_len2 demo_inc demo_min_pos demo_ages3 demo_ages_inc
  demo_gap0 demo_gapi demo_edges demo_lo demo_hi demo_formed : demo.
