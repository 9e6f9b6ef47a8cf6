(** * The demonstration galaxy, moving: it meets the hypotheses of the differentiability theorems *)
From Coq Require Import Reals List Arith Lra Lia.
From Coquelicot Require Import Coquelicot.
From Verif Require Import Num MUtils MSed MPhot Spec Spec2 RList LUtils LAge LMet LJoint LPhot Demo Demo2.
Import ListNotations.
Open Scope R_scope.

(** ** A galaxy whose every input changes with a parameter [r], at [r = 0] *)
Definition moving_sfr (r : R) : list R := [r; 3 + r; r - 1].
Definition moving_met (r : R) : list R := [-2.5 + r; -2; -1.5].
Lemma moving_sfr_0 : moving_sfr 0 = demo_sfr.
Proof. unfold moving_sfr, demo_sfr. repeat f_equal; lra. Qed.
Lemma moving_sfr_smooth : smooth_at moving_sfr 0.
Proof.
  split; [exists 3%nat; reflexivity|]. intros [|[|[|i]]]; unfold moving_sfr, ent; simpl.
  1-3: auto_derive; auto.
  destruct i; apply ex_derive_const.
Qed.
Lemma moving_met_smooth : smooth_at moving_met 0.
Proof.
  split; [exists 3%nat; reflexivity|]. intros [|[|[|i]]]; unfold moving_met, ent; simpl.
  1-3: auto_derive; auto.
  destruct i; apply ex_derive_const.
Qed.
Lemma moving_lin c d : ex_derive (fun r : R => c + d * r) 0.
Proof. auto_derive; auto. Qed.
Lemma moving_lin_0 c d : c + d * 0 = c.
Proof. ring. Qed.
Lemma half_decade : 3 < pow10 0.5 < 4.
Proof.
  pose proof (pow10_pos 0.5) as P.
  assert (E : pow10 0.5 * pow10 0.5 = 10) by (rewrite <- pow10_plus; replace (0.5 + 0.5) with 1 by lra; apply pow10_1).
  split; nra.
Qed.
Lemma demo_born : born_off_grid demo_t demo_tobs (age_edges demo_ages).
Proof.
  pose proof half_decade as H.
  assert (E : pow10 1.5 = 10 * pow10 0.5) by (replace 1.5 with (1 + 0.5) by lra; rewrite pow10_plus, pow10_1; reflexivity).
  pose proof (pow10_pos (-1.5)). pose proof (pow10_pos (-0.5)).
  pose proof (pow10_lt (-1.5) 0 ltac:(lra)). pose proof (pow10_lt (-0.5) 0 ltac:(lra)). rewrite pow10_0 in *.
  assert (E4 : age_edges demo_ages = [-1.5; -0.5; 0.5; 1.5]).
  { unfold age_edges, age_edge, node_width, ent, demo_ages. simpl. repeat f_equal; lra. }
  rewrite E4. unfold born_off_grid, demo_t, demo_tobs.
  repeat (apply List.Forall_cons; [split; [lra|simpl; intros [?|[?|[?|[]]]]; lra]|]). apply List.Forall_nil.
Qed.
Lemma demo_born_nodes : born_off_grid demo_t demo_tobs demo_ages.
Proof.
  assert (E : pow10 (-1) = / 10) by (replace (-1) with (- (1)) by lra; unfold pow10; rewrite Rpower_Ropp, Rpower_1; lra).
  unfold born_off_grid, demo_t, demo_tobs, demo_ages.
  repeat (apply List.Forall_cons; [rewrite ?E, ?pow10_0, ?pow10_1; split; [lra|simpl; intros [?|[?|[?|[]]]]; lra]|]).
  apply List.Forall_nil.
Qed.
Lemma demo_tobs_off : ~ In demo_tobs demo_t.
Proof. unfold demo_t, demo_tobs. simpl. intros [?|[?|[?|[]]]]; lra. Qed.
Lemma demo_avoids : avoids demo_min demo_sfr.
Proof.
  unfold avoids, demo_min, demo_sfr. repeat (apply List.Forall_cons; [lra|]). apply List.Forall_nil.
Qed.
Lemma demo_met_edges_inc : increasing (met_edges demo_lgmet).
Proof.
  assert (E : met_edges demo_lgmet = [-10; -2.5; -1.5; -0.5; 10]).
  { unfold met_edges, met_edge, node_width, ent, demo_lgmet. simpl. repeat f_equal; lra. }
  rewrite E. solve_increasing.
Qed.
Lemma demo_flux_smooth : smooth3_at (fun _ => demo_flux) 0.
Proof. split; [exists 4%nat, 3%nat, 2%nat; intros _; apply demo_cube|intros; apply ex_derive_const]. Qed.


(** positive templates, two wavelengths 1 and 3 *)
Definition demo_flux_pos : list (list (list R)) :=
  [ [[1; 2]; [3; 4]; [5; 6]]; [[2; 1]; [4; 3]; [6; 5]];
    [[1; 1]; [1; 1]; [2; 2]]; [[7; 8]; [9; 1]; [2; 3]] ].
Lemma demo_cube_pos : is_cube (length demo_lgmet) (length demo_ages) 2 demo_flux_pos.
Proof. split; [reflexivity|]. repeat constructor. Qed.
Lemma demo_flux_pos_range : forall i j k, (i < length demo_lgmet)%nat -> (j < length demo_ages)%nat ->
  (k < 2)%nat -> 1 <= ent3 demo_flux_pos i j k <= 9.
Proof.
  intros i j k Hi Hj Hk. simpl in Hi, Hj.
  destruct i as [|[|[|[|i]]]]; try lia; destruct j as [|[|[|j]]]; try lia;
  destruct k as [|[|k]]; try lia; unfold ent3, ent2, ent; simpl; lra.
Qed.
(** a spectrum bounded below by a positive constant on a filter it covers gives a positive flux *)
Lemma band_flux_pos ws ls wf tf c z : good_spectrum ws ls -> good_filter wf tf -> increasing wf ->
  List.Forall (fun t => 0 <= t) tf -> 0 < c -> -1 < z ->
  (forall i, (i < length ws)%nat -> c <= ent ls i) ->
  (forall w, In w wf -> ent ws 0 <= w / (1 + z) <= ent ws (length ws - 1)) ->
  0 < band_flux (fun x => spectrum_at ws ls (x / (1 + z))) wf tf.
Proof.
  intros (I & L & N) (Lf & P & Q) If Pt Hc Hz Hl Hw. unfold band_flux. apply Rdiv_lt_0_compat; [|exact Q].
  apply Rlt_le_trans with (band_integral (fun _ => c / ab0 * ab0) wf tf).
  - pose proof ab0_pos. rewrite (band_scal (fun _ => ab0)). apply Rmult_lt_0_compat; [|exact Q]. apply Rdiv_lt_0_compat; lra.
  - pose proof ab0_pos. apply band_mono; auto. intros x Hx.
    replace (c / ab0 * ab0) with c by (field; lra).
    specialize (Hw x Hx). unfold spectrum_at.
    destruct (Rlt_dec _ _); [lra|]. destruct (Rlt_dec _ _); [lra|].
    rewrite <- (pwlin_const ws c (x / (1 + z)) N I).
    apply pwlin_le; auto. { rewrite map_length; auto. }
    intros i Hi. unfold ent at 1.
    replace (nth i (map (fun _ : R => c) ws) 0) with c; [apply Hl; lia|].
    symmetry. apply (nth_map_gen (fun _ : R => c) ws i 0 0); lia.
Qed.
