(** * Properties C121-C126: photometry of populations, error propagation into magnitudes,
    dust and magnitudes, continuity, and where smoothness fails.  Exact real arithmetic.
    [mixture], [brightness], [magnitude], [entry3], [steady_at], [steady2_at], [steady3_at] and [near]
    are in Spec2.v; [continuity_pt] is the standard library's "is continuous at". *)
From Coq Require Import Reals List Arith Lra Lia.
From Coquelicot Require Import Coquelicot.
From Verif Require Import Num MUtils MSed MDiffburst MPhot MCosmo MDust Spec Spec2 RList LUtils LAge LMet LJoint LPhot
  Demo Demo2 Demo3 LDiff LDiff2 LDiff3 LDiff4 LDiff5 LPop LPop2 LCont LCont2 LCont3.
Import ListNotations.
Open Scope R_scope.

(** C121 *)
@@C121_magnitude_is_mixture_of_template_magnitudes = LPop.C121_lognormal_lemma
@@C121_magnitude_is_mixture_met_table = LPop.C121_met_lemma
Lemma pop_filter : good_filter [1.5; 2; 2.5] [0.1; 1; 0.2] /\ increasing [1.5; 2; 2.5]
  /\ List.Forall (fun t => 0 <= t) [0.1; 1; 0.2] /\ increasing [1; 3].
Proof.
  split; [split; [reflexivity|split]|split; [solve_increasing|split; [|solve_increasing]]].
  - repeat (apply List.Forall_cons; [lra|]); apply List.Forall_nil.
  - unfold band_integral, ab0, ent. simpl. lra.
  - repeat (apply List.Forall_cons; [lra|]); apply List.Forall_nil.
Qed.
Lemma pop_template i j z : (i < length demo_lgmet)%nat -> (j < length demo_ages)%nat -> 0 <= z < 0.4 ->
  0 < band_flux (fun x => spectrum_at [1; 3] (nth j (nth i demo_flux_pos []) []) (x / (1 + z))) [1.5; 2; 2.5] [0.1; 1; 0.2].
Proof.
  intros Hi Hj Hz. destruct pop_filter as (GF & If & Pt & Iw).
  assert (L : length (nth j (nth i demo_flux_pos []) []) = 2%nat).
  { simpl in Hi, Hj. destruct i as [|[|[|[|i]]]]; try lia; destruct j as [|[|[|j]]]; try lia; reflexivity. }
  apply (band_flux_pos [1; 3] _ _ _ 1); auto; try lra.
  - split; [exact Iw|]. split; [symmetry; exact L|discriminate].
  - intros k Hk. exact (proj1 (demo_flux_pos_range i j k Hi Hj Hk)).
  - assert (P : 0 < / (1 + z)) by (apply Rinv_0_lt_compat; lra). assert (/ (1 + z) * (1 + z) = 1) by (apply Rinv_l; lra).
    intros w Hw. unfold ent. simpl in *. destruct Hw as [<-|[<-|[<-|[]]]]; unfold Rdiv; nra.
Qed.
Example C121_nonvacuous :
  good_grids demo_t demo_sfr (1/5) demo_lgmet demo_ages demo_tobs /\ 0 < demo_tobs /\ 0 < demo_min
  /\ increasing [1; 3] /\ is_cube (length demo_lgmet) (length demo_ages) (length [1; 3]) demo_flux_pos
  /\ good_filter [1.5; 2; 2.5] [0.1; 1; 0.2]
  /\ (forall z i j, 0 <= z < 0.4 -> (i < length demo_lgmet)%nat -> (j < length demo_ages)%nat ->
        0 < band_flux (fun x => spectrum_at [1; 3] (nth j (nth i demo_flux_pos []) []) (x / (1 + z))) [1.5; 2; 2.5] [0.1; 1; 0.2]).
Proof.
  split; [auto with demo|]. split; [unfold demo_tobs; lra|]. split; [auto with demo|]. split; [apply pop_filter|].
  split; [exact demo_cube_pos|]. split; [apply pop_filter|]. intros. now apply pop_template.
Qed.

(** C122 *)
@@C122_template_errors_bound_magnitude_errors = LPop2.C122_lemma
Example C122_nonvacuous : exists m m',
  calc_rest_mag (fins [1; 3]) (fins [1; 2]) (fins [1.5; 2; 2.5]) (fins [0.1; 1; 0.2]) = Ok (Fin m)
  /\ calc_rest_mag (fins [1; 3]) (fins [1.1; 1.9]) (fins [1.5; 2; 2.5]) (fins [0.1; 1; 0.2]) = Ok (Fin m')
  /\ m - 2.5 * log10 1.2 <= m' <= m - 2.5 * log10 0.9.
Proof.
  destruct pop_filter as (GF & If & Pt & Iw).
  assert (G1 : good_spectrum [1; 3] [1; 2]) by (split; [exact Iw|split; [reflexivity|discriminate]]).
  assert (G2 : good_spectrum [1; 3] [1.1; 1.9]) by (split; [exact Iw|split; [reflexivity|discriminate]]).
  refine (proj1 (C122_template_errors_bound_magnitude_errors [1; 3] [1; 2] [1.1; 1.9] _ _ 0.9 1.2 G1 G2 GF If Pt _ _ _) _); try lra.
  - intros [|[|i]] Hi; simpl in Hi; try lia; unfold ent; simpl; lra.
  - pose proof (band_flux_pos [1; 3] [1; 2] [1.5; 2; 2.5] [0.1; 1; 0.2] 1 0 G1 GF If Pt ltac:(lra) ltac:(lra)) as B.
    change (fun x => spectrum_at [1; 3] [1; 2] (x / (1 + 0))) with (zspec [1; 3] [1; 2] 0) in B. rewrite zspec_0 in B. apply B.
    + intros [|[|i]] Hi; simpl in Hi; try lia; unfold ent; simpl; lra.
    + intros w Hw. unfold ent. simpl in *. destruct Hw as [<-|[<-|[<-|[]]]]; lra.
Qed.

(** C123 *)
@@C123_dust_dims_by_a_bounded_amount = LPop2.C123_lemma
Example C123_nonvacuous :
  good_spectrum [1; 3] [1; 2] /\ good_filter [1.5; 2; 2.5] [0.1; 1; 0.2]
  /\ List.Forall (fun x => 0 <= x) [1; 2] /\ List.Forall (fun k => 0 <= k <= 5) [5; 2.5]
  /\ 0 < band_flux (spectrum_at [1; 3] [1; 2]) [1.5; 2; 2.5] [0.1; 1; 0.2].
Proof.
  destruct pop_filter as (GF & If & Pt & Iw).
  assert (G1 : good_spectrum [1; 3] [1; 2]) by (split; [exact Iw|split; [reflexivity|discriminate]]).
  split; auto. split; auto. split; [repeat (apply List.Forall_cons; [lra|]); apply List.Forall_nil|].
  split; [repeat (apply List.Forall_cons; [lra|]); apply List.Forall_nil|].
  pose proof (band_flux_pos [1; 3] [1; 2] [1.5; 2; 2.5] [0.1; 1; 0.2] 1 0 G1 GF If Pt ltac:(lra) ltac:(lra)) as B.
  change (fun x => spectrum_at [1; 3] [1; 2] (x / (1 + 0))) with (zspec [1; 3] [1; 2] 0) in B. rewrite zspec_0 in B. apply B.
  - intros [|[|i]] Hi; simpl in Hi; try lia; unfold ent; simpl; lra.
  - intros w Hw. unfold ent. simpl in *. destruct Hw as [<-|[<-|[<-|[]]]]; lra.
Qed.

(** C124 *)
@@C124_metallicity_weights_continuous = LCont.C124_met_lemma
@@C124_age_weights_continuous = LCont.C124_age_lemma
@@C124_rest_sed_continuous = LCont.C124_sed_lemma
@@C124_rest_sed_met_table_continuous = LCont.C124_sed_met_lemma
(** the galaxy of Demo.v with one tabulated SFR exactly on the floor, where C117 does not apply *)
Definition floor_sfr (r : R) : list R := [demo_min + r; 3; -1].
Lemma floor_sfr_steady : steady_at floor_sfr 0.
Proof.
  split; [exists 3%nat; reflexivity|]. intros [|[|[|i]]]; unfold floor_sfr, ent; simpl; try apply cp_const0.
  apply cp_of_derive; auto_derive; auto.
Qed.
Lemma pop_lin c d : continuity_pt (fun r => c + d * r) 0.
Proof. apply cp_of_derive. auto_derive; auto. Qed.
Lemma floor_grids : good_grids demo_t (floor_sfr 0) (1/5) demo_lgmet demo_ages demo_tobs.
Proof.
  assert (G : good_grids demo_t demo_sfr (1/5) demo_lgmet demo_ages demo_tobs) by auto with demo.
  unfold good_grids in *.
  assert (E : floored (1 / 10 ^ 14) (floor_sfr 0) = floored (1 / 10 ^ 14) demo_sfr).
  { unfold floored, floor_sfr, demo_sfr, demo_min. cbn [map]. f_equal. rewrite Rmax_left, Rmax_left by lra. reflexivity. }
  rewrite E. exact G.
Qed.
Example C124_nonvacuous : exists (sed mw aw : R -> list R) (W : R -> list (list R)),
  near 0 (fun r =>
    calc_rest_sed_sfh_table_lognormal_mdf (fins demo_t) (fins (floor_sfr r)) (Fin (-2 + 1 * r)) (Fin (1/5 + 1 * r))
      (fins demo_lgmet) (fins demo_ages) (fins3 demo_flux) (Fin (demo_tobs + 1 * r)) (Fin demo_min)
    = Ok {| rest_sed := fins (sed r); rs_weights := map fins (W r);
            rs_lgmet_weights := fins (mw r); rs_age_weights := fins (aw r) |})
  /\ steady_at sed 0 /\ steady2_at W 0 /\ steady_at mw 0 /\ steady_at aw 0.
Proof.
  apply (C124_rest_sed_continuous demo_t floor_sfr (fun r => -2 + 1 * r) (fun r => 1/5 + 1 * r)
    (fun r => demo_tobs + 1 * r) (fun _ => demo_flux) demo_lgmet demo_ages 2);
    rewrite ?moving_lin_0; auto using floor_sfr_steady, pop_lin, floor_grids, demo_met_edges_inc, demo_cube with demo.
  - split; [exists 4%nat, 3%nat, 2%nat; intros _; apply demo_cube|intros; apply cp_const0].
  - unfold demo_tobs; lra.
Qed.

(** C125 *)
@@C125_rest_magnitude_continuous = LCont2.C125_rest_lemma
@@C125_obs_magnitude_continuous = LCont2.C125_obs_lemma
@@C125_galaxy_magnitude_continuous = LCont2.C125_galaxy_lemma

(** redshift 1 and filter wavelength 4: the shifted wavelength 2 is a node of the spectrum, where C119 does not apply *)
Example C125_nonvacuous : exists mag : R -> R,
  near 0 (fun r => calc_obs_mag (fins [1; 2; 3]) (fins [1 + r; 2; 1]) (fins [3; 4; 5]) (fins [0.1; 1; 0.2])
      (Fin (1 + 1 * r)) (Fin (0.3 + 1 * r)) (Fin (-1 + 1 * r)) (Fin (0 + 1 * r)) (Fin (0.7 + 1 * r)) = Ok (Fin (mag r)))
  /\ continuity_pt mag 0.
Proof.
  assert (G1 : good_spectrum [1; 2; 3] [1 + 0; 2; 1]) by (split; [solve_increasing|split; [reflexivity|discriminate]]).
  assert (GF : good_filter [3; 4; 5] [0.1; 1; 0.2]).
  { split; [reflexivity|split]; [repeat (apply List.Forall_cons; [lra|]); apply List.Forall_nil|].
    unfold band_integral, ab0, ent. simpl. lra. }
  apply (C125_obs_magnitude_continuous [1; 2; 3] (fun r => [1 + r; 2; 1]) [3; 4; 5] [0.1; 1; 0.2]
    (fun r => 1 + 1 * r) (fun r => 0.3 + 1 * r) (fun r => -1 + 1 * r) (fun r => 0 + 1 * r) (fun r => 0.7 + 1 * r));
    rewrite ?moving_lin_0; auto using pop_lin; try lra.
  - split; [exists 3%nat; reflexivity|]. intros [|[|[|i]]]; unfold ent; simpl; try apply cp_const0.
    apply cp_of_derive; auto_derive; auto.
  - apply (band_flux_pos [1; 2; 3] [1 + 0; 2; 1] _ _ 1); auto; try lra; [solve_increasing|..].
    + repeat (apply List.Forall_cons; [lra|]); apply List.Forall_nil.
    + intros [|[|[|i]]] Hi; simpl in Hi; try lia; unfold ent; simpl; lra.
    + intros w Hw. unfold ent. simpl in *. destruct Hw as [<-|[<-|[<-|[]]]]; lra.
  - right. intros x [<-|[<-|[<-|[]]]]; unfold ent; simpl; lra.
Qed.

(** C126 *)
@@C126_sfr_floor_kink = LCont3.C126_kink_lemma
@@C126_magnitude_jumps_at_spectrum_edge = LCont3.C126_jump_lemma
