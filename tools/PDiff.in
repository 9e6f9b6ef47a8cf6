(** * Properties C115-C120: differentiability of the outputs.  Exact real arithmetic.
    [smooth_at], [smooth2_at], [smooth3_at], [near], [born_off_grid] and [avoids] are in Spec2.v;
    [ex_derive] is Coquelicot's "is differentiable at". *)
From Coq Require Import Reals List Arith Lra Lia.
From Coquelicot Require Import Coquelicot.
From Verif Require Import Num MUtils MSed MDiffburst MPhot MCosmo Spec Spec2 RList LUtils LAge LMet LJoint LPhot
  Demo Demo2 Demo3 LDiff LDiff2 LDiff3 LDiff4 LDiff5.
Import ListNotations.
Open Scope R_scope.

(** C115 *)
@@C115_metallicity_weights_differentiable = LDiff.C115_lemma
Example C115_nonvacuous : exists w : R -> list R,
  near 0 (fun r => calc_lgmet_weights_from_lognormal_mdf (Fin (-2 + 1 * r)) (Fin (1/5 + 1 * r)) (fins demo_lgmet) = Ok (fins (w r)))
  /\ smooth_at w 0.
Proof.
  apply (C115_metallicity_weights_differentiable (fun r => -2 + 1 * r) (fun r => 1/5 + 1 * r));
    auto using moving_lin, demo_lgmet3, demo_met_edges_inc. lra.
Qed.

(** C116 *)
@@C116_age_weights_differentiable = LDiff3.C116_lemma
@@C116_mass_table_differentiable = LDiff3.C116_mass_lemma
Example C116_nonvacuous : exists w : R -> list R,
  near 0 (fun r => calc_age_weights_from_sfh_table (fins demo_t) (fins (moving_sfr r)) (fins demo_ages) (Fin (demo_tobs + 1 * r)) (Fin demo_min)
                   = Ok (fins (w r)))
  /\ smooth_at w 0.
Proof.
  apply (C116_age_weights_differentiable demo_t moving_sfr (fun r => demo_tobs + 1 * r));
    rewrite ?moving_lin_0, ?moving_sfr_0;
    auto using moving_sfr_smooth, moving_lin, demo_avoids, demo_born with demo.
Qed.

(** C117 *)
@@C117_rest_sed_differentiable = LDiff3.C117_lemma
@@C117_rest_sed_met_table_differentiable = LDiff4.C117_met_lemma
Example C117_nonvacuous : exists (sed mw aw : R -> list R) (W : R -> list (list R)),
  near 0 (fun r =>
    calc_rest_sed_sfh_table_lognormal_mdf (fins demo_t) (fins (moving_sfr r)) (Fin (-2 + 1 * r)) (Fin (1/5 + 1 * r))
      (fins demo_lgmet) (fins demo_ages) (fins3 demo_flux) (Fin (demo_tobs + 1 * r)) (Fin demo_min)
    = Ok {| rest_sed := fins (sed r); rs_weights := map fins (W r);
            rs_lgmet_weights := fins (mw r); rs_age_weights := fins (aw r) |})
  /\ smooth_at sed 0 /\ smooth2_at W 0 /\ smooth_at mw 0 /\ smooth_at aw 0.
Proof.
  apply (C117_rest_sed_differentiable demo_t moving_sfr (fun r => -2 + 1 * r) (fun r => 1/5 + 1 * r)
           (fun r => demo_tobs + 1 * r) (fun _ => demo_flux) demo_lgmet demo_ages 2);
    rewrite ?moving_lin_0, ?moving_sfr_0;
    auto using moving_sfr_smooth, moving_lin, demo_flux_smooth, demo_met_edges_inc, demo_avoids, demo_born, demo_tobs_off with demo.
  - unfold demo_tobs; lra.
Qed.
Example C117_met_nonvacuous : exists (sed aw : R -> list R) (W M : R -> list (list R)),
  near 0 (fun r =>
    calc_rest_sed_sfh_table_met_table (fins demo_t) (fins (moving_sfr r)) (fins (moving_met r)) (Fin (1/5 + 1 * r))
      (fins demo_lgmet) (fins demo_ages) (fins3 demo_flux) (Fin (demo_tobs + 1 * r)) (Fin demo_min)
    = Ok {| rest_sed := fins (sed r); rs_weights := map fins (W r);
            rs_lgmet_weights := map fins (M r); rs_age_weights := fins (aw r) |})
  /\ smooth_at sed 0 /\ smooth2_at W 0 /\ smooth2_at M 0 /\ smooth_at aw 0.
Proof.
  apply (C117_rest_sed_met_table_differentiable demo_t moving_sfr moving_met (fun r => 1/5 + 1 * r)
           (fun r => demo_tobs + 1 * r) (fun _ => demo_flux) demo_lgmet demo_ages 2);
    rewrite ?moving_lin_0, ?moving_sfr_0;
    auto using moving_sfr_smooth, moving_met_smooth, moving_lin, demo_flux_smooth, demo_met_edges_inc, demo_avoids, demo_born,
      demo_born_nodes, demo_tobs_off with demo.
  - unfold demo_tobs; lra.
Qed.

(** C118 *)
@@C118_bursty_weights_differentiable = LDiff4.C118_lemma
@@C118_bursty_weights_differentiable_u = LDiff4.C118_u_lemma
(** the condition on the ages cannot be dropped: with the burst window closing on the only
    template age, the weights jump by a tenth *)
@@C118_uncovered_burst_jumps_refuted = LDiff4.C118_jump_lemma
Example C118_nonvacuous : exists w : R -> list R,
  near 0 (fun r => calc_bursty_age_weights_from_u_params
      {| u_lgfburst := Fin (-3 + 1 * r); u_lgyr_peak := Fin (6 + 1 * r); u_lgyr_max := Fin (8 + 1 * r) |}
      (fins (moving_sfr r)) (fins [-3; -2; -1]) = Ok (fins (w r)))
  /\ smooth_at w 0.
Proof.
  apply (C118_bursty_weights_differentiable_u (fun r => -3 + 1 * r) (fun r => 6 + 1 * r) (fun r => 8 + 1 * r) moving_sfr [-3; -2; -1]);
    auto using moving_lin, moving_sfr_smooth.
  intros peak H. destruct (Rle_dec peak 7).
  - exists 0%nat. split; [simpl; lia|]. unfold ent; simpl. apply Rabs_le. lra.
  - exists 1%nat. split; [simpl; lia|]. unfold ent; simpl. apply Rabs_le. lra.
Qed.

(** C119 *)
@@C119_rest_magnitude_differentiable = LDiff5.C119_rest_lemma
@@C119_observed_magnitude_differentiable = LDiff5.C119_obs_lemma
@@C119_galaxy_magnitude_differentiable = LDiff5.C119_galaxy_lemma
Example C119_filter : good_filter [1.5; 2; 2.5] [0.1; 1; 0.2] /\ increasing [1.5; 2; 2.5]
  /\ List.Forall (fun t => 0 <= t) [0.1; 1; 0.2] /\ increasing [1; 3].
Proof.
  split; [split; [reflexivity|split]|split; [solve_increasing|split; [|solve_increasing]]].
  - repeat (apply List.Forall_cons; [lra|]); apply List.Forall_nil.
  - unfold band_integral, ab0, ent. simpl. lra.
  - repeat (apply List.Forall_cons; [lra|]); apply List.Forall_nil.
Qed.
Example C119_nonvacuous : exists mag : R -> R,
  near 0 (fun r => exists sed,
    calc_rest_sed_sfh_table_lognormal_mdf (fins demo_t) (fins (moving_sfr r)) (Fin (-2 + 1 * r)) (Fin (1/5 + 1 * r))
      (fins demo_lgmet) (fins demo_ages) (fins3 demo_flux_pos) (Fin (demo_tobs + 1 * r)) (Fin demo_min) = Ok sed
    /\ calc_obs_mag (fins [1; 3]) (rest_sed sed) (fins [1.5; 2; 2.5]) (fins [0.1; 1; 0.2])
         (Fin (0.1 + 1 * r)) (Fin 0.3) (Fin (-1)) (Fin 0) (Fin 0.7) = Ok (Fin (mag r)))
  /\ ex_derive mag 0.
Proof.
  destruct C119_filter as (GF & If & Pt & Iw).
  apply (C119_galaxy_magnitude_differentiable demo_t moving_sfr (fun r => -2 + 1 * r) (fun r => 1/5 + 1 * r)
           (fun r => demo_tobs + 1 * r) (fun r => 0.1 + 1 * r) demo_flux_pos demo_lgmet demo_ages);
    rewrite ?moving_lin_0, ?moving_sfr_0;
    auto using moving_sfr_smooth, moving_lin, demo_met_edges_inc, demo_avoids, demo_born, demo_tobs_off, demo_cube_pos with demo;
    try lra; try discriminate.
  - unfold demo_tobs; lra.
  - right. intros x [<-|[<-|[<-|[]]]]; simpl; intros [?|[?|[]]]; lra.
  - intros sed E.
    destruct (C17_range_lemma demo_t demo_sfr (-2) (1/5) demo_lgmet demo_ages 2 demo_tobs demo_min demo_flux_pos 1 9)
      as (sed' & l & E' & El & Hm & Hl); auto using demo_cube_pos, demo_flux_pos_range with demo; try (unfold demo_tobs; lra).
    rewrite E in E'. injection E' as <-. exists l. split; [exact El|].
    destruct (C17_lemma demo_t demo_sfr (-2) (1/5) demo_lgmet demo_ages 2 demo_tobs demo_min)
      as (W & _ & _ & _ & HW); auto with demo; try (unfold demo_tobs; lra).
    destruct (HW demo_flux_pos demo_cube_pos) as (sed2 & l2 & E2 & El2 & _ & L2 & _).
    rewrite E in E2. injection E2 as <-. rewrite El in El2. apply fins_inj in El2. subst l2.
    apply (band_flux_pos [1; 3] l _ _ (mass_formed_by demo_t (floored demo_min demo_sfr) demo_tobs)); auto; try lra.
    + split; [exact Iw|]. split; [symmetry; exact L2|discriminate].
    + intros i Hi. rewrite List.Forall_forall in Hl. specialize (Hl (ent l i)).
      assert (In (ent l i) l) by (apply nth_In; rewrite L2; exact Hi). specialize (Hl H). lra.
    + intros w Hw. unfold ent. simpl in *. destruct Hw as [<-|[<-|[<-|[]]]]; lra.
Qed.

(** C120 *)
@@C120_distances_differentiable = LDiff5.C120_lemma
Example C120_nonvacuous :
  ex_derive (fun r => 0.1 + 1 * r) 0 /\ ex_derive (fun r => 0.3 + 1 * r) 0 /\ 0 < 0.3 + 1 * 0 < 1 /\ -1 < 0.1 + 1 * 0.
Proof. repeat split; auto using moving_lin; lra. Qed.
