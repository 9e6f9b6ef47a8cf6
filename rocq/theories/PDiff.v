(** * Properties C115-C120: differentiability of the outputs.  Exact real arithmetic.
    [smooth_at], [smooth2_at], [smooth3_at], [near], [born_off_grid] and [avoids] are in Spec2.v;
    [ex_derive] is Coquelicot's "is differentiable at". *)
From Coq Require Import Reals List Arith Lra Lia.
From Coquelicot Require Import Coquelicot.
From Verif Require Import Num MUtils MSed MDiffburst MPhot MCosmo Spec Spec2 RList LUtils LAge LMet LJoint LPhot
  Demo Demo2 Demo3 LDiff LDiff2 LDiff3 LDiff4 LDiff5 LJointMet LGalMet.
Import ListNotations.
Open Scope R_scope.

(** C115 *)
Theorem C115_metallicity_weights_differentiable : forall (lgmet scatter : R -> R) ssp_lgmet s,
  ex_derive lgmet s -> ex_derive scatter s -> 0 < scatter s ->
  (3 <= length ssp_lgmet)%nat -> increasing (met_edges ssp_lgmet) ->
  exists w : R -> list R,
    near s (fun r => calc_lgmet_weights_from_lognormal_mdf (Fin (lgmet r)) (Fin (scatter r)) (fins ssp_lgmet)
                     = Ok (fins (w r)))
    /\ smooth_at w s.
Proof. exact C115_lemma. Qed.
Print Assumptions C115_metallicity_weights_differentiable.
Example C115_nonvacuous : exists w : R -> list R,
  near 0 (fun r => calc_lgmet_weights_from_lognormal_mdf (Fin (-2 + 1 * r)) (Fin (1/5 + 1 * r)) (fins demo_lgmet) = Ok (fins (w r)))
  /\ smooth_at w 0.
Proof.
  apply (C115_metallicity_weights_differentiable (fun r => -2 + 1 * r) (fun r => 1/5 + 1 * r));
    auto using moving_lin, demo_lgmet3, demo_met_edges_inc. lra.
Qed.

(** C116 *)
Theorem C116_age_weights_differentiable : forall ts (sfrs : R -> list R) (t_obs : R -> R) ages sfr_min s,
  smooth_at sfrs s -> ex_derive t_obs s ->
  length ts = length (sfrs s) -> ts <> [] -> increasing (0.001 :: ts) -> 0 < sfr_min -> (3 <= length ages)%nat ->
  avoids sfr_min (sfrs s) ->
  (forall r, t_obs r = t_obs s) \/ born_off_grid ts (t_obs s) (age_edges ages) ->
  (let formed lg_age := mass_formed_by ts (floored sfr_min (sfrs s)) (birth_time (t_obs s) lg_age) in
   formed (age_edge ages 0) <> formed (age_edge ages (length ages))) ->
  exists w : R -> list R,
    near s (fun r => calc_age_weights_from_sfh_table (fins ts) (fins (sfrs r)) (fins ages) (Fin (t_obs r)) (Fin sfr_min)
                     = Ok (fins (w r)))
    /\ smooth_at w s.
Proof. exact C116_lemma. Qed.
Print Assumptions C116_age_weights_differentiable.
Theorem C116_mass_table_differentiable : forall ts (sfrs : R -> list R) sfr_min s,
  smooth_at sfrs s -> length ts = length (sfrs s) -> increasing (0.001 :: ts) -> 0 < sfr_min -> avoids sfr_min (sfrs s) ->
  exists lgm : R -> list R,
    (forall r, calc_logsm_table_from_sfh_table (fins ts) (fins (sfrs r)) (Fin sfr_min) = fins (lgm r))
    /\ smooth_at lgm s.
Proof. exact C116_mass_lemma. Qed.
Print Assumptions C116_mass_table_differentiable.
Example C116_nonvacuous : exists w : R -> list R,
  near 0 (fun r => calc_age_weights_from_sfh_table (fins demo_t) (fins (moving_sfr r)) (fins demo_ages) (Fin (demo_tobs + 1 * r)) (Fin demo_min)
                   = Ok (fins (w r)))
  /\ smooth_at w 0.
Proof.
  apply (C116_age_weights_differentiable demo_t moving_sfr (fun r => demo_tobs + 1 * r));
    rewrite ?moving_lin_0, ?moving_sfr_0;
    auto using moving_sfr_smooth, moving_lin, demo_avoids, demo_born with demo.
Qed.

(** C117 *)
Theorem C117_rest_sed_differentiable : forall ts (sfrs : R -> list R) (lgmet scatter t_obs : R -> R) (flux : R -> list (list (list R)))
    ssp_lgmet ages n_wave sfr_min s,
  smooth_at sfrs s -> ex_derive lgmet s -> ex_derive scatter s -> ex_derive t_obs s -> smooth3_at flux s ->
  good_grids ts (sfrs s) (scatter s) ssp_lgmet ages (t_obs s) -> increasing (met_edges ssp_lgmet) ->
  0 < t_obs s -> 0 < sfr_min -> is_cube (length ssp_lgmet) (length ages) n_wave (flux s) ->
  avoids sfr_min (sfrs s) -> avoids (1 / 10 ^ 14) (sfrs s) ->
  (forall r, t_obs r = t_obs s) \/ (born_off_grid ts (t_obs s) (age_edges ages) /\ ~ In (t_obs s) ts) ->
  exists (sed mw aw : R -> list R) (W : R -> list (list R)),
    near s (fun r =>
      calc_rest_sed_sfh_table_lognormal_mdf (fins ts) (fins (sfrs r)) (Fin (lgmet r)) (Fin (scatter r))
        (fins ssp_lgmet) (fins ages) (fins3 (flux r)) (Fin (t_obs r)) (Fin sfr_min)
      = Ok {| rest_sed := fins (sed r); rs_weights := map fins (W r);
              rs_lgmet_weights := fins (mw r); rs_age_weights := fins (aw r) |})
    /\ smooth_at sed s /\ smooth2_at W s /\ smooth_at mw s /\ smooth_at aw s.
Proof. exact C117_lemma. Qed.
Print Assumptions C117_rest_sed_differentiable.
Theorem C117_rest_sed_met_table_differentiable : forall ts (sfrs lgmet_table : R -> list R) (scatter t_obs : R -> R)
    (flux : R -> list (list (list R))) ssp_lgmet ages n_wave sfr_min s,
  smooth_at sfrs s -> smooth_at lgmet_table s -> ex_derive scatter s -> ex_derive t_obs s -> smooth3_at flux s ->
  good_grids ts (sfrs s) (scatter s) ssp_lgmet ages (t_obs s) -> length ts = length (lgmet_table s) ->
  increasing (met_edges ssp_lgmet) ->
  0 < t_obs s -> 0 < sfr_min -> is_cube (length ssp_lgmet) (length ages) n_wave (flux s) ->
  avoids sfr_min (sfrs s) -> avoids (1 / 10 ^ 14) (sfrs s) ->
  (forall r, t_obs r = t_obs s)
  \/ (born_off_grid ts (t_obs s) (age_edges ages) /\ born_off_grid ts (t_obs s) ages /\ ~ In (t_obs s) ts) ->
  exists (sed aw : R -> list R) (W M : R -> list (list R)),
    near s (fun r =>
      calc_rest_sed_sfh_table_met_table (fins ts) (fins (sfrs r)) (fins (lgmet_table r)) (Fin (scatter r))
        (fins ssp_lgmet) (fins ages) (fins3 (flux r)) (Fin (t_obs r)) (Fin sfr_min)
      = Ok {| rest_sed := fins (sed r); rs_weights := map fins (W r);
              rs_lgmet_weights := map fins (M r); rs_age_weights := fins (aw r) |})
    /\ smooth_at sed s /\ smooth2_at W s /\ smooth2_at M s /\ smooth_at aw s.
Proof. exact C117_met_lemma. Qed.
Print Assumptions C117_rest_sed_met_table_differentiable.
Example C117_nonvacuous : exists (sed mw aw : R -> list R) (W : R -> list (list R)),
  near 0 (fun r =>
    calc_rest_sed_sfh_table_lognormal_mdf (fins demo_t) (fins (moving_sfr r)) (Fin (-2 + 1 * r)) (Fin (1/5 + 1 * r))
      (fins demo_lgmet) (fins demo_ages) (fins3 demo_flux) (Fin (demo_tobs + 1 * r)) (Fin demo_min)
    = Ok {| rest_sed := fins (sed r); rs_weights := map fins (W r);
            rs_lgmet_weights := fins (mw r); rs_age_weights := fins (aw r) |})
  /\ smooth_at sed 0 /\ smooth2_at W 0 /\ smooth_at mw 0 /\ smooth_at aw 0.
Proof.
  apply (C117_rest_sed_differentiable demo_t moving_sfr (fun r => -2 + 1 * r) (fun r => 1/5 + 1 * r)
           (fun r => demo_tobs + 1 * r) (fun _ => demo_flux) demo_lgmet demo_ages 2);
    rewrite ?moving_lin_0, ?moving_sfr_0;
    auto using moving_sfr_smooth, moving_lin, demo_flux_smooth, demo_met_edges_inc, demo_avoids, demo_born, demo_tobs_off with demo.
  - unfold demo_tobs; lra.
Qed.
Example C117_met_nonvacuous : exists (sed aw : R -> list R) (W M : R -> list (list R)),
  near 0 (fun r =>
    calc_rest_sed_sfh_table_met_table (fins demo_t) (fins (moving_sfr r)) (fins (moving_met r)) (Fin (1/5 + 1 * r))
      (fins demo_lgmet) (fins demo_ages) (fins3 demo_flux) (Fin (demo_tobs + 1 * r)) (Fin demo_min)
    = Ok {| rest_sed := fins (sed r); rs_weights := map fins (W r);
            rs_lgmet_weights := map fins (M r); rs_age_weights := fins (aw r) |})
  /\ smooth_at sed 0 /\ smooth2_at W 0 /\ smooth2_at M 0 /\ smooth_at aw 0.
Proof.
  apply (C117_rest_sed_met_table_differentiable demo_t moving_sfr moving_met (fun r => 1/5 + 1 * r)
           (fun r => demo_tobs + 1 * r) (fun _ => demo_flux) demo_lgmet demo_ages 2);
    rewrite ?moving_lin_0, ?moving_sfr_0;
    auto using moving_sfr_smooth, moving_met_smooth, moving_lin, demo_flux_smooth, demo_met_edges_inc, demo_avoids, demo_born,
      demo_born_nodes, demo_tobs_off with demo.
  - unfold demo_tobs; lra.
Qed.

(** C118 *)
Theorem C118_bursty_weights_differentiable : forall (lgfburst lgyr_peak lgyr_max : R -> R) (smooth : R -> list R) ages s,
  ex_derive lgfburst s -> ex_derive lgyr_peak s -> ex_derive lgyr_max s -> smooth_at smooth s ->
  length (smooth s) = length ages -> lgyr_peak s < lgyr_max s ->
  (exists j, (j < length ages)%nat /\ 2 * lgyr_peak s - lgyr_max s < ent ages j + 9 < lgyr_max s) ->
  exists w : R -> list R,
    near s (fun r => calc_bursty_age_weights
        {| lgfburst := Fin (lgfburst r); lgyr_peak := Fin (lgyr_peak r); lgyr_max := Fin (lgyr_max r) |}
        (fins (smooth r)) (fins ages) = Ok (fins (w r)))
    /\ smooth_at w s.
Proof. exact C118_lemma. Qed.
Print Assumptions C118_bursty_weights_differentiable.
Theorem C118_bursty_weights_differentiable_u : forall (u_lgfburst u_lgyr_peak u_lgyr_max : R -> R) (smooth : R -> list R) ages,
  (forall peak, 5 < peak < 8 -> exists j, (j < length ages)%nat /\ Rabs (ent ages j + 9 - peak) <= 1) ->
  forall s, ex_derive u_lgfburst s -> ex_derive u_lgyr_peak s -> ex_derive u_lgyr_max s -> smooth_at smooth s ->
  length (smooth s) = length ages ->
  exists w : R -> list R,
    near s (fun r => calc_bursty_age_weights_from_u_params
        {| u_lgfburst := Fin (u_lgfburst r); u_lgyr_peak := Fin (u_lgyr_peak r); u_lgyr_max := Fin (u_lgyr_max r) |}
        (fins (smooth r)) (fins ages) = Ok (fins (w r)))
    /\ smooth_at w s.
Proof. exact C118_u_lemma. Qed.
Print Assumptions C118_bursty_weights_differentiable_u.
(** the condition on the ages cannot be dropped: with the burst window closing on the only
    template age, the weights jump by a tenth *)
Theorem C118_uncovered_burst_jumps_refuted : (forall mx, 7 < mx <= 8 ->
     calc_bursty_age_weights {| lgfburst := Fin (-1); lgyr_peak := Fin 7; lgyr_max := Fin mx |} (fins [1]) (fins [-3])
     = Ok (fins [9 / 10]))
  /\ (forall mx, 8 < mx ->
     calc_bursty_age_weights {| lgfburst := Fin (-1); lgyr_peak := Fin 7; lgyr_max := Fin mx |} (fins [1]) (fins [-3])
     = Ok (fins [1])).
Proof. exact C118_jump_lemma. Qed.
Print Assumptions C118_uncovered_burst_jumps_refuted.
Example C118_nonvacuous : exists w : R -> list R,
  near 0 (fun r => calc_bursty_age_weights_from_u_params
      {| u_lgfburst := Fin (-3 + 1 * r); u_lgyr_peak := Fin (6 + 1 * r); u_lgyr_max := Fin (8 + 1 * r) |}
      (fins (moving_sfr r)) (fins [-3; -2; -1]) = Ok (fins (w r)))
  /\ smooth_at w 0.
Proof.
  apply (C118_bursty_weights_differentiable_u (fun r => -3 + 1 * r) (fun r => 6 + 1 * r) (fun r => 8 + 1 * r) moving_sfr [-3; -2; -1]);
    auto using moving_lin, moving_sfr_smooth.
  intros peak H. destruct (Rle_dec peak 7).
  - exists 0%nat. split; [simpl; lia|]. unfold ent; simpl. apply Rabs_le. lra.
  - exists 1%nat. split; [simpl; lia|]. unfold ent; simpl. apply Rabs_le. lra.
Qed.

(** C119 *)
Theorem C119_rest_magnitude_differentiable : forall ws (ls : R -> list R) wf tf s,
  smooth_at ls s -> good_spectrum ws (ls s) -> good_filter wf tf -> 0 < band_flux (spectrum_at ws (ls s)) wf tf ->
  exists mag : R -> R,
    near s (fun r => calc_rest_mag (fins ws) (fins (ls r)) (fins wf) (fins tf) = Ok (Fin (mag r))) /\ ex_derive mag s.
Proof. exact C119_rest_lemma. Qed.
Print Assumptions C119_rest_magnitude_differentiable.
Theorem C119_observed_magnitude_differentiable : forall ws (ls : R -> list R) wf tf (z Om0 w0 wa h : R -> R) s,
  smooth_at ls s -> ex_derive z s -> ex_derive Om0 s -> ex_derive w0 s -> ex_derive wa s -> ex_derive h s ->
  good_spectrum ws (ls s) -> good_filter wf tf -> 0 < z s -> 0 < Om0 s < 1 -> 0 < h s ->
  0 < band_flux (fun x => spectrum_at ws (ls s) (x / (1 + z s))) wf tf ->
  (forall r, z r = z s) \/ (forall x, In x wf -> ~ In (x / (1 + z s)) ws) ->
  exists mag : R -> R,
    near s (fun r => calc_obs_mag (fins ws) (fins (ls r)) (fins wf) (fins tf) (Fin (z r)) (Fin (Om0 r)) (Fin (w0 r)) (Fin (wa r)) (Fin (h r))
                     = Ok (Fin (mag r)))
    /\ ex_derive mag s.
Proof. exact C119_obs_lemma. Qed.
Print Assumptions C119_observed_magnitude_differentiable.
Theorem C119_galaxy_magnitude_differentiable : forall ts (sfrs : R -> list R) (lgmet scatter t_obs z : R -> R) flux ssp_lgmet ages sfr_min
    ws wf tf Om0 w0 wa h s,
  smooth_at sfrs s -> ex_derive lgmet s -> ex_derive scatter s -> ex_derive t_obs s -> ex_derive z s ->
  good_grids ts (sfrs s) (scatter s) ssp_lgmet ages (t_obs s) -> increasing (met_edges ssp_lgmet) ->
  is_cube (length ssp_lgmet) (length ages) (length ws) flux -> increasing ws -> ws <> [] -> good_filter wf tf ->
  0 < t_obs s -> 0 < sfr_min -> 0 < z s -> 0 < Om0 < 1 -> 0 < h ->
  avoids sfr_min (sfrs s) -> avoids (1 / 10 ^ 14) (sfrs s) ->
  (forall r, t_obs r = t_obs s) \/ (born_off_grid ts (t_obs s) (age_edges ages) /\ ~ In (t_obs s) ts) ->
  (forall r, z r = z s) \/ (forall x, In x wf -> ~ In (x / (1 + z s)) ws) ->
  (forall sed, calc_rest_sed_sfh_table_lognormal_mdf (fins ts) (fins (sfrs s)) (Fin (lgmet s)) (Fin (scatter s))
        (fins ssp_lgmet) (fins ages) (fins3 flux) (Fin (t_obs s)) (Fin sfr_min) = Ok sed ->
     exists l, rest_sed sed = fins l /\ 0 < band_flux (fun x => spectrum_at ws l (x / (1 + z s))) wf tf) ->
  exists mag : R -> R,
    near s (fun r => exists sed,
      calc_rest_sed_sfh_table_lognormal_mdf (fins ts) (fins (sfrs r)) (Fin (lgmet r)) (Fin (scatter r))
        (fins ssp_lgmet) (fins ages) (fins3 flux) (Fin (t_obs r)) (Fin sfr_min) = Ok sed
      /\ calc_obs_mag (fins ws) (rest_sed sed) (fins wf) (fins tf) (Fin (z r)) (Fin Om0) (Fin w0) (Fin wa) (Fin h)
         = Ok (Fin (mag r)))
    /\ ex_derive mag s.
Proof. exact C119_galaxy_lemma. Qed.
Print Assumptions C119_galaxy_magnitude_differentiable.
Theorem C119_galaxy_magnitude_met_table_differentiable : forall ts (sfrs lgmet_table : R -> list R) (scatter t_obs z : R -> R) flux ssp_lgmet ages sfr_min
    ws wf tf Om0 w0 wa h s,
  smooth_at sfrs s -> smooth_at lgmet_table s -> ex_derive scatter s -> ex_derive t_obs s -> ex_derive z s ->
  good_grids ts (sfrs s) (scatter s) ssp_lgmet ages (t_obs s) -> length ts = length (lgmet_table s) ->
  increasing (met_edges ssp_lgmet) ->
  is_cube (length ssp_lgmet) (length ages) (length ws) flux -> increasing ws -> ws <> [] -> good_filter wf tf ->
  0 < t_obs s -> 0 < sfr_min -> 0 < z s -> 0 < Om0 < 1 -> 0 < h ->
  avoids sfr_min (sfrs s) -> avoids (1 / 10 ^ 14) (sfrs s) ->
  (forall r, t_obs r = t_obs s)
  \/ (born_off_grid ts (t_obs s) (age_edges ages) /\ born_off_grid ts (t_obs s) ages /\ ~ In (t_obs s) ts) ->
  (forall r, z r = z s) \/ (forall x, In x wf -> ~ In (x / (1 + z s)) ws) ->
  (forall sed, calc_rest_sed_sfh_table_met_table (fins ts) (fins (sfrs s)) (fins (lgmet_table s)) (Fin (scatter s))
        (fins ssp_lgmet) (fins ages) (fins3 flux) (Fin (t_obs s)) (Fin sfr_min) = Ok sed ->
     exists l, rest_sed sed = fins l /\ 0 < band_flux (fun x => spectrum_at ws l (x / (1 + z s))) wf tf) ->
  exists mag : R -> R,
    near s (fun r => exists sed,
      calc_rest_sed_sfh_table_met_table (fins ts) (fins (sfrs r)) (fins (lgmet_table r)) (Fin (scatter r))
        (fins ssp_lgmet) (fins ages) (fins3 flux) (Fin (t_obs r)) (Fin sfr_min) = Ok sed
      /\ calc_obs_mag (fins ws) (rest_sed sed) (fins wf) (fins tf) (Fin (z r)) (Fin Om0) (Fin w0) (Fin wa) (Fin h)
         = Ok (Fin (mag r)))
    /\ ex_derive mag s.
Proof. exact C119_galaxy_met_lemma. Qed.
Print Assumptions C119_galaxy_magnitude_met_table_differentiable.
Example C119_filter : good_filter [1.5; 2; 2.5] [0.1; 1; 0.2] /\ increasing [1.5; 2; 2.5]
  /\ List.Forall (fun t => 0 <= t) [0.1; 1; 0.2] /\ increasing [1; 3].
Proof.
  split; [split; [reflexivity|split]|split; [solve_increasing|split; [|solve_increasing]]].
  - repeat (apply List.Forall_cons; [lra|]); apply List.Forall_nil.
  - unfold band_integral, ab0, ent. simpl. lra.
  - repeat (apply List.Forall_cons; [lra|]); apply List.Forall_nil.
Qed.
Example C119_nonvacuous : exists mag : R -> R,
  near 0 (fun r => exists sed,
    calc_rest_sed_sfh_table_lognormal_mdf (fins demo_t) (fins (moving_sfr r)) (Fin (-2 + 1 * r)) (Fin (1/5 + 1 * r))
      (fins demo_lgmet) (fins demo_ages) (fins3 demo_flux_pos) (Fin (demo_tobs + 1 * r)) (Fin demo_min) = Ok sed
    /\ calc_obs_mag (fins [1; 3]) (rest_sed sed) (fins [1.5; 2; 2.5]) (fins [0.1; 1; 0.2])
         (Fin (0.1 + 1 * r)) (Fin 0.3) (Fin (-1)) (Fin 0) (Fin 0.7) = Ok (Fin (mag r)))
  /\ ex_derive mag 0.
Proof.
  destruct C119_filter as (GF & If & Pt & Iw).
  apply (C119_galaxy_magnitude_differentiable demo_t moving_sfr (fun r => -2 + 1 * r) (fun r => 1/5 + 1 * r)
           (fun r => demo_tobs + 1 * r) (fun r => 0.1 + 1 * r) demo_flux_pos demo_lgmet demo_ages);
    rewrite ?moving_lin_0, ?moving_sfr_0;
    auto using moving_sfr_smooth, moving_lin, demo_met_edges_inc, demo_avoids, demo_born, demo_tobs_off, demo_cube_pos with demo;
    try lra; try discriminate.
  - unfold demo_tobs; lra.
  - right. intros x [<-|[<-|[<-|[]]]]; simpl; intros [?|[?|[]]]; lra.
  - intros sed E.
    destruct (C17_range_lemma demo_t demo_sfr (-2) (1/5) demo_lgmet demo_ages 2 demo_tobs demo_min demo_flux_pos 1 9)
      as (sed' & l & E' & El & Hm & Hl); auto using demo_cube_pos, demo_flux_pos_range with demo; try (unfold demo_tobs; lra).
    rewrite E in E'. injection E' as <-. exists l. split; [exact El|].
    destruct (C17_lemma demo_t demo_sfr (-2) (1/5) demo_lgmet demo_ages 2 demo_tobs demo_min)
      as (W & _ & _ & _ & HW); auto with demo; try (unfold demo_tobs; lra).
    destruct (HW demo_flux_pos demo_cube_pos) as (sed2 & l2 & E2 & El2 & _ & L2 & _).
    rewrite E in E2. injection E2 as <-. rewrite El in El2. apply fins_inj in El2. subst l2.
    apply (band_flux_pos [1; 3] l _ _ (mass_formed_by demo_t (floored demo_min demo_sfr) demo_tobs)); auto; try lra.
    + split; [exact Iw|]. split; [symmetry; exact L2|discriminate].
    + intros i Hi. rewrite List.Forall_forall in Hl. specialize (Hl (ent l i)).
      assert (In (ent l i) l) by (apply nth_In; rewrite L2; exact Hi). specialize (Hl H). lra.
    + intros w Hw. unfold ent. simpl in *. destruct Hw as [<-|[<-|[<-|[]]]]; lra.
Qed.
Example C119_met_nonvacuous : exists mag : R -> R,
  near 0 (fun r => exists sed,
    calc_rest_sed_sfh_table_met_table (fins demo_t) (fins (moving_sfr r)) (fins (moving_met r)) (Fin (1/5 + 1 * r))
      (fins demo_lgmet) (fins demo_ages) (fins3 demo_flux_pos) (Fin (demo_tobs + 1 * r)) (Fin demo_min) = Ok sed
    /\ calc_obs_mag (fins [1; 3]) (rest_sed sed) (fins [1.5; 2; 2.5]) (fins [0.1; 1; 0.2])
         (Fin (0.1 + 1 * r)) (Fin 0.3) (Fin (-1)) (Fin 0) (Fin 0.7) = Ok (Fin (mag r)))
  /\ ex_derive mag 0.
Proof.
  destruct C119_filter as (GF & If & Pt & Iw).
  apply (C119_galaxy_magnitude_met_table_differentiable demo_t moving_sfr moving_met (fun r => 1/5 + 1 * r)
           (fun r => demo_tobs + 1 * r) (fun r => 0.1 + 1 * r) demo_flux_pos demo_lgmet demo_ages);
    rewrite ?moving_lin_0, ?moving_sfr_0;
    auto using moving_sfr_smooth, moving_met_smooth, moving_lin, demo_met_edges_inc, demo_avoids, demo_born, demo_born_nodes,
      demo_tobs_off, demo_cube_pos with demo; try lra; try discriminate.
  - unfold demo_tobs; lra.
  - right. intros x [<-|[<-|[<-|[]]]]; simpl; intros [?|[?|[]]]; lra.
  - intros sed E.
    destruct (C17_range_met_lemma demo_t demo_sfr (moving_met 0) (1/5) demo_lgmet demo_ages 2 demo_tobs demo_min demo_flux_pos 1 9)
      as (sed' & l & E' & El & Hm & Hl); auto using demo_cube_pos, demo_flux_pos_range with demo; try (unfold demo_tobs; lra).
    rewrite E in E'. apply ok_inj in E'. subst sed'. exists l. split; [exact El|].
    destruct (C17_met_lemma demo_t demo_sfr (moving_met 0) (1/5) demo_lgmet demo_ages 2 demo_tobs demo_min)
      as (W & _ & _ & _ & HW); auto with demo; try (unfold demo_tobs; lra).
    destruct (HW demo_flux_pos demo_cube_pos) as (sed2 & l2 & E2 & El2 & _ & L2 & _).
    rewrite E in E2. apply ok_inj in E2. subst sed2. rewrite El in El2. apply fins_inj in El2. subst l2.
    apply (band_flux_pos [1; 3] l _ _ (mass_formed_by demo_t (floored demo_min demo_sfr) demo_tobs)); auto; try lra.
    + split; [exact Iw|]. split; [symmetry; exact L2|discriminate].
    + intros i Hi. rewrite List.Forall_forall in Hl. specialize (Hl (ent l i)).
      assert (In (ent l i) l) by (apply nth_In; rewrite L2; exact Hi). specialize (Hl H). lra.
    + intros w Hw. unfold ent. simpl in *. destruct Hw as [<-|[<-|[<-|[]]]]; lra.
Qed.

(** C120 *)
Theorem C120_distances_differentiable : forall (z Om0 w0 wa h : R -> R) s,
  ex_derive z s -> ex_derive Om0 s -> ex_derive w0 s -> ex_derive wa s -> ex_derive h s ->
  0 < Om0 s < 1 -> 0 < h s -> -1 < z s ->
  exists dC dL dA tL age t0 : R -> R,
    near s (fun r =>
      comoving_distance_to_z (Fin (z r)) (Fin (Om0 r)) (Fin (w0 r)) (Fin (wa r)) (Fin (h r)) = Fin (dC r)
      /\ luminosity_distance_to_z (Fin (z r)) (Fin (Om0 r)) (Fin (w0 r)) (Fin (wa r)) (Fin (h r)) = Fin (dL r)
      /\ angular_diameter_distance_to_z (Fin (z r)) (Fin (Om0 r)) (Fin (w0 r)) (Fin (wa r)) (Fin (h r)) = Fin (dA r)
      /\ lookback_to_z (Fin (z r)) (Fin (Om0 r)) (Fin (w0 r)) (Fin (wa r)) (Fin (h r)) = Fin (tL r)
      /\ age_at_z (Scalar (Fin (z r))) (Fin (Om0 r)) (Fin (w0 r)) (Fin (wa r)) (Fin (h r)) = [Fin (age r)]
      /\ age_at_z0 (Fin (Om0 r)) (Fin (w0 r)) (Fin (wa r)) (Fin (h r)) = Fin (t0 r))
    /\ ex_derive dC s /\ ex_derive dL s /\ ex_derive dA s /\ ex_derive tL s /\ ex_derive age s /\ ex_derive t0 s
    /\ (0 < z s -> exists mu : R -> R,
         near s (fun r => distance_modulus_to_z (Fin (z r)) (Fin (Om0 r)) (Fin (w0 r)) (Fin (wa r)) (Fin (h r)) = Fin (mu r))
         /\ ex_derive mu s).
Proof. exact C120_lemma. Qed.
Print Assumptions C120_distances_differentiable.
Example C120_nonvacuous :
  ex_derive (fun r => 0.1 + 1 * r) 0 /\ ex_derive (fun r => 0.3 + 1 * r) 0 /\ 0 < 0.3 + 1 * 0 < 1 /\ -1 < 0.1 + 1 * 0.
Proof. repeat split; auto using moving_lin; lra. Qed.
