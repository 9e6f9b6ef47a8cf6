(** * Properties C121-C126: photometry of populations, error propagation into magnitudes,
    dust and magnitudes, continuity, and where smoothness fails.  Exact real arithmetic.
    [mixture], [brightness], [magnitude], [entry3], [steady_at], [steady2_at], [steady3_at] and [near]
    are in Spec2.v; [continuity_pt] is the standard library's "is continuous at". *)
From Coq Require Import Reals List Arith Lra Lia.
From Coquelicot Require Import Coquelicot.
From Verif Require Import Num MUtils MSed MDiffburst MPhot MCosmo MDust Spec Spec2 RList LUtils LAge LMet LJoint LPhot
  Demo Demo2 Demo3 LDiff LDiff2 LDiff3 LDiff4 LDiff5 LPop LPopMet LPop2 LCont LCont2 LCont3 LJointMet LGalMet.
Import ListNotations.
Open Scope R_scope.

(** C121 *)
Theorem C121_magnitude_is_mixture_of_template_magnitudes : forall ts sfrs lgmet scatter ssp_lgmet ages ws flux fw ft t_obs sfr_min,
  good_grids ts sfrs scatter ssp_lgmet ages t_obs -> 0 < t_obs -> 0 < sfr_min ->
  increasing ws -> ws <> [] -> is_cube (length ssp_lgmet) (length ages) (length ws) flux ->
  length fw = length ft -> (forall b, (b < length fw)%nat -> good_filter (nth b fw []) (nth b ft [])) ->
  exists sed W, let mass := mass_formed_by ts (floored sfr_min sfrs) t_obs in
    let mix := mixture (length ssp_lgmet) (length ages) W in
    let template i j := nth j (nth i flux []) [] in
    calc_rest_sed_sfh_table_lognormal_mdf (fins ts) (fins sfrs) (Fin lgmet) (Fin scatter)
      (fins ssp_lgmet) (fins ages) (fins3 flux) (Fin t_obs) (Fin sfr_min) = Ok sed
    /\ rs_weights sed = map fins W
    (* rest-frame *)
    /\ ((forall b i j, (b < length fw)%nat -> (i < length ssp_lgmet)%nat -> (j < length ages)%nat ->
           0 < band_flux (spectrum_at ws (template i j)) (nth b fw []) (nth b ft [])) ->
        exists tab, precompute_ssp_restmags (fins ws) (fins3 flux) (map fins fw) (map fins ft) = Ok tab
        /\ forall b, (b < length fw)%nat -> exists m : nat -> nat -> R,
           (forall i j, (i < length ssp_lgmet)%nat -> (j < length ages)%nat -> entry3 tab i j b = Fin (m i j))
           /\ calc_rest_mag (fins ws) (rest_sed sed) (fins (nth b fw [])) (fins (nth b ft []))
              = Ok (Fin (magnitude (mass * mix (fun i j => brightness (m i j))))))
    (* observed at a fixed redshift, no dimming *)
    /\ (forall z, -1 < z -> (forall b i j, (b < length fw)%nat -> (i < length ssp_lgmet)%nat -> (j < length ages)%nat ->
           0 < band_flux (fun x => spectrum_at ws (template i j) (x / (1 + z))) (nth b fw []) (nth b ft [])) ->
        exists tab, precompute_ssp_restmags_z_kcorrect (fins ws) (fins3 flux) (map fins fw) (map fins ft) (Fin z) = Ok tab
        /\ forall b, (b < length fw)%nat -> exists m : nat -> nat -> R,
           (forall i j, (i < length ssp_lgmet)%nat -> (j < length ages)%nat -> entry3 tab i j b = Fin (m i j))
           /\ calc_obs_mag_no_dimming (fins ws) (rest_sed sed) (fins (nth b fw [])) (fins (nth b ft [])) (Fin z)
              = Ok (Fin (magnitude (mass * mix (fun i j => brightness (m i j))))))
    (* observed, on a table of redshifts *)
    /\ (forall zs Om0 w0 wa h, List.Forall (fun z => 0 < z) zs -> 0 < Om0 <= 1 -> 0 < h ->
        (forall a b i j, (a < length zs)%nat -> (b < length fw)%nat -> (i < length ssp_lgmet)%nat -> (j < length ages)%nat ->
           0 < band_flux (fun x => spectrum_at ws (template i j) (x / (1 + ent zs a))) (nth b fw []) (nth b ft [])) ->
        exists tab, precompute_ssp_obsmags_on_z_table (fins ws) (fins3 flux) (map fins fw) (map fins ft) (fins zs)
                      (Fin Om0) (Fin w0) (Fin wa) (Fin h) = Ok tab
        /\ forall a b, (a < length zs)%nat -> (b < length fw)%nat -> exists m : nat -> nat -> R,
           (forall i j, (i < length ssp_lgmet)%nat -> (j < length ages)%nat -> entry3 (nth a tab []) i j b = Fin (m i j))
           /\ calc_obs_mag (fins ws) (rest_sed sed) (fins (nth b fw [])) (fins (nth b ft [])) (Fin (ent zs a))
                (Fin Om0) (Fin w0) (Fin wa) (Fin h)
              = Ok (Fin (magnitude (mass * mix (fun i j => brightness (m i j)))))).
Proof. exact C121_lognormal_lemma. Qed.
Print Assumptions C121_magnitude_is_mixture_of_template_magnitudes.
Theorem C121_magnitude_is_mixture_met_table : forall ts sfrs lgmet_table scatter ssp_lgmet ages ws flux fw ft t_obs sfr_min,
  good_grids ts sfrs scatter ssp_lgmet ages t_obs -> length ts = length lgmet_table -> 0 < t_obs -> 0 < sfr_min ->
  increasing ws -> ws <> [] -> is_cube (length ssp_lgmet) (length ages) (length ws) flux ->
  length fw = length ft -> (forall b, (b < length fw)%nat -> good_filter (nth b fw []) (nth b ft [])) ->
  exists sed W, let mass := mass_formed_by ts (floored sfr_min sfrs) t_obs in
    let mix := mixture (length ssp_lgmet) (length ages) W in
    let template i j := nth j (nth i flux []) [] in
    calc_rest_sed_sfh_table_met_table (fins ts) (fins sfrs) (fins lgmet_table) (Fin scatter)
      (fins ssp_lgmet) (fins ages) (fins3 flux) (Fin t_obs) (Fin sfr_min) = Ok sed
    /\ rs_weights sed = map fins W
    (* rest-frame *)
    /\ ((forall b i j, (b < length fw)%nat -> (i < length ssp_lgmet)%nat -> (j < length ages)%nat ->
           0 < band_flux (spectrum_at ws (template i j)) (nth b fw []) (nth b ft [])) ->
        exists tab, precompute_ssp_restmags (fins ws) (fins3 flux) (map fins fw) (map fins ft) = Ok tab
        /\ forall b, (b < length fw)%nat -> exists m : nat -> nat -> R,
           (forall i j, (i < length ssp_lgmet)%nat -> (j < length ages)%nat -> entry3 tab i j b = Fin (m i j))
           /\ calc_rest_mag (fins ws) (rest_sed sed) (fins (nth b fw [])) (fins (nth b ft []))
              = Ok (Fin (magnitude (mass * mix (fun i j => brightness (m i j))))))
    (* observed at a fixed redshift, no dimming *)
    /\ (forall z, -1 < z -> (forall b i j, (b < length fw)%nat -> (i < length ssp_lgmet)%nat -> (j < length ages)%nat ->
           0 < band_flux (fun x => spectrum_at ws (template i j) (x / (1 + z))) (nth b fw []) (nth b ft [])) ->
        exists tab, precompute_ssp_restmags_z_kcorrect (fins ws) (fins3 flux) (map fins fw) (map fins ft) (Fin z) = Ok tab
        /\ forall b, (b < length fw)%nat -> exists m : nat -> nat -> R,
           (forall i j, (i < length ssp_lgmet)%nat -> (j < length ages)%nat -> entry3 tab i j b = Fin (m i j))
           /\ calc_obs_mag_no_dimming (fins ws) (rest_sed sed) (fins (nth b fw [])) (fins (nth b ft [])) (Fin z)
              = Ok (Fin (magnitude (mass * mix (fun i j => brightness (m i j))))))
    (* observed, on a table of redshifts *)
    /\ (forall zs Om0 w0 wa h, List.Forall (fun z => 0 < z) zs -> 0 < Om0 <= 1 -> 0 < h ->
        (forall a b i j, (a < length zs)%nat -> (b < length fw)%nat -> (i < length ssp_lgmet)%nat -> (j < length ages)%nat ->
           0 < band_flux (fun x => spectrum_at ws (template i j) (x / (1 + ent zs a))) (nth b fw []) (nth b ft [])) ->
        exists tab, precompute_ssp_obsmags_on_z_table (fins ws) (fins3 flux) (map fins fw) (map fins ft) (fins zs)
                      (Fin Om0) (Fin w0) (Fin wa) (Fin h) = Ok tab
        /\ forall a b, (a < length zs)%nat -> (b < length fw)%nat -> exists m : nat -> nat -> R,
           (forall i j, (i < length ssp_lgmet)%nat -> (j < length ages)%nat -> entry3 (nth a tab []) i j b = Fin (m i j))
           /\ calc_obs_mag (fins ws) (rest_sed sed) (fins (nth b fw [])) (fins (nth b ft [])) (Fin (ent zs a))
                (Fin Om0) (Fin w0) (Fin wa) (Fin h)
              = Ok (Fin (magnitude (mass * mix (fun i j => brightness (m i j)))))).
Proof. exact C121_met_full. Qed.
Print Assumptions C121_magnitude_is_mixture_met_table.
Lemma pop_filter : good_filter [1.5; 2; 2.5] [0.1; 1; 0.2] /\ increasing [1.5; 2; 2.5]
  /\ List.Forall (fun t => 0 <= t) [0.1; 1; 0.2] /\ increasing [1; 3].
Proof.
  split; [split; [reflexivity|split]|split; [solve_increasing|split; [|solve_increasing]]].
  - repeat (apply List.Forall_cons; [lra|]); apply List.Forall_nil.
  - unfold band_integral, ab0, ent. simpl. lra.
  - repeat (apply List.Forall_cons; [lra|]); apply List.Forall_nil.
Qed.
Lemma pop_template i j z : (i < length demo_lgmet)%nat -> (j < length demo_ages)%nat -> 0 <= z < 0.4 ->
  0 < band_flux (fun x => spectrum_at [1; 3] (nth j (nth i demo_flux_pos []) []) (x / (1 + z))) [1.5; 2; 2.5] [0.1; 1; 0.2].
Proof.
  intros Hi Hj Hz. destruct pop_filter as (GF & If & Pt & Iw).
  assert (L : length (nth j (nth i demo_flux_pos []) []) = 2%nat).
  { simpl in Hi, Hj. destruct i as [|[|[|[|i]]]]; try lia; destruct j as [|[|[|j]]]; try lia; reflexivity. }
  apply (band_flux_pos [1; 3] _ _ _ 1); auto; try lra.
  - split; [exact Iw|]. split; [symmetry; exact L|discriminate].
  - intros k Hk. exact (proj1 (demo_flux_pos_range i j k Hi Hj Hk)).
  - assert (P : 0 < / (1 + z)) by (apply Rinv_0_lt_compat; lra). assert (/ (1 + z) * (1 + z) = 1) by (apply Rinv_l; lra).
    intros w Hw. unfold ent. simpl in *. destruct Hw as [<-|[<-|[<-|[]]]]; unfold Rdiv; nra.
Qed.
Example C121_nonvacuous :
  good_grids demo_t demo_sfr (1/5) demo_lgmet demo_ages demo_tobs /\ 0 < demo_tobs /\ 0 < demo_min
  /\ increasing [1; 3] /\ is_cube (length demo_lgmet) (length demo_ages) (length [1; 3]) demo_flux_pos
  /\ good_filter [1.5; 2; 2.5] [0.1; 1; 0.2]
  /\ (forall z i j, 0 <= z < 0.4 -> (i < length demo_lgmet)%nat -> (j < length demo_ages)%nat ->
        0 < band_flux (fun x => spectrum_at [1; 3] (nth j (nth i demo_flux_pos []) []) (x / (1 + z))) [1.5; 2; 2.5] [0.1; 1; 0.2]).
Proof.
  split; [auto with demo|]. split; [unfold demo_tobs; lra|]. split; [auto with demo|]. split; [apply pop_filter|].
  split; [exact demo_cube_pos|]. split; [apply pop_filter|]. intros. now apply pop_template.
Qed.

(** C122 *)
Theorem C122_template_errors_bound_magnitude_errors : forall ws l l' wf tf a b, good_spectrum ws l -> good_spectrum ws l' -> good_filter wf tf ->
  increasing wf -> List.Forall (fun t => 0 <= t) tf -> 0 < a -> 0 < b ->
  (forall i, (i < length ws)%nat -> a * ent l i <= ent l' i <= b * ent l i) ->
  let close m m' := m - 2.5 * log10 b <= m' <= m - 2.5 * log10 a in
  (0 < band_flux (spectrum_at ws l) wf tf -> exists m m',
     calc_rest_mag (fins ws) (fins l) (fins wf) (fins tf) = Ok (Fin m)
     /\ calc_rest_mag (fins ws) (fins l') (fins wf) (fins tf) = Ok (Fin m') /\ close m m')
  /\ (forall z Om0 w0 wa h, 0 < z -> 0 < Om0 <= 1 -> 0 < h ->
     0 < band_flux (fun x => spectrum_at ws l (x / (1 + z))) wf tf -> exists m m',
     calc_obs_mag (fins ws) (fins l) (fins wf) (fins tf) (Fin z) (Fin Om0) (Fin w0) (Fin wa) (Fin h) = Ok (Fin m)
     /\ calc_obs_mag (fins ws) (fins l') (fins wf) (fins tf) (Fin z) (Fin Om0) (Fin w0) (Fin wa) (Fin h) = Ok (Fin m') /\ close m m').
Proof. exact C122_lemma. Qed.
Print Assumptions C122_template_errors_bound_magnitude_errors.
Example C122_nonvacuous : exists m m',
  calc_rest_mag (fins [1; 3]) (fins [1; 2]) (fins [1.5; 2; 2.5]) (fins [0.1; 1; 0.2]) = Ok (Fin m)
  /\ calc_rest_mag (fins [1; 3]) (fins [1.1; 1.9]) (fins [1.5; 2; 2.5]) (fins [0.1; 1; 0.2]) = Ok (Fin m')
  /\ m - 2.5 * log10 1.2 <= m' <= m - 2.5 * log10 0.9.
Proof.
  destruct pop_filter as (GF & If & Pt & Iw).
  assert (G1 : good_spectrum [1; 3] [1; 2]) by (split; [exact Iw|split; [reflexivity|discriminate]]).
  assert (G2 : good_spectrum [1; 3] [1.1; 1.9]) by (split; [exact Iw|split; [reflexivity|discriminate]]).
  refine (proj1 (C122_template_errors_bound_magnitude_errors [1; 3] [1; 2] [1.1; 1.9] _ _ 0.9 1.2 G1 G2 GF If Pt _ _ _) _); try lra.
  - intros [|[|i]] Hi; simpl in Hi; try lia; unfold ent; simpl; lra.
  - pose proof (band_flux_pos [1; 3] [1; 2] [1.5; 2; 2.5] [0.1; 1; 0.2] 1 0 G1 GF If Pt ltac:(lra) ltac:(lra)) as B.
    change (fun x => spectrum_at [1; 3] [1; 2] (x / (1 + 0))) with (zspec [1; 3] [1; 2] 0) in B. rewrite zspec_0 in B. apply B.
    + intros [|[|i]] Hi; simpl in Hi; try lia; unfold ent; simpl; lra.
    + intros w Hw. unfold ent. simpl in *. destruct Hw as [<-|[<-|[<-|[]]]]; lra.
Qed.

(** C123 *)
Theorem C123_dust_dims_by_a_bounded_amount : forall ws l ks wf tf floor kmax, good_spectrum ws l -> length ks = length ws -> good_filter wf tf ->
  increasing wf -> List.Forall (fun t => 0 <= t) tf -> List.Forall (fun x => 0 <= x) l -> List.Forall (fun k => 0 <= k <= kmax) ks ->
  0 <= floor <= 1 -> 0 < band_flux (spectrum_at ws l) wf tf ->
  exists (dusty : R -> list R) (mag : R -> R),
    (forall av, length (dusty av) = length ws /\ forall i, (i < length ws)%nat ->
       nmul (Fin (ent l i)) (frac_transmission_from_k_lambda (Fin (ent ks i)) (Fin av) (Fin floor)) = Fin (ent (dusty av) i))
    /\ (forall av, calc_rest_mag (fins ws) (fins (dusty av)) (fins wf) (fins tf) = Ok (Fin (mag av)))
    /\ calc_rest_mag (fins ws) (fins l) (fins wf) (fins tf) = Ok (Fin (mag 0))
    /\ (forall av1 av2, av1 <= av2 -> mag av1 <= mag av2)
    /\ (forall av, 0 <= av -> mag av <= mag 0 + av * kmax / 4.05).
Proof. exact C123_lemma. Qed.
Print Assumptions C123_dust_dims_by_a_bounded_amount.
Example C123_nonvacuous :
  good_spectrum [1; 3] [1; 2] /\ good_filter [1.5; 2; 2.5] [0.1; 1; 0.2]
  /\ List.Forall (fun x => 0 <= x) [1; 2] /\ List.Forall (fun k => 0 <= k <= 5) [5; 2.5]
  /\ 0 < band_flux (spectrum_at [1; 3] [1; 2]) [1.5; 2; 2.5] [0.1; 1; 0.2].
Proof.
  destruct pop_filter as (GF & If & Pt & Iw).
  assert (G1 : good_spectrum [1; 3] [1; 2]) by (split; [exact Iw|split; [reflexivity|discriminate]]).
  split; auto. split; auto. split; [repeat (apply List.Forall_cons; [lra|]); apply List.Forall_nil|].
  split; [repeat (apply List.Forall_cons; [lra|]); apply List.Forall_nil|].
  pose proof (band_flux_pos [1; 3] [1; 2] [1.5; 2; 2.5] [0.1; 1; 0.2] 1 0 G1 GF If Pt ltac:(lra) ltac:(lra)) as B.
  change (fun x => spectrum_at [1; 3] [1; 2] (x / (1 + 0))) with (zspec [1; 3] [1; 2] 0) in B. rewrite zspec_0 in B. apply B.
  - intros [|[|i]] Hi; simpl in Hi; try lia; unfold ent; simpl; lra.
  - intros w Hw. unfold ent. simpl in *. destruct Hw as [<-|[<-|[<-|[]]]]; lra.
Qed.

(** C124 *)
Theorem C124_metallicity_weights_continuous : forall (lgmet scatter : R -> R) ssp_lgmet s,
  continuity_pt lgmet s -> continuity_pt scatter s -> 0 < scatter s ->
  (3 <= length ssp_lgmet)%nat -> increasing (met_edges ssp_lgmet) ->
  exists w : R -> list R,
    near s (fun r => calc_lgmet_weights_from_lognormal_mdf (Fin (lgmet r)) (Fin (scatter r)) (fins ssp_lgmet)
                     = Ok (fins (w r)))
    /\ steady_at w s.
Proof. exact C124_met_lemma. Qed.
Print Assumptions C124_metallicity_weights_continuous.
Theorem C124_age_weights_continuous : forall ts (sfrs : R -> list R) (t_obs : R -> R) ages sfr_min s,
  steady_at sfrs s -> continuity_pt t_obs s ->
  length ts = length (sfrs s) -> ts <> [] -> increasing (0.001 :: ts) -> 0 < sfr_min -> (3 <= length ages)%nat ->
  (let formed lg_age := mass_formed_by ts (floored sfr_min (sfrs s)) (birth_time (t_obs s) lg_age) in
   formed (age_edge ages 0) <> formed (age_edge ages (length ages))) ->
  exists w : R -> list R,
    near s (fun r => calc_age_weights_from_sfh_table (fins ts) (fins (sfrs r)) (fins ages) (Fin (t_obs r)) (Fin sfr_min)
                     = Ok (fins (w r)))
    /\ steady_at w s.
Proof. exact C124_age_lemma. Qed.
Print Assumptions C124_age_weights_continuous.
Theorem C124_rest_sed_continuous : forall ts (sfrs : R -> list R) (lgmet scatter t_obs : R -> R) (flux : R -> list (list (list R)))
    ssp_lgmet ages n_wave sfr_min s,
  steady_at sfrs s -> continuity_pt lgmet s -> continuity_pt scatter s -> continuity_pt t_obs s -> steady3_at flux s ->
  good_grids ts (sfrs s) (scatter s) ssp_lgmet ages (t_obs s) -> increasing (met_edges ssp_lgmet) ->
  0 < t_obs s -> 0 < sfr_min -> is_cube (length ssp_lgmet) (length ages) n_wave (flux s) ->
  exists (sed mw aw : R -> list R) (W : R -> list (list R)),
    near s (fun r =>
      calc_rest_sed_sfh_table_lognormal_mdf (fins ts) (fins (sfrs r)) (Fin (lgmet r)) (Fin (scatter r))
        (fins ssp_lgmet) (fins ages) (fins3 (flux r)) (Fin (t_obs r)) (Fin sfr_min)
      = Ok {| rest_sed := fins (sed r); rs_weights := map fins (W r);
              rs_lgmet_weights := fins (mw r); rs_age_weights := fins (aw r) |})
    /\ steady_at sed s /\ steady2_at W s /\ steady_at mw s /\ steady_at aw s.
Proof. exact C124_sed_lemma. Qed.
Print Assumptions C124_rest_sed_continuous.
Theorem C124_rest_sed_met_table_continuous : forall ts (sfrs lgmet_table : R -> list R) (scatter t_obs : R -> R)
    (flux : R -> list (list (list R))) ssp_lgmet ages n_wave sfr_min s,
  steady_at sfrs s -> steady_at lgmet_table s -> continuity_pt scatter s -> continuity_pt t_obs s -> steady3_at flux s ->
  good_grids ts (sfrs s) (scatter s) ssp_lgmet ages (t_obs s) -> length ts = length (lgmet_table s) ->
  increasing (met_edges ssp_lgmet) ->
  0 < t_obs s -> 0 < sfr_min -> is_cube (length ssp_lgmet) (length ages) n_wave (flux s) ->
  exists (sed aw : R -> list R) (W M : R -> list (list R)),
    near s (fun r =>
      calc_rest_sed_sfh_table_met_table (fins ts) (fins (sfrs r)) (fins (lgmet_table r)) (Fin (scatter r))
        (fins ssp_lgmet) (fins ages) (fins3 (flux r)) (Fin (t_obs r)) (Fin sfr_min)
      = Ok {| rest_sed := fins (sed r); rs_weights := map fins (W r);
              rs_lgmet_weights := map fins (M r); rs_age_weights := fins (aw r) |})
    /\ steady_at sed s /\ steady2_at W s /\ steady2_at M s /\ steady_at aw s.
Proof. exact C124_sed_met_lemma. Qed.
Print Assumptions C124_rest_sed_met_table_continuous.
(** the galaxy of Demo.v with one tabulated SFR exactly on the floor, where C117 does not apply *)
Definition floor_sfr (r : R) : list R := [demo_min + r; 3; -1].
Lemma floor_sfr_steady : steady_at floor_sfr 0.
Proof.
  split; [exists 3%nat; reflexivity|]. intros [|[|[|i]]]; unfold floor_sfr, ent; simpl; try apply cp_const0.
  apply cp_of_derive; auto_derive; auto.
Qed.
Lemma pop_lin c d : continuity_pt (fun r => c + d * r) 0.
Proof. apply cp_of_derive. auto_derive; auto. Qed.
Lemma floor_grids : good_grids demo_t (floor_sfr 0) (1/5) demo_lgmet demo_ages demo_tobs.
Proof.
  assert (G : good_grids demo_t demo_sfr (1/5) demo_lgmet demo_ages demo_tobs) by auto with demo.
  unfold good_grids in *.
  assert (E : floored (1 / 10 ^ 14) (floor_sfr 0) = floored (1 / 10 ^ 14) demo_sfr).
  { unfold floored, floor_sfr, demo_sfr, demo_min. cbn [map]. f_equal. rewrite Rmax_left, Rmax_left by lra. reflexivity. }
  rewrite E. exact G.
Qed.
Example C124_nonvacuous : exists (sed mw aw : R -> list R) (W : R -> list (list R)),
  near 0 (fun r =>
    calc_rest_sed_sfh_table_lognormal_mdf (fins demo_t) (fins (floor_sfr r)) (Fin (-2 + 1 * r)) (Fin (1/5 + 1 * r))
      (fins demo_lgmet) (fins demo_ages) (fins3 demo_flux) (Fin (demo_tobs + 1 * r)) (Fin demo_min)
    = Ok {| rest_sed := fins (sed r); rs_weights := map fins (W r);
            rs_lgmet_weights := fins (mw r); rs_age_weights := fins (aw r) |})
  /\ steady_at sed 0 /\ steady2_at W 0 /\ steady_at mw 0 /\ steady_at aw 0.
Proof.
  apply (C124_rest_sed_continuous demo_t floor_sfr (fun r => -2 + 1 * r) (fun r => 1/5 + 1 * r)
    (fun r => demo_tobs + 1 * r) (fun _ => demo_flux) demo_lgmet demo_ages 2);
    rewrite ?moving_lin_0; auto using floor_sfr_steady, pop_lin, floor_grids, demo_met_edges_inc, demo_cube with demo.
  - split; [exists 4%nat, 3%nat, 2%nat; intros _; apply demo_cube|intros; apply cp_const0].
  - unfold demo_tobs; lra.
Qed.

(** C125 *)
Theorem C125_rest_magnitude_continuous : forall ws (ls : R -> list R) wf tf s,
  steady_at ls s -> good_spectrum ws (ls s) -> good_filter wf tf -> 0 < band_flux (spectrum_at ws (ls s)) wf tf ->
  exists mag : R -> R,
    near s (fun r => calc_rest_mag (fins ws) (fins (ls r)) (fins wf) (fins tf) = Ok (Fin (mag r))) /\ continuity_pt mag s.
Proof. exact C125_rest_lemma. Qed.
Print Assumptions C125_rest_magnitude_continuous.
Theorem C125_obs_magnitude_continuous : forall ws (ls : R -> list R) wf tf (z Om0 w0 wa h : R -> R) s,
  steady_at ls s -> continuity_pt z s -> continuity_pt Om0 s -> continuity_pt w0 s -> continuity_pt wa s -> continuity_pt h s ->
  good_spectrum ws (ls s) -> good_filter wf tf -> 0 < z s -> 0 < Om0 s < 1 -> 0 < h s ->
  0 < band_flux (fun x => spectrum_at ws (ls s) (x / (1 + z s))) wf tf ->
  (forall r, z r = z s)
  \/ (forall x, In x wf -> x / (1 + z s) <> ent ws 0 /\ x / (1 + z s) <> ent ws (length ws - 1)) ->
  exists mag : R -> R,
    near s (fun r => calc_obs_mag (fins ws) (fins (ls r)) (fins wf) (fins tf) (Fin (z r)) (Fin (Om0 r)) (Fin (w0 r)) (Fin (wa r)) (Fin (h r))
                     = Ok (Fin (mag r)))
    /\ continuity_pt mag s.
Proof. exact C125_obs_lemma. Qed.
Print Assumptions C125_obs_magnitude_continuous.
Theorem C125_galaxy_magnitude_continuous : forall ts (sfrs : R -> list R) (lgmet scatter t_obs z : R -> R) flux ssp_lgmet ages sfr_min
    ws wf tf Om0 w0 wa h s,
  steady_at sfrs s -> continuity_pt lgmet s -> continuity_pt scatter s -> continuity_pt t_obs s -> continuity_pt z s ->
  good_grids ts (sfrs s) (scatter s) ssp_lgmet ages (t_obs s) -> increasing (met_edges ssp_lgmet) ->
  is_cube (length ssp_lgmet) (length ages) (length ws) flux -> increasing ws -> ws <> [] -> good_filter wf tf ->
  0 < t_obs s -> 0 < sfr_min -> 0 < z s -> 0 < Om0 < 1 -> 0 < h ->
  (forall r, z r = z s)
  \/ (forall x, In x wf -> x / (1 + z s) <> ent ws 0 /\ x / (1 + z s) <> ent ws (length ws - 1)) ->
  (forall sed, calc_rest_sed_sfh_table_lognormal_mdf (fins ts) (fins (sfrs s)) (Fin (lgmet s)) (Fin (scatter s))
        (fins ssp_lgmet) (fins ages) (fins3 flux) (Fin (t_obs s)) (Fin sfr_min) = Ok sed ->
     exists l, rest_sed sed = fins l /\ 0 < band_flux (fun x => spectrum_at ws l (x / (1 + z s))) wf tf) ->
  exists mag : R -> R,
    near s (fun r => exists sed,
      calc_rest_sed_sfh_table_lognormal_mdf (fins ts) (fins (sfrs r)) (Fin (lgmet r)) (Fin (scatter r))
        (fins ssp_lgmet) (fins ages) (fins3 flux) (Fin (t_obs r)) (Fin sfr_min) = Ok sed
      /\ calc_obs_mag (fins ws) (rest_sed sed) (fins wf) (fins tf) (Fin (z r)) (Fin Om0) (Fin w0) (Fin wa) (Fin h)
         = Ok (Fin (mag r)))
    /\ continuity_pt mag s.
Proof. exact C125_galaxy_lemma. Qed.
Print Assumptions C125_galaxy_magnitude_continuous.
Theorem C125_galaxy_magnitude_met_table_continuous : forall ts (sfrs lgmet_table : R -> list R) (scatter t_obs z : R -> R) flux ssp_lgmet ages sfr_min
    ws wf tf Om0 w0 wa h s,
  steady_at sfrs s -> steady_at lgmet_table s -> continuity_pt scatter s -> continuity_pt t_obs s -> continuity_pt z s ->
  good_grids ts (sfrs s) (scatter s) ssp_lgmet ages (t_obs s) -> length ts = length (lgmet_table s) ->
  increasing (met_edges ssp_lgmet) ->
  is_cube (length ssp_lgmet) (length ages) (length ws) flux -> increasing ws -> ws <> [] -> good_filter wf tf ->
  0 < t_obs s -> 0 < sfr_min -> 0 < z s -> 0 < Om0 < 1 -> 0 < h ->
  (forall r, z r = z s)
  \/ (forall x, In x wf -> x / (1 + z s) <> ent ws 0 /\ x / (1 + z s) <> ent ws (length ws - 1)) ->
  (forall sed, calc_rest_sed_sfh_table_met_table (fins ts) (fins (sfrs s)) (fins (lgmet_table s)) (Fin (scatter s))
        (fins ssp_lgmet) (fins ages) (fins3 flux) (Fin (t_obs s)) (Fin sfr_min) = Ok sed ->
     exists l, rest_sed sed = fins l /\ 0 < band_flux (fun x => spectrum_at ws l (x / (1 + z s))) wf tf) ->
  exists mag : R -> R,
    near s (fun r => exists sed,
      calc_rest_sed_sfh_table_met_table (fins ts) (fins (sfrs r)) (fins (lgmet_table r)) (Fin (scatter r))
        (fins ssp_lgmet) (fins ages) (fins3 flux) (Fin (t_obs r)) (Fin sfr_min) = Ok sed
      /\ calc_obs_mag (fins ws) (rest_sed sed) (fins wf) (fins tf) (Fin (z r)) (Fin Om0) (Fin w0) (Fin wa) (Fin h)
         = Ok (Fin (mag r)))
    /\ continuity_pt mag s.
Proof. exact C125_galaxy_met_lemma. Qed.
Print Assumptions C125_galaxy_magnitude_met_table_continuous.

(** redshift 1 and filter wavelength 4: the shifted wavelength 2 is a node of the spectrum, where C119 does not apply *)
Example C125_nonvacuous : exists mag : R -> R,
  near 0 (fun r => calc_obs_mag (fins [1; 2; 3]) (fins [1 + r; 2; 1]) (fins [3; 4; 5]) (fins [0.1; 1; 0.2])
      (Fin (1 + 1 * r)) (Fin (0.3 + 1 * r)) (Fin (-1 + 1 * r)) (Fin (0 + 1 * r)) (Fin (0.7 + 1 * r)) = Ok (Fin (mag r)))
  /\ continuity_pt mag 0.
Proof.
  assert (G1 : good_spectrum [1; 2; 3] [1 + 0; 2; 1]) by (split; [solve_increasing|split; [reflexivity|discriminate]]).
  assert (GF : good_filter [3; 4; 5] [0.1; 1; 0.2]).
  { split; [reflexivity|split]; [repeat (apply List.Forall_cons; [lra|]); apply List.Forall_nil|].
    unfold band_integral, ab0, ent. simpl. lra. }
  apply (C125_obs_magnitude_continuous [1; 2; 3] (fun r => [1 + r; 2; 1]) [3; 4; 5] [0.1; 1; 0.2]
    (fun r => 1 + 1 * r) (fun r => 0.3 + 1 * r) (fun r => -1 + 1 * r) (fun r => 0 + 1 * r) (fun r => 0.7 + 1 * r));
    rewrite ?moving_lin_0; auto using pop_lin; try lra.
  - split; [exists 3%nat; reflexivity|]. intros [|[|[|i]]]; unfold ent; simpl; try apply cp_const0.
    apply cp_of_derive; auto_derive; auto.
  - apply (band_flux_pos [1; 2; 3] [1 + 0; 2; 1] _ _ 1); auto; try lra; [solve_increasing|..].
    + repeat (apply List.Forall_cons; [lra|]); apply List.Forall_nil.
    + intros [|[|[|i]]] Hi; simpl in Hi; try lia; unfold ent; simpl; lra.
    + intros w Hw. unfold ent. simpl in *. destruct Hw as [<-|[<-|[<-|[]]]]; lra.
  - right. intros x [<-|[<-|[<-|[]]]]; unfold ent; simpl; lra.
Qed.
(** the same galaxy as C124_nonvacuous, with a moving metallicity history and a tabulated SFR on the floor *)
Example C125_galaxy_met_nonvacuous : exists mag : R -> R,
  near 0 (fun r => exists sed,
    calc_rest_sed_sfh_table_met_table (fins demo_t) (fins (floor_sfr r)) (fins (moving_met r)) (Fin (1/5 + 1 * r))
      (fins demo_lgmet) (fins demo_ages) (fins3 demo_flux_pos) (Fin (demo_tobs + 1 * r)) (Fin demo_min) = Ok sed
    /\ calc_obs_mag (fins [1; 3]) (rest_sed sed) (fins [1.5; 2; 2.5]) (fins [0.1; 1; 0.2])
         (Fin (0.1 + 1 * r)) (Fin 0.3) (Fin (-1)) (Fin 0) (Fin 0.7) = Ok (Fin (mag r)))
  /\ continuity_pt mag 0.
Proof.
  assert (Iw : increasing [1; 3]) by solve_increasing.
  assert (Pt : List.Forall (fun t => 0 <= t) [0.1; 1; 0.2]) by (repeat (apply List.Forall_cons; [lra|]); apply List.Forall_nil).
  assert (If : increasing [1.5; 2; 2.5]) by solve_increasing.
  assert (GF : good_filter [1.5; 2; 2.5] [0.1; 1; 0.2]).
  { split; [reflexivity|split]; [repeat (apply List.Forall_cons; [lra|]); apply List.Forall_nil|].
    unfold band_integral, ab0, ent. simpl. lra. }
  apply (C125_galaxy_magnitude_met_table_continuous demo_t floor_sfr moving_met (fun r => 1/5 + 1 * r)
           (fun r => demo_tobs + 1 * r) (fun r => 0.1 + 1 * r) demo_flux_pos demo_lgmet demo_ages);
    rewrite ?moving_lin_0;
    auto using floor_sfr_steady, floor_grids, pop_lin, demo_met_edges_inc, demo_cube_pos with demo; try lra; try discriminate.
  - destruct moving_met_smooth as [L D]. split; [exact L|]. intros i. apply cp_of_derive, D.
  - unfold demo_tobs; lra.
  - right. intros x [<-|[<-|[<-|[]]]]; unfold ent; simpl; lra.
  - intros sed E.
    destruct (C17_range_met_lemma demo_t (floor_sfr 0) (moving_met 0) (1/5) demo_lgmet demo_ages 2 demo_tobs demo_min demo_flux_pos 1 9)
      as (sed' & l & E' & El & Hm & Hl); auto using floor_grids, demo_cube_pos, demo_flux_pos_range with demo; try (unfold demo_tobs; lra).
    rewrite E in E'. apply ok_inj in E'. subst sed'. exists l. split; [exact El|].
    destruct (C17_met_lemma demo_t (floor_sfr 0) (moving_met 0) (1/5) demo_lgmet demo_ages 2 demo_tobs demo_min)
      as (W & _ & _ & _ & HW); auto using floor_grids with demo; try (unfold demo_tobs; lra).
    destruct (HW demo_flux_pos demo_cube_pos) as (sed2 & l2 & E2 & El2 & _ & L2 & _).
    rewrite E in E2. apply ok_inj in E2. subst sed2. rewrite El in El2. apply fins_inj in El2. subst l2.
    apply (band_flux_pos [1; 3] l _ _ (mass_formed_by demo_t (floored demo_min (floor_sfr 0)) demo_tobs)); auto; try lra.
    + split; [exact Iw|]. split; [symmetry; exact L2|discriminate].
    + intros i Hi. rewrite List.Forall_forall in Hl. specialize (Hl (ent l i)).
      assert (In (ent l i) l) by (apply nth_In; rewrite L2; exact Hi). specialize (Hl H). lra.
    + intros w Hw. unfold ent. simpl in *. destruct Hw as [<-|[<-|[<-|[]]]]; lra.
Qed.

(** C126 *)
Theorem C126_sfr_floor_kink : forall sfr_min (lgm : R -> list R), 0 < sfr_min ->
  (forall r, calc_logsm_table_from_sfh_table (fins [1]) (fins [r]) (Fin sfr_min) = fins (lgm r)) ->
  steady_at lgm sfr_min /\ ~ smooth_at lgm sfr_min.
Proof. exact C126_kink_lemma. Qed.
Print Assumptions C126_sfr_floor_kink.
Theorem C126_magnitude_jumps_at_spectrum_edge : exists mag : R -> R,
  (forall z, 0 <= z < 1 ->
     calc_obs_mag_no_dimming (fins [1; 2]) (fins [1; 1]) (fins [1; 2]) (fins [1; 1]) (Fin z) = Ok (Fin (mag z)))
  /\ (forall z, 0 < z < 1 -> mag z = mag 0 + 2.5 * log10 3) /\ ~ continuity_pt mag 0.
Proof. exact C126_jump_lemma. Qed.
Print Assumptions C126_magnitude_jumps_at_spectrum_edge.
