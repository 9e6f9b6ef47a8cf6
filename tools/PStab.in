(** * Properties C144, C145, C147 and C148: sensitivity of weights, spectra and magnitudes to the star
    formation history and the metallicity, superposition.  Exact real arithmetic; the vocabulary ([within_factor],
    [tables_within], [mags_shifted]) is in SpecStab.v and SpecMetStab.v. *)
From Coq Require Import Reals List Arith Lra Lia.
From Coquelicot Require Import Coquelicot.
From Verif Require Import Num Arr MUtils MSed MPhot Spec Spec2 SpecStab RList LUtils LAge LMet LJoint LStab5 LSuper LSuper2 SpecMetStab LMetStab2 Demo Demo2.
Import ListNotations.
Open Scope R_scope.

(** two histories that agree within 10 per cent *)
Definition stab_sfr : list R := [1; 3; 2].
Definition stab_sfr' : list R := [1.05; 2.8; 2.1].
Lemma stab_formed m : 0 < m -> let formed lg_age := mass_formed_by demo_t (floored m stab_sfr) (birth_time demo_tobs lg_age) in
  formed (age_edge demo_ages 0) <> formed (age_edge demo_ages (length demo_ages)).
Proof.
  intros Hm. apply (edge_mass_neq demo_t stab_sfr demo_ages demo_tobs m); auto with demo.
  rewrite demo_e0, demo_e3. lra.
Qed.
Lemma stab_grids : good_grids demo_t stab_sfr (1/5) demo_lgmet demo_ages demo_tobs.
Proof.
  unfold good_grids. repeat (split; [solve [auto using demo_lgmet3, demo_met_edges with demo|lra|reflexivity]|]). apply stab_formed. lra.
Qed.
Lemma stab_within : tables_within 1.1 stab_sfr stab_sfr'.
Proof. split; [reflexivity|]. intros i Hi. simpl in Hi. unfold within_factor, ent. destruct i as [|[|[|i]]]; simpl; try lra; lia. Qed.
Lemma stab_cube : nonneg_cube (length demo_lgmet) (length demo_ages) 2 demo_flux.
Proof. split; [auto with demo|]. intros i j k Hi Hj Hk. apply demo_flux_range; auto. Qed.

(** C144 *)
@@C144_age_weights = LStab5.C144_weights_lemma
@@C144_sed_and_magnitudes = LStab5.C144_sed_lemma
@@C144_sed_and_magnitudes_met_table = LStab5.C144_met_lemma
Example C144_nonvacuous :
  (exists w w', calc_age_weights_from_sfh_table (fins demo_t) (fins stab_sfr) (fins demo_ages) (Fin demo_tobs) (Fin demo_min) = Ok (fins w)
   /\ calc_age_weights_from_sfh_table (fins demo_t) (fins stab_sfr') (fins demo_ages) (Fin demo_tobs) (Fin demo_min) = Ok (fins w')
   /\ within_factor (1.1 ^ 10) (ent w 1) (ent w' 1))
  /\ (exists r r' sed sed',
    calc_rest_sed_sfh_table_lognormal_mdf (fins demo_t) (fins stab_sfr) (Fin (-2)) (Fin (1/5)) (fins demo_lgmet) (fins demo_ages) (fins3 demo_flux) (Fin demo_tobs) (Fin demo_min) = Ok r
    /\ calc_rest_sed_sfh_table_lognormal_mdf (fins demo_t) (fins stab_sfr') (Fin (-2)) (Fin (1/5)) (fins demo_lgmet) (fins demo_ages) (fins3 demo_flux) (Fin demo_tobs) (Fin demo_min) = Ok r'
    /\ rest_sed r = fins sed /\ rest_sed r' = fins sed' /\ mags_shifted [1000; 9000] sed sed' 0 (27.5 * log10 1.1)).
Proof.
  split.
  - destruct (C144_age_weights demo_t stab_sfr stab_sfr' demo_ages demo_tobs demo_min 1.1) as (w & w' & E & E' & _ & _ & W);
      [reflexivity|auto with demo|auto with demo|auto with demo|auto with demo|auto with demo|apply stab_formed; auto with demo|lra|apply stab_within|].
    exists w, w'. split; [exact E|]. split; [exact E'|]. apply W. simpl. lia.
  - destruct (C144_sed_and_magnitudes demo_t stab_sfr stab_sfr' (-2) (1/5) demo_lgmet demo_ages 2 demo_flux demo_tobs demo_min 1.1)
      as (r & r' & sed & sed' & E & E' & R & R' & _ & M);
      [apply stab_grids|unfold demo_tobs; lra|auto with demo|lra|apply stab_within|apply stab_cube|].
    exists r, r', sed, sed'. repeat (split; [assumption|]). apply M; [reflexivity|discriminate|solve_increasing].
Qed.

(** C145 *)
@@C145_age_weights_scale_free = LStab5.C145_lemma
@@C145_sed_scales_with_sfh = LStab5.C145_sed_lemma
Example C145_nonvacuous :
  (exists w w', calc_age_weights_from_sfh_table (fins demo_t) (fins stab_sfr) (fins demo_ages) (Fin demo_tobs) (Fin demo_min) = Ok (fins w)
   /\ calc_age_weights_from_sfh_table (fins demo_t) (fins (map (Rmult 7) stab_sfr)) (fins demo_ages) (Fin demo_tobs) (Fin demo_min) = Ok (fins w')
   /\ within_factor ((1 + 1 / 10 ^ 14) ^ 10) (ent w 1) (ent w' 1))
  /\ (exists r r' sed sed',
    calc_rest_sed_sfh_table_lognormal_mdf (fins demo_t) (fins stab_sfr) (Fin (-2)) (Fin (1/5)) (fins demo_lgmet) (fins demo_ages) (fins3 demo_flux) (Fin demo_tobs) (Fin demo_min) = Ok r
    /\ calc_rest_sed_sfh_table_lognormal_mdf (fins demo_t) (fins (map (Rmult 7) stab_sfr)) (Fin (-2)) (Fin (1/5)) (fins demo_lgmet) (fins demo_ages) (fins3 demo_flux) (Fin demo_tobs) (Fin demo_min) = Ok r'
    /\ rest_sed r = fins sed /\ rest_sed r' = fins sed'
    /\ mags_shifted [1000; 9000] sed sed' (- (2.5 * log10 7)) (27.5 * log10 (1 + 1 / 10 ^ 14))).
Proof.
  split.
  - destruct (C145_age_weights_scale_free demo_t stab_sfr demo_ages demo_tobs demo_min 7 (1 / 10 ^ 14)) as (w & w' & E & E' & _ & _ & W);
      [reflexivity|auto with demo|auto with demo|auto with demo|auto with demo|auto with demo|apply stab_formed; auto with demo|lra|lra
      |unfold stab_sfr, demo_min; repeat constructor; lra|unfold stab_sfr, ent; simpl; lra|unfold stab_sfr, ent; simpl; lra|].
    exists w, w'. split; [exact E|]. split; [exact E'|]. apply W. simpl. lia.
  - destruct (C145_sed_scales_with_sfh demo_t stab_sfr (-2) (1/5) demo_lgmet demo_ages 2 demo_flux demo_tobs demo_min 7 (1 / 10 ^ 14))
      as (r & r' & sed & sed' & E & E' & R & R' & _ & M);
      [apply stab_grids|unfold demo_tobs; lra|auto with demo|lra|lra
      |unfold stab_sfr, demo_min; repeat constructor; lra|unfold stab_sfr, ent; simpl; lra|unfold stab_sfr, ent; simpl; lra|apply stab_cube|].
    exists r, r', sed, sed'. repeat (split; [assumption|]). apply M; [reflexivity|discriminate|solve_increasing].
Qed.

(** C147 *)
@@C147_mass_table_superposes = LSuper.C147_tables_lemma
@@C147_superposition_within_one_step = LSuper.C147_step_lemma
@@C147_exact_superposition_refuted = LSuper2.C147_refuted_lemma
Example C147_nonvacuous : exists r r' r2 m m' m2,
    calc_rest_sed_sfh_table_lognormal_mdf (fins sp_t) (fins sp_a) (Fin (-2)) (Fin (1/5)) (fins demo_lgmet) (fins demo_ages) (fins3 (ones 4 3 2)) (Fin 2) (Fin demo_min) = Ok r
    /\ calc_rest_sed_sfh_table_lognormal_mdf (fins sp_t) (fins sp_b) (Fin (-2)) (Fin (1/5)) (fins demo_lgmet) (fins demo_ages) (fins3 (ones 4 3 2)) (Fin 2) (Fin demo_min) = Ok r'
    /\ calc_rest_sed_sfh_table_lognormal_mdf (fins sp_t) (fins (map2 Rplus sp_a sp_b)) (Fin (-2)) (Fin (1/5)) (fins demo_lgmet) (fins demo_ages) (fins3 (ones 4 3 2)) (Fin 2) (Fin demo_min) = Ok r2
    /\ rest_sed r = fins (repeat m 2) /\ rest_sed r' = fins (repeat m' 2) /\ rest_sed r2 = fins (repeat m2 2)
    /\ Rabs (m2 - (m + m')) <= 10 ^ 9 * 15.4.
Proof.
  destruct (C147_superposition_within_one_step sp_t sp_a sp_b (-2) (1/5) demo_lgmet demo_ages 2 (ones 4 3 2) 2 demo_min 0)
    as (r & r' & r2 & m & m' & m2 & E & E' & E2 & R & R' & R2 & B & _);
    [apply sp_grids; reflexivity|apply sp_grids; reflexivity|apply sp_grids; reflexivity|lra|auto with demo
    |unfold sp_a, demo_min; repeat constructor; lra|unfold sp_b, demo_min; repeat constructor; lra|apply (ones_cube 4 3 2)|apply (ones_ent 4 3 2)
    |simpl; lia|unfold sp_t, ent; simpl; lra|].
  exists r, r', r2, m, m', m2. do 6 (split; [assumption|]). eapply Rle_trans; [exact B|]. unfold sp_t, sp_a, sp_b, ent. simpl. lra.
Qed.

(** C148 *)
@@C148_metallicity_weights = LMetStab2.C148_weights_lemma
@@C148_sed = LMetStab2.C148_sed_lemma
@@C148_sed_met_table = LMetStab2.C148_met_lemma
Lemma demo_variation j k : (j < length demo_ages)%nat -> (k < 2)%nat -> met_variation (length demo_lgmet) demo_flux j k <= 27.
Proof.
  intros Hj Hk. unfold met_variation. cbn [length demo_lgmet Nat.sub seq map Rsum].
  assert (B : forall i, (i < 3)%nat -> Rabs (ent3 demo_flux (S i) j k - ent3 demo_flux i j k) <= 9).
  { intros i Hi. pose proof (demo_flux_range i j k ltac:(simpl; lia) Hj Hk). pose proof (demo_flux_range (S i) j k ltac:(simpl; lia) Hj Hk). apply Rabs_le. lra. }
  pose proof (B 0%nat ltac:(lia)). pose proof (B 1%nat ltac:(lia)). pose proof (B 2%nat ltac:(lia)). lra.
Qed.
Example C148_nonvacuous :
  (exists w w', calc_lgmet_weights_from_lognormal_mdf (Fin (-2)) (Fin (1/5)) (fins demo_lgmet) = Ok (fins w)
   /\ calc_lgmet_weights_from_lognormal_mdf (Fin (-2.01)) (Fin (0.21)) (fins demo_lgmet) = Ok (fins w')
   /\ Rabs (ent w 1 - ent w' 1) <= 2 * mdf_shift (Rabs (-2 - -2.01)) (1/5) 0.21)
  /\ (exists r r' sed sed',
    calc_rest_sed_sfh_table_met_table (fins demo_t) (fins demo_sfr) (fins demo_met_table) (Fin (1/5)) (fins demo_lgmet) (fins demo_ages) (fins3 demo_flux) (Fin demo_tobs) (Fin demo_min) = Ok r
    /\ calc_rest_sed_sfh_table_met_table (fins demo_t) (fins demo_sfr) (fins [-2.51; -2; -1.49]) (Fin 0.21) (fins demo_lgmet) (fins demo_ages) (fins3 demo_flux) (Fin demo_tobs) (Fin demo_min) = Ok r'
    /\ rest_sed r = fins sed /\ rest_sed r' = fins sed'
    /\ Rabs (ent sed 1 - ent sed' 1) <= mass_formed_by demo_t (floored demo_min demo_sfr) demo_tobs * (mdf_shift 0.01 (1/5) 0.21 * 27)).
Proof.
  split.
  - destruct (C148_metallicity_weights (-2) (1/5) (-2.01) 0.21 demo_lgmet) as (w & w' & E & E' & _ & _ & _ & W);
      [auto with demo|auto with demo|unfold mdf_inside; lra|unfold mdf_inside; lra|].
    exists w, w'. split; [exact E|]. split; [exact E'|]. apply W. simpl. lia.
  - destruct (C148_sed_met_table demo_t demo_sfr demo_met_table (1/5) [-2.51; -2; -1.49] 0.21 demo_lgmet demo_ages 2 demo_flux demo_tobs demo_min 27 0.01)
      as (r & r' & sed & sed' & E & E' & R & R' & _ & _ & W);
      [auto with demo|unfold demo_tobs; lra|auto with demo|reflexivity|reflexivity|unfold demo_met_table, mdf_inside; repeat constructor; lra
      |unfold mdf_inside; repeat constructor; lra| |auto with demo|exact demo_variation|].
    + intros i Hi. unfold demo_met_table, ent. simpl in Hi. apply Rabs_le. destruct i as [|[|[|i]]]; simpl; try lra; lia.
    + exists r, r', sed, sed'. do 4 (split; [assumption|]). apply W. lia.
Qed.
