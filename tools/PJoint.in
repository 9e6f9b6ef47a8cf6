(** * Properties C15-C21 (and the SED part of C06, C07): joint weights and rest SED.
    Exact real arithmetic; [good_grids] in Spec.v collects the input conditions. *)
From Coq Require Import Reals List Arith Lra Lia.
From Verif Require Import Num MUtils MSed Spec RList LUtils LAge LMet LJoint Demo Demo2.
Import ListNotations.
Open Scope R_scope.

(** The hypotheses of this file are met by the demonstration galaxy. *)
Example joint_hypotheses_nonvacuous :
  good_grids demo_t demo_sfr (1/5) demo_lgmet demo_ages demo_tobs
  /\ length demo_t = length demo_met_table
  /\ is_cube (length demo_lgmet) (length demo_ages) 2 demo_flux.
Proof. auto with demo. Qed.

(** C15 *)
@@C15_joint_weights_lognormal = LJoint.C15_lemma
Example C15_nonvacuous : exists W mw aw,
  calc_ssp_weights_sfh_table_lognormal_mdf (fins demo_t) (fins demo_sfr) (Fin (-2)) (Fin (1/5))
    (fins demo_lgmet) (fins demo_ages) (Fin demo_tobs)
  = Ok {| weights := map fins W; lgmet_weights := fins mw; age_weights := fins aw |} /\ Rsum2 W = 1.
Proof.
  destruct (C15_joint_weights_lognormal demo_t demo_sfr (-2) (1/5) demo_lgmet demo_ages demo_tobs)
    as (W & mw & aw & E & _ & _ & _ & _ & H & _); eauto with demo.
Qed.

(** C16 *)
@@C16_joint_weights_met_table = LJoint.C16_lemma
Example C16_nonvacuous : exists W M aw,
  calc_ssp_weights_sfh_table_met_table (fins demo_t) (fins demo_sfr) (fins demo_met_table) (Fin (1/5))
    (fins demo_lgmet) (fins demo_ages) (Fin demo_tobs)
  = Ok {| weights := map fins W; lgmet_weights := map fins M; age_weights := fins aw |} /\ Rsum2 W = 1.
Proof.
  destruct (C16_joint_weights_met_table demo_t demo_sfr demo_met_table (1/5) demo_lgmet demo_ages demo_tobs)
    as (W & mw & aw & E & _ & _ & _ & _ & H & _); eauto with demo.
Qed.

(** C17 *)
@@C17_sed_is_mass_times_template_mix = LJoint.C17_lemma
@@C17_sed_is_mass_times_template_mix_met_table = LJoint.C17_met_lemma
@@C17_sed_within_template_range = LJoint.C17_range_lemma
@@C17_sed_linear_in_templates = LJoint.C17_linear_lemma
Example C17_nonvacuous : exists r sed,
  calc_rest_sed_sfh_table_lognormal_mdf (fins demo_t) (fins demo_sfr) (Fin (-2)) (Fin (1/5))
    (fins demo_lgmet) (fins demo_ages) (fins3 demo_flux) (Fin demo_tobs) (Fin demo_min) = Ok r
  /\ rest_sed r = fins sed
  /\ let mass := mass_formed_by demo_t (floored demo_min demo_sfr) demo_tobs in
     0 < mass /\ List.Forall (fun s => mass * 0 <= s <= mass * 9) sed.
Proof.
  apply (C17_sed_within_template_range demo_t demo_sfr (-2) (1/5) demo_lgmet demo_ages 2);
    auto with demo; try (unfold demo_tobs; lra).
  exact demo_flux_range.
Qed.

(** C18 *)
@@C18_mass_normalisation = LJoint.C18_lemma
Example C18_nonvacuous :
  length demo_t = length demo_sfr /\ demo_t <> [] /\ increasing (0.001 :: demo_t) /\ 0 < demo_min.
Proof. auto with demo. Qed.

(** C19 *)
@@C19_constant_metallicity_history = LJoint.C19_lemma
Example C19_nonvacuous : exists sed W mw M aw,
    calc_rest_sed_sfh_table_lognormal_mdf (fins demo_t) (fins demo_sfr) (Fin (-2)) (Fin (1/5))
      (fins demo_lgmet) (fins demo_ages) (fins3 demo_flux) (Fin demo_tobs) (Fin demo_min)
    = Ok {| rest_sed := fins sed; rs_weights := map fins W; rs_lgmet_weights := fins mw;
            rs_age_weights := fins aw |}
    /\ calc_rest_sed_sfh_table_met_table (fins demo_t) (fins demo_sfr) (fins [-2; -2; -2])
         (Fin (1/5)) (fins demo_lgmet) (fins demo_ages) (fins3 demo_flux) (Fin demo_tobs) (Fin demo_min)
       = Ok {| rest_sed := fins sed; rs_weights := map fins W; rs_lgmet_weights := map fins M;
               rs_age_weights := fins aw |}.
Proof.
  destruct (C19_constant_metallicity_history demo_t demo_sfr (-2) (1/5) demo_lgmet demo_ages demo_flux 2
    demo_tobs demo_min) as (sed & W & mw & M & aw & E1 & E2 & _); auto with demo.
  - unfold demo_tobs; lra.
  - exists sed, W, mw, M, aw. auto.
Qed.

(** C20: any numbers (NaN, infinite, ...), any shapes *)
@@C20_shape_errors = LJoint.C20_lemma
@@C20_shape_errors_met_table = LJoint.C20_met_lemma
@@C20_shape_errors_age_weights = LJoint.age_weights_returns
@@C20_shape_errors_lognormal_mdf = LJoint.lognormal_returns
@@C20_shape_errors_lgmet_table = LJoint.lgmet_table_returns
Example C20_nonvacuous :
  (exists r, calc_rest_sed_sfh_table_lognormal_mdf [PInf] [NaN] NaN NaN (fins demo_lgmet) (fins demo_ages)
     (fins3 demo_flux) NInf NaN = Ok r)
  /\ ~ (exists r, calc_rest_sed_sfh_table_lognormal_mdf [PInf; NaN] [NaN] NaN NaN (fins demo_lgmet)
     (fins demo_ages) (fins3 demo_flux) NInf NaN = Ok r).
Proof.
  rewrite !C20_shape_errors. split.
  - repeat split; try (simpl; lia); try discriminate.
    exists 2%nat. repeat constructor.
  - intros [H _]. discriminate H.
Qed.

(** C21: any numbers, any shapes *)
@@C21_sfr_min_only_scales = LJoint.C21_lemma
@@C21_sfr_min_only_scales_met_table = LJoint.C21_met_lemma
Example C21_nonvacuous : exists r,
  calc_rest_sed_sfh_table_lognormal_mdf (fins demo_t) (fins demo_sfr) (Fin (-2)) (Fin (1/5))
    (fins demo_lgmet) (fins demo_ages) (fins3 demo_flux) (Fin demo_tobs) (Fin demo_min) = Ok r.
Proof.
  apply C20_shape_errors. repeat split; try (simpl; lia); try discriminate.
  exists 2%nat. repeat constructor.
Qed.

(** C06 for the SED *)
@@C06_sed_sfr_floor = LJoint.C06_sed_lemma
@@C06_sed_sfr_floor_met_table = LJoint.C06_sed_met_lemma
Example C06_sed_nonvacuous :
  map (Rmax demo_min) demo_sfr = map (Rmax demo_min) [-7; 3; 0] /\ demo_sfr <> [-7; 3; 0].
Proof.
  pose proof demo_min_pos. unfold demo_sfr. cbn [map].
  rewrite (Rmax_left demo_min 0), (Rmax_left demo_min (-1)), (Rmax_left demo_min (-7)) by lra.
  split; [reflexivity|]. intros E. injection E. lra.
Qed.

(** C07 for the SED *)
@@C07_sed_causality = LJoint.C07_sed_lemma
@@C07_sed_causality_met_table = LJoint.C07_sed_met_lemma
Example C07_sed_nonvacuous : same_past demo_t 4 [1; 2; 3] [1; 2; 99].
Proof.
  intros i Hi Hc. simpl in Hi.
  destruct i as [|[|[|i]]]; try lia; try reflexivity.
  destruct Hc as [Hc|Hc]; [lia|]. unfold ent, demo_t in Hc. simpl in Hc. lra.
Qed.
