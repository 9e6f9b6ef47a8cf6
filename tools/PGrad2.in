(** * Properties C164-C165: what [jax.grad] returns for the SED pipeline.  Exact real arithmetic.
    [trace], [eval], [back] and [grad] are in MGrad.v, the traced dsps functions in MTrace.v and
    MTrace2.v, [right_gradient] in SpecGrad.v, [good_grids], [good_filter], [band_flux] and
    [spectrum_at] in Spec.v, [avoids] in Spec2.v. *)
From Coq Require Import Reals List Arith Bool Lra Lia.
From Coquelicot Require Import Coquelicot.
From Flocq Require Import Core.Raux.
From Verif Require Import Num Arr MUtils MSed MCosmo MPhot MGrad MTrace MTrace2 Spec Spec2 SpecGrad RList LUtils
  Demo Demo2 Demo3 Demo4 LAge LJoint LPhot LDiff5 LGrad2 LGrad8 LGrad9 LGrad10.
Import ListNotations.
Open Scope R_scope.
#[local] Existing Instance exact.

(** C164 *)
@@C164_age_weights_gradient = LGrad8.C164_age_lemma
@@C164_rest_sed_gradient = LGrad9.C164_lemma
@@C164_rest_sed_met_table_gradient = LGrad10.C164_table_lemma
(** all star formation rates, the metallicity, the scatter and all template fluxes vary *)
Example C164_nonvacuous :
  let aw := age_weight_traces (fins demo_t) (map scaled demo_sfr) (fins demo_ages) (Fin demo_tobs) SFR_MIN in
  right_gradients aw 1
  /\ right_gradients (sed_traces 2 (scaled3 demo_flux)
       (joint_traces (lgmet_weight_traces (scaled (-2)) (scaled (1/5)) (get_bin_edges_k (fins demo_lgmet) LGMET_LO LGMET_HI)) aw)
       (mstar_trace (fins demo_t) (map scaled demo_sfr) (Fin demo_tobs) (Fin demo_min))) 1
  /\ right_gradients (sed_traces 2 (scaled3 demo_flux)
       (joint_table_traces (lgmet_matrix_traces (fins demo_t) (map scaled demo_met_table) (scaled (1/5)) (fins demo_lgmet) (fins demo_ages) (Fin demo_tobs)) aw)
       (mstar_trace (fins demo_t) (map scaled demo_sfr) (Fin demo_tobs) (Fin demo_min))) 1.
Proof.
  destruct (scaled3_shape _ _ _ _ demo_cube) as [C1 C2]. cbv zeta.
  destruct (C164_rest_sed_gradient demo_t (map scaled demo_sfr) (scaled (-2)) (scaled (1/5)) demo_lgmet demo_ages (scaled3 demo_flux) demo_tobs demo_min
              1 demo_sfr (-2) (1/5) 2) as (_ & A & _ & _ & B); auto using scaled_rights, scaled_right, scaled3_rights, scaled_evals, scaled_eval, demo_avoids with demo; try (unfold demo_tobs; lra).
  destruct (C164_rest_sed_met_table_gradient demo_t (map scaled demo_sfr) (map scaled demo_met_table) (scaled (1/5)) demo_lgmet demo_ages (scaled3 demo_flux) demo_tobs demo_min
              1 demo_sfr demo_met_table (1/5) 2) as (_ & D & _); auto using scaled_rights, scaled_right, scaled3_rights, scaled_evals, scaled_eval, demo_avoids with demo; try (unfold demo_tobs; lra).
  unfold demo_met_table. repeat (apply List.Forall_cons; [lra|]). apply List.Forall_nil.
Qed.

(** C165 *)
@@C165_rest_magnitude_gradient = LGrad9.C165_rest_lemma
@@C165_observed_magnitude_gradient = LGrad9.C165_obs_lemma
@@C165_galaxy_magnitude_gradient = LGrad10.C165_galaxy_lemma
Example C165_nonvacuous :
  right_gradient (obs_mag_trace (fins [1; 3])
    (sed_traces 2 (scaled3 demo_flux_pos)
       (joint_traces (lgmet_weight_traces (scaled (-2)) (scaled (1/5)) (get_bin_edges_k (fins demo_lgmet) LGMET_LO LGMET_HI))
          (age_weight_traces (fins demo_t) (map scaled demo_sfr) (fins demo_ages) (Fin demo_tobs) SFR_MIN))
       (mstar_trace (fins demo_t) (map scaled demo_sfr) (Fin demo_tobs) (Fin demo_min)))
    (fins [1.5; 2; 2.5]) (fins [0.1; 1; 0.2]) (Fin 0.1) (Fin 0.3) (Fin (-1)) (Fin 0) (Fin 0.7)) 1.
Proof.
  destruct demo_filter as (GF & If & Pt & Iw). destruct (scaled3_shape _ _ _ _ demo_cube_pos) as [C1 C2].
  apply (C165_galaxy_magnitude_gradient demo_t (map scaled demo_sfr) (scaled (-2)) (scaled (1/5)) demo_lgmet demo_ages (scaled3 demo_flux_pos) demo_tobs demo_min
           [1; 3] [1.5; 2; 2.5] [0.1; 1; 0.2] 0.1 0.3 (-1) 0 0.7 1 demo_sfr (-2) (1/5));
    auto using scaled_rights, scaled_right, scaled3_rights, scaled_evals, scaled_eval, demo_avoids with demo; try (unfold demo_tobs; lra); try lra; try discriminate.
  intros sed E. rewrite scaled3_evals in E.
  destruct (C17_range_lemma demo_t demo_sfr (-2) (1/5) demo_lgmet demo_ages 2 demo_tobs demo_min demo_flux_pos 1 9)
    as (sed' & l & E' & El & Hm & Hl); auto using demo_cube_pos, demo_flux_pos_range with demo; try (unfold demo_tobs; lra).
  rewrite E in E'. injection E' as <-. exists l. split; [exact El|].
  destruct (C17_lemma demo_t demo_sfr (-2) (1/5) demo_lgmet demo_ages 2 demo_tobs demo_min)
    as (W & _ & _ & _ & HW); auto with demo; try (unfold demo_tobs; lra).
  destruct (HW demo_flux_pos demo_cube_pos) as (sed2 & l2 & E2 & El2 & _ & L2 & _).
  rewrite E in E2. injection E2 as <-. rewrite El in El2. apply fins_inj in El2. subst l2.
  apply (band_flux_pos [1; 3] l _ _ (mass_formed_by demo_t (floored demo_min demo_sfr) demo_tobs)); auto; try lra.
  - split; [exact Iw|]. split; [symmetry; exact L2|discriminate].
  - intros i Hi. rewrite List.Forall_forall in Hl. specialize (Hl (ent l i)).
    assert (In (ent l i) l) by (apply nth_In; rewrite L2; exact Hi). specialize (Hl H). lra.
  - intros w Hw. unfold ent. simpl in *. destruct Hw as [<-|[<-|[<-|[]]]]; lra.
Qed.
