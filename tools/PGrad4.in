(** * Properties C170-C172: what [jax.grad] returns for the blackbody densities, the power-law functions,
    the effective wavelength of a filter, the metallicity-table SED, and for magnitudes behind a dust screen.  Exact real arithmetic.
    [trace], [eval] and [grad] are in MGrad.v, the traced dsps functions in MTrace5.v,
    [right_gradient] in SpecGrad.v, [trapezoid] in Spec.v. *)
From Coq Require Import Reals List Arith Bool Lra Lia.
From Coquelicot Require Import Coquelicot.
From Flocq Require Import Core.Raux.
From Verif Require Import Num Arr MUtils MSed MDust MBlackbody MCosmo MPhot MGrad MTrace MTrace2 MTrace3 MTrace4 MTrace5 Spec Spec2 SpecGrad RList LUtils
  Demo Demo2 Demo3 Demo4 LAge LJoint LPhot LGrad17 LGrad18 LGrad19 LGrad20.
Import ListNotations.
Open Scope R_scope.
#[local] Existing Instance exact.

(** C170 *)
@@C170_blackbody_gradient = LGrad18.C170_blackbody_lemma
@@C170_blackbody_gradient_at_temperature_zero = LGrad18.C170_zero_lemma
@@C170_powerlaw_gradient = LGrad18.C170_powerlaw_lemma
@@C170_effective_wavelength_gradient = LGrad18.C170_effective_lemma
(** frequency, wavelength and temperature vary at once; so do the five arguments of the power laws, and
    transmission and redshift *)
Example C170_nonvacuous :
  right_gradient (freq_density_trace (scaled (6 * 10 ^ 14)) (scaled 5800)) 1
  /\ right_gradient (wave_density_trace (scaled 5000) (scaled 5800)) 1
  /\ right_gradient (powerlaw_pdf_trace (scaled 2) (scaled 1) (scaled 3) (scaled (-1.35))) 1
  /\ right_gradient (powerlaw_rvs_trace (scaled (1/2)) (scaled 1) (scaled 3) (scaled (-1.35))) 1
  /\ right_gradient (effective_wavelength_trace (fins [4000; 5000; 7000]) (map scaled [0; 1; 0]) (scaled 1)) 1.
Proof.
  assert (0 < 6 * 10 ^ 14) by (apply Rmult_lt_0_compat; [lra|apply pow_lt; lra]).
  destruct (C170_blackbody_gradient (scaled (6 * 10 ^ 14)) (scaled 5000) (scaled 5800) 1 (6 * 10 ^ 14) 5000 5800) as (_ & A & B);
    auto using scaled_right, scaled_eval; try lra.
  destruct (C170_powerlaw_gradient (scaled 2) (scaled (1/2)) (scaled 1) (scaled 3) (scaled (-1.35)) 1 2 (1/2) 1 3 (-1.35)) as (_ & D & E);
    auto using scaled_right, scaled_eval; try lra.
  destruct (C170_effective_wavelength_gradient [4000; 5000; 7000] (map scaled [0; 1; 0]) (scaled 1) 1 [0; 1; 0] 1) as (_ & F);
    auto using scaled_rights, scaled_evals, scaled_right, scaled_eval; try lra.
  simpl. lra.
Qed.

(** C171 *)
@@C171_rest_sed_met_table_time_gradient = LGrad19.C171_lemma
(** rates, metallicity table, scatter, fluxes and the time of observation vary at once *)
Example C171_nonvacuous :
  right_gradients (sed_traces 2 (scaled3 demo_flux)
     (joint_table_traces (lgmet_matrix_t_traces (fins demo_t) (map scaled demo_met_table) (scaled (1/5)) (fins demo_lgmet) (fins demo_ages) (scaled demo_tobs))
        (age_weight_t_traces (fins demo_t) (map scaled demo_sfr) (fins demo_ages) (scaled demo_tobs) SFR_MIN))
     (mstar_t_trace (fins demo_t) (map scaled demo_sfr) (scaled demo_tobs) (Fin demo_min))) 1.
Proof.
  destruct (scaled3_shape _ _ _ _ demo_cube) as [C1 C2].
  destruct (C171_rest_sed_met_table_time_gradient demo_t (map scaled demo_sfr) (map scaled demo_met_table) (scaled (1/5)) demo_lgmet demo_ages (scaled3 demo_flux) (scaled demo_tobs) demo_min
              1 demo_sfr demo_met_table (1/5) demo_tobs 2) as (_ & D & _);
    auto using scaled_rights, scaled_right, scaled3_rights, scaled_evals, scaled_eval, demo_avoids, demo_avoids_t with demo; try (unfold demo_tobs; lra); try (simpl; lia).
  - unfold demo_met_table. repeat (apply List.Forall_cons; [lra|]). apply List.Forall_nil.
  - apply demo_avoids_ba.
Qed.

(** C172 *)
@@C172_galaxy_met_table_redshift_gradient = LGrad20.C172_lemma
@@C172_dusty_magnitude_gradient = LGrad20.C172_dust_lemma
(** every input varies at once *)
Example C172_nonvacuous :
  (exists h, 0 < h /\
   right_gradient
    (let t_obs := age_trace (scaled 0.1) (scaled 0.3) (scaled (-1)) (scaled 0) (scaled h) in
     obs_mag_z_trace (fins [1; 3])
      (sed_traces 2 (scaled3 demo_flux_pos)
         (joint_table_traces (lgmet_matrix_t_traces (fins demo_t) (map scaled demo_met_table) (scaled (1/5)) (fins demo_lgmet) (fins demo_ages) t_obs)
            (age_weight_t_traces (fins demo_t) (map scaled demo_sfr) (fins demo_ages) t_obs SFR_MIN))
         (mstar_t_trace (fins demo_t) (map scaled demo_sfr) t_obs (Fin demo_min)))
      (fins [1.5; 2; 2.5]) (fins [0.1; 1; 0.2]) (scaled 0.1) (scaled 0.3) (scaled (-1)) (scaled 0) (scaled h)) 1)
  /\ right_gradient
    (obs_mag_z_trace (fins [1; 3]) (map2 (fun l k => Mul l (frac_transmission_trace k (scaled 0.8) (scaled 0.1))) (map scaled [1; 2]) (map scaled [2; 1]))
      (fins [1.5; 2; 2.5]) (fins [0.1; 1; 0.2]) (scaled 0.1) (scaled 0.3) (scaled (-1)) (scaled 0) (scaled 0.7)) 1.
Proof.
  destruct demo_filter as (GF & If & Pt & Iw).
  assert (NX : forall x w, In x [1.5; 2; 2.5] -> In w [1; 3] -> x <> w * (1 + 0.1)).
  { intros x w Hx Hw. simpl in *. destruct Hx as [<-|[<-|[<-|[]]]], Hw as [<-|[<-|[]]]; lra. }
  split.
  - destruct (demo_h demo_tobs ltac:(unfold demo_tobs; lra)) as (h & Hh & EA). exists h. split; [exact Hh|].
    destruct (scaled3_shape _ _ _ _ demo_cube_pos) as [C1 C2].
    apply (C172_galaxy_met_table_redshift_gradient demo_t (map scaled demo_sfr) (map scaled demo_met_table) (scaled (1/5)) demo_lgmet demo_ages (scaled3 demo_flux_pos) demo_min
           [1; 3] [1.5; 2; 2.5] [0.1; 1; 0.2] (scaled 0.1) (scaled 0.3) (scaled (-1)) (scaled 0) (scaled h) 1 demo_sfr demo_met_table (1/5) demo_tobs 0.1 0.3 (-1) 0 h);
      auto using scaled_rights, scaled_right, scaled3_rights, scaled_evals, scaled_eval, demo_avoids, demo_avoids_t, demo_avoids_ba with demo; try (unfold demo_tobs; lra); try lra; try (simpl; lia).
    + unfold demo_met_table. repeat (apply List.Forall_cons; [lra|]). apply List.Forall_nil.
    + intros sed E. rewrite scaled3_evals in E.
      destruct (C17_met_range_lemma demo_t demo_sfr demo_met_table (1/5) demo_lgmet demo_ages 2 demo_tobs demo_min demo_flux_pos 1 9)
        as (sed' & l & E' & El & L2 & Hm & Hl); auto using demo_cube_pos, demo_flux_pos_range with demo; try (unfold demo_tobs; lra).
      rewrite E in E'. injection E' as <-. exists l. split; [exact El|].
      apply (band_flux_pos [1; 3] l _ _ (mass_formed_by demo_t (floored demo_min demo_sfr) demo_tobs)); auto; try lra.
      * split; [exact Iw|]. split; [symmetry; exact L2|discriminate].
      * intros i Hi. rewrite List.Forall_forall in Hl. specialize (Hl (ent l i)).
        assert (In (ent l i) l) by (apply nth_In; rewrite L2; exact Hi). specialize (Hl H). lra.
      * intros w Hw. unfold ent. simpl in *. destruct Hw as [<-|[<-|[<-|[]]]]; lra.
  - apply (C172_dusty_magnitude_gradient [1; 3] (map scaled [1; 2]) (map scaled [2; 1]) (scaled 0.8) (scaled 0.1) [1.5; 2; 2.5] [0.1; 1; 0.2]
             (scaled 0.1) (scaled 0.3) (scaled (-1)) (scaled 0) (scaled 0.7) 1 [1; 2] [2; 1] 0.8 0.1 0.1 0.3 (-1) 0 0.7);
      auto using scaled_rights, scaled_right, scaled_evals, scaled_eval; try lra.
    + split; [exact Iw|]. split; [reflexivity|discriminate].
    + cbv zeta. cbn [map2]. apply (band_flux_pos [1; 3] _ _ _ 0.1); auto; try lra.
      * split; [exact Iw|]. split; [reflexivity|discriminate].
      * intros i Hi. unfold ent. pose proof (pow10_pos (-0.4 * Rmax 0 (0.8 * 2 / 4.05))). pose proof (pow10_pos (-0.4 * Rmax 0 (0.8 * 1 / 4.05))).
        destruct i as [|[|]]; simpl; try lra. simpl in Hi. lia.
      * intros w Hw. unfold ent. simpl in *. destruct Hw as [<-|[<-|[<-|[]]]]; lra.
Qed.
