(** * Properties C166-C169: what [jax.grad] returns for the cosmology functions, and for derivatives
    with respect to the redshift and the time of observation.  Exact real arithmetic.
    [trace], [eval], [back] and [grad] are in MGrad.v, the traced dsps functions in MTrace2.v,
    MTrace3.v and MTrace4.v, [right_gradient] in SpecGrad.v, [good_spectrum], [good_filter], [band_flux],
    [spectrum_at], [good_grids], [age_edges] in Spec.v, [avoids] in Spec2.v. *)
From Coq Require Import Reals List Arith Bool Lra Lia.
From Coquelicot Require Import Coquelicot.
From Flocq Require Import Core.Raux.
From Verif Require Import Num Arr MUtils MSed MCosmo MPhot MGrad MTrace MTrace2 MTrace3 MTrace4 Spec Spec2 SpecGrad RList LUtils
  Demo Demo2 Demo3 Demo4 LAge LJoint LPhot LDiff5 LGrad2 LGrad8 LGrad9 LGrad12 LGrad14 LGrad16 LGrad17.
Import ListNotations.
Open Scope R_scope.
#[local] Existing Instance exact.

(** C166 *)
@@C166_cosmology_gradient = LGrad12.C166_lemma
@@C166_distance_modulus_gradient = LGrad12.C166_modulus_lemma
@@C166_distance_modulus_gradient_at_redshift_zero = LGrad12.C166_redshift_zero_lemma
@@C166_observed_magnitude_cosmology_gradient = LGrad12.C166_obs_lemma
(** redshift and all four parameters vary at once *)
Example C166_nonvacuous :
  right_gradient (virial_trace (scaled (1/2)) (scaled 0.3) (scaled (-0.9)) (scaled 0.1) (scaled 0.7)) 1
  /\ right_gradient (age_trace (scaled (1/2)) (scaled 0.3) (scaled (-0.9)) (scaled 0.1) (scaled 0.7)) 1
  /\ right_gradients [modulus_trace (scaled (1/2)) (scaled 0.3) (scaled (-0.9)) (scaled 0.1) (scaled 0.7);
                      volume_trace (scaled (1/2)) (scaled 0.3) (scaled (-0.9)) (scaled 0.1) (scaled 0.7);
                      dimming_trace (scaled (1/2)) (scaled 0.3) (scaled (-0.9)) (scaled 0.1) (scaled 0.7)] 1
  /\ right_gradient (obs_mag_cosmo_trace (fins [1; 3]) (map scaled [1; 2]) (fins [1.5; 2; 2.5]) (fins [0.1; 1; 0.2]) (Fin 0.1)
       (scaled 0.3) (scaled (-0.9)) (scaled 0.1) (scaled 0.7)) 1.
Proof.
  destruct demo_filter as (GF & If & Pt & Iw).
  destruct (C166_cosmology_gradient (scaled (1/2)) (scaled 0.3) (scaled (-0.9)) (scaled 0.1) (scaled 0.7) 1 (1/2) 0.3 (-0.9) 0.1 0.7) as (_ & G);
    auto using scaled_right, scaled_eval; try lra.
  unfold right_gradients in G. rewrite List.Forall_forall in G. split; [|split; [|split]].
  - apply G. do 8 right. now left.
  - apply G. do 5 right. now left.
  - apply (C166_distance_modulus_gradient (scaled (1/2)) (scaled 0.3) (scaled (-0.9)) (scaled 0.1) (scaled 0.7) 1 (1/2) 0.3 (-0.9) 0.1 0.7);
      auto using scaled_right, scaled_eval; lra.
  - apply (C166_observed_magnitude_cosmology_gradient [1; 3] (map scaled [1; 2]) [1.5; 2; 2.5] [0.1; 1; 0.2] 0.1 (scaled 0.3) (scaled (-0.9)) (scaled 0.1) (scaled 0.7) 1
             [1; 2] 0.3 (-0.9) 0.1 0.7); auto using scaled_rights, scaled_evals, scaled_right, scaled_eval; try lra.
    + split; [exact Iw|]. split; [reflexivity|discriminate].
    + apply (band_flux_pos [1; 3] [1; 2] _ _ 1); auto; try lra.
      * split; [exact Iw|]. split; [reflexivity|discriminate].
      * intros i Hi. unfold ent. destruct i as [|[|i]]; simpl in *; try lra; lia.
      * intros w Hw. unfold ent. simpl in *. destruct Hw as [<-|[<-|[<-|[]]]]; lra.
Qed.

(** C167 *)
@@C167_observed_magnitude_redshift_gradient = LGrad14.C167_lemma
(** spectrum, redshift and cosmology vary at once *)
Example C167_nonvacuous :
  right_gradient (obs_mag_z_trace (fins [1; 3]) (map scaled [1; 2]) (fins [1.5; 2; 2.5]) (fins [0.1; 1; 0.2]) (scaled 0.1)
       (scaled 0.3) (scaled (-0.9)) (scaled 0.1) (scaled 0.7)) 1.
Proof.
  destruct demo_filter as (GF & If & Pt & Iw).
  assert (GS : good_spectrum [1; 3] [1; 2]) by (split; [exact Iw|split; [reflexivity|discriminate]]).
  apply (C167_observed_magnitude_redshift_gradient [1; 3] (map scaled [1; 2]) [1.5; 2; 2.5] [0.1; 1; 0.2] (scaled 0.1) (scaled 0.3) (scaled (-0.9)) (scaled 0.1) (scaled 0.7) 1
           [1; 2] 0.1 0.3 (-0.9) 0.1 0.7); auto using scaled_rights, scaled_evals, scaled_right, scaled_eval; try lra.
  - apply (band_flux_pos [1; 3] [1; 2] _ _ 1); auto; try lra.
    + intros i Hi. unfold ent. destruct i as [|[|i]]; simpl in *; try lra; lia.
    + intros w Hw. unfold ent. simpl in *. destruct Hw as [<-|[<-|[<-|[]]]]; lra.
  - intros x w Hx Hw. simpl in *. destruct Hx as [<-|[<-|[<-|[]]]], Hw as [<-|[<-|[]]]; lra.
Qed.

(** C168 *)
@@C168_rest_sed_time_gradient = LGrad16.C168_lemma
(** rates, metallicity, scatter, fluxes and the time of observation vary at once *)
Example C168_nonvacuous :
  let aw := age_weight_t_traces (fins demo_t) (map scaled demo_sfr) (fins demo_ages) (scaled demo_tobs) SFR_MIN in
  right_gradients aw 1
  /\ right_gradients (sed_traces 2 (scaled3 demo_flux)
       (joint_traces (lgmet_weight_traces (scaled (-2)) (scaled (1/5)) (get_bin_edges_k (fins demo_lgmet) LGMET_LO LGMET_HI)) aw)
       (mstar_t_trace (fins demo_t) (map scaled demo_sfr) (scaled demo_tobs) (Fin demo_min))) 1.
Proof.
  destruct (scaled3_shape _ _ _ _ demo_cube) as [C1 C2]. cbv zeta.
  destruct (C168_rest_sed_time_gradient demo_t (map scaled demo_sfr) (scaled (-2)) (scaled (1/5)) demo_lgmet demo_ages (scaled3 demo_flux) (scaled demo_tobs) demo_min
              1 demo_sfr (-2) (1/5) demo_tobs 2) as (_ & A & _ & B); auto using scaled_rights, scaled_right, scaled3_rights, scaled_evals, scaled_eval, demo_avoids, demo_avoids_t, demo_avoids_b with demo;
    try (unfold demo_tobs; lra); try (simpl; lia).
Qed.

(** C169 *)
@@C169_galaxy_redshift_gradient = LGrad17.C169_lemma
(** every input varies at once; the Hubble parameter is the one that puts the universe at redshift 0.1 to the age of the demonstration *)
Example C169_nonvacuous : exists h, 0 < h /\
  right_gradient
    (let t_obs := age_trace (scaled 0.1) (scaled 0.3) (scaled (-1)) (scaled 0) (scaled h) in
     obs_mag_z_trace (fins [1; 3])
      (sed_traces 2 (scaled3 demo_flux_pos)
         (joint_traces (lgmet_weight_traces (scaled (-2)) (scaled (1/5)) (get_bin_edges_k (fins demo_lgmet) LGMET_LO LGMET_HI))
            (age_weight_t_traces (fins demo_t) (map scaled demo_sfr) (fins demo_ages) t_obs SFR_MIN))
         (mstar_t_trace (fins demo_t) (map scaled demo_sfr) t_obs (Fin demo_min)))
      (fins [1.5; 2; 2.5]) (fins [0.1; 1; 0.2]) (scaled 0.1) (scaled 0.3) (scaled (-1)) (scaled 0) (scaled h)) 1.
Proof.
  destruct (demo_h demo_tobs ltac:(unfold demo_tobs; lra)) as (h & Hh & EA). exists h. split; [exact Hh|].
  destruct demo_filter as (GF & If & Pt & Iw). destruct (scaled3_shape _ _ _ _ demo_cube_pos) as [C1 C2].
  apply (C169_galaxy_redshift_gradient demo_t (map scaled demo_sfr) (scaled (-2)) (scaled (1/5)) demo_lgmet demo_ages (scaled3 demo_flux_pos) demo_min
           [1; 3] [1.5; 2; 2.5] [0.1; 1; 0.2] (scaled 0.1) (scaled 0.3) (scaled (-1)) (scaled 0) (scaled h) 1 demo_sfr (-2) (1/5) demo_tobs 0.1 0.3 (-1) 0 h);
    auto using scaled_rights, scaled_right, scaled3_rights, scaled_evals, scaled_eval, demo_avoids, demo_avoids_t, demo_avoids_b with demo; try (unfold demo_tobs; lra); try lra; try (simpl; lia).
  - intros x w Hx Hw. simpl in *. destruct Hx as [<-|[<-|[<-|[]]]], Hw as [<-|[<-|[]]]; lra.
  - intros sed E. rewrite scaled3_evals in E.
    destruct (C17_range_lemma demo_t demo_sfr (-2) (1/5) demo_lgmet demo_ages 2 demo_tobs demo_min demo_flux_pos 1 9)
      as (sed' & l & E' & El & Hm & Hl); auto using demo_cube_pos, demo_flux_pos_range with demo; try (unfold demo_tobs; lra).
    rewrite E in E'. injection E' as <-. exists l. split; [exact El|].
    destruct (C17_lemma demo_t demo_sfr (-2) (1/5) demo_lgmet demo_ages 2 demo_tobs demo_min)
      as (W & _ & _ & _ & HW); auto with demo; try (unfold demo_tobs; lra).
    destruct (HW demo_flux_pos demo_cube_pos) as (sed2 & l2 & E2 & El2 & _ & L2 & _).
    rewrite E in E2. injection E2 as <-. rewrite El in El2. apply fins_inj in El2. subst l2.
    apply (band_flux_pos [1; 3] l _ _ (mass_formed_by demo_t (floored demo_min demo_sfr) demo_tobs)); auto; try lra.
    + split; [exact Iw|]. split; [symmetry; exact L2|discriminate].
    + intros i Hi. rewrite List.Forall_forall in Hl. specialize (Hl (ent l i)).
      assert (In (ent l i) l) by (apply nth_In; rewrite L2; exact Hi). specialize (Hl H). lra.
    + intros w Hw. unfold ent. simpl in *. destruct Hw as [<-|[<-|[<-|[]]]]; lra.
Qed.
