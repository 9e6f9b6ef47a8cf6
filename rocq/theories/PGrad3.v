(** * Properties C166-C169: what [jax.grad] returns for the cosmology functions, and for derivatives
    with respect to the redshift and the time of observation.  Exact real arithmetic.
    [trace], [eval], [back] and [grad] are in MGrad.v, the traced dsps functions in MTrace2.v,
    MTrace3.v and MTrace4.v, [right_gradient] in SpecGrad.v, [good_spectrum], [good_filter], [band_flux],
    [spectrum_at], [good_grids], [age_edges] in Spec.v, [avoids] in Spec2.v. *)
From Coq Require Import Reals List Arith Bool Lra Lia.
From Coquelicot Require Import Coquelicot.
From Flocq Require Import Core.Raux.
From Verif Require Import Num Arr MUtils MSed MCosmo MPhot MGrad MTrace MTrace2 MTrace3 MTrace4 Spec Spec2 SpecGrad RList LUtils
  Demo Demo2 Demo3 Demo4 LAge LJoint LPhot LDiff5 LGrad2 LGrad8 LGrad9 LGrad12 LGrad14 LGrad16 LGrad17.
Import ListNotations.
Open Scope R_scope.
#[local] Existing Instance exact.

(** C166 *)
Theorem C166_cosmology_gradient : forall z Om0 w0 wa h v zv Omv w0v wav hv,
  right_gradient z v -> right_gradient Om0 v -> right_gradient w0 v -> right_gradient wa v -> right_gradient h v ->
  eval z (Fin v) = Fin zv -> eval Om0 (Fin v) = Fin Omv -> eval w0 (Fin v) = Fin w0v -> eval wa (Fin v) = Fin wav -> eval h (Fin v) = Fin hv ->
  -1 < zv -> 0 < Omv <= 1 -> 0 < hv ->
  (forall (AR : Arith) x,
     let E e := eval (AR := AR) e x in
     comoving_distance_to_z (E z) (E Om0) (E w0) (E wa) (E h) = E (comoving_trace z Om0 w0 wa h)
     /\ luminosity_distance_to_z (E z) (E Om0) (E w0) (E wa) (E h) = E (luminosity_trace z Om0 w0 wa h)
     /\ angular_diameter_distance_to_z (E z) (E Om0) (E w0) (E wa) (E h) = E (angular_trace z Om0 w0 wa h)
     /\ lookback_to_z (E z) (E Om0) (E w0) (E wa) (E h) = E (lookback_trace z Om0 w0 wa h)
     /\ age_at_z0 (E Om0) (E w0) (E wa) (E h) = E (age0_trace Om0 w0 wa h)
     /\ age_at_z (Scalar (E z)) (E Om0) (E w0) (E wa) (E h) = [E (age_trace z Om0 w0 wa h)]
     /\ rho_crit (E z) (E Om0) (E w0) (E wa) (E h) = E (rho_crit_trace z Om0 w0 wa h)
     /\ Om (Vector [E z]) (E Om0) (E w0) (E wa) = Ok [E (Om_trace z Om0 w0 wa)]
     /\ virial_dynamical_time (Vector [E z]) (E Om0) (E w0) (E wa) (E h) = Ok [E (virial_trace z Om0 w0 wa h)])
  /\ right_gradients
       [comoving_trace z Om0 w0 wa h; luminosity_trace z Om0 w0 wa h; angular_trace z Om0 w0 wa h; lookback_trace z Om0 w0 wa h;
        age0_trace Om0 w0 wa h; age_trace z Om0 w0 wa h; rho_crit_trace z Om0 w0 wa h; Om_trace z Om0 w0 wa; virial_trace z Om0 w0 wa h] v.
Proof. exact C166_lemma. Qed.
Print Assumptions C166_cosmology_gradient.
Theorem C166_distance_modulus_gradient : forall z Om0 w0 wa h v zv Omv w0v wav hv,
  right_gradient z v -> right_gradient Om0 v -> right_gradient w0 v -> right_gradient wa v -> right_gradient h v ->
  eval z (Fin v) = Fin zv -> eval Om0 (Fin v) = Fin Omv -> eval w0 (Fin v) = Fin w0v -> eval wa (Fin v) = Fin wav -> eval h (Fin v) = Fin hv ->
  0 < zv -> 0 < Omv <= 1 -> 0 < hv ->
  (forall (AR : Arith) x,
     let E e := eval (AR := AR) e x in
     distance_modulus_to_z (E z) (E Om0) (E w0) (E wa) (E h) = E (modulus_trace z Om0 w0 wa h)
     /\ differential_comoving_volume_at_z (E z) (E Om0) (E w0) (E wa) (E h) = E (volume_trace z Om0 w0 wa h)
     /\ cosmological_dimming (E z) (E Om0) (E w0) (E wa) (E h) = E (dimming_trace z Om0 w0 wa h))
  /\ right_gradients [modulus_trace z Om0 w0 wa h; volume_trace z Om0 w0 wa h; dimming_trace z Om0 w0 wa h] v.
Proof. exact C166_modulus_lemma. Qed.
Print Assumptions C166_distance_modulus_gradient.
Theorem C166_distance_modulus_gradient_at_redshift_zero : forall Om0 w0 wa h, 0 < Om0 <= 1 -> 0 < h ->
  let mu := modulus_trace Arg (Cst (Fin Om0)) (Cst (Fin w0)) (Cst (Fin wa)) (Cst (Fin h)) in
  eval mu (Fin 0) = NInf /\ grad mu (Fin 0) = NaN.
Proof. exact C166_redshift_zero_lemma. Qed.
Print Assumptions C166_distance_modulus_gradient_at_redshift_zero.
Theorem C166_observed_magnitude_cosmology_gradient : forall ws lum wf tf z Om0 w0 wa h v ls Omv w0v wav hv,
  right_gradients lum v -> right_gradient Om0 v -> right_gradient w0 v -> right_gradient wa v -> right_gradient h v ->
  map (fun e => eval e (Fin v)) lum = fins ls ->
  eval Om0 (Fin v) = Fin Omv -> eval w0 (Fin v) = Fin w0v -> eval wa (Fin v) = Fin wav -> eval h (Fin v) = Fin hv ->
  good_spectrum ws ls -> good_filter wf tf -> 0 < z -> 0 < Omv <= 1 -> 0 < hv ->
  0 < band_flux (fun x => spectrum_at ws ls (x / (1 + z))) wf tf ->
  (forall (AR : Arith) x, let E e := eval (AR := AR) e x in
     calc_obs_mag (fins ws) (map E lum) (fins wf) (fins tf) (Fin z) (E Om0) (E w0) (E wa) (E h)
     = Ok (E (obs_mag_cosmo_trace (AR := AR) (fins ws) lum (fins wf) (fins tf) (Fin z) Om0 w0 wa h)))
  /\ right_gradient (obs_mag_cosmo_trace (fins ws) lum (fins wf) (fins tf) (Fin z) Om0 w0 wa h) v.
Proof. exact C166_obs_lemma. Qed.
Print Assumptions C166_observed_magnitude_cosmology_gradient.
(** redshift and all four parameters vary at once *)
Example C166_nonvacuous :
  right_gradient (virial_trace (scaled (1/2)) (scaled 0.3) (scaled (-0.9)) (scaled 0.1) (scaled 0.7)) 1
  /\ right_gradient (age_trace (scaled (1/2)) (scaled 0.3) (scaled (-0.9)) (scaled 0.1) (scaled 0.7)) 1
  /\ right_gradients [modulus_trace (scaled (1/2)) (scaled 0.3) (scaled (-0.9)) (scaled 0.1) (scaled 0.7);
                      volume_trace (scaled (1/2)) (scaled 0.3) (scaled (-0.9)) (scaled 0.1) (scaled 0.7);
                      dimming_trace (scaled (1/2)) (scaled 0.3) (scaled (-0.9)) (scaled 0.1) (scaled 0.7)] 1
  /\ right_gradient (obs_mag_cosmo_trace (fins [1; 3]) (map scaled [1; 2]) (fins [1.5; 2; 2.5]) (fins [0.1; 1; 0.2]) (Fin 0.1)
       (scaled 0.3) (scaled (-0.9)) (scaled 0.1) (scaled 0.7)) 1.
Proof.
  destruct demo_filter as (GF & If & Pt & Iw).
  destruct (C166_cosmology_gradient (scaled (1/2)) (scaled 0.3) (scaled (-0.9)) (scaled 0.1) (scaled 0.7) 1 (1/2) 0.3 (-0.9) 0.1 0.7) as (_ & G);
    auto using scaled_right, scaled_eval; try lra.
  unfold right_gradients in G. rewrite List.Forall_forall in G. split; [|split; [|split]].
  - apply G. do 8 right. now left.
  - apply G. do 5 right. now left.
  - apply (C166_distance_modulus_gradient (scaled (1/2)) (scaled 0.3) (scaled (-0.9)) (scaled 0.1) (scaled 0.7) 1 (1/2) 0.3 (-0.9) 0.1 0.7);
      auto using scaled_right, scaled_eval; lra.
  - apply (C166_observed_magnitude_cosmology_gradient [1; 3] (map scaled [1; 2]) [1.5; 2; 2.5] [0.1; 1; 0.2] 0.1 (scaled 0.3) (scaled (-0.9)) (scaled 0.1) (scaled 0.7) 1
             [1; 2] 0.3 (-0.9) 0.1 0.7); auto using scaled_rights, scaled_evals, scaled_right, scaled_eval; try lra.
    + split; [exact Iw|]. split; [reflexivity|discriminate].
    + apply (band_flux_pos [1; 3] [1; 2] _ _ 1); auto; try lra.
      * split; [exact Iw|]. split; [reflexivity|discriminate].
      * intros i Hi. unfold ent. destruct i as [|[|i]]; simpl in *; try lra; lia.
      * intros w Hw. unfold ent. simpl in *. destruct Hw as [<-|[<-|[<-|[]]]]; lra.
Qed.

(** C167 *)
Theorem C167_observed_magnitude_redshift_gradient : forall ws lum wf tf z Om0 w0 wa h v ls zv Omv w0v wav hv,
  right_gradients lum v -> right_gradient z v -> right_gradient Om0 v -> right_gradient w0 v -> right_gradient wa v -> right_gradient h v ->
  map (fun e => eval e (Fin v)) lum = fins ls ->
  eval z (Fin v) = Fin zv -> eval Om0 (Fin v) = Fin Omv -> eval w0 (Fin v) = Fin w0v -> eval wa (Fin v) = Fin wav -> eval h (Fin v) = Fin hv ->
  good_spectrum ws ls -> (2 <= length ws)%nat -> good_filter wf tf -> 0 < zv -> 0 < Omv <= 1 -> 0 < hv ->
  0 < band_flux (fun x => spectrum_at ws ls (x / (1 + zv))) wf tf ->
  (forall x w, In x wf -> In w ws -> x <> w * (1 + zv)) ->
  (forall (AR : Arith) x, let E e := eval (AR := AR) e x in
     calc_obs_mag (fins ws) (map E lum) (fins wf) (fins tf) (E z) (E Om0) (E w0) (E wa) (E h)
     = Ok (E (obs_mag_z_trace (AR := AR) (fins ws) lum (fins wf) (fins tf) z Om0 w0 wa h)))
  /\ right_gradient (obs_mag_z_trace (fins ws) lum (fins wf) (fins tf) z Om0 w0 wa h) v.
Proof. exact C167_lemma. Qed.
Print Assumptions C167_observed_magnitude_redshift_gradient.
(** spectrum, redshift and cosmology vary at once *)
Example C167_nonvacuous :
  right_gradient (obs_mag_z_trace (fins [1; 3]) (map scaled [1; 2]) (fins [1.5; 2; 2.5]) (fins [0.1; 1; 0.2]) (scaled 0.1)
       (scaled 0.3) (scaled (-0.9)) (scaled 0.1) (scaled 0.7)) 1.
Proof.
  destruct demo_filter as (GF & If & Pt & Iw).
  assert (GS : good_spectrum [1; 3] [1; 2]) by (split; [exact Iw|split; [reflexivity|discriminate]]).
  apply (C167_observed_magnitude_redshift_gradient [1; 3] (map scaled [1; 2]) [1.5; 2; 2.5] [0.1; 1; 0.2] (scaled 0.1) (scaled 0.3) (scaled (-0.9)) (scaled 0.1) (scaled 0.7) 1
           [1; 2] 0.1 0.3 (-0.9) 0.1 0.7); auto using scaled_rights, scaled_evals, scaled_right, scaled_eval; try lra.
  - apply (band_flux_pos [1; 3] [1; 2] _ _ 1); auto; try lra.
    + intros i Hi. unfold ent. destruct i as [|[|i]]; simpl in *; try lra; lia.
    + intros w Hw. unfold ent. simpl in *. destruct Hw as [<-|[<-|[<-|[]]]]; lra.
  - intros x w Hx Hw. simpl in *. destruct Hx as [<-|[<-|[<-|[]]]], Hw as [<-|[<-|[]]]; lra.
Qed.

(** C168 *)
Theorem C168_rest_sed_time_gradient : forall ts sfrs lgmet scatter ssp_lgmet ages flux t_obs sfr_min v ss m h tv n_wave,
  right_gradients sfrs v -> right_gradient lgmet v -> right_gradient scatter v -> List.Forall (List.Forall (fun s => right_gradients s v)) flux -> right_gradient t_obs v ->
  map (fun e => eval e (Fin v)) sfrs = fins ss -> eval lgmet (Fin v) = Fin m -> eval scatter (Fin v) = Fin h -> eval t_obs (Fin v) = Fin tv ->
  good_grids ts ss h ssp_lgmet ages tv -> (2 <= length ts)%nat -> 0 < tv -> 0 < sfr_min -> -10 <= m <= 10 ->
  avoids sfr_min ss -> avoids (1 / 10 ^ 14) ss ->
  avoids tv ts -> (forall lg_age, In lg_age (age_edges ages) -> avoids (tv - pow10 lg_age) (0.001 :: ts)) ->
  length flux = length ssp_lgmet -> List.Forall (is_matrix (length ages) n_wave) flux ->
  (forall (AR : Arith) w,
     let aw := age_weight_t_traces (AR := AR) (fins ts) sfrs (fins ages) t_obs SFR_MIN in
     let mw := lgmet_weight_traces (AR := AR) lgmet scatter (get_bin_edges_k (fins ssp_lgmet) LGMET_LO LGMET_HI) in
     let jw := joint_traces mw aw in
     calc_rest_sed_sfh_table_lognormal_mdf (fins ts) (map (fun e => eval (AR := AR) e w) sfrs) (eval lgmet w) (eval scatter w)
       (fins ssp_lgmet) (fins ages) (map (map (map (fun e => eval e w))) flux) (eval t_obs w) (Fin sfr_min)
     = Ok {| rest_sed := map (fun e => eval e w) (sed_traces n_wave flux jw (mstar_t_trace (AR := AR) (fins ts) sfrs t_obs (Fin sfr_min)));
             rs_weights := map (map (fun e => eval e w)) jw; rs_lgmet_weights := map (fun e => eval e w) mw; rs_age_weights := map (fun e => eval e w) aw |})
  /\ let aw := age_weight_t_traces (fins ts) sfrs (fins ages) t_obs SFR_MIN in
     let mw := lgmet_weight_traces lgmet scatter (get_bin_edges_k (fins ssp_lgmet) LGMET_LO LGMET_HI) in
     let jw := joint_traces mw aw in
     right_gradients (sed_traces n_wave flux jw (mstar_t_trace (fins ts) sfrs t_obs (Fin sfr_min))) v
     /\ List.Forall (fun row => right_gradients row v) jw /\ right_gradients aw v.
Proof. exact C168_lemma. Qed.
Print Assumptions C168_rest_sed_time_gradient.
(** rates, metallicity, scatter, fluxes and the time of observation vary at once *)
Example C168_nonvacuous :
  let aw := age_weight_t_traces (fins demo_t) (map scaled demo_sfr) (fins demo_ages) (scaled demo_tobs) SFR_MIN in
  right_gradients aw 1
  /\ right_gradients (sed_traces 2 (scaled3 demo_flux)
       (joint_traces (lgmet_weight_traces (scaled (-2)) (scaled (1/5)) (get_bin_edges_k (fins demo_lgmet) LGMET_LO LGMET_HI)) aw)
       (mstar_t_trace (fins demo_t) (map scaled demo_sfr) (scaled demo_tobs) (Fin demo_min))) 1.
Proof.
  destruct (scaled3_shape _ _ _ _ demo_cube) as [C1 C2]. cbv zeta.
  destruct (C168_rest_sed_time_gradient demo_t (map scaled demo_sfr) (scaled (-2)) (scaled (1/5)) demo_lgmet demo_ages (scaled3 demo_flux) (scaled demo_tobs) demo_min
              1 demo_sfr (-2) (1/5) demo_tobs 2) as (_ & A & _ & B); auto using scaled_rights, scaled_right, scaled3_rights, scaled_evals, scaled_eval, demo_avoids, demo_avoids_t, demo_avoids_b with demo;
    try (unfold demo_tobs; lra); try (simpl; lia).
Qed.

(** C169 *)
Theorem C169_galaxy_redshift_gradient : forall ts sfrs lgmet scatter ssp_lgmet ages flux sfr_min ws wf tf z Om0 w0 wa h v ss m sc tv zv Omv w0v wav hv,
  right_gradients sfrs v -> right_gradient lgmet v -> right_gradient scatter v -> List.Forall (List.Forall (fun s => right_gradients s v)) flux ->
  right_gradient z v -> right_gradient Om0 v -> right_gradient w0 v -> right_gradient wa v -> right_gradient h v ->
  map (fun e => eval e (Fin v)) sfrs = fins ss -> eval lgmet (Fin v) = Fin m -> eval scatter (Fin v) = Fin sc ->
  eval z (Fin v) = Fin zv -> eval Om0 (Fin v) = Fin Omv -> eval w0 (Fin v) = Fin w0v -> eval wa (Fin v) = Fin wav -> eval h (Fin v) = Fin hv ->
  age_at_z (Scalar (Fin zv)) (Fin Omv) (Fin w0v) (Fin wav) (Fin hv) = [Fin tv] ->
  good_grids ts ss sc ssp_lgmet ages tv -> (2 <= length ts)%nat -> 0 < tv -> 0 < sfr_min -> -10 <= m <= 10 ->
  avoids sfr_min ss -> avoids (1 / 10 ^ 14) ss ->
  avoids tv ts -> (forall lg_age, In lg_age (age_edges ages) -> avoids (tv - pow10 lg_age) (0.001 :: ts)) ->
  length flux = length ssp_lgmet -> List.Forall (is_matrix (length ages) (length ws)) flux ->
  increasing ws -> (2 <= length ws)%nat -> good_filter wf tf -> 0 < zv -> 0 < Omv <= 1 -> 0 < hv ->
  (forall x w, In x wf -> In w ws -> x <> w * (1 + zv)) ->
  (forall sed, calc_rest_sed_sfh_table_lognormal_mdf (fins ts) (fins ss) (Fin m) (Fin sc)
        (fins ssp_lgmet) (fins ages) (map (map (map (fun e => eval e (Fin v)))) flux) (Fin tv) (Fin sfr_min) = Ok sed ->
     exists l, rest_sed sed = fins l /\ 0 < band_flux (fun x => spectrum_at ws l (x / (1 + zv))) wf tf) ->
  let mag (AR : Arith) :=
    let t_obs := age_trace (AR := AR) z Om0 w0 wa h in
    obs_mag_z_trace (AR := AR) (fins ws)
      (sed_traces (length ws) flux
         (joint_traces (lgmet_weight_traces (AR := AR) lgmet scatter (get_bin_edges_k (fins ssp_lgmet) LGMET_LO LGMET_HI))
            (age_weight_t_traces (AR := AR) (fins ts) sfrs (fins ages) t_obs SFR_MIN))
         (mstar_t_trace (AR := AR) (fins ts) sfrs t_obs (Fin sfr_min)))
      (fins wf) (fins tf) z Om0 w0 wa h in
  (forall (AR : Arith) x, let E e := eval (AR := AR) e x in exists t sed,
     age_at_z (Scalar (E z)) (E Om0) (E w0) (E wa) (E h) = [t]
     /\ calc_rest_sed_sfh_table_lognormal_mdf (fins ts) (map E sfrs) (E lgmet) (E scatter)
       (fins ssp_lgmet) (fins ages) (map (map (map E)) flux) t (Fin sfr_min) = Ok sed
     /\ calc_obs_mag (fins ws) (rest_sed sed) (fins wf) (fins tf) (E z) (E Om0) (E w0) (E wa) (E h) = Ok (E (mag AR)))
  /\ right_gradient (mag exact) v.
Proof. exact C169_lemma. Qed.
Print Assumptions C169_galaxy_redshift_gradient.
(** every input varies at once; the Hubble parameter is the one that puts the universe at redshift 0.1 to the age of the demonstration *)
Example C169_nonvacuous : exists h, 0 < h /\
  right_gradient
    (let t_obs := age_trace (scaled 0.1) (scaled 0.3) (scaled (-1)) (scaled 0) (scaled h) in
     obs_mag_z_trace (fins [1; 3])
      (sed_traces 2 (scaled3 demo_flux_pos)
         (joint_traces (lgmet_weight_traces (scaled (-2)) (scaled (1/5)) (get_bin_edges_k (fins demo_lgmet) LGMET_LO LGMET_HI))
            (age_weight_t_traces (fins demo_t) (map scaled demo_sfr) (fins demo_ages) t_obs SFR_MIN))
         (mstar_t_trace (fins demo_t) (map scaled demo_sfr) t_obs (Fin demo_min)))
      (fins [1.5; 2; 2.5]) (fins [0.1; 1; 0.2]) (scaled 0.1) (scaled 0.3) (scaled (-1)) (scaled 0) (scaled h)) 1.
Proof.
  destruct (demo_h demo_tobs ltac:(unfold demo_tobs; lra)) as (h & Hh & EA). exists h. split; [exact Hh|].
  destruct demo_filter as (GF & If & Pt & Iw). destruct (scaled3_shape _ _ _ _ demo_cube_pos) as [C1 C2].
  apply (C169_galaxy_redshift_gradient demo_t (map scaled demo_sfr) (scaled (-2)) (scaled (1/5)) demo_lgmet demo_ages (scaled3 demo_flux_pos) demo_min
           [1; 3] [1.5; 2; 2.5] [0.1; 1; 0.2] (scaled 0.1) (scaled 0.3) (scaled (-1)) (scaled 0) (scaled h) 1 demo_sfr (-2) (1/5) demo_tobs 0.1 0.3 (-1) 0 h);
    auto using scaled_rights, scaled_right, scaled3_rights, scaled_evals, scaled_eval, demo_avoids, demo_avoids_t, demo_avoids_b with demo; try (unfold demo_tobs; lra); try lra; try (simpl; lia).
  - intros x w Hx Hw. simpl in *. destruct Hx as [<-|[<-|[<-|[]]]], Hw as [<-|[<-|[]]]; lra.
  - intros sed E. rewrite scaled3_evals in E.
    destruct (C17_range_lemma demo_t demo_sfr (-2) (1/5) demo_lgmet demo_ages 2 demo_tobs demo_min demo_flux_pos 1 9)
      as (sed' & l & E' & El & Hm & Hl); auto using demo_cube_pos, demo_flux_pos_range with demo; try (unfold demo_tobs; lra).
    rewrite E in E'. injection E' as <-. exists l. split; [exact El|].
    destruct (C17_lemma demo_t demo_sfr (-2) (1/5) demo_lgmet demo_ages 2 demo_tobs demo_min)
      as (W & _ & _ & _ & HW); auto with demo; try (unfold demo_tobs; lra).
    destruct (HW demo_flux_pos demo_cube_pos) as (sed2 & l2 & E2 & El2 & _ & L2 & _).
    rewrite E in E2. injection E2 as <-. rewrite El in El2. apply fins_inj in El2. subst l2.
    apply (band_flux_pos [1; 3] l _ _ (mass_formed_by demo_t (floored demo_min demo_sfr) demo_tobs)); auto; try lra.
    + split; [exact Iw|]. split; [symmetry; exact L2|discriminate].
    + intros i Hi. rewrite List.Forall_forall in Hl. specialize (Hl (ent l i)).
      assert (In (ent l i) l) by (apply nth_In; rewrite L2; exact Hi). specialize (Hl H). lra.
    + intros w Hw. unfold ent. simpl in *. destruct Hw as [<-|[<-|[<-|[]]]]; lra.
Qed.
