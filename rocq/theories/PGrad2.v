(** * Properties C164-C165: what [jax.grad] returns for the SED pipeline.  Exact real arithmetic.
    [trace], [eval], [back] and [grad] are in MGrad.v, the traced dsps functions in MTrace.v and
    MTrace2.v, [right_gradient] in SpecGrad.v, [good_grids], [good_filter], [band_flux] and
    [spectrum_at] in Spec.v, [avoids] in Spec2.v. *)
From Coq Require Import Reals List Arith Bool Lra Lia.
From Coquelicot Require Import Coquelicot.
From Flocq Require Import Core.Raux.
From Verif Require Import Num Arr MUtils MSed MCosmo MPhot MGrad MTrace MTrace2 Spec Spec2 SpecGrad RList LUtils
  Demo Demo2 Demo3 Demo4 LAge LJoint LPhot LDiff5 LGrad2 LGrad8 LGrad9 LGrad10.
Import ListNotations.
Open Scope R_scope.
#[local] Existing Instance exact.

(** C164 *)
Theorem C164_age_weights_gradient : forall ts sfrs ages t_obs sfr_min v ss,
  right_gradients sfrs v -> map (fun e => eval e (Fin v)) sfrs = fins ss ->
  length ts = length ss -> ts <> [] -> increasing (0.001 :: ts) -> (3 <= length ages)%nat -> 0 < sfr_min -> avoids sfr_min ss ->
  (let formed lg_age := mass_formed_by ts (floored sfr_min ss) (birth_time t_obs lg_age) in
   formed (age_edge ages 0) <> formed (age_edge ages (length ages))) ->
  (forall (AR : Arith) w, calc_age_weights_from_sfh_table (fins ts) (map (fun e => eval e w) sfrs) (fins ages) (Fin t_obs) (Fin sfr_min)
     = Ok (map (fun e => eval (AR := AR) e w) (age_weight_traces (AR := AR) (fins ts) sfrs (fins ages) (Fin t_obs) (Fin sfr_min))))
  /\ right_gradients (age_weight_traces (fins ts) sfrs (fins ages) (Fin t_obs) (Fin sfr_min)) v.
Proof. exact C164_age_lemma. Qed.
Print Assumptions C164_age_weights_gradient.
Theorem C164_rest_sed_gradient : forall ts sfrs lgmet scatter ssp_lgmet ages flux t_obs sfr_min v ss m h n_wave,
  right_gradients sfrs v -> right_gradient lgmet v -> right_gradient scatter v -> List.Forall (List.Forall (fun s => right_gradients s v)) flux ->
  map (fun e => eval e (Fin v)) sfrs = fins ss -> eval lgmet (Fin v) = Fin m -> eval scatter (Fin v) = Fin h ->
  good_grids ts ss h ssp_lgmet ages t_obs -> 0 < t_obs -> 0 < sfr_min -> -10 <= m <= 10 ->
  avoids sfr_min ss -> avoids (1 / 10 ^ 14) ss ->
  length flux = length ssp_lgmet -> List.Forall (is_matrix (length ages) n_wave) flux ->
  (forall (AR : Arith) w,
     let aw := age_weight_traces (AR := AR) (fins ts) sfrs (fins ages) (Fin t_obs) SFR_MIN in
     let mw := lgmet_weight_traces (AR := AR) lgmet scatter (get_bin_edges_k (fins ssp_lgmet) LGMET_LO LGMET_HI) in
     let jw := joint_traces mw aw in
     calc_rest_sed_sfh_table_lognormal_mdf (fins ts) (map (fun e => eval (AR := AR) e w) sfrs) (eval lgmet w) (eval scatter w)
       (fins ssp_lgmet) (fins ages) (map (map (map (fun e => eval e w))) flux) (Fin t_obs) (Fin sfr_min)
     = Ok {| rest_sed := map (fun e => eval e w) (sed_traces n_wave flux jw (mstar_trace (AR := AR) (fins ts) sfrs (Fin t_obs) (Fin sfr_min)));
             rs_weights := map (map (fun e => eval e w)) jw; rs_lgmet_weights := map (fun e => eval e w) mw; rs_age_weights := map (fun e => eval e w) aw |})
  /\ let aw := age_weight_traces (fins ts) sfrs (fins ages) (Fin t_obs) SFR_MIN in
     let mw := lgmet_weight_traces lgmet scatter (get_bin_edges_k (fins ssp_lgmet) LGMET_LO LGMET_HI) in
     let jw := joint_traces mw aw in
     right_gradients (sed_traces n_wave flux jw (mstar_trace (fins ts) sfrs (Fin t_obs) (Fin sfr_min))) v
     /\ List.Forall (fun row => right_gradients row v) jw /\ right_gradients mw v /\ right_gradients aw v.
Proof. exact C164_lemma. Qed.
Print Assumptions C164_rest_sed_gradient.
Theorem C164_rest_sed_met_table_gradient : forall ts sfrs lgmet_table scatter ssp_lgmet ages flux t_obs sfr_min v ss ms h n_wave,
  right_gradients sfrs v -> right_gradients lgmet_table v -> right_gradient scatter v -> List.Forall (List.Forall (fun s => right_gradients s v)) flux ->
  map (fun e => eval e (Fin v)) sfrs = fins ss -> map (fun e => eval e (Fin v)) lgmet_table = fins ms -> eval scatter (Fin v) = Fin h ->
  good_grids ts ss h ssp_lgmet ages t_obs -> length ts = length ms -> 0 < t_obs -> 0 < sfr_min -> List.Forall (fun m => -10 <= m <= 10) ms ->
  avoids sfr_min ss -> avoids (1 / 10 ^ 14) ss ->
  length flux = length ssp_lgmet -> List.Forall (is_matrix (length ages) n_wave) flux ->
  (forall (AR : Arith) w,
     let aw := age_weight_traces (AR := AR) (fins ts) sfrs (fins ages) (Fin t_obs) SFR_MIN in
     let mw := lgmet_matrix_traces (AR := AR) (fins ts) lgmet_table scatter (fins ssp_lgmet) (fins ages) (Fin t_obs) in
     let jw := joint_table_traces mw aw in
     calc_rest_sed_sfh_table_met_table (fins ts) (map (fun e => eval (AR := AR) e w) sfrs) (map (fun e => eval e w) lgmet_table) (eval scatter w)
       (fins ssp_lgmet) (fins ages) (map (map (map (fun e => eval e w))) flux) (Fin t_obs) (Fin sfr_min)
     = Ok {| rest_sed := map (fun e => eval e w) (sed_traces n_wave flux jw (mstar_trace (AR := AR) (fins ts) sfrs (Fin t_obs) (Fin sfr_min)));
             rs_weights := map (map (fun e => eval e w)) jw; rs_lgmet_weights := map (map (fun e => eval e w)) mw; rs_age_weights := map (fun e => eval e w) aw |})
  /\ let aw := age_weight_traces (fins ts) sfrs (fins ages) (Fin t_obs) SFR_MIN in
     let mw := lgmet_matrix_traces (fins ts) lgmet_table scatter (fins ssp_lgmet) (fins ages) (Fin t_obs) in
     let jw := joint_table_traces mw aw in
     right_gradients (sed_traces n_wave flux jw (mstar_trace (fins ts) sfrs (Fin t_obs) (Fin sfr_min))) v
     /\ List.Forall (fun row => right_gradients row v) jw /\ List.Forall (fun row => right_gradients row v) mw /\ right_gradients aw v.
Proof. exact C164_table_lemma. Qed.
Print Assumptions C164_rest_sed_met_table_gradient.
(** all star formation rates, the metallicity, the scatter and all template fluxes vary *)
Example C164_nonvacuous :
  let aw := age_weight_traces (fins demo_t) (map scaled demo_sfr) (fins demo_ages) (Fin demo_tobs) SFR_MIN in
  right_gradients aw 1
  /\ right_gradients (sed_traces 2 (scaled3 demo_flux)
       (joint_traces (lgmet_weight_traces (scaled (-2)) (scaled (1/5)) (get_bin_edges_k (fins demo_lgmet) LGMET_LO LGMET_HI)) aw)
       (mstar_trace (fins demo_t) (map scaled demo_sfr) (Fin demo_tobs) (Fin demo_min))) 1
  /\ right_gradients (sed_traces 2 (scaled3 demo_flux)
       (joint_table_traces (lgmet_matrix_traces (fins demo_t) (map scaled demo_met_table) (scaled (1/5)) (fins demo_lgmet) (fins demo_ages) (Fin demo_tobs)) aw)
       (mstar_trace (fins demo_t) (map scaled demo_sfr) (Fin demo_tobs) (Fin demo_min))) 1.
Proof.
  destruct (scaled3_shape _ _ _ _ demo_cube) as [C1 C2]. cbv zeta.
  destruct (C164_rest_sed_gradient demo_t (map scaled demo_sfr) (scaled (-2)) (scaled (1/5)) demo_lgmet demo_ages (scaled3 demo_flux) demo_tobs demo_min
              1 demo_sfr (-2) (1/5) 2) as (_ & A & _ & _ & B); auto using scaled_rights, scaled_right, scaled3_rights, scaled_evals, scaled_eval, demo_avoids with demo; try (unfold demo_tobs; lra).
  destruct (C164_rest_sed_met_table_gradient demo_t (map scaled demo_sfr) (map scaled demo_met_table) (scaled (1/5)) demo_lgmet demo_ages (scaled3 demo_flux) demo_tobs demo_min
              1 demo_sfr demo_met_table (1/5) 2) as (_ & D & _); auto using scaled_rights, scaled_right, scaled3_rights, scaled_evals, scaled_eval, demo_avoids with demo; try (unfold demo_tobs; lra).
  unfold demo_met_table. repeat (apply List.Forall_cons; [lra|]). apply List.Forall_nil.
Qed.

(** C165 *)
Theorem C165_rest_magnitude_gradient : forall ws lum wf tf v ls,
  right_gradients lum v -> map (fun e => eval e (Fin v)) lum = fins ls -> good_spectrum ws ls -> good_filter wf tf -> 0 < band_flux (spectrum_at ws ls) wf tf ->
  (forall (AR : Arith) w, calc_rest_mag (fins ws) (map (fun e => eval (AR := AR) e w) lum) (fins wf) (fins tf) = Ok (eval (mag_trace (AR := AR) (fins ws) lum (fins wf) (fins tf)) w))
  /\ right_gradient (mag_trace (fins ws) lum (fins wf) (fins tf)) v.
Proof. exact C165_rest_lemma. Qed.
Print Assumptions C165_rest_magnitude_gradient.
Theorem C165_observed_magnitude_gradient : forall ws lum wf tf z Om0 w0 wa h v ls,
  right_gradients lum v -> map (fun e => eval e (Fin v)) lum = fins ls -> good_spectrum ws ls -> good_filter wf tf -> 0 < z -> 0 < Om0 <= 1 -> 0 < h ->
  0 < band_flux (fun x => spectrum_at ws ls (x / (1 + z))) wf tf ->
  (forall (AR : Arith) w, calc_obs_mag (fins ws) (map (fun e => eval (AR := AR) e w) lum) (fins wf) (fins tf) (Fin z) (Fin Om0) (Fin w0) (Fin wa) (Fin h)
     = Ok (eval (obs_mag_trace (AR := AR) (fins ws) lum (fins wf) (fins tf) (Fin z) (Fin Om0) (Fin w0) (Fin wa) (Fin h)) w))
  /\ right_gradient (obs_mag_trace (fins ws) lum (fins wf) (fins tf) (Fin z) (Fin Om0) (Fin w0) (Fin wa) (Fin h)) v.
Proof. exact C165_obs_lemma. Qed.
Print Assumptions C165_observed_magnitude_gradient.
Theorem C165_galaxy_magnitude_gradient : forall ts sfrs lgmet scatter ssp_lgmet ages flux t_obs sfr_min ws wf tf z Om0 w0 wa h v ss m sc,
  right_gradients sfrs v -> right_gradient lgmet v -> right_gradient scatter v -> List.Forall (List.Forall (fun s => right_gradients s v)) flux ->
  map (fun e => eval e (Fin v)) sfrs = fins ss -> eval lgmet (Fin v) = Fin m -> eval scatter (Fin v) = Fin sc ->
  good_grids ts ss sc ssp_lgmet ages t_obs -> 0 < t_obs -> 0 < sfr_min -> -10 <= m <= 10 ->
  avoids sfr_min ss -> avoids (1 / 10 ^ 14) ss ->
  length flux = length ssp_lgmet -> List.Forall (is_matrix (length ages) (length ws)) flux ->
  increasing ws -> ws <> [] -> good_filter wf tf -> 0 < z -> 0 < Om0 <= 1 -> 0 < h ->
  (forall sed, calc_rest_sed_sfh_table_lognormal_mdf (fins ts) (fins ss) (Fin m) (Fin sc)
        (fins ssp_lgmet) (fins ages) (map (map (map (fun e => eval e (Fin v)))) flux) (Fin t_obs) (Fin sfr_min) = Ok sed ->
     exists l, rest_sed sed = fins l /\ 0 < band_flux (fun x => spectrum_at ws l (x / (1 + z))) wf tf) ->
  let mag (AR : Arith) :=
    obs_mag_trace (AR := AR) (fins ws)
      (sed_traces (length ws) flux
         (joint_traces (lgmet_weight_traces (AR := AR) lgmet scatter (get_bin_edges_k (fins ssp_lgmet) LGMET_LO LGMET_HI))
            (age_weight_traces (AR := AR) (fins ts) sfrs (fins ages) (Fin t_obs) SFR_MIN))
         (mstar_trace (AR := AR) (fins ts) sfrs (Fin t_obs) (Fin sfr_min)))
      (fins wf) (fins tf) (Fin z) (Fin Om0) (Fin w0) (Fin wa) (Fin h) in
  (forall (AR : Arith) w, exists sed,
     calc_rest_sed_sfh_table_lognormal_mdf (fins ts) (map (fun e => eval (AR := AR) e w) sfrs) (eval lgmet w) (eval scatter w)
       (fins ssp_lgmet) (fins ages) (map (map (map (fun e => eval e w))) flux) (Fin t_obs) (Fin sfr_min) = Ok sed
     /\ calc_obs_mag (fins ws) (rest_sed sed) (fins wf) (fins tf) (Fin z) (Fin Om0) (Fin w0) (Fin wa) (Fin h) = Ok (eval (mag AR) w))
  /\ right_gradient (mag exact) v.
Proof. exact C165_galaxy_lemma. Qed.
Print Assumptions C165_galaxy_magnitude_gradient.
Example C165_nonvacuous :
  right_gradient (obs_mag_trace (fins [1; 3])
    (sed_traces 2 (scaled3 demo_flux_pos)
       (joint_traces (lgmet_weight_traces (scaled (-2)) (scaled (1/5)) (get_bin_edges_k (fins demo_lgmet) LGMET_LO LGMET_HI))
          (age_weight_traces (fins demo_t) (map scaled demo_sfr) (fins demo_ages) (Fin demo_tobs) SFR_MIN))
       (mstar_trace (fins demo_t) (map scaled demo_sfr) (Fin demo_tobs) (Fin demo_min)))
    (fins [1.5; 2; 2.5]) (fins [0.1; 1; 0.2]) (Fin 0.1) (Fin 0.3) (Fin (-1)) (Fin 0) (Fin 0.7)) 1.
Proof.
  destruct demo_filter as (GF & If & Pt & Iw). destruct (scaled3_shape _ _ _ _ demo_cube_pos) as [C1 C2].
  apply (C165_galaxy_magnitude_gradient demo_t (map scaled demo_sfr) (scaled (-2)) (scaled (1/5)) demo_lgmet demo_ages (scaled3 demo_flux_pos) demo_tobs demo_min
           [1; 3] [1.5; 2; 2.5] [0.1; 1; 0.2] 0.1 0.3 (-1) 0 0.7 1 demo_sfr (-2) (1/5));
    auto using scaled_rights, scaled_right, scaled3_rights, scaled_evals, scaled_eval, demo_avoids with demo; try (unfold demo_tobs; lra); try lra; try discriminate.
  intros sed E. rewrite scaled3_evals in E.
  destruct (C17_range_lemma demo_t demo_sfr (-2) (1/5) demo_lgmet demo_ages 2 demo_tobs demo_min demo_flux_pos 1 9)
    as (sed' & l & E' & El & Hm & Hl); auto using demo_cube_pos, demo_flux_pos_range with demo; try (unfold demo_tobs; lra).
  rewrite E in E'. injection E' as <-. exists l. split; [exact El|].
  destruct (C17_lemma demo_t demo_sfr (-2) (1/5) demo_lgmet demo_ages 2 demo_tobs demo_min)
    as (W & _ & _ & _ & HW); auto with demo; try (unfold demo_tobs; lra).
  destruct (HW demo_flux_pos demo_cube_pos) as (sed2 & l2 & E2 & El2 & _ & L2 & _).
  rewrite E in E2. injection E2 as <-. rewrite El in El2. apply fins_inj in El2. subst l2.
  apply (band_flux_pos [1; 3] l _ _ (mass_formed_by demo_t (floored demo_min demo_sfr) demo_tobs)); auto; try lra.
  - split; [exact Iw|]. split; [symmetry; exact L2|discriminate].
  - intros i Hi. rewrite List.Forall_forall in Hl. specialize (Hl (ent l i)).
    assert (In (ent l i) l) by (apply nth_In; rewrite L2; exact Hi). specialize (Hl H). lra.
  - intros w Hw. unfold ent. simpl in *. destruct Hw as [<-|[<-|[<-|[]]]]; lra.
Qed.
