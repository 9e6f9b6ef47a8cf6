(** * Properties C170-C172: what [jax.grad] returns for the blackbody densities, the power-law functions,
    the effective wavelength of a filter, the metallicity-table SED, and for magnitudes behind a dust screen.  Exact real arithmetic.
    [trace], [eval] and [grad] are in MGrad.v, the traced dsps functions in MTrace5.v,
    [right_gradient] in SpecGrad.v, [trapezoid] in Spec.v. *)
From Coq Require Import Reals List Arith Bool Lra Lia.
From Coquelicot Require Import Coquelicot.
From Flocq Require Import Core.Raux.
From Verif Require Import Num Arr MUtils MSed MDust MBlackbody MCosmo MPhot MGrad MTrace MTrace2 MTrace3 MTrace4 MTrace5 Spec Spec2 SpecGrad RList LUtils
  Demo Demo2 Demo3 Demo4 LAge LJoint LPhot LGrad17 LGrad18 LGrad19 LGrad20.
Import ListNotations.
Open Scope R_scope.
#[local] Existing Instance exact.

(** C170 *)
Theorem C170_blackbody_gradient : forall nu wave T v n w k,
  right_gradient nu v -> right_gradient wave v -> right_gradient T v ->
  eval nu (Fin v) = Fin n -> eval wave (Fin v) = Fin w -> eval T (Fin v) = Fin k -> 0 < n -> 0 < w -> 0 < k ->
  (forall (AR : Arith) x,
     blackbody_freq_density (eval (AR := AR) nu x) (eval T x) = eval (freq_density_trace (AR := AR) nu T) x
     /\ blackbody_wave_density (eval (AR := AR) wave x) (eval T x) = eval (wave_density_trace (AR := AR) wave T) x)
  /\ right_gradient (freq_density_trace nu T) v /\ right_gradient (wave_density_trace wave T) v.
Proof. exact C170_blackbody_lemma. Qed.
Print Assumptions C170_blackbody_gradient.
Theorem C170_blackbody_gradient_at_temperature_zero : forall nu, 0 < nu ->
  let B := freq_density_trace (Cst (Fin nu)) Arg in
  blackbody_freq_density (Fin nu) (Fin 0) = eval B (Fin 0) /\ eval B (Fin 0) = Fin 0 /\ grad B (Fin 0) = NaN.
Proof. exact C170_zero_lemma. Qed.
Print Assumptions C170_blackbody_gradient_at_temperature_zero.
Theorem C170_powerlaw_gradient : forall x r a b g v xv rv av bv gv,
  right_gradient x v -> right_gradient r v -> right_gradient a v -> right_gradient b v -> right_gradient g v ->
  eval x (Fin v) = Fin xv -> eval r (Fin v) = Fin rv -> eval a (Fin v) = Fin av -> eval b (Fin v) = Fin bv -> eval g (Fin v) = Fin gv ->
  0 < xv -> 0 <= rv < 1 -> 0 < av -> 0 < bv -> av <> bv -> gv <> 0 ->
  (forall (AR : Arith) y, let E e := eval (AR := AR) e y in
     powerlaw_pdf (E x) (E a) (E b) (E g) = E (powerlaw_pdf_trace x a b g)
     /\ powerlaw_rvs (E r) (E a) (E b) (E g) = E (powerlaw_rvs_trace r a b g))
  /\ right_gradient (powerlaw_pdf_trace x a b g) v /\ right_gradient (powerlaw_rvs_trace r a b g) v.
Proof. exact C170_powerlaw_lemma. Qed.
Print Assumptions C170_powerlaw_gradient.
Theorem C170_effective_wavelength_gradient : forall wave trans z v ts zv,
  right_gradients trans v -> right_gradient z v -> map (fun e => eval e (Fin v)) trans = fins ts -> eval z (Fin v) = Fin zv ->
  length wave = length ts -> trapezoid wave ts <> 0 -> zv <> -1 ->
  (forall (AR : Arith) x,
     get_filter_effective_wavelength (fins wave) (map (fun e => eval (AR := AR) e x) trans) (eval z x)
     = Ok (eval (effective_wavelength_trace (fins wave) trans z) x))
  /\ right_gradient (effective_wavelength_trace (fins wave) trans z) v.
Proof. exact C170_effective_lemma. Qed.
Print Assumptions C170_effective_wavelength_gradient.
(** frequency, wavelength and temperature vary at once; so do the five arguments of the power laws, and
    transmission and redshift *)
Example C170_nonvacuous :
  right_gradient (freq_density_trace (scaled (6 * 10 ^ 14)) (scaled 5800)) 1
  /\ right_gradient (wave_density_trace (scaled 5000) (scaled 5800)) 1
  /\ right_gradient (powerlaw_pdf_trace (scaled 2) (scaled 1) (scaled 3) (scaled (-1.35))) 1
  /\ right_gradient (powerlaw_rvs_trace (scaled (1/2)) (scaled 1) (scaled 3) (scaled (-1.35))) 1
  /\ right_gradient (effective_wavelength_trace (fins [4000; 5000; 7000]) (map scaled [0; 1; 0]) (scaled 1)) 1.
Proof.
  assert (0 < 6 * 10 ^ 14) by (apply Rmult_lt_0_compat; [lra|apply pow_lt; lra]).
  destruct (C170_blackbody_gradient (scaled (6 * 10 ^ 14)) (scaled 5000) (scaled 5800) 1 (6 * 10 ^ 14) 5000 5800) as (_ & A & B);
    auto using scaled_right, scaled_eval; try lra.
  destruct (C170_powerlaw_gradient (scaled 2) (scaled (1/2)) (scaled 1) (scaled 3) (scaled (-1.35)) 1 2 (1/2) 1 3 (-1.35)) as (_ & D & E);
    auto using scaled_right, scaled_eval; try lra.
  destruct (C170_effective_wavelength_gradient [4000; 5000; 7000] (map scaled [0; 1; 0]) (scaled 1) 1 [0; 1; 0] 1) as (_ & F);
    auto using scaled_rights, scaled_evals, scaled_right, scaled_eval; try lra.
  simpl. lra.
Qed.

(** C171 *)
Theorem C171_rest_sed_met_table_time_gradient : forall ts sfrs lgmet_table scatter ssp_lgmet ages flux t_obs sfr_min v ss ms h tv n_wave,
  right_gradients sfrs v -> right_gradients lgmet_table v -> right_gradient scatter v -> List.Forall (List.Forall (fun s => right_gradients s v)) flux -> right_gradient t_obs v ->
  map (fun e => eval e (Fin v)) sfrs = fins ss -> map (fun e => eval e (Fin v)) lgmet_table = fins ms -> eval scatter (Fin v) = Fin h -> eval t_obs (Fin v) = Fin tv ->
  good_grids ts ss h ssp_lgmet ages tv -> length ts = length ms -> (2 <= length ts)%nat -> 0 < tv -> 0 < sfr_min -> List.Forall (fun m => -10 <= m <= 10) ms ->
  avoids sfr_min ss -> avoids (1 / 10 ^ 14) ss ->
  avoids tv ts -> (forall lg_age, In lg_age (age_edges ages ++ ages) -> avoids (tv - pow10 lg_age) (0.001 :: ts)) ->
  length flux = length ssp_lgmet -> List.Forall (is_matrix (length ages) n_wave) flux ->
  (forall (AR : Arith) w,
     let aw := age_weight_t_traces (AR := AR) (fins ts) sfrs (fins ages) t_obs SFR_MIN in
     let mw := lgmet_matrix_t_traces (AR := AR) (fins ts) lgmet_table scatter (fins ssp_lgmet) (fins ages) t_obs in
     let jw := joint_table_traces mw aw in
     calc_rest_sed_sfh_table_met_table (fins ts) (map (fun e => eval (AR := AR) e w) sfrs) (map (fun e => eval e w) lgmet_table) (eval scatter w)
       (fins ssp_lgmet) (fins ages) (map (map (map (fun e => eval e w))) flux) (eval t_obs w) (Fin sfr_min)
     = Ok {| rest_sed := map (fun e => eval e w) (sed_traces n_wave flux jw (mstar_t_trace (AR := AR) (fins ts) sfrs t_obs (Fin sfr_min)));
             rs_weights := map (map (fun e => eval e w)) jw; rs_lgmet_weights := map (map (fun e => eval e w)) mw; rs_age_weights := map (fun e => eval e w) aw |})
  /\ let aw := age_weight_t_traces (fins ts) sfrs (fins ages) t_obs SFR_MIN in
     let mw := lgmet_matrix_t_traces (fins ts) lgmet_table scatter (fins ssp_lgmet) (fins ages) t_obs in
     let jw := joint_table_traces mw aw in
     right_gradients (sed_traces n_wave flux jw (mstar_t_trace (fins ts) sfrs t_obs (Fin sfr_min))) v
     /\ List.Forall (fun row => right_gradients row v) jw /\ List.Forall (fun row => right_gradients row v) mw /\ right_gradients aw v.
Proof. exact C171_lemma. Qed.
Print Assumptions C171_rest_sed_met_table_time_gradient.
(** rates, metallicity table, scatter, fluxes and the time of observation vary at once *)
Example C171_nonvacuous :
  right_gradients (sed_traces 2 (scaled3 demo_flux)
     (joint_table_traces (lgmet_matrix_t_traces (fins demo_t) (map scaled demo_met_table) (scaled (1/5)) (fins demo_lgmet) (fins demo_ages) (scaled demo_tobs))
        (age_weight_t_traces (fins demo_t) (map scaled demo_sfr) (fins demo_ages) (scaled demo_tobs) SFR_MIN))
     (mstar_t_trace (fins demo_t) (map scaled demo_sfr) (scaled demo_tobs) (Fin demo_min))) 1.
Proof.
  destruct (scaled3_shape _ _ _ _ demo_cube) as [C1 C2].
  destruct (C171_rest_sed_met_table_time_gradient demo_t (map scaled demo_sfr) (map scaled demo_met_table) (scaled (1/5)) demo_lgmet demo_ages (scaled3 demo_flux) (scaled demo_tobs) demo_min
              1 demo_sfr demo_met_table (1/5) demo_tobs 2) as (_ & D & _);
    auto using scaled_rights, scaled_right, scaled3_rights, scaled_evals, scaled_eval, demo_avoids, demo_avoids_t with demo; try (unfold demo_tobs; lra); try (simpl; lia).
  - unfold demo_met_table. repeat (apply List.Forall_cons; [lra|]). apply List.Forall_nil.
  - apply demo_avoids_ba.
Qed.

(** C172 *)
Theorem C172_galaxy_met_table_redshift_gradient : forall ts sfrs lgmet_table scatter ssp_lgmet ages flux sfr_min ws wf tf z Om0 w0 wa h v ss ms sc tv zv Omv w0v wav hv,
  right_gradients sfrs v -> right_gradients lgmet_table v -> right_gradient scatter v -> List.Forall (List.Forall (fun s => right_gradients s v)) flux ->
  right_gradient z v -> right_gradient Om0 v -> right_gradient w0 v -> right_gradient wa v -> right_gradient h v ->
  map (fun e => eval e (Fin v)) sfrs = fins ss -> map (fun e => eval e (Fin v)) lgmet_table = fins ms -> eval scatter (Fin v) = Fin sc ->
  eval z (Fin v) = Fin zv -> eval Om0 (Fin v) = Fin Omv -> eval w0 (Fin v) = Fin w0v -> eval wa (Fin v) = Fin wav -> eval h (Fin v) = Fin hv ->
  age_at_z (Scalar (Fin zv)) (Fin Omv) (Fin w0v) (Fin wav) (Fin hv) = [Fin tv] ->
  good_grids ts ss sc ssp_lgmet ages tv -> length ts = length ms -> (2 <= length ts)%nat -> 0 < tv -> 0 < sfr_min -> List.Forall (fun m => -10 <= m <= 10) ms ->
  avoids sfr_min ss -> avoids (1 / 10 ^ 14) ss ->
  avoids tv ts -> (forall lg_age, In lg_age (age_edges ages ++ ages) -> avoids (tv - pow10 lg_age) (0.001 :: ts)) ->
  length flux = length ssp_lgmet -> List.Forall (is_matrix (length ages) (length ws)) flux ->
  increasing ws -> (2 <= length ws)%nat -> good_filter wf tf -> 0 < zv -> 0 < Omv <= 1 -> 0 < hv ->
  (forall x w, In x wf -> In w ws -> x <> w * (1 + zv)) ->
  (forall sed, calc_rest_sed_sfh_table_met_table (fins ts) (fins ss) (fins ms) (Fin sc)
        (fins ssp_lgmet) (fins ages) (map (map (map (fun e => eval e (Fin v)))) flux) (Fin tv) (Fin sfr_min) = Ok sed ->
     exists l, rest_sed sed = fins l /\ 0 < band_flux (fun x => spectrum_at ws l (x / (1 + zv))) wf tf) ->
  let mag (AR : Arith) :=
    let t_obs := age_trace (AR := AR) z Om0 w0 wa h in
    obs_mag_z_trace (AR := AR) (fins ws)
      (sed_traces (length ws) flux
         (joint_table_traces (lgmet_matrix_t_traces (AR := AR) (fins ts) lgmet_table scatter (fins ssp_lgmet) (fins ages) t_obs)
            (age_weight_t_traces (AR := AR) (fins ts) sfrs (fins ages) t_obs SFR_MIN))
         (mstar_t_trace (AR := AR) (fins ts) sfrs t_obs (Fin sfr_min)))
      (fins wf) (fins tf) z Om0 w0 wa h in
  (forall (AR : Arith) x, let E e := eval (AR := AR) e x in exists t sed,
     age_at_z (Scalar (E z)) (E Om0) (E w0) (E wa) (E h) = [t]
     /\ calc_rest_sed_sfh_table_met_table (fins ts) (map E sfrs) (map E lgmet_table) (E scatter)
       (fins ssp_lgmet) (fins ages) (map (map (map E)) flux) t (Fin sfr_min) = Ok sed
     /\ calc_obs_mag (fins ws) (rest_sed sed) (fins wf) (fins tf) (E z) (E Om0) (E w0) (E wa) (E h) = Ok (E (mag AR)))
  /\ right_gradient (mag exact) v.
Proof. exact C172_lemma. Qed.
Print Assumptions C172_galaxy_met_table_redshift_gradient.
Theorem C172_dusty_magnitude_gradient : forall ws lum ks av floor wf tf z Om0 w0 wa h v ls kv a f zv Omv w0v wav hv,
  right_gradients lum v -> right_gradients ks v -> right_gradient av v -> right_gradient floor v ->
  right_gradient z v -> right_gradient Om0 v -> right_gradient w0 v -> right_gradient wa v -> right_gradient h v ->
  map (fun e => eval e (Fin v)) lum = fins ls -> map (fun e => eval e (Fin v)) ks = fins kv -> eval av (Fin v) = Fin a -> eval floor (Fin v) = Fin f ->
  eval z (Fin v) = Fin zv -> eval Om0 (Fin v) = Fin Omv -> eval w0 (Fin v) = Fin w0v -> eval wa (Fin v) = Fin wav -> eval h (Fin v) = Fin hv ->
  a <> 0 -> List.Forall (fun k => k <> 0) kv -> length kv = length ws ->
  good_spectrum ws ls -> (2 <= length ws)%nat -> good_filter wf tf -> 0 < zv -> 0 < Omv <= 1 -> 0 < hv ->
  (let dimmed := map2 (fun l k => l * (f + (1 - f) * pow10 (-0.4 * Rmax 0 (a * k / 4.05)))) ls kv in
   0 < band_flux (fun x => spectrum_at ws dimmed (x / (1 + zv))) wf tf) ->
  (forall x w, In x wf -> In w ws -> x <> w * (1 + zv)) ->
  let mag (AR : Arith) := obs_mag_z_trace (AR := AR) (fins ws) (map2 (fun l k => Mul l (frac_transmission_trace (AR := AR) k av floor)) lum ks)
                            (fins wf) (fins tf) z Om0 w0 wa h in
  (forall (AR : Arith) x, let E e := eval (AR := AR) e x in
     calc_obs_mag (fins ws) (map2 nmul (map E lum) (map (fun k => frac_transmission_from_k_lambda (E k) (E av) (E floor)) ks))
       (fins wf) (fins tf) (E z) (E Om0) (E w0) (E wa) (E h) = Ok (E (mag AR)))
  /\ right_gradient (mag exact) v.
Proof. exact C172_dust_lemma. Qed.
Print Assumptions C172_dusty_magnitude_gradient.
(** every input varies at once *)
Example C172_nonvacuous :
  (exists h, 0 < h /\
   right_gradient
    (let t_obs := age_trace (scaled 0.1) (scaled 0.3) (scaled (-1)) (scaled 0) (scaled h) in
     obs_mag_z_trace (fins [1; 3])
      (sed_traces 2 (scaled3 demo_flux_pos)
         (joint_table_traces (lgmet_matrix_t_traces (fins demo_t) (map scaled demo_met_table) (scaled (1/5)) (fins demo_lgmet) (fins demo_ages) t_obs)
            (age_weight_t_traces (fins demo_t) (map scaled demo_sfr) (fins demo_ages) t_obs SFR_MIN))
         (mstar_t_trace (fins demo_t) (map scaled demo_sfr) t_obs (Fin demo_min)))
      (fins [1.5; 2; 2.5]) (fins [0.1; 1; 0.2]) (scaled 0.1) (scaled 0.3) (scaled (-1)) (scaled 0) (scaled h)) 1)
  /\ right_gradient
    (obs_mag_z_trace (fins [1; 3]) (map2 (fun l k => Mul l (frac_transmission_trace k (scaled 0.8) (scaled 0.1))) (map scaled [1; 2]) (map scaled [2; 1]))
      (fins [1.5; 2; 2.5]) (fins [0.1; 1; 0.2]) (scaled 0.1) (scaled 0.3) (scaled (-1)) (scaled 0) (scaled 0.7)) 1.
Proof.
  destruct demo_filter as (GF & If & Pt & Iw).
  assert (NX : forall x w, In x [1.5; 2; 2.5] -> In w [1; 3] -> x <> w * (1 + 0.1)).
  { intros x w Hx Hw. simpl in *. destruct Hx as [<-|[<-|[<-|[]]]], Hw as [<-|[<-|[]]]; lra. }
  split.
  - destruct (demo_h demo_tobs ltac:(unfold demo_tobs; lra)) as (h & Hh & EA). exists h. split; [exact Hh|].
    destruct (scaled3_shape _ _ _ _ demo_cube_pos) as [C1 C2].
    apply (C172_galaxy_met_table_redshift_gradient demo_t (map scaled demo_sfr) (map scaled demo_met_table) (scaled (1/5)) demo_lgmet demo_ages (scaled3 demo_flux_pos) demo_min
           [1; 3] [1.5; 2; 2.5] [0.1; 1; 0.2] (scaled 0.1) (scaled 0.3) (scaled (-1)) (scaled 0) (scaled h) 1 demo_sfr demo_met_table (1/5) demo_tobs 0.1 0.3 (-1) 0 h);
      auto using scaled_rights, scaled_right, scaled3_rights, scaled_evals, scaled_eval, demo_avoids, demo_avoids_t, demo_avoids_ba with demo; try (unfold demo_tobs; lra); try lra; try (simpl; lia).
    + unfold demo_met_table. repeat (apply List.Forall_cons; [lra|]). apply List.Forall_nil.
    + intros sed E. rewrite scaled3_evals in E.
      destruct (C17_met_range_lemma demo_t demo_sfr demo_met_table (1/5) demo_lgmet demo_ages 2 demo_tobs demo_min demo_flux_pos 1 9)
        as (sed' & l & E' & El & L2 & Hm & Hl); auto using demo_cube_pos, demo_flux_pos_range with demo; try (unfold demo_tobs; lra).
      rewrite E in E'. injection E' as <-. exists l. split; [exact El|].
      apply (band_flux_pos [1; 3] l _ _ (mass_formed_by demo_t (floored demo_min demo_sfr) demo_tobs)); auto; try lra.
      * split; [exact Iw|]. split; [symmetry; exact L2|discriminate].
      * intros i Hi. rewrite List.Forall_forall in Hl. specialize (Hl (ent l i)).
        assert (In (ent l i) l) by (apply nth_In; rewrite L2; exact Hi). specialize (Hl H). lra.
      * intros w Hw. unfold ent. simpl in *. destruct Hw as [<-|[<-|[<-|[]]]]; lra.
  - apply (C172_dusty_magnitude_gradient [1; 3] (map scaled [1; 2]) (map scaled [2; 1]) (scaled 0.8) (scaled 0.1) [1.5; 2; 2.5] [0.1; 1; 0.2]
             (scaled 0.1) (scaled 0.3) (scaled (-1)) (scaled 0) (scaled 0.7) 1 [1; 2] [2; 1] 0.8 0.1 0.1 0.3 (-1) 0 0.7);
      auto using scaled_rights, scaled_right, scaled_evals, scaled_eval; try lra.
    + split; [exact Iw|]. split; [reflexivity|discriminate].
    + cbv zeta. cbn [map2]. apply (band_flux_pos [1; 3] _ _ _ 0.1); auto; try lra.
      * split; [exact Iw|]. split; [reflexivity|discriminate].
      * intros i Hi. unfold ent. pose proof (pow10_pos (-0.4 * Rmax 0 (0.8 * 2 / 4.05))). pose proof (pow10_pos (-0.4 * Rmax 0 (0.8 * 1 / 4.05))).
        destruct i as [|[|]]; simpl; try lra. simpl in Hi. lia.
      * intros w Hw. unfold ent. simpl in *. destruct Hw as [<-|[<-|[<-|[]]]]; lra.
Qed.
