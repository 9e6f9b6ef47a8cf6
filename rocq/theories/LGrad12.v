(** * Gradients of the cosmology functions: the property lemmas *)
From Coq Require Import Reals List Arith Lra Lia ZArith Bool.
From Coquelicot Require Import Coquelicot.
From Flocq Require Import Core.Raux.
From Verif Require Import Num Arr MUtils MSed MCosmo MPhot MGrad MTrace MTrace2 MTrace3 Spec Spec2 SpecGrad RList LUtils LBcast LKern LImf LCosmo LPhot LDiff LGrad LGrad2 LGrad3 LGrad4 LGrad5 LGrad6 LGrad7 LGrad8 LGrad9 LGrad11.
Import ListNotations.
Open Scope R_scope.
#[local] Existing Instance exact.
#[local] Strategy 1000 [nmul nadd nsub ndiv nlog10 npow nsqrt nexp].

Lemma C166_lemma : forall z Om0 w0 wa h v zv Omv w0v wav hv,
  right_gradient z v -> right_gradient Om0 v -> right_gradient w0 v -> right_gradient wa v -> right_gradient h v ->
  eval z (Fin v) = Fin zv -> eval Om0 (Fin v) = Fin Omv -> eval w0 (Fin v) = Fin w0v -> eval wa (Fin v) = Fin wav -> eval h (Fin v) = Fin hv ->
  -1 < zv -> 0 < Omv <= 1 -> 0 < hv ->
  (forall (AR : Arith) x,
     let E e := eval (AR := AR) e x in
     comoving_distance_to_z (E z) (E Om0) (E w0) (E wa) (E h) = E (comoving_trace z Om0 w0 wa h)
     /\ luminosity_distance_to_z (E z) (E Om0) (E w0) (E wa) (E h) = E (luminosity_trace z Om0 w0 wa h)
     /\ angular_diameter_distance_to_z (E z) (E Om0) (E w0) (E wa) (E h) = E (angular_trace z Om0 w0 wa h)
     /\ lookback_to_z (E z) (E Om0) (E w0) (E wa) (E h) = E (lookback_trace z Om0 w0 wa h)
     /\ age_at_z0 (E Om0) (E w0) (E wa) (E h) = E (age0_trace Om0 w0 wa h)
     /\ age_at_z (Scalar (E z)) (E Om0) (E w0) (E wa) (E h) = [E (age_trace z Om0 w0 wa h)]
     /\ rho_crit (E z) (E Om0) (E w0) (E wa) (E h) = E (rho_crit_trace z Om0 w0 wa h)
     /\ Om (Vector [E z]) (E Om0) (E w0) (E wa) = Ok [E (Om_trace z Om0 w0 wa)]
     /\ virial_dynamical_time (Vector [E z]) (E Om0) (E w0) (E wa) (E h) = Ok [E (virial_trace z Om0 w0 wa h)])
  /\ right_gradients
       [comoving_trace z Om0 w0 wa h; luminosity_trace z Om0 w0 wa h; angular_trace z Om0 w0 wa h; lookback_trace z Om0 w0 wa h;
        age0_trace Om0 w0 wa h; age_trace z Om0 w0 wa h; rho_crit_trace z Om0 w0 wa h; Om_trace z Om0 w0 wa; virial_trace z Om0 w0 wa h] v.
Proof.
  intros z Om0 w0 wa h v zv Omv w0v wav hv Rz RO Rw Ra Rh Ez_ EO Ew Ea Eh HZ HO HH. split.
  - intros AR x E. subst E. cbv beta. rewrite comoving_eval, luminosity_eval, angular_eval, lookback_eval, age0_eval, age_eval. repeat (split; [reflexivity|]). reflexivity.
  - toT. apply Ts_right. repeat (apply List.Forall_cons; [|]); [..|apply List.Forall_nil].
    + eapply T_comoving; eauto.
    + eapply T_luminosity; eauto.
    + eapply T_angular; eauto.
    + eapply T_lookback; eauto.
    + eapply T_age0; eauto.
    + eapply T_age; eauto.
    + eapply T_rho_crit; eauto.
    + eapply T_Om; eauto.
    + eapply T_virial; eauto.
Qed.
Lemma C166_modulus_lemma : forall z Om0 w0 wa h v zv Omv w0v wav hv,
  right_gradient z v -> right_gradient Om0 v -> right_gradient w0 v -> right_gradient wa v -> right_gradient h v ->
  eval z (Fin v) = Fin zv -> eval Om0 (Fin v) = Fin Omv -> eval w0 (Fin v) = Fin w0v -> eval wa (Fin v) = Fin wav -> eval h (Fin v) = Fin hv ->
  0 < zv -> 0 < Omv <= 1 -> 0 < hv ->
  (forall (AR : Arith) x,
     let E e := eval (AR := AR) e x in
     distance_modulus_to_z (E z) (E Om0) (E w0) (E wa) (E h) = E (modulus_trace z Om0 w0 wa h)
     /\ differential_comoving_volume_at_z (E z) (E Om0) (E w0) (E wa) (E h) = E (volume_trace z Om0 w0 wa h)
     /\ cosmological_dimming (E z) (E Om0) (E w0) (E wa) (E h) = E (dimming_trace z Om0 w0 wa h))
  /\ right_gradients [modulus_trace z Om0 w0 wa h; volume_trace z Om0 w0 wa h; dimming_trace z Om0 w0 wa h] v.
Proof.
  intros z Om0 w0 wa h v zv Omv w0v wav hv Rz RO Rw Ra Rh Ez_ EO Ew Ea Eh HZ HO HH. split.
  - intros AR x E. subst E. cbv beta. now rewrite modulus_eval, volume_eval, dimming_eval.
  - toT. apply Ts_right. repeat (apply List.Forall_cons; [|]); [..|apply List.Forall_nil].
    + eapply T_modulus; eauto; lra.
    + eapply T_volume; eauto; lra.
    + eapply T_dimming; eauto; lra.
Qed.
(** at redshift 0 the distance modulus is -inf and its gradient NaN *)
Lemma nadd_nan x : nadd x NaN = NaN. Proof. destruct x; reflexivity. Qed.
Lemma C166_redshift_zero_lemma : forall Om0 w0 wa h, 0 < Om0 <= 1 -> 0 < h ->
  let mu := modulus_trace Arg (Cst (Fin Om0)) (Cst (Fin w0)) (Cst (Fin wa)) (Cst (Fin h)) in
  eval mu (Fin 0) = NInf /\ grad mu (Fin 0) = NaN.
Proof.
  intros Om0 w0 wa h HO HH. cbv zeta. split.
  { rewrite modulus_eval. cbn [eval]. apply (C55_lemma Om0 w0 wa h HO HH). }
  unfold modulus_trace, luminosity_trace.
  assert (E : eval (comoving_trace Arg (Cst (Fin Om0)) (Cst (Fin w0)) (Cst (Fin wa)) (Cst (Fin h))) (Fin 0) = Fin 0).
  { rewrite comoving_eval. cbn [eval]. rewrite dc_fin by (auto; lra). f_equal. unfold dc. rewrite quad_0 by apply n256. lra. }
  generalize dependent (comoving_trace Arg (Cst (Fin Om0)) (Cst (Fin w0)) (Cst (Fin wa)) (Cst (Fin h))). intros e E.
  unfold grad. cbn [depends orb]. rewrite !orb_true_r. cbn [orb back depends]. rewrite orb_true_r. cbn [both]. cbn [eval]. rewrite E.
  assert (N : nmul (Fin 0) (nmul (ndiv (ndiv (nmul (Fin 5) (Fin 1)) (nln (Fin 10))) (nmul (nmul (Fin 0) (nadd (Fin 1) (Fin 0))) (Fin (10 ^ 5)))) (Fin (10 ^ 5))) = NaN).
  { assert (P : 0 < ln 10) by (rewrite <- ln_1; apply ln_increasing; lra). rewrite nadd_fin, !nmul_fin, nln_fin, ndiv_fin by lra.
    replace (0 * (1 + 0) * 10 ^ 5) with 0 by lra. assert (Q : 0 < 5 * 1 / ln 10) by (apply Rdiv_lt_0_compat; lra). unfold ndiv at 1. rewrite Req_bool_true, Rlt_bool_true by auto.
    assert (I : nmul PInf (Fin (10 ^ 5)) = PInf) by (cbn [nmul]; unfold inf_times; rewrite Rlt_bool_true by lra; reflexivity). rewrite I.
    cbn [nmul]. unfold inf_times. rewrite !Rlt_bool_false by lra. reflexivity. }
  rewrite N. destruct (depends e); cbn [both]; [apply nadd_nan|reflexivity].
Qed.
(** the observed magnitude as a function of the cosmology (and the spectrum) *)
Lemma C166_obs_lemma : forall ws lum wf tf z Om0 w0 wa h v ls Omv w0v wav hv,
  right_gradients lum v -> right_gradient Om0 v -> right_gradient w0 v -> right_gradient wa v -> right_gradient h v ->
  map (fun e => eval e (Fin v)) lum = fins ls ->
  eval Om0 (Fin v) = Fin Omv -> eval w0 (Fin v) = Fin w0v -> eval wa (Fin v) = Fin wav -> eval h (Fin v) = Fin hv ->
  good_spectrum ws ls -> good_filter wf tf -> 0 < z -> 0 < Omv <= 1 -> 0 < hv ->
  0 < band_flux (fun x => spectrum_at ws ls (x / (1 + z))) wf tf ->
  (forall (AR : Arith) x, let E e := eval (AR := AR) e x in
     calc_obs_mag (fins ws) (map E lum) (fins wf) (fins tf) (Fin z) (E Om0) (E w0) (E wa) (E h)
     = Ok (E (obs_mag_cosmo_trace (AR := AR) (fins ws) lum (fins wf) (fins tf) (Fin z) Om0 w0 wa h)))
  /\ right_gradient (obs_mag_cosmo_trace (fins ws) lum (fins wf) (fins tf) (Fin z) Om0 w0 wa h) v.
Proof.
  intros ws lum wf tf z Om0 w0 wa h v ls Omv w0v wav hv R RO Rw Ra Rh E EO Ew Ea Eh G F Hz HO HH P.
  assert (Ll : length ws = length lum). { destruct G as (I & L & N). transitivity (length (map (fun e => eval e (Fin v)) lum)); [rewrite E, fins_length; auto|apply map_length]. }
  split.
  - intros AR x E'. subst E'. cbv beta.
    change (eval (obs_mag_cosmo_trace (fins ws) lum (fins wf) (fins tf) (Fin z) Om0 w0 wa h) x)
      with (nadd (eval (mag_trace (map (fun w => nmul w (nadd (Fin 1) (Fin z))) (fins ws)) lum (fins wf) (fins tf)) x) (eval (dimming_trace (Cst (Fin z)) Om0 w0 wa h) x)).
    rewrite dimming_eval. rewrite (obs_mag_eval_ok (fins ws) lum (fins wf) (fins tf)).
    + reflexivity.
    + rewrite fins_length. exact Ll.
    + destruct G as (_ & _ & N). destruct ws; [contradiction|discriminate].
    + rewrite !fins_length. apply F.
  - pose proof G as (I & L & N). pose proof F as (Lf & Pw & B). toT. apply Ts_right in R. unfold obs_mag_cosmo_trace. apply T_add.
    2:{ eapply T_dimming with (y := z); eauto; ts; lra. }
    assert (Ez : map (fun w => nmul w (nadd (Fin 1) (Fin z))) (fins ws) = fins (map (fun w => w * (1 + z)) ws)) by (apply map_fins; reflexivity).
    rewrite Ez. apply T_mag with (f := band_flux (fun x => spectrum_at ws ls (x / (1 + z))) wf tf); auto.
    + destruct ws; [contradiction|discriminate].
    + now rewrite map_length.
    + rewrite filter_flux_eval, E, norm_fin by auto. rewrite <- Ez.
      change (rest_flux_ssp (map (fun w => nmul w (nadd (Fin 1) (Fin z))) (fins ws)) (fins ls) (fins wf) (fins tf)) with (obs_flux_ssp (fins ws) (fins ls) (fins wf) (fins tf) (Fin z)).
      rewrite obsflux_fin by (auto; lra). now rewrite ndiv_fin by lra.
Qed.
