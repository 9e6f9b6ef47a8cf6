(** * Gradient of the observed magnitude with respect to the redshift *)
From Coq Require Import Reals List Arith Lra Lia ZArith Bool.
From Coquelicot Require Import Coquelicot.
From Flocq Require Import Core.Raux.
From Verif Require Import Num Arr MUtils MSed MCosmo MPhot MGrad MTrace MTrace2 MTrace3 MTrace4 Spec Spec2 SpecGrad RList LUtils LBcast LKern LImf LCosmo LAge LPhot LDiff LGrad LGrad2 LGrad3 LGrad4 LGrad5 LGrad6 LGrad7 LGrad8 LGrad9 LGrad11 LGrad13.
Import ListNotations.
Open Scope R_scope.
Local Notation Ts l v := (List.Forall (fun e => T e v) l).
#[local] Strategy 1000 [nmul nadd nsub ndiv nlog10 npow nsqrt nexp].

Section Ev.
Context {AR : Arith}.
Lemma shift_eval (wave : list num) z v : map (fun e => eval e v) (map (fun w => Mul (Cst w) (Add (Cst (Fin 1)) z)) wave) = map (fun w => nmul w (nadd (Fin 1) (eval z v))) wave.
Proof. rewrite map_map. reflexivity. Qed.
Lemma redshifted_eval wave lum z x v : wave <> [] -> length wave = length lum ->
  eval (redshifted_trace wave lum z x) v = interp_lr (Fin 0) (Fin 0) x (map (fun w => nmul w (nadd (Fin 1) (eval z v))) wave) (map (fun e => eval e v) lum).
Proof.
  intros N L. unfold redshifted_trace. cbv zeta. rewrite interp_moving_eval.
  - rewrite shift_eval. reflexivity.
  - destruct wave; [contradiction|discriminate].
  - now rewrite map_length.
  - rewrite shift_eval, map_length. reflexivity.
  - rewrite shift_eval. reflexivity.
  - rewrite shift_eval. reflexivity.
Qed.
Lemma obs_flux_z_eval wave lum wf tf z v : wave <> [] -> length wave = length lum ->
  eval (obs_flux_z_trace wave lum wf tf z) v = obs_flux_ssp wave (map (fun e => eval e v) lum) wf tf (eval z v).
Proof.
  intros N L. unfold obs_flux_z_trace, obs_flux_ssp. cbv zeta. rewrite trapz_eval. f_equal. rewrite map_map2.
  assert (E : map (fun x => interp_lr (Fin 0) (Fin 0) x (map (fun w => nmul w (nadd (Fin 1) (eval z v))) wave) (map (fun e => eval e v) lum)) wf = map (fun e => eval e v) (map (redshifted_trace wave lum z) wf)).
  { rewrite map_map. apply map_ext. intros x. now rewrite redshifted_eval. }
  rewrite E. generalize (map (redshifted_trace wave lum z) wf) as ph. intros ph. clear. revert tf wf. induction ph as [|p ph IH]; intros [|t tf] [|w wf]; cbn [map map2]; auto. now rewrite IH.
Qed.
Lemma obs_mag_z_eval wave lum wf tf z Om0 w0 wa h v : wave <> [] -> length wave = length lum ->
  eval (obs_mag_z_trace wave lum wf tf z Om0 w0 wa h) v = calc_obs_mag_k wave (map (fun e => eval e v) lum) wf tf (eval z v) (eval Om0 v) (eval w0 v) (eval wa v) (eval h v).
Proof.
  intros N L. unfold obs_mag_z_trace, calc_obs_mag_k. cbv zeta. rewrite <- dimming_eval, <- obs_flux_z_eval by auto.
  generalize (dimming_trace z Om0 w0 wa h) (obs_flux_z_trace wave lum wf tf z). intros. reflexivity.
Qed.
Lemma obs_mag_z_ok wave lum wf tf z Om0 w0 wa h v : length wave = length lum -> wave <> [] -> length wf = length tf ->
  calc_obs_mag wave (map (fun e => eval e v) lum) wf tf (eval z v) (eval Om0 v) (eval w0 v) (eval wa v) (eval h v) = Ok (eval (obs_mag_z_trace wave lum wf tf z Om0 w0 wa h) v).
Proof. intros L N F. unfold calc_obs_mag. rewrite check_spec_gen by (rewrite ?map_length; auto). rewrite stretch_same by auto. now rewrite obs_mag_z_eval. Qed.
End Ev.

#[local] Existing Instance exact.
Lemma T_redshifted (ws : list R) lum z x v zv : T z v -> eval z (Fin v) = Fin zv -> -1 < zv -> Ts lum v -> length ws = length lum -> (2 <= length ws)%nat -> increasing ws ->
  List.Forall (fun w => x <> w * (1 + zv)) ws -> T (redshifted_trace (fins ws) lum z (Fin x)) v.
Proof.
  intros Tz E Z Tl L Ln I N. unfold redshifted_trace. cbv zeta.
  assert (M : map (fun w => Mul (Cst w) (Add (Cst (Fin 1)) z)) (fins ws) = map (fun w => Mul (Cst (Fin w)) (Add (Cst (Fin 1)) z)) ws) by (unfold fins; apply map_map).
  apply T_interp_moving with (xs := map (fun w => w * (1 + zv)) ws).
  - intros y. rewrite shift_eval, map_length. reflexivity.
  - intros y. rewrite shift_eval. reflexivity.
  - intros y. rewrite shift_eval. reflexivity.
  - ts.
  - ts.
  - ts.
  - rewrite M. apply List.Forall_map, List.Forall_forall. intros w _. ts.
  - exact Tl.
  - rewrite map_length, fins_length. exact L.
  - rewrite map_length, fins_length. exact Ln.
  - rewrite shift_eval, E. apply map_fins. intros w _. now rewrite nadd_fin, nmul_fin.
  - intros i j Hij. rewrite map_length in Hij. rewrite !ent_map by lia. specialize (I i j Hij). nra.
  - rewrite M. apply List.Forall_map. eapply List.Forall_impl; [|exact N]. intros w Hw. cbn [eval]. rewrite E, nadd_fin, nmul_fin. apply neq_fin. auto.
Qed.
Lemma C167_lemma : forall ws lum wf tf z Om0 w0 wa h v ls zv Omv w0v wav hv,
  right_gradients lum v -> right_gradient z v -> right_gradient Om0 v -> right_gradient w0 v -> right_gradient wa v -> right_gradient h v ->
  map (fun e => eval e (Fin v)) lum = fins ls ->
  eval z (Fin v) = Fin zv -> eval Om0 (Fin v) = Fin Omv -> eval w0 (Fin v) = Fin w0v -> eval wa (Fin v) = Fin wav -> eval h (Fin v) = Fin hv ->
  good_spectrum ws ls -> (2 <= length ws)%nat -> good_filter wf tf -> 0 < zv -> 0 < Omv <= 1 -> 0 < hv ->
  0 < band_flux (fun x => spectrum_at ws ls (x / (1 + zv))) wf tf ->
  (forall x w, In x wf -> In w ws -> x <> w * (1 + zv)) ->
  (forall (AR : Arith) x, let E e := eval (AR := AR) e x in
     calc_obs_mag (fins ws) (map E lum) (fins wf) (fins tf) (E z) (E Om0) (E w0) (E wa) (E h)
     = Ok (E (obs_mag_z_trace (AR := AR) (fins ws) lum (fins wf) (fins tf) z Om0 w0 wa h)))
  /\ right_gradient (obs_mag_z_trace (fins ws) lum (fins wf) (fins tf) z Om0 w0 wa h) v.
Proof.
  intros ws lum wf tf z Om0 w0 wa h v ls zv Omv w0v wav hv R Rz RO Rw Ra Rh E Ez_ EO Ew Ea Eh G Ln F Hz HO HH P NX.
  assert (Ll : length ws = length lum). { destruct G as (I & L & N). transitivity (length (map (fun e => eval e (Fin v)) lum)); [rewrite E, fins_length; auto|apply map_length]. }
  assert (Nf : fins ws <> []) by (destruct ws; [simpl in Ln; lia|discriminate]).
  split.
  - intros AR x E'. subst E'. cbv beta. apply obs_mag_z_ok; auto; rewrite ?fins_length; auto. apply F.
  - pose proof G as (I & L & N). pose proof F as (Lf & Pw & B). toT. apply Ts_right in R. unfold obs_mag_z_trace. apply T_add.
    2:{ eapply T_dimming with (y := zv); eauto; lra. }
    change (lit (-2.5)) with (Fin (-2.5)). apply T_mul; [ts|]. apply T_log10 with (v := band_flux (fun x => spectrum_at ws ls (x / (1 + zv))) wf tf); auto.
    + change (eval (Div ?a ?b) (Fin v)) with (ndiv (eval a (Fin v)) (eval b (Fin v))). rewrite obs_flux_z_eval by (auto; now rewrite fins_length). rewrite E, Ez_. cbn [eval].
      rewrite obsflux_fin, norm_fin by (auto; lra). now rewrite ndiv_fin by lra.
    + rewrite norm_fin by auto. apply T_div; [cbn [eval]; apply neq_fin; lra| |ts].
      unfold obs_flux_z_trace. apply T_trapz. apply Forall_map2. intros a w Ia Iw. apply in_map_iff in Iw as (r & <- & Ir). rewrite List.Forall_forall in Pw. specialize (Pw r Ir).
      apply T_div; ts; [cbn [eval]; apply neq_fin; lra|]. revert a Ia. apply List.Forall_forall. apply Forall_map2. intros t l It Il. apply in_map_iff in It as (q & <- & _).
      apply in_map_iff in Il as (x & <- & Ix). apply in_map_iff in Ix as (y & <- & Iy). ts. eapply T_redshifted; eauto; [lra|]. apply List.Forall_forall. intros u Iu. now apply NX.
Qed.
