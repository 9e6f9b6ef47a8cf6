(** * Gradients of the cosmology functions *)
From Coq Require Import Reals List Arith Lra Lia ZArith Bool.
From Coquelicot Require Import Coquelicot.
From Flocq Require Import Core.Raux.
From Verif Require Import Num Arr MUtils MSed MCosmo MPhot MGrad MTrace MTrace2 MTrace3 Spec Spec2 SpecGrad RList LUtils LBcast LKern LImf LCosmo LPhot LDiff LGrad LGrad2 LGrad3 LGrad4 LGrad5 LGrad6 LGrad7 LGrad8 LGrad9.
Import ListNotations.
Open Scope R_scope.
Local Notation Ts l v := (List.Forall (fun e => T e v) l).

#[local] Strategy 1000 [nmul nadd nsub ndiv nlog10 npow nsqrt nexp].
Section Ev.
Context {AR : Arith}.
Lemma Ez_eval z Om0 w0 wa v : eval (Ez_trace z Om0 w0 wa) v = Ez (eval z v) (eval Om0 v) (eval w0 v) (eval wa v).
Proof. reflexivity. Qed.
Lemma linspace_eval e n v : map (fun a => eval a v) (linspace_traces e n) = linspace (Fin 0) (eval e v) n.
Proof. unfold linspace_traces, linspace. rewrite map_app, map_map. reflexivity. Qed.
Lemma trapz2_eval x y v : eval (trapz2_trace x y) v = trapz_k (map (fun e => eval e v) x) (map (fun e => eval e v) y).
Proof.
  unfold trapz2_trace, trapz_k. cbn [eval]. f_equal. f_equal. rewrite map_map2. unfold diff. rewrite <- !map_tl, !map2_map.
  assert (G : forall (l l' m m' : list trace), map2 (fun a b => eval (Mul a b) v) (map2 (fun a b => Sub b a) l l') (map2 Add m m')
     = map2 nmul (map2 (fun a b => nsub (eval b v) (eval a v)) l l') (map2 (fun a b => nadd (eval a v) (eval b v)) m m')).
  { clear. induction l as [|a l IH]; intros [|b l'] [|c m] [|d m']; cbn [map2]; auto. now rewrite IH. }
  apply G.
Qed.
Lemma trapz2_map_eval f g e n v : (forall a, eval (f a) v = g (eval a v)) ->
  eval (trapz2_trace (linspace_traces e n) (map f (linspace_traces e n))) v
  = trapz_k (linspace (Fin 0) (eval e v) n) (map g (linspace (Fin 0) (eval e v) n)).
Proof.
  intros G. rewrite trapz2_eval, linspace_eval. f_equal. rewrite map_map, <- linspace_eval, map_map. apply map_ext. exact G.
Qed.
Lemma comoving_eval z Om0 w0 wa h v : eval (comoving_trace z Om0 w0 wa h) v = comoving_distance_to_z (eval z v) (eval Om0 v) (eval w0 v) (eval wa v) (eval h v).
Proof.
  unfold comoving_trace, comoving_distance_to_z. generalize 256%nat as n. intros n. cbv zeta. remember (linspace_traces z n) as zs. cbn [eval]. subst zs.
  rewrite (trapz2_map_eval _ (fun z => integrand_oneOverEz z (eval Om0 v) (eval w0 v) (eval wa v))); reflexivity.
Qed.
Lemma luminosity_eval z Om0 w0 wa h v : eval (luminosity_trace z Om0 w0 wa h) v = luminosity_distance_to_z (eval z v) (eval Om0 v) (eval w0 v) (eval wa v) (eval h v).
Proof. unfold luminosity_trace, luminosity_distance_to_z. rewrite <- comoving_eval. generalize (comoving_trace z Om0 w0 wa h); intros. reflexivity. Qed.
Lemma angular_eval z Om0 w0 wa h v : eval (angular_trace z Om0 w0 wa h) v = angular_diameter_distance_to_z (eval z v) (eval Om0 v) (eval w0 v) (eval wa v) (eval h v).
Proof. unfold angular_trace, angular_diameter_distance_to_z. rewrite <- comoving_eval. generalize (comoving_trace z Om0 w0 wa h); intros. reflexivity. Qed.
Lemma modulus_eval z Om0 w0 wa h v : eval (modulus_trace z Om0 w0 wa h) v = distance_modulus_to_z (eval z v) (eval Om0 v) (eval w0 v) (eval wa v) (eval h v).
Proof. unfold modulus_trace, distance_modulus_to_z. rewrite <- luminosity_eval. generalize (luminosity_trace z Om0 w0 wa h); intros. reflexivity. Qed.
Lemma hubble_time_eval z Om0 w0 wa h v : eval (hubble_time_trace z Om0 w0 wa h) v = hubble_time (eval z v) (eval Om0 v) (eval w0 v) (eval wa v) (eval h v).
Proof. reflexivity. Qed.
Lemma lookback_eval z Om0 w0 wa h v : eval (lookback_trace z Om0 w0 wa h) v = lookback_to_z (eval z v) (eval Om0 v) (eval w0 v) (eval wa v) (eval h v).
Proof.
  unfold lookback_trace, lookback_to_z. generalize 512%nat as n. intros n. cbv zeta. remember (linspace_traces z n) as zs. cbn [eval]. subst zs.
  rewrite (trapz2_map_eval _ (fun z => ndiv (ndiv (Fin 1) (Ez z (eval Om0 v) (eval w0 v) (eval wa v))) (nadd (Fin 1) z))); reflexivity.
Qed.
Lemma age0_eval Om0 w0 wa h v : eval (age0_trace Om0 w0 wa h) v = age_at_z0 (eval Om0 v) (eval w0 v) (eval wa v) (eval h v).
Proof.
  unfold age0_trace, age_at_z0. generalize (logspace (Fin 0) (Fin 3) 512) as l. intros l. cbv zeta.
  change (eval (Mul ?a ?b) v) with (nmul (eval a v) (eval b v)). rewrite trapz2_eval, hubble_time_eval. f_equal. f_equal; rewrite !map_map; reflexivity.
Qed.
Lemma age_eval z Om0 w0 wa h v : eval (age_trace z Om0 w0 wa h) v = age_at_z_kern (eval z v) (eval Om0 v) (eval w0 v) (eval wa v) (eval h v).
Proof. unfold age_trace, age_at_z_kern. rewrite <- age0_eval, <- lookback_eval. generalize (age0_trace Om0 w0 wa h); intros. generalize (lookback_trace z Om0 w0 wa h); intros. reflexivity. Qed.
Lemma volume_eval z Om0 w0 wa h v : eval (volume_trace z Om0 w0 wa h) v = differential_comoving_volume_at_z (eval z v) (eval Om0 v) (eval w0 v) (eval wa v) (eval h v).
Proof. unfold volume_trace, differential_comoving_volume_at_z. cbv zeta. rewrite <- angular_eval. generalize (angular_trace z Om0 w0 wa h); intros. reflexivity. Qed.
Lemma dimming_eval z Om0 w0 wa h v : eval (dimming_trace z Om0 w0 wa h) v = cosmological_dimming (eval z v) (eval Om0 v) (eval w0 v) (eval wa v) (eval h v).
Proof. unfold dimming_trace, cosmological_dimming. cbv zeta. rewrite <- modulus_eval. generalize (modulus_trace z Om0 w0 wa h); intros. reflexivity. Qed.
Lemma virial_eval z Om0 w0 wa h v : virial_dynamical_time (Vector [eval z v]) (eval Om0 v) (eval w0 v) (eval wa v) (eval h v) = Ok [eval (virial_trace z Om0 w0 wa h) v].
Proof. reflexivity. Qed.
End Ev.

#[local] Existing Instance exact.
Section Cosmo.
Variables (z Om0 w0 wa h : trace) (v Om w a H : R).
Hypothesis (TO : T Om0 v) (Tw : T w0 v) (Ta : T wa v) (Th : T h v).
Hypothesis (EO : eval Om0 (Fin v) = Fin Om) (Ew : eval w0 (Fin v) = Fin w) (Ea : eval wa (Fin v) = Fin a) (Eh : eval h (Fin v) = Fin H).
Hypothesis (HO : 0 < Om <= 1) (HH : 0 < H).
Lemma T_zp1 e y : T e v -> eval e (Fin v) = Fin y -> -1 < y -> eval (Add (Cst (Fin 1)) e) (Fin v) <> Fin 0.
Proof using. intros X E Y. cbn [eval]. rewrite E, nadd_fin. apply neq_fin. lra. Qed.
Lemma T_rho e y : T e v -> eval e (Fin v) = Fin y -> -1 < y -> T (rho_de_trace e w0 wa) v.
Proof using Tw Ta.
  intros X E Y. unfold rho_de_trace. cbv zeta. assert (A : T (Div (Cst (Fin 1)) (Add (Cst (Fin 1)) e)) v) by (apply T_div; ts; eapply T_zp1; eauto).
  apply T_mul.
  - apply T_pow with (v := 1 / (1 + y)); ts.
    + cbn [eval]. rewrite E, nadd_fin, ndiv_fin by lra. reflexivity.
    + apply Rdiv_lt_0_compat; lra.
  - apply T_exp. ts.
Qed.
Lemma T_Ez e y : T e v -> eval e (Fin v) = Fin y -> -1 < y -> T (Ez_trace e Om0 w0 wa) v.
Proof using TO Tw Ta EO Ew Ea HO.
  intros X E Y. unfold Ez_trace. apply T_sqrt with (v := Om * (1 + y) ^ 3 + (1 - Om) * dark_energy w a y).
  - cbn [eval]. change (eval (rho_de_trace e w0 wa) (Fin v)) with (rho_de_z (eval e (Fin v)) (eval w0 (Fin v)) (eval wa (Fin v))).
    rewrite E, EO, Ew, Ea, rho_de_fin, nadd_fin, ipow_fin, nsub_fin, !nmul_fin, nadd_fin by auto. reflexivity.
  - now apply E2_pos.
  - ts. eapply T_rho; eauto.
Qed.
Lemma Ez_val e y : eval e (Fin v) = Fin y -> -1 < y -> eval (Ez_trace e Om0 w0 wa) (Fin v) = Fin (expansion Om w a y).
Proof using EO Ew Ea HO. intros E Y. rewrite Ez_eval, E, EO, Ew, Ea. now apply Ez_fin. Qed.
Lemma Ez_ne e y : eval e (Fin v) = Fin y -> -1 < y -> eval (Ez_trace e Om0 w0 wa) (Fin v) <> Fin 0.
Proof using EO Ew Ea HO. intros E Y. rewrite (Ez_val e y) by auto. pose proof (E_pos Om w a y HO Y). apply neq_fin. lra. Qed.
Lemma h_ne : eval h (Fin v) <> Fin 0. Proof using Eh HH. rewrite Eh. apply neq_fin. lra. Qed.
Definition fine (e : trace) : Prop := T e v /\ exists y, eval e (Fin v) = Fin y /\ -1 < y.
Lemma linspace_fine e n : (2 <= n)%nat -> fine e -> List.Forall fine (linspace_traces e n).
Proof using.
  intros Hn (X & y & E & Y).
  assert (Ev : map (fun a => eval a (Fin v)) (linspace_traces e n) = fins (grid n y)) by (rewrite linspace_eval, E; now apply linspace_fins).
  apply List.Forall_forall. intros t It. split.
  - unfold linspace_traces in It. apply in_app_iff in It as [It|[<-|[]]]; [|exact X]. apply in_map_iff in It as (i & <- & _).
    cbv zeta. pose proof (INR_n1 n Hn). rewrite ndiv_fin by lra. ts.
  - assert (In (eval t (Fin v)) (fins (grid n y))) as I by (rewrite <- Ev; now apply (in_map (fun a => eval a (Fin v)))).
    apply in_map_iff in I as (q & Q & I). exists q. split; [auto|]. apply grid_In in I as (i & Hi & ->). now apply grid_gt.
Qed.
Lemma T_trapz2 xs ys : Ts xs v -> Ts ys v -> T (trapz2_trace xs ys) v.
Proof using.
  intros X Y. rewrite List.Forall_forall in X, Y. unfold trapz2_trace. apply T_mul; [ts|]. apply T_sum. apply Forall_map2. intros b c Ib Ic. assert (T b v /\ T c v) as [? ?]; [|ts]. split.
  - revert b Ib. apply List.Forall_forall. apply Forall_map2. intros p q Ip Iq. assert (Iq' : In q xs) by (destruct xs; [exact Iq|right; exact Iq]). ts; auto.
  - revert c Ic. apply List.Forall_forall. apply Forall_map2. intros p q Ip Iq. assert (Ip' : In p ys) by (destruct ys; [exact Ip|right; exact Ip]). ts; auto.
Qed.
Lemma T_trapz2_map f xs : List.Forall fine xs -> (forall e, fine e -> T (f e) v) -> T (trapz2_trace xs (map f xs)) v.
Proof using.
  intros F P. apply T_trapz2.
  - eapply List.Forall_impl; [|exact F]. intros e (? & _). auto.
  - apply List.Forall_forall. intros e I. apply in_map_iff in I as (q & <- & I). apply P. revert q I. now apply List.Forall_forall.
Qed.
Lemma T_time_integrand e : fine e -> T (time_integrand Om0 w0 wa e) v.
Proof using TO Tw Ta EO Ew Ea HO.
  intros (X & y & E & Y). unfold time_integrand. apply T_div; ts; [eapply T_zp1; eauto|]. apply T_div; ts; [eapply Ez_ne; eauto|]. eapply T_Ez; eauto.
Qed.
Lemma T_hubble_time e : fine e -> T (hubble_time_trace e Om0 w0 wa h) v.
Proof using TO Tw Ta Th EO Ew Ea Eh HO HH.
  intros (X & y & E & Y). unfold hubble_time_trace. apply T_div; [eapply Ez_ne; eauto| |eapply T_Ez; eauto].
  apply T_div; ts. apply h_ne.
Qed.
Lemma fine0 : fine (Cst (Fin 0)). Proof using. split; [ts|]. exists 0. split; [reflexivity|lra]. Qed.
Lemma T_age0 : T (age0_trace Om0 w0 wa h) v.
Proof using TO Tw Ta Th EO Ew Ea Eh HO HH.
  unfold age0_trace. cbv zeta. apply T_mul; [apply T_hubble_time, fine0|]. apply T_trapz2_map; [|exact T_time_integrand].
  assert (EG : map (fun x => Cst (nsub x (Fin 1))) (logspace (Fin 0) (Fin 3) 512) = map (fun x => Cst (Fin x)) agrid).
  { unfold logspace. rewrite linspace_fins by apply n512. unfold agrid, fins. rewrite !map_map. apply map_ext. intros x. now rewrite npow10_fin, nsub_fin. }
  rewrite EG. apply List.Forall_forall. intros e I. apply in_map_iff in I as (x & <- & I). split; [ts|]. exists x. split; [reflexivity|]. apply agrid_In in I. lra.
Qed.
Section Z.
Variable (y : R).
Hypothesis (Tz : T z v) (Ezv : eval z (Fin v) = Fin y) (Y : -1 < y).
Lemma fz : fine z. Proof using Tz Ezv Y. split; eauto. Qed.
Lemma T_comoving : T (comoving_trace z Om0 w0 wa h) v.
Proof using TO Tw Ta Th EO Ew Ea Eh HO HH Tz Ezv Y.
  unfold comoving_trace. cbv zeta. apply T_div; [apply h_ne| |exact Th]. apply T_mul; [apply T_mul|ts]; [|ts].
  apply T_trapz2_map; [apply linspace_fine; [apply n256|apply fz]|]. intros e (X & q & E & Q). apply T_div; ts; [eapply Ez_ne; eauto|eapply T_Ez; eauto].
Qed.
Lemma T_luminosity : T (luminosity_trace z Om0 w0 wa h) v.
Proof using TO Tw Ta Th EO Ew Ea Eh HO HH Tz Ezv Y. unfold luminosity_trace. apply T_mul; [apply T_comoving|ts]. Qed.
Lemma T_angular : T (angular_trace z Om0 w0 wa h) v.
Proof using TO Tw Ta Th EO Ew Ea Eh HO HH Tz Ezv Y. unfold angular_trace. apply T_div; [eapply T_zp1; eauto|apply T_comoving|ts]. Qed.
Lemma T_lookback : T (lookback_trace z Om0 w0 wa h) v.
Proof using TO Tw Ta Th EO Ew Ea Eh HO HH Tz Ezv Y.
  unfold lookback_trace. cbv zeta. apply T_mul; [apply T_hubble_time, fine0|]. apply T_trapz2_map; [apply linspace_fine; [apply n512|apply fz]|exact T_time_integrand].
Qed.
Lemma T_age : T (age_trace z Om0 w0 wa h) v.
Proof using TO Tw Ta Th EO Ew Ea Eh HO HH Tz Ezv Y. unfold age_trace. apply T_sub; [apply T_age0|apply T_lookback]. Qed.
Lemma T_rho_crit : T (rho_crit_trace z Om0 w0 wa h) v.
Proof using TO Tw Ta Th EO Ew Ea Eh HO HH Tz Ezv Y.
  unfold rho_crit_trace, RHO_CRIT0_KPC3_UNITY_H. change (lit 277.536627) with (Fin 277.536627). apply T_mul; [ts|]. apply T_ipow; [lia|]. eapply T_Ez; eauto.
Qed.
Lemma T_Om : T (Om_trace z Om0 w0 wa) v.
Proof using TO Tw Ta EO Ew Ea HO Tz Ezv Y.
  unfold Om_trace. cbv zeta. apply T_div; [eapply Ez_ne; eauto| |eapply T_Ez; eauto]. apply T_div; [eapply Ez_ne; eauto|ts|eapply T_Ez; eauto].
Qed.
Lemma T_delta_vir : T (delta_vir_trace z Om0 w0 wa) v.
Proof using TO Tw Ta EO Ew Ea HO Tz Ezv Y. unfold delta_vir_trace. cbv zeta. change (lit (18 * PI ^ 2)) with (Fin (18 * PI ^ 2)). pose proof T_Om. ts. Qed.
Lemma delta_val : eval (delta_vir_trace z Om0 w0 wa) (Fin v) = Fin (dvir (omz Om w a y)).
Proof using EO Ew Ea HO Ezv Y.
  change (eval (delta_vir_trace z Om0 w0 wa) (Fin v)) with
    (let x := nsub (Om_at_z (eval z (Fin v)) (eval Om0 (Fin v)) (eval w0 (Fin v)) (eval wa (Fin v))) (Fin 1) in nsub (nadd (lit (18 * PI ^ 2)) (nmul (Fin 82) x)) (nmul (Fin 39) (ipow x 2))).
  rewrite Ezv, EO, Ew, Ea, om_fin by auto. cbv zeta. change (lit (18 * PI ^ 2)) with (Fin (18 * PI ^ 2)). rewrite nsub_fin, nmul_fin, nadd_fin, ipow_fin, nmul_fin, nsub_fin. reflexivity.
Qed.
Lemma T_virial : T (virial_trace z Om0 w0 wa h) v.
Proof using TO Tw Ta Th EO Ew Ea Eh HO HH Tz Ezv Y.
  unfold virial_trace. apply T_mul; [apply T_mul; [change (lit (Rpower 2 1.5)) with (Fin (Rpower 2 1.5)); ts|apply T_hubble_time, fz]|].
  apply T_pow with (v := dvir (omz Om w a y)); ts; [apply delta_val| |apply T_delta_vir]. pose proof (dvir_range _ (om_range Om w a y HO Y)). lra.
Qed.
Lemma T_hubble_distance : T (hubble_distance_trace h) v.
Proof using Th Eh HH.
  unfold hubble_distance_trace. change (lit (299792458 / 1000)) with (Fin (299792458 / 1000)). apply T_div; ts. cbn [eval]. rewrite Eh, nmul_fin. apply neq_fin. lra.
Qed.
Hypothesis (Y0 : 0 < y).
Lemma dc_pos : 0 < dc Om w a H y.
Proof using HO HH Y0. unfold dc. apply Rmult_lt_0_compat; [now apply hubble_dist_pos|]. apply quad_pos; [apply n256|auto|]. intros x Hx. apply f1_pos; auto; lra. Qed.
Lemma T_modulus : T (modulus_trace z Om0 w0 wa h) v.
Proof using TO Tw Ta Th EO Ew Ea Eh HO HH Tz Ezv Y Y0.
  unfold modulus_trace. apply T_mul; [ts|]. apply T_log10 with (v := dc Om w a H y * (1 + y) * 10 ^ 5).
  - change (eval (Mul ?p ?q) (Fin v)) with (nmul (eval p (Fin v)) (eval q (Fin v))). rewrite luminosity_eval, Ezv, EO, Ew, Ea, Eh, dl_fin by (auto; lra). cbn [eval]. now rewrite nmul_fin.
  - apply Rmult_lt_0_compat; [|lra]. apply Rmult_lt_0_compat; [exact dc_pos|lra].
  - apply T_mul; [apply T_luminosity|ts].
Qed.
Lemma T_volume : T (volume_trace z Om0 w0 wa h) v.
Proof using TO Tw Ta Th EO Ew Ea Eh HO HH Tz Ezv Y Y0.
  unfold volume_trace. apply T_div; [eapply Ez_ne; eauto| |eapply T_Ez; eauto]. apply T_mul; [apply T_hubble_distance|].
  apply T_pow with (v := (1 + y) * (dc Om w a H y / (1 + y))); ts; [| |apply T_angular].
  - change (eval (Mul ?p ?q) (Fin v)) with (nmul (eval p (Fin v)) (eval q (Fin v))). rewrite angular_eval. cbn [eval]. rewrite Ezv, EO, Ew, Ea, Eh, da_fin, nadd_fin, nmul_fin by (auto; lra). reflexivity.
  - pose proof dc_pos. apply Rmult_lt_0_compat; [lra|]. apply Rdiv_lt_0_compat; lra.
Qed.
Lemma T_dimming : T (dimming_trace z Om0 w0 wa h) v.
Proof using TO Tw Ta Th EO Ew Ea Eh HO HH Tz Ezv Y Y0.
  unfold dimming_trace. change (lit 2.5) with (Fin 2.5). apply T_sub; [apply T_modulus|]. apply T_mul; [ts|]. apply T_log10 with (v := 1 + y); ts; [|lra].
  cbn [eval]. now rewrite Ezv, nadd_fin.
Qed.
End Z.
End Cosmo.
