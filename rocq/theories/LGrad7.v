(** * The SED traces compute the SED pipeline, in every arithmetic *)
From Coq Require Import Reals List Arith Lra Lia ZArith Bool.
From Verif Require Import Num Arr MUtils MSed MCosmo MPhot MGrad MTrace MTrace2 RList LBcast LGrad6.
Import ListNotations.
Open Scope R_scope.

Section Ev2.
Context {AR : Arith}.
Lemma entry_eval l i v : eval (entry l i) v = at_ (map (fun e => eval e v) l) i.
Proof. unfold entry, at_. change NaN with (eval (Cst NaN) v). symmetry. apply (map_nth (fun e => eval e v)). Qed.
Lemma interp_lr_eval l r x xp fp v : eval (interp_lr_trace l r x xp fp) v = interp_lr (eval l v) (eval r v) x xp (map (fun e => eval e v) fp).
Proof. unfold interp_lr_trace, interp_lr, interp_core. cbn [eval]. now rewrite !entry_eval. Qed.
Lemma interp_eval x xp fp v : eval (interp_trace x xp fp) v = interp x xp (map (fun e => eval e v) fp).
Proof. unfold interp_trace, interp. rewrite interp_lr_eval, !entry_eval. unfold first, last_. now rewrite map_length. Qed.
Lemma cum_eval v : forall l a fa cum, map (fun e => eval e v) (cum_traces a fa cum l)
  = scan cumtrapz_scan_func (a, eval fa v, eval cum v) (map (fun p => (fst p, eval (snd p) v)) l).
Proof. induction l as [|(b, fb) l IH]; intros a fa cum; cbn [cum_traces map scan cumtrapz_scan_func fst snd]; [reflexivity|]. rewrite IH. reflexivity. Qed.
Lemma combine_eval v : forall (ts : list num) l, map (fun p => (fst p, eval (snd p) v)) (combine ts l) = combine ts (map (fun e => eval e v) l).
Proof. induction ts; intros [|e l]; cbn [combine map fst snd]; auto. now rewrite IHts. Qed.
Lemma map_tl {A B} (f : A -> B) l : map f (tl l) = tl (map f l). Proof. now destruct l. Qed.
Lemma mass_eval ts sfrs v : length ts = length sfrs -> map (fun e => eval e v) (mass_traces ts sfrs) = cumulative_mstar_formed_k ts (map (fun e => eval e v) sfrs).
Proof.
  intros L. unfold mass_traces, cumulative_mstar_formed_k. rewrite stretch_same by (now rewrite map_length). rewrite map_map. unfold cumtrapz_k. cbn [first at_ nth].
  change (fun x => eval (Mul x (Cst YEAR_PER_GYR)) v) with (fun x => nmul (eval x v) YEAR_PER_GYR). rewrite <- (map_map (fun e => eval e v) (fun m => nmul m YEAR_PER_GYR)). rewrite map_tl, cum_eval, combine_eval. reflexivity.
Qed.
Lemma logsm_eval ts sfrs smin v : length ts = length sfrs -> map (fun e => eval e v) (logsm_traces ts sfrs smin) = calc_logsm_table_from_sfh_table ts (map (fun e => eval e v) sfrs) smin.
Proof.
  intros L. unfold logsm_traces, calc_logsm_table_from_sfh_table. rewrite map_map. change (fun x => eval (Log10 x) v) with (fun x => nlog10 (eval x v)). rewrite <- (map_map (fun e => eval e v) nlog10). rewrite mass_eval by (now rewrite map_length). rewrite !map_map. reflexivity.
Qed.
Lemma bin_mass_eval ts sfrs ages t smin v : length ts = length sfrs -> map (fun e => eval e v) (bin_mass_traces ts sfrs ages t smin)
  = map nopp (diff (map npow10 (map (fun x => interp x (map nlog10 ts) (calc_logsm_table_from_sfh_table ts (map (fun e => eval e v) sfrs) smin)) (map (get_lgt_birth t) (get_lg_age_bin_edges_k ages))))).
Proof.
  intros L. unfold bin_mass_traces. cbv zeta. rewrite (map_map Neg). change (fun x => eval (Neg x) v) with (fun x => nopp (eval x v)). rewrite <- (map_map (fun e => eval e v) nopp). f_equal.
  rewrite map_map2. unfold diff. set (edges := map (get_lgt_birth t) (get_lg_age_bin_edges_k ages)).
  assert (E : map (fun e => eval e v) (map (fun x => Pow10 (interp_trace x (map nlog10 ts) (logsm_traces ts sfrs smin))) edges)
    = map npow10 (map (fun x => interp x (map nlog10 ts) (calc_logsm_table_from_sfh_table ts (map (fun e => eval e v) sfrs) smin)) edges)).
  { rewrite !map_map. apply map_ext. intros x. cbn [eval]. now rewrite interp_eval, logsm_eval. }
  rewrite <- E. generalize (map (fun x => Pow10 (interp_trace x (map nlog10 ts) (logsm_traces ts sfrs smin))) edges) as sm. intros sm. rewrite <- map_tl, map2_map. reflexivity.
Qed.
Lemma shares_eval l v : map (fun e => eval e v) (shares l) = let ws := map (fun e => eval e v) l in map (fun d => ndiv d (vsum ws)) ws.
Proof. unfold shares. rewrite !map_map. reflexivity. Qed.
Lemma age_weights_eval ts sfrs ages t smin v : length ts = length sfrs ->
  map (fun e => eval e v) (age_weight_traces ts sfrs ages t smin) = calc_age_weights_from_sfh_table_k ts (map (fun e => eval e v) sfrs) ages t smin.
Proof. intros L. unfold age_weight_traces. rewrite shares_eval, bin_mass_eval by auto. reflexivity. Qed.
Lemma age_weights_ok ts sfrs ages t smin v : length ts = length sfrs -> ts <> [] -> (3 <= length ages)%nat ->
  calc_age_weights_from_sfh_table ts (map (fun e => eval e v) sfrs) ages t smin = Ok (map (fun e => eval e v) (age_weight_traces ts sfrs ages t smin)).
Proof.
  intros L N A. unfold calc_age_weights_from_sfh_table, check_sfh_tables, check_templates, check. rewrite fits_same by (now rewrite map_length).
  destruct ts; [contradiction|]. cbn [length Nat.eqb negb]. destruct (Nat.leb_spec 3 (length ages)); [|lia]. now rewrite age_weights_eval.
Qed.
Lemma mstar_eval ts sfrs t smin v : length ts = length sfrs -> eval (mstar_trace ts sfrs t smin) v = mstar_at_t_obs ts (map (fun e => eval e v) sfrs) t smin.
Proof. intros L. unfold mstar_trace, mstar_at_t_obs. cbn [eval]. now rewrite interp_eval, logsm_eval. Qed.
Definition ev2 (v : num) (m : list (list trace)) : list (list num) := map (map (fun e => eval e v)) m.
Definition ev3 (v : num) (m : list (list (list trace))) : list (list (list num)) := map (ev2 v) m.
Lemma concat_ev m v : map (fun e => eval e v) (concat m) = concat (ev2 v m). Proof. unfold ev2. now rewrite concat_map. Qed.
Lemma joint_eval mw aw v : ev2 v (joint_traces mw aw) = normalize_matrix (map (fun m => map (fun a => nmul m a) (map (fun e => eval e v) aw)) (map (fun e => eval e v) mw)).
Proof.
  unfold joint_traces, normalize_matrix, ev2. rewrite !map_map. apply map_ext. intros m. rewrite !map_map. apply map_ext. intros a. cbn [eval]. f_equal. f_equal.
  rewrite concat_map, !map_map. f_equal. apply map_ext. intros m'. now rewrite !map_map.
Qed.
Lemma map2_map_both {A B C D E} (f : A -> B -> C) (g : C -> D) (h : E -> A) l k : map g (map2 f (map h l) k) = map2 (fun a b => g (f (h a) b)) l k.
Proof. revert k. induction l; intros [|b k]; cbn [map map2]; auto. now rewrite IHl. Qed.
Lemma map2_ext' {A B C} (f g : A -> B -> C) : (forall a b, f a b = g a b) -> forall l k, map2 f l k = map2 g l k.
Proof. intros E. induction l; intros [|b k]; cbn [map2]; auto. now rewrite E, IHl. Qed.
Lemma sed_unit_eval n_wave flux w v : flux_n_wave (ev3 v flux) = n_wave -> map (fun e => eval e v) (sed_unit_traces n_wave flux w) = sed_unit_mstar (ev3 v flux) (ev2 v w).
Proof.
  intros <-. unfold sed_unit_traces, sed_unit_mstar. rewrite map_map. apply map_ext. intros k. cbn [eval]. f_equal. rewrite concat_ev. f_equal. unfold ev2, ev3. rewrite map_map2, map2_map.
  apply map2_ext'. intros p r. unfold ev2. rewrite map_map2, map2_map. apply map2_ext'. intros spec x. cbn [eval]. now rewrite entry_eval.
Qed.
Lemma sed_eval n_wave flux w m v : flux_n_wave (ev3 v flux) = n_wave -> map (fun e => eval e v) (sed_traces n_wave flux w m) = map (fun s => nmul s (eval m v)) (sed_unit_mstar (ev3 v flux) (ev2 v w)).
Proof. intros H. rewrite <- sed_unit_eval with (n_wave := n_wave) by auto. unfold sed_traces. rewrite !map_map. reflexivity. Qed.

(** magnitudes *)
Lemma trapz_eval x y v : eval (trapz_trace x y) v = trapz_k x (map (fun e => eval e v) y).
Proof.
  unfold trapz_trace, trapz_k. cbn [eval]. f_equal. f_equal. rewrite map_map2. unfold diff. rewrite <- map_tl, map2_map.
  assert (G : forall (l : list num) l' (m : list trace) m', map2 (fun a b => eval (Mul a b) v) (map2 (fun a b => Sub (Cst b) (Cst a)) l l') (map2 Add m m')
     = map2 nmul (map2 (fun a b => nsub b a) l l') (map2 (fun a b => nadd (eval a v) (eval b v)) m m')).
  { clear. induction l as [|a l IH]; intros [|b l'] [|c m] [|d m']; cbn [map2]; auto. now rewrite IH. }
  apply G.
Qed.
Lemma filter_flux_eval wave lum wf tf v : eval (filter_flux_trace wave lum wf tf) v = rest_flux_ssp wave (map (fun e => eval e v) lum) wf tf.
Proof.
  unfold filter_flux_trace, rest_flux_ssp. rewrite trapz_eval. f_equal. rewrite map_map2.
  assert (E : map (fun x => interp_lr (Fin 0) (Fin 0) x wave (map (fun e => eval e v) lum)) wf = map (fun e => eval e v) (map (fun x => interp_lr_trace (Cst (Fin 0)) (Cst (Fin 0)) x wave lum) wf)).
  { rewrite map_map. apply map_ext. intros x. now rewrite interp_lr_eval. }
  rewrite E. generalize (map (fun x => interp_lr_trace (Cst (Fin 0)) (Cst (Fin 0)) x wave lum) wf) as ph. intros ph. clear. revert tf wf. induction ph as [|p ph IH]; intros [|t tf] [|w wf]; cbn [map map2]; auto. now rewrite IH.
Qed.
Lemma mag_eval wave lum wf tf v : eval (mag_trace wave lum wf tf) v = calc_rest_mag_k wave (map (fun e => eval e v) lum) wf tf.
Proof. unfold mag_trace, calc_rest_mag_k, calc_rest_flux_k. cbn [eval]. now rewrite filter_flux_eval. Qed.
Lemma obs_mag_eval wave lum wf tf z Om0 w0 wa h v : eval (obs_mag_trace wave lum wf tf z Om0 w0 wa h) v = calc_obs_mag_k wave (map (fun e => eval e v) lum) wf tf z Om0 w0 wa h.
Proof. unfold obs_mag_trace. cbn [eval]. rewrite mag_eval. reflexivity. Qed.
End Ev2.
