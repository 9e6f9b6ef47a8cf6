(** * Gradients of the joint weights, the SED and the magnitudes *)
From Coq Require Import Reals List Arith Lra Lia ZArith Bool.
From Coquelicot Require Import Coquelicot.
From Flocq Require Import Core.Raux.
From Verif Require Import Num Arr MUtils MSed MCosmo MPhot MGrad MTrace MTrace2 Spec Spec2 SpecGrad RList LUtils LBcast LKern LImf LMet LAge LJoint LPhot LDiff LGrad LGrad2 LGrad3 LGrad4 LGrad5 LGrad6 LGrad7 LGrad8.
Import ListNotations.
Open Scope R_scope.
Local Notation Ts l v := (List.Forall (fun e => T e v) l).
Local Notation met_traces g s grid := (lgmet_weight_traces g s (get_bin_edges_k grid LGMET_LO LGMET_HI)).

Section Ev.
Context {AR : Arith}.
Lemma ssp_weights_eval (ts ages lgmets : list num) t_obs sfrs g s v : length ts = length sfrs -> ts <> [] -> (3 <= length ages)%nat -> (3 <= length lgmets)%nat ->
  let aw := age_weight_traces ts sfrs ages t_obs SFR_MIN in let mw := met_traces g s lgmets in
  calc_ssp_weights_sfh_table_lognormal_mdf ts (map (fun e => eval e v) sfrs) (eval g v) (eval s v) lgmets ages t_obs
  = Ok {| weights := ev2 v (joint_traces mw aw); lgmet_weights := map (fun e => eval e v) mw; age_weights := map (fun e => eval e v) aw |}.
Proof.
  intros L N A M aw mw. unfold calc_ssp_weights_sfh_table_lognormal_mdf. rewrite age_weights_ok by auto. cbn [bind].
  unfold calc_lgmet_weights_from_lognormal_mdf, check_templates, check. destruct (Nat.leb_spec 3 (length lgmets)); [|lia]. cbn [bind].
  rewrite joint_eval. unfold mw, aw. rewrite lgmet_traces_eval. reflexivity.
Qed.
Definition trace_cube (n k w : nat) (f : list (list (list trace))) : Prop := length f = n /\ List.Forall (is_matrix k w) f.
Lemma ev3_has n k w f v : (0 < n)%nat -> (0 < k)%nat -> trace_cube n k w f -> flux_shape_ok n k (ev3 v f) = true /\ flux_n_wave (ev3 v f) = w /\ stretch_flux n k (ev3 v f) = ev3 v f.
Proof.
  intros Hn Hk [Ln F]. split; [|split].
  - apply shape_ok_iff; try lia. exists n, k, w. unfold stands_for, ev3. rewrite map_length. repeat split; auto.
    apply List.Forall_map. eapply List.Forall_impl; [|exact F]. intros p [Lp Fp]. unfold ev2. rewrite map_length. split; auto. apply List.Forall_map. eapply List.Forall_impl; [|exact Fp]. intros q <-. apply map_length.
  - destruct f as [|p f]; [simpl in Ln; lia|]. inversion F as [|? ? [Lp Fp] _]; subst. destruct p as [|q p]; [simpl in Hk; lia|]. inversion Fp; subst. unfold flux_n_wave, ev3, ev2. cbn [map hd]. apply map_length.
  - unfold stretch_flux. rewrite (map_ext_in _ (fun p => p)).
    + rewrite map_id. apply stretch_same. unfold ev3. now rewrite map_length.
    + intros p Hp. unfold ev3 in Hp. apply in_map_iff in Hp as (q & <- & Hq). apply stretch_same. unfold ev2. rewrite map_length. rewrite List.Forall_forall in F. now destruct (F q Hq).
Qed.
Lemma rest_sed_eval (ts ages lgmets : list num) t_obs smin sfrs g s flux w v : length ts = length sfrs -> ts <> [] -> (3 <= length ages)%nat -> (3 <= length lgmets)%nat ->
  trace_cube (length lgmets) (length ages) w flux ->
  let aw := age_weight_traces ts sfrs ages t_obs SFR_MIN in let mw := met_traces g s lgmets in let jw := joint_traces mw aw in
  calc_rest_sed_sfh_table_lognormal_mdf ts (map (fun e => eval e v) sfrs) (eval g v) (eval s v) lgmets ages (ev3 v flux) t_obs smin
  = Ok {| rest_sed := map (fun e => eval e v) (sed_traces w flux jw (mstar_trace ts sfrs t_obs smin));
          rs_weights := ev2 v jw; rs_lgmet_weights := map (fun e => eval e v) mw; rs_age_weights := map (fun e => eval e v) aw |}.
Proof.
  intros L N A M C aw mw jw. unfold calc_rest_sed_sfh_table_lognormal_mdf. rewrite ssp_weights_eval by auto. cbn [bind weights lgmet_weights age_weights].
  destruct (ev3_has (length lgmets) (length ages) w flux v ltac:(lia) ltac:(lia) C) as (C1 & C2 & C3). unfold check. rewrite C1, C3.
  rewrite sed_eval by exact C2. rewrite mstar_eval by auto. reflexivity.
Qed.
Lemma check_spec_gen {A} (ws ls wf tf : list num) (k : res A) : length ws = length ls -> ws <> [] -> length wf = length tf -> check_spec ws ls wf tf k = k.
Proof.
  intros L N F. unfold check_spec, check. rewrite (proj2 (same_len_true ws ls)) by auto. unfold filter_ok. rewrite fits_same by auto. cbn [orb]. destruct ws; [contradiction|]. reflexivity.
Qed.
Lemma rest_mag_eval (ws : list num) lum wf tf v : length ws = length lum -> ws <> [] -> length wf = length tf ->
  calc_rest_mag ws (map (fun e => eval e v) lum) wf tf = Ok (eval (mag_trace ws lum wf tf) v).
Proof. intros L N F. unfold calc_rest_mag. rewrite check_spec_gen by (rewrite ?map_length; auto). rewrite stretch_same by auto. now rewrite mag_eval. Qed.
Lemma obs_mag_eval_ok (ws : list num) lum wf tf z Om0 w0 wa h v : length ws = length lum -> ws <> [] -> length wf = length tf ->
  calc_obs_mag ws (map (fun e => eval e v) lum) wf tf z Om0 w0 wa h = Ok (eval (obs_mag_trace ws lum wf tf z Om0 w0 wa h) v).
Proof. intros L N F. unfold calc_obs_mag. rewrite check_spec_gen by (rewrite ?map_length; auto). rewrite stretch_same by auto. now rewrite obs_mag_eval. Qed.
End Ev.
#[local] Existing Instance exact.

Lemma T_concat m v : List.Forall (fun r => Ts r v) m -> Ts (concat m) v.
Proof. induction 1; cbn [concat]; auto. now apply List.Forall_app. Qed.
Lemma T_joint mw aw v ms as_ : Ts mw v -> Ts aw v -> map (fun e => eval e (Fin v)) mw = fins ms -> map (fun e => eval e (Fin v)) aw = fins as_ -> Rsum ms * Rsum as_ <> 0 ->
  List.Forall (fun r => Ts r v) (joint_traces mw aw).
Proof.
  intros M A Em Ea N. unfold joint_traces. set (w := map _ mw).
  assert (W : List.Forall (fun r => Ts r v) w).
  { unfold w. apply List.Forall_map. eapply List.Forall_impl; [|exact M]. intros m Tm. cbv beta. apply List.Forall_map. eapply List.Forall_impl; [|exact A]. intros a Ta. cbv beta. ts. }
  assert (S : T (Sum (concat w)) v) by (apply T_sum; now apply T_concat).
  assert (Es : eval (Sum (concat w)) (Fin v) = Fin (Rsum ms * Rsum as_)).
  { change (vsum (map (fun e => eval e (Fin v)) (concat w)) = Fin (Rsum ms * Rsum as_)). rewrite concat_ev. replace (ev2 (Fin v) w) with (map fins (outer ms as_)).
    - rewrite concat_fins2, vsum_fins, Rsum_concat, outer_sum. reflexivity.
    - unfold ev2, w, outer. rewrite !map_map. transitivity (map (fun x => map (fun y => nmul x y) (fins as_)) (fins ms)); [unfold fins; rewrite !map_map; apply map_ext; intros; rewrite !map_map; reflexivity|].
      rewrite <- Em, map_map. apply map_ext. intros m. rewrite <- Ea, !map_map. reflexivity. }
  apply List.Forall_map. eapply List.Forall_impl; [|exact W]. intros r Tr. cbv beta. apply List.Forall_map. eapply List.Forall_impl; [|exact Tr]. intros x Tx. cbv beta.
  apply T_div; auto. rewrite Es. now apply neq_fin.
Qed.
Lemma T_sed n_wave flux w m v : trace_cube (length w) (length (hd [] w)) n_wave flux -> List.Forall (List.Forall (fun s => Ts s v)) flux -> List.Forall (fun r => Ts r v) w -> T m v -> Ts (sed_traces n_wave flux w m) v.
Proof.
  intros C F W M. unfold sed_traces, sed_unit_traces. rewrite map_map. apply List.Forall_map. apply List.Forall_forall. intros k Hk. apply in_seq in Hk. apply T_mul; auto. apply T_sum. apply T_concat.
  apply Forall_map2. intros p r Ip Ir. apply Forall_map2. intros s x Is Ix. destruct C as [_ C]. rewrite List.Forall_forall in C, F, W. specialize (C p Ip). specialize (F p Ip). specialize (W r Ir).
  rewrite List.Forall_forall in F, W. specialize (F s Is). specialize (W x Ix). destruct C as [_ C]. rewrite List.Forall_forall in C. specialize (C s Is).
  apply T_mul; auto. apply T_entry; auto. lia.
Qed.
(** ** C164 *)
Lemma C164_lemma : forall ts sfrs lgmet scatter ssp_lgmet ages flux t_obs sfr_min v ss m h n_wave,
  right_gradients sfrs v -> right_gradient lgmet v -> right_gradient scatter v -> List.Forall (List.Forall (fun s => right_gradients s v)) flux ->
  map (fun e => eval e (Fin v)) sfrs = fins ss -> eval lgmet (Fin v) = Fin m -> eval scatter (Fin v) = Fin h ->
  good_grids ts ss h ssp_lgmet ages t_obs -> 0 < t_obs -> 0 < sfr_min -> -10 <= m <= 10 ->
  avoids sfr_min ss -> avoids (1 / 10 ^ 14) ss ->
  length flux = length ssp_lgmet -> List.Forall (is_matrix (length ages) n_wave) flux ->
  (forall (AR : Arith) w,
     let aw := age_weight_traces (AR := AR) (fins ts) sfrs (fins ages) (Fin t_obs) SFR_MIN in
     let mw := lgmet_weight_traces (AR := AR) lgmet scatter (get_bin_edges_k (fins ssp_lgmet) LGMET_LO LGMET_HI) in
     let jw := joint_traces mw aw in
     calc_rest_sed_sfh_table_lognormal_mdf (fins ts) (map (fun e => eval (AR := AR) e w) sfrs) (eval lgmet w) (eval scatter w)
       (fins ssp_lgmet) (fins ages) (map (map (map (fun e => eval e w))) flux) (Fin t_obs) (Fin sfr_min)
     = Ok {| rest_sed := map (fun e => eval e w) (sed_traces n_wave flux jw (mstar_trace (AR := AR) (fins ts) sfrs (Fin t_obs) (Fin sfr_min)));
             rs_weights := map (map (fun e => eval e w)) jw; rs_lgmet_weights := map (fun e => eval e w) mw; rs_age_weights := map (fun e => eval e w) aw |})
  /\ let aw := age_weight_traces (fins ts) sfrs (fins ages) (Fin t_obs) SFR_MIN in
     let mw := lgmet_weight_traces lgmet scatter (get_bin_edges_k (fins ssp_lgmet) LGMET_LO LGMET_HI) in
     let jw := joint_traces mw aw in
     right_gradients (sed_traces n_wave flux jw (mstar_trace (fins ts) sfrs (Fin t_obs) (Fin sfr_min))) v
     /\ List.Forall (fun row => right_gradients row v) jw /\ right_gradients mw v /\ right_gradients aw v.
Proof.
  intros ts sfrs lgmet scatter lgmets ages flux t_obs smin v ss m h n_wave S G H F Es Em Eh GG Ht Hs Hm A1 A2 Lf Cf.
  destruct (joint_lognormal_fins ts ss m h lgmets ages t_obs GG) as (mwv & awv & E1 & L1 & D1 & E2 & L2 & D2 & _).
  destruct GG as (Hl & Hn & Hi & Ha & He & Hh & Hlm & Hme & Hf).
  assert (Ls : length (fins ts) = length sfrs). { rewrite fins_length. transitivity (length (map (fun e => eval e (Fin v)) sfrs)); [rewrite Es, fins_length; auto|apply map_length]. }
  assert (Nf : fins ts <> []) by (intros Z; apply Hn; destruct ts; [auto|discriminate]).
  split.
  - intros AR w. apply rest_sed_eval; [exact Ls|exact Nf|now rewrite fins_length|now rewrite fins_length|rewrite !fins_length; split; auto].
  - cbv zeta. destruct (C162_lemma lgmet scatter lgmets v m h G H Em Eh Hlm Hm Hh) as (V & R). specialize (V exact (Fin v)).
    destruct (C164_age_lemma ts sfrs ages t_obs (1 / 10 ^ 14) v ss S Es Hl Hn Hi Ha ltac:(exact sfr_min_pos) A2 Hf) as (V' & R'). specialize (V' exact (Fin v)).
    change (SFR_MIN) with (Fin (1 / 10 ^ 14)).
    rewrite Em, Eh, E2 in V. injection V as V. rewrite Es, E1 in V'. injection V' as V'.
    set (mw := lgmet_weight_traces lgmet scatter _) in *. set (aw := age_weight_traces _ _ _ _ _) in *.
    assert (J : List.Forall (fun r => Ts r v) (joint_traces mw aw)).
    { apply (T_joint mw aw v mwv awv); try (apply Ts_right; assumption); auto. destruct D1 as [_ ->], D2 as [_ ->]. lra. }
    split; [|split; [|split]]; auto; [|eapply List.Forall_impl; [|exact J]; intros; now apply Ts_right].
    apply Ts_right. apply Ts_right in S. apply T_sed; auto.
    + assert (Q : is_matrix (length lgmets) (length ages) (joint_traces mw aw)).
      { assert (La : length aw = length ages) by (rewrite <- (map_length (fun e => eval e (Fin v)) aw), <- V', fins_length; auto).
        unfold joint_traces. split; [rewrite !map_length, <- (map_length (fun e => eval e (Fin v)) mw), <- V, fins_length; auto|].
        apply List.Forall_map, List.Forall_map. apply List.Forall_forall. intros x _. now rewrite !map_length. }
      destruct Q as [Q1 Q2]. split; [congruence|]. replace (length (hd [] (joint_traces mw aw))) with (length ages); auto.
      destruct (joint_traces mw aw) as [|r q]; [simpl in Q1; lia|]. now inversion Q2.
    + eapply List.Forall_impl; [|exact F]. intros p Hp. eapply List.Forall_impl; [|exact Hp]. intros q. apply Ts_right.
    + eapply T_mstar; eauto.
Qed.

(** ** C165: magnitudes *)
Lemma T_trapz (xs : list R) ys v : Ts ys v -> T (trapz_trace (fins xs) ys) v.
Proof.
  intros F. unfold trapz_trace. apply T_mul; [ts|]. apply T_sum. apply Forall_map2. intros a b Ia Ib. assert (T a v /\ T b v) as [? ?]; [|ts]. split.
  - revert a Ia. apply List.Forall_forall. apply Forall_map2. intros p q Ip Iq. assert (Iq' : In q (fins xs)) by (destruct xs; [exact Iq|right; exact Iq]).
    apply in_map_iff in Ip as (? & <- & _), Iq' as (? & <- & _). ts.
  - revert b Ib. apply List.Forall_forall. apply Forall_map2. intros p q Ip Iq. assert (Ip' : In p ys) by (destruct ys; [exact Ip|right; exact Ip]). rewrite List.Forall_forall in F. ts; auto.
Qed.
Lemma T_filter_flux (ws wf tf : list R) lum v : ws <> [] -> length ws = length lum -> Ts lum v -> List.Forall (fun w => 0 < w) wf -> T (filter_flux_trace (fins ws) lum (fins wf) (fins tf)) v.
Proof.
  intros N L F P. unfold filter_flux_trace. apply T_trapz. apply Forall_map2. intros a w Ia Iw. apply in_map_iff in Iw as (r & <- & Ir). rewrite List.Forall_forall in P. specialize (P r Ir).
  apply T_div; ts; [cbn [eval]; apply neq_fin; lra|]. revert a Ia. apply List.Forall_forall. apply Forall_map2. intros t l It Il. apply in_map_iff in It as (q & <- & _).
  apply in_map_iff in Il as (x & <- & Ix). apply in_map_iff in Ix as (y & <- & _). ts. apply T_interp_lr; ts.
Qed.
Lemma T_mag (ws wf tf : list R) lum v f : ws <> [] -> length ws = length lum -> Ts lum v -> good_filter wf tf ->
  ndiv (eval (filter_flux_trace (fins ws) lum (fins wf) (fins tf)) (Fin v)) (flux_ab0_at_10pc (fins wf) (fins tf)) = Fin f -> 0 < f -> T (mag_trace (fins ws) lum (fins wf) (fins tf)) v.
Proof.
  intros N L F (Lf & P & B) E Pf. unfold mag_trace. apply T_mul; [change (lit (-2.5)) with (Fin (-2.5)); ts|]. apply T_log10 with (v := f); auto.
  rewrite norm_fin by auto. apply T_div; ts; [cbn [eval]; apply neq_fin; lra|]. now apply T_filter_flux.
Qed.
Lemma C165_rest_lemma : forall ws lum wf tf v ls,
  right_gradients lum v -> map (fun e => eval e (Fin v)) lum = fins ls -> good_spectrum ws ls -> good_filter wf tf -> 0 < band_flux (spectrum_at ws ls) wf tf ->
  (forall (AR : Arith) w, calc_rest_mag (fins ws) (map (fun e => eval (AR := AR) e w) lum) (fins wf) (fins tf) = Ok (eval (mag_trace (AR := AR) (fins ws) lum (fins wf) (fins tf)) w))
  /\ right_gradient (mag_trace (fins ws) lum (fins wf) (fins tf)) v.
Proof.
  intros ws lum wf tf v ls R E G F P. pose proof G as (I & L & N). pose proof F as (Lf & Pw & B).
  assert (Ll : length ws = length lum). { transitivity (length (map (fun e => eval e (Fin v)) lum)); [rewrite E, fins_length; auto|apply map_length]. }
  split.
  - intros AR w. apply rest_mag_eval; rewrite ?fins_length; auto. intros Z. apply N. destruct ws; [auto|discriminate].
  - apply T_right. apply Ts_right in R. apply T_mag with (f := band_flux (spectrum_at ws ls) wf tf); auto.
    rewrite filter_flux_eval, E, restflux_fin, norm_fin by auto. now rewrite ndiv_fin by lra.
Qed.
Lemma C165_obs_lemma : forall ws lum wf tf z Om0 w0 wa h v ls,
  right_gradients lum v -> map (fun e => eval e (Fin v)) lum = fins ls -> good_spectrum ws ls -> good_filter wf tf -> 0 < z -> 0 < Om0 <= 1 -> 0 < h ->
  0 < band_flux (fun x => spectrum_at ws ls (x / (1 + z))) wf tf ->
  (forall (AR : Arith) w, calc_obs_mag (fins ws) (map (fun e => eval (AR := AR) e w) lum) (fins wf) (fins tf) (Fin z) (Fin Om0) (Fin w0) (Fin wa) (Fin h)
     = Ok (eval (obs_mag_trace (AR := AR) (fins ws) lum (fins wf) (fins tf) (Fin z) (Fin Om0) (Fin w0) (Fin wa) (Fin h)) w))
  /\ right_gradient (obs_mag_trace (fins ws) lum (fins wf) (fins tf) (Fin z) (Fin Om0) (Fin w0) (Fin wa) (Fin h)) v.
Proof.
  intros ws lum wf tf z Om0 w0 wa h v ls R E G F Hz HO Hh P. destruct (dimming_fin z Om0 w0 wa h Hz HO Hh) as (mu & _ & D). pose proof G as (I & L & N). pose proof F as (Lf & Pw & B).
  assert (Ll : length ws = length lum). { transitivity (length (map (fun e => eval e (Fin v)) lum)); [rewrite E, fins_length; auto|apply map_length]. }
  split.
  - intros AR w. apply obs_mag_eval_ok; rewrite ?fins_length; auto. intros Z. apply N. destruct ws; [auto|discriminate].
  - apply T_right. apply Ts_right in R. unfold obs_mag_trace. rewrite D. apply T_add; [|ts].
    assert (Ez : map (fun w => nmul w (nadd (Fin 1) (Fin z))) (fins ws) = fins (map (fun w => w * (1 + z)) ws)) by (apply map_fins; reflexivity).
    rewrite Ez. apply T_mag with (f := band_flux (fun x => spectrum_at ws ls (x / (1 + z))) wf tf); auto.
    + destruct ws; [contradiction|discriminate].
    + now rewrite map_length.
    + rewrite filter_flux_eval, E, norm_fin by auto. rewrite <- Ez.
      change (rest_flux_ssp (map (fun w => nmul w (nadd (Fin 1) (Fin z))) (fins ws)) (fins ls) (fins wf) (fins tf)) with (obs_flux_ssp (fins ws) (fins ls) (fins wf) (fins tf) (Fin z)).
      rewrite obsflux_fin by (auto; lra). now rewrite ndiv_fin by lra.
Qed.
