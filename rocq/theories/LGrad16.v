(** * Gradients with respect to the time of observation: the property lemmas *)
From Coq Require Import Reals List Arith Lra Lia ZArith Bool.
From Coquelicot Require Import Coquelicot.
From Flocq Require Import Core.Raux.
From Verif Require Import Num Arr MUtils MSed MCosmo MPhot MGrad MTrace MTrace2 MTrace3 MTrace4 Spec Spec2 SpecGrad RList LUtils LBcast LKern LImf LMet LAge LJoint LPhot LDiff LGrad LGrad2 LGrad3 LGrad4 LGrad5 LGrad6 LGrad7 LGrad8 LGrad9 LGrad13 LGrad15.
Import ListNotations.
Open Scope R_scope.
Local Notation Ts l v := (List.Forall (fun e => T e v) l).
#[local] Existing Instance exact.

Lemma log10_neq x y : 0 < x -> 0 < y -> x <> y -> log10 x <> log10 y.
Proof. intros X Y N E. apply N. rewrite <- (pow10_log10 x X), <- (pow10_log10 y Y). now f_equal. Qed.
Section TO.
Variables (ts ss : list R) (fs : list trace) (c v tv : R) (t : trace).
Hypothesis (F : Ts fs v) (E : map (fun e => eval e (Fin v)) fs = fins ss) (A : avoids c ss) (L : length ts = length ss) (Ln : (2 <= length ts)%nat) (I : increasing (0.001 :: ts)) (P : 0 < c).
Hypothesis (Tt : T t v) (Et : eval t (Fin v) = Fin tv).
Lemma tn : ts <> []. Proof using Ln. intros Z. clear - Ln Z. subst. simpl in Ln. lia. Qed.
Lemma Lfs : length ts = length fs. Proof using E L. transitivity (length (map (fun e => eval e (Fin v)) fs)); [rewrite E, fins_length; auto|apply map_length]. Qed.
Lemma T_logmass x y : T x v -> eval x (Fin v) = Fin (log10 y) -> 0 < y -> (forall u, In u ts -> u <> y) ->
  T (interp_x_trace x (fins (map log10 ts)) (logsm_traces (fins ts) fs (Fin c))) v.
Proof using F E A L Ln I P.
  intros Tx Ex Y N. apply T_interp_x with (y := log10 y); auto.
  - eapply T_logsm; eauto.
  - rewrite logsm_len by (rewrite fins_length; apply Lfs). now rewrite fins_length, map_length.
  - now rewrite map_length.
  - apply log10_increasing; [now apply times_pos|]. now apply increasing_cons in I.
  - apply List.Forall_map, List.Forall_forall. intros u Iu. apply log10_neq; auto. now apply (times_pos ts I).
Qed.
Lemma T_mstar_t : 0 < tv -> (forall u, In u ts -> u <> tv) -> T (mstar_t_trace (fins ts) fs t (Fin c)) v.
Proof using F E A L Ln I P Tt Et.
  intros H N. unfold mstar_t_trace. apply T_pow10. rewrite log10_table_fins by now apply times_pos. apply T_logmass with (y := tv); auto.
  - eapply T_log10; eauto.
  - cbn [eval]. rewrite Et. now apply nlog10_fin.
Qed.
Lemma T_bin_mass_t ages : (3 <= length ages)%nat ->
  (forall a u, In a (age_edges ages) -> tv - pow10 a <> 0.001 /\ (In u ts -> tv - pow10 a <> u)) -> Ts (bin_mass_t_traces (fins ts) fs (fins ages) t (Fin c)) v.
Proof using F E A L Ln I P Tt Et.
  intros Ha N. unfold bin_mass_t_traces. cbv zeta. rewrite get_lg_age_bin_edges_fins by auto. rewrite log10_table_fins by now apply times_pos.
  assert (G : Ts (map (fun a => Pow10 (interp_x_trace (lgt_birth_trace t a) (fins (map log10 ts)) (logsm_traces (fins ts) fs (Fin c)))) (fins (age_edges ages))) v).
  { apply List.Forall_map. unfold fins at 1. apply List.Forall_map. apply List.Forall_forall. intros a Ia. apply T_pow10. destruct (N a 0 Ia) as [N0 _].
    apply T_logmass with (y := birth_time tv a).
    - eapply T_lgt_birth; eauto.
    - rewrite lgt_birth_eval, Et. apply get_lgt_birth_fin.
    - unfold birth_time. pose proof (Rmax_l 0.001 (tv - pow10 a)). lra.
    - intros u Iu. destruct (N a u Ia) as [_ Nu]. specialize (Nu Iu). assert (0.001 < u) by (apply increasing_cons in I as [I0 _]; auto).
      unfold birth_time, Rmax. destruct Rle_dec; lra. }
  revert G. generalize (map (fun a => Pow10 (interp_x_trace (lgt_birth_trace t a) (fins (map log10 ts)) (logsm_traces (fins ts) fs (Fin c)))) (fins (age_edges ages))) as sm. intros sm G.
  apply List.Forall_map. apply Forall_map2. intros a b Ia Ib. apply T_neg. assert (Ib' : In b sm) by (destruct sm; [exact Ib|right; exact Ib]).
  rewrite List.Forall_forall in G. apply T_sub; auto.
Qed.
Lemma T_age_weights_t ages : (3 <= length ages)%nat ->
  (forall a u, In a (age_edges ages) -> tv - pow10 a <> 0.001 /\ (In u ts -> tv - pow10 a <> u)) -> total_mass ts ss c tv ages <> 0 -> Ts (age_weight_t_traces (fins ts) fs (fins ages) t (Fin c)) v.
Proof using F E A L Ln I P Tt Et.
  intros Ha N M. unfold age_weight_t_traces. eapply T_shares; [now apply T_bin_mass_t| |exact M].
  change (eval (Sum ?l) (Fin v)) with (vsum (map (fun e => eval e (Fin v)) l)). rewrite bin_mass_t_eval.
  - rewrite Et. exact (bin_mass_total ts ss ages fs c v tv E L tn I P Ha).
  - intros Z. apply tn. destruct ts; [auto|discriminate].
  - rewrite fins_length. apply Lfs.
Qed.
End TO.

Lemma C168_lemma : forall ts sfrs lgmet scatter ssp_lgmet ages flux t_obs sfr_min v ss m h tv n_wave,
  right_gradients sfrs v -> right_gradient lgmet v -> right_gradient scatter v -> List.Forall (List.Forall (fun s => right_gradients s v)) flux -> right_gradient t_obs v ->
  map (fun e => eval e (Fin v)) sfrs = fins ss -> eval lgmet (Fin v) = Fin m -> eval scatter (Fin v) = Fin h -> eval t_obs (Fin v) = Fin tv ->
  good_grids ts ss h ssp_lgmet ages tv -> (2 <= length ts)%nat -> 0 < tv -> 0 < sfr_min -> -10 <= m <= 10 ->
  avoids sfr_min ss -> avoids (1 / 10 ^ 14) ss ->
  avoids tv ts -> (forall lg_age, In lg_age (age_edges ages) -> avoids (tv - pow10 lg_age) (0.001 :: ts)) ->
  length flux = length ssp_lgmet -> List.Forall (is_matrix (length ages) n_wave) flux ->
  (forall (AR : Arith) w,
     let aw := age_weight_t_traces (AR := AR) (fins ts) sfrs (fins ages) t_obs SFR_MIN in
     let mw := lgmet_weight_traces (AR := AR) lgmet scatter (get_bin_edges_k (fins ssp_lgmet) LGMET_LO LGMET_HI) in
     let jw := joint_traces mw aw in
     calc_rest_sed_sfh_table_lognormal_mdf (fins ts) (map (fun e => eval (AR := AR) e w) sfrs) (eval lgmet w) (eval scatter w)
       (fins ssp_lgmet) (fins ages) (map (map (map (fun e => eval e w))) flux) (eval t_obs w) (Fin sfr_min)
     = Ok {| rest_sed := map (fun e => eval e w) (sed_traces n_wave flux jw (mstar_t_trace (AR := AR) (fins ts) sfrs t_obs (Fin sfr_min)));
             rs_weights := map (map (fun e => eval e w)) jw; rs_lgmet_weights := map (fun e => eval e w) mw; rs_age_weights := map (fun e => eval e w) aw |})
  /\ let aw := age_weight_t_traces (fins ts) sfrs (fins ages) t_obs SFR_MIN in
     let mw := lgmet_weight_traces lgmet scatter (get_bin_edges_k (fins ssp_lgmet) LGMET_LO LGMET_HI) in
     let jw := joint_traces mw aw in
     right_gradients (sed_traces n_wave flux jw (mstar_t_trace (fins ts) sfrs t_obs (Fin sfr_min))) v
     /\ List.Forall (fun row => right_gradients row v) jw /\ right_gradients aw v.
Proof.
  intros ts sfrs lgmet scatter lgmets ages flux t_obs smin v ss m h tv n_wave S G H F RT Es Em Eh Et GG Ln Ht Hs Hm A1 A2 A3 A4 Lf Cf.
  destruct (joint_lognormal_fins ts ss m h lgmets ages tv GG) as (mwv & awv & E1 & L1 & D1 & E2 & L2 & D2 & _).
  destruct GG as (Hl & Hn & Hi & Ha & He & Hh & Hlm & Hme & Hf).
  assert (Ls : length (fins ts) = length sfrs). { rewrite fins_length. transitivity (length (map (fun e => eval e (Fin v)) sfrs)); [rewrite Es, fins_length; auto|apply map_length]. }
  assert (Nf : fins ts <> []) by (intros Z; apply Hn; destruct ts; [auto|discriminate]).
  assert (N4 : forall a u, In a (age_edges ages) -> tv - pow10 a <> 0.001 /\ (In u ts -> tv - pow10 a <> u)).
  { intros a u Ia. specialize (A4 a Ia). unfold avoids in A4. rewrite List.Forall_forall in A4. split; [apply not_eq_sym, A4; now left|intros Iu; apply not_eq_sym, A4; now right]. }
  assert (N3 : forall u, In u ts -> u <> tv) by (apply List.Forall_forall; exact A3).
  split.
  - intros AR w. apply rest_sed_t_eval; [exact Ls|exact Nf|now rewrite fins_length|now rewrite fins_length|rewrite !fins_length; split; auto].
  - cbv zeta. destruct (C162_lemma lgmet scatter lgmets v m h G H Em Eh Hlm Hm Hh) as (V & R). specialize (V exact (Fin v)).
    pose proof (proj1 (Ts_right _ _) S) as S'. pose proof (proj2 (T_right _ _) RT) as T'.
    change (SFR_MIN) with (Fin (1 / 10 ^ 14)).
    assert (R' : Ts (age_weight_t_traces (fins ts) sfrs (fins ages) t_obs (Fin (1 / 10 ^ 14))) v).
    { eapply T_age_weights_t; eauto; [exact sfr_min_pos|]. unfold total_mass, edge_mass. lra. }
    pose proof (age_weights_ok (AR := exact) (fins ts) sfrs (fins ages) (Fin tv) (Fin (1 / 10 ^ 14)) (Fin v) Ls Nf ltac:(now rewrite fins_length)) as V'.
    rewrite <- Et, <- age_weight_t_eval in V' by auto. rewrite Et in V'.
    rewrite Em, Eh, E2 in V. injection V as V. rewrite Es, E1 in V'. injection V' as V'.
    set (mw := lgmet_weight_traces lgmet scatter _) in *. set (aw := age_weight_t_traces _ _ _ _ _) in *.
    assert (J : List.Forall (fun r => Ts r v) (joint_traces mw aw)).
    { apply (T_joint mw aw v mwv awv); try (apply Ts_right; assumption); auto. destruct D1 as [_ ->], D2 as [_ ->]. lra. }
    split; [|split]; [|eapply List.Forall_impl; [|exact J]; intros; now apply Ts_right|now apply Ts_right].
    apply Ts_right. apply T_sed; auto.
    + assert (Q : is_matrix (length lgmets) (length ages) (joint_traces mw aw)).
      { assert (La : length aw = length ages) by (rewrite <- (map_length (fun e => eval e (Fin v)) aw), <- V', fins_length; auto).
        unfold joint_traces. split; [rewrite !map_length, <- (map_length (fun e => eval e (Fin v)) mw), <- V, fins_length; auto|].
        apply List.Forall_map, List.Forall_map. apply List.Forall_forall. intros x _. now rewrite !map_length. }
      destruct Q as [Q1 Q2]. split; [congruence|]. replace (length (hd [] (joint_traces mw aw))) with (length ages); auto.
      destruct (joint_traces mw aw) as [|r q]; [simpl in Q1; lia|]. now inversion Q2.
    + eapply List.Forall_impl; [|exact F]. intros p Hp. eapply List.Forall_impl; [|exact Hp]. intros q. apply Ts_right.
    + eapply T_mstar_t; eauto.
Qed.
