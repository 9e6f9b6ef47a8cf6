(** * Lemmas for C171: the metallicity-table SED, time of observation differentiated *)
From Coq Require Import Reals List Arith Lra Lia ZArith Bool.
From Coquelicot Require Import Coquelicot.
From Flocq Require Import Core.Raux.
From Verif Require Import Num Arr MUtils MSed MCosmo MPhot MGrad MTrace MTrace2 MTrace3 MTrace4 MTrace5 Spec Spec2 SpecGrad RList LUtils LBcast LKern LImf LMet LAge LJoint LPhot LDiff LGrad LGrad2 LGrad3 LGrad4 LGrad5 LGrad6 LGrad7 LGrad8 LGrad9 LGrad10 LGrad13 LGrad15 LGrad16.
Import ListNotations.
Open Scope R_scope.
Local Notation Ts l v := (List.Forall (fun e => T e v) l).
#[local] Strategy 1000 [nmul nadd nsub ndiv nlog10 npow nsqrt nexp].

Section Ev.
Context {AR : Arith}.
Lemma lgmet_matrix_t_eval (ts : list num) tab s lgmets ages t v : ts <> [] -> length ts = length tab ->
  ev2 v (lgmet_matrix_t_traces ts tab s lgmets ages t) = ev2 v (lgmet_matrix_traces ts tab s lgmets ages (eval t v)).
Proof.
  intros N L. unfold lgmet_matrix_t_traces, lgmet_matrix_traces, ev2. rewrite !map_map. apply map_ext. intros i. rewrite !map_map. apply map_ext. intros a.
  rewrite !entry_eval, !map_map. cbn [eval]. f_equal.
  rewrite <- !(map_map (fun e => eval e v) (fun y => ndiv y (Fin (INR (length ages))))). rewrite !lgmet_traces_eval.
  rewrite interp_x_eval, interp_eval, lgt_birth_eval; [reflexivity| |now rewrite map_length]. destruct ts; [contradiction|discriminate].
Qed.
Lemma rest_sed_table_t_eval (ts ages lgmets : list num) t_obs smin sfrs tab s flux w v : length ts = length sfrs -> length ts = length tab -> ts <> [] -> (3 <= length ages)%nat -> (3 <= length lgmets)%nat ->
  trace_cube (length lgmets) (length ages) w flux ->
  let aw := age_weight_t_traces ts sfrs ages t_obs SFR_MIN in let mw := lgmet_matrix_t_traces ts tab s lgmets ages t_obs in let jw := joint_table_traces mw aw in
  calc_rest_sed_sfh_table_met_table ts (map (fun e => eval e v) sfrs) (map (fun e => eval e v) tab) (eval s v) lgmets ages (ev3 v flux) (eval t_obs v) smin
  = Ok {| rest_sed := map (fun e => eval e v) (sed_traces w flux jw (mstar_t_trace ts sfrs t_obs smin));
          rs_weights := ev2 v jw; rs_lgmet_weights := ev2 v mw; rs_age_weights := map (fun e => eval e v) aw |}.
Proof.
  intros L L' N A M C aw mw jw. rewrite (rest_sed_table_eval ts ages lgmets (eval t_obs v) smin sfrs tab s flux w v L L' N A M C).
  destruct (ev3_has (length lgmets) (length ages) w flux v ltac:(lia) ltac:(lia) C) as (C1 & C2 & C3).
  assert (EA : map (fun e => eval e v) aw = map (fun e => eval e v) (age_weight_traces ts sfrs ages (eval t_obs v) SFR_MIN)) by (apply age_weight_t_eval; auto).
  assert (EM : ev2 v mw = ev2 v (lgmet_matrix_traces ts tab s lgmets ages (eval t_obs v))) by (apply lgmet_matrix_t_eval; auto).
  assert (EJ : ev2 v jw = ev2 v (joint_table_traces (lgmet_matrix_traces ts tab s lgmets ages (eval t_obs v)) (age_weight_traces ts sfrs ages (eval t_obs v) SFR_MIN))) by (unfold jw; rewrite !joint_table_eval, EA, EM; reflexivity).
  rewrite !sed_eval by exact C2. rewrite EA, EJ, EM, mstar_t_eval by auto. reflexivity.
Qed.
End Ev.
#[local] Existing Instance exact.

Lemma T_lgmet_matrix_t (ts ms ages lgmets : list R) tab s v h t tv : Ts tab v -> T s v -> T t v -> map (fun e => eval e (Fin v)) tab = fins ms -> eval s (Fin v) = Fin h -> eval t (Fin v) = Fin tv ->
  length ts = length ms -> (2 <= length ts)%nat -> increasing (0.001 :: ts) -> 0 < h -> (3 <= length lgmets)%nat -> (3 <= length ages)%nat -> List.Forall (fun m => -10 <= m <= 10) ms ->
  (forall a u, In a ages -> tv - pow10 a <> 0.001 /\ (In u ts -> tv - pow10 a <> u)) ->
  List.Forall (fun r => Ts r v) (lgmet_matrix_t_traces (fins ts) tab s (fins lgmets) (fins ages) t).
Proof.
  intros F S Tt E Eh Et L Ln I Hh Hl Ha B NA. pose proof (times_pos _ I) as Tp. pose proof (increasing_tl _ _ I) as I1.
  assert (N : ts <> []) by (intros Z; subst; simpl in Ln; lia).
  assert (Lt : length ts = length tab). { transitivity (length (map (fun e => eval e (Fin v)) tab)); [rewrite E, fins_length; auto|apply map_length]. }
  unfold lgmet_matrix_t_traces. rewrite !fins_length, log10_table_fins by auto.
  apply List.Forall_map, List.Forall_forall. intros i Hi. apply in_seq in Hi. apply List.Forall_map. apply List.Forall_map. apply List.Forall_map. unfold fins at 1. apply List.Forall_map. apply List.Forall_forall.
  intros a Ia. set (g := interp_x_trace _ _ _). destruct (NA a 0 Ia) as [N0 _].
  assert (Eb : eval (lgt_birth_trace t (Fin a)) (Fin v) = Fin (log10 (birth_time tv a))) by (rewrite lgt_birth_eval, Et; apply get_lgt_birth_fin).
  assert (Pb : 0 < birth_time tv a) by (unfold birth_time; pose proof (Rmax_l 0.001 (tv - pow10 a)); lra).
  assert (Tg : T g v).
  { apply T_interp_x with (y := log10 (birth_time tv a)); auto.
    - eapply T_lgt_birth; eauto.
    - now rewrite map_length.
    - now rewrite map_length.
    - now apply log10_increasing.
    - apply List.Forall_map, List.Forall_forall. intros u Iu. apply log10_neq; auto. destruct (NA a u Ia) as [_ Nu]. specialize (Nu Iu). assert (0.001 < u) by (apply increasing_cons in I as [I0 _]; auto).
      unfold birth_time, Rmax. destruct Rle_dec; lra. }
  assert (Eg : eval g (Fin v) = Fin (pwlin (combine (map log10 ts) ms) (log10 (birth_time tv a)))).
  { unfold g. rewrite interp_x_eval, E, Eb.
    - apply interp_fins; [now apply log10_increasing|now rewrite map_length|destruct ts; [contradiction|discriminate]].
    - destruct ts; [contradiction|discriminate].
    - now rewrite fins_length, map_length. }
  assert (Rg : -10 <= pwlin (combine (map log10 ts) ms) (log10 (birth_time tv a)) <= 10).
  { apply pwlin_range; auto; [now apply log10_increasing|now rewrite map_length|destruct ts; [contradiction|discriminate]]. }
  pose proof (T_lgmet g s lgmets v _ h Tg S Eg Eh Hl Rg Hh) as W.
  apply T_entry.
  - apply List.Forall_map. eapply List.Forall_impl; [|exact W]. intros e Te. cbv beta. apply T_div; ts. cbn [eval]. apply neq_fin. apply not_0_INR. lia.
  - rewrite map_length, lgmet_traces_len, lgmet_edges_k, fins_length by auto. rewrite met_edges_length. lia.
Qed.

Lemma C171_lemma : forall ts sfrs lgmet_table scatter ssp_lgmet ages flux t_obs sfr_min v ss ms h tv n_wave,
  right_gradients sfrs v -> right_gradients lgmet_table v -> right_gradient scatter v -> List.Forall (List.Forall (fun s => right_gradients s v)) flux -> right_gradient t_obs v ->
  map (fun e => eval e (Fin v)) sfrs = fins ss -> map (fun e => eval e (Fin v)) lgmet_table = fins ms -> eval scatter (Fin v) = Fin h -> eval t_obs (Fin v) = Fin tv ->
  good_grids ts ss h ssp_lgmet ages tv -> length ts = length ms -> (2 <= length ts)%nat -> 0 < tv -> 0 < sfr_min -> List.Forall (fun m => -10 <= m <= 10) ms ->
  avoids sfr_min ss -> avoids (1 / 10 ^ 14) ss ->
  avoids tv ts -> (forall lg_age, In lg_age (age_edges ages ++ ages) -> avoids (tv - pow10 lg_age) (0.001 :: ts)) ->
  length flux = length ssp_lgmet -> List.Forall (is_matrix (length ages) n_wave) flux ->
  (forall (AR : Arith) w,
     let aw := age_weight_t_traces (AR := AR) (fins ts) sfrs (fins ages) t_obs SFR_MIN in
     let mw := lgmet_matrix_t_traces (AR := AR) (fins ts) lgmet_table scatter (fins ssp_lgmet) (fins ages) t_obs in
     let jw := joint_table_traces mw aw in
     calc_rest_sed_sfh_table_met_table (fins ts) (map (fun e => eval (AR := AR) e w) sfrs) (map (fun e => eval e w) lgmet_table) (eval scatter w)
       (fins ssp_lgmet) (fins ages) (map (map (map (fun e => eval e w))) flux) (eval t_obs w) (Fin sfr_min)
     = Ok {| rest_sed := map (fun e => eval e w) (sed_traces n_wave flux jw (mstar_t_trace (AR := AR) (fins ts) sfrs t_obs (Fin sfr_min)));
             rs_weights := map (map (fun e => eval e w)) jw; rs_lgmet_weights := map (map (fun e => eval e w)) mw; rs_age_weights := map (fun e => eval e w) aw |})
  /\ let aw := age_weight_t_traces (fins ts) sfrs (fins ages) t_obs SFR_MIN in
     let mw := lgmet_matrix_t_traces (fins ts) lgmet_table scatter (fins ssp_lgmet) (fins ages) t_obs in
     let jw := joint_table_traces mw aw in
     right_gradients (sed_traces n_wave flux jw (mstar_t_trace (fins ts) sfrs t_obs (Fin sfr_min))) v
     /\ List.Forall (fun row => right_gradients row v) jw /\ List.Forall (fun row => right_gradients row v) mw /\ right_gradients aw v.
Proof.
  intros ts sfrs tab scatter lgmets ages flux t_obs smin v ss ms h tv n_wave S G H F RT Es Em Eh Et GG Lm Ln Ht Hs Hm A1 A2 A3t A4 Lf Cf.
  destruct (joint_met_fins ts ss ms h lgmets ages tv GG Lm) as (awv & W & E1 & L1 & D1 & E3 & SW & _).
  destruct GG as (Hl & Hn & Hi & Ha & He & Hh & Hlm & Hme & Hf).
  assert (Ls : length (fins ts) = length sfrs). { rewrite fins_length. transitivity (length (map (fun e => eval e (Fin v)) sfrs)); [rewrite Es, fins_length; auto|apply map_length]. }
  assert (Lt : length (fins ts) = length tab). { rewrite fins_length. transitivity (length (map (fun e => eval e (Fin v)) tab)); [rewrite Em, fins_length; auto|apply map_length]. }
  assert (Nf : fins ts <> []) by (intros Z; apply Hn; destruct ts; [auto|discriminate]).
  assert (A3 : (3 <= length (fins ages))%nat) by now rewrite fins_length. assert (M3 : (3 <= length (fins lgmets))%nat) by now rewrite fins_length.
  assert (N4 : forall a u, In a (age_edges ages ++ ages) -> tv - pow10 a <> 0.001 /\ (In u ts -> tv - pow10 a <> u)).
  { intros a u Ia. specialize (A4 a Ia). unfold avoids in A4. rewrite List.Forall_forall in A4. split; [apply not_eq_sym, A4; now left|intros Iu; apply not_eq_sym, A4; now right]. }
  assert (N3 : forall u, In u ts -> u <> tv) by (apply List.Forall_forall; exact A3t).
  split.
  - intros AR w. apply rest_sed_table_t_eval; auto. rewrite !fins_length; split; auto.
  - cbv zeta. pose proof (ssp_table_eval (fins ts) (fins ages) (fins lgmets) (Fin tv) sfrs tab scatter (Fin v) Ls Lt Nf A3 M3) as V. cbv zeta in V.
    rewrite Es, Em, Eh, E3 in V. injection V as V1 V2 V3.
    change SFR_MIN with (Fin (1 / 10 ^ 14)) in *. apply Ts_right in S, G. apply T_right in H, RT.
    assert (R' : Ts (age_weight_t_traces (fins ts) sfrs (fins ages) t_obs (Fin (1 / 10 ^ 14))) v).
    { eapply T_age_weights_t; eauto; [exact sfr_min_pos|intros a u Ia; apply N4, in_or_app; now left|]. unfold total_mass, edge_mass. lra. }
    assert (M : List.Forall (fun r => Ts r v) (lgmet_matrix_t_traces (fins ts) tab scatter (fins lgmets) (fins ages) t_obs)).
    { eapply T_lgmet_matrix_t; eauto. intros a u Ia. apply N4, in_or_app. now right. }
    rewrite <- Et in V1, V3.
    assert (EV1 : ev2 (Fin v) (joint_table_traces (lgmet_matrix_t_traces (fins ts) tab scatter (fins lgmets) (fins ages) t_obs) (age_weight_t_traces (fins ts) sfrs (fins ages) t_obs (Fin (1 / 10 ^ 14)))) = map fins W).
    { rewrite joint_table_eval, lgmet_matrix_t_eval, age_weight_t_eval, <- joint_table_eval by auto. now symmetry. }
    rewrite <- age_weight_t_eval in V3 by auto. clear V1.
    set (mw := lgmet_matrix_t_traces _ _ _ _ _ _) in *. set (aw := age_weight_t_traces _ _ _ _ _) in *.
    assert (La : length aw = length ages) by (rewrite <- (map_length (fun e => eval e (Fin v)) aw), <- V3, fins_length; auto).
    assert (Q : is_matrix (length lgmets) (length ages) mw).
    { unfold mw, lgmet_matrix_t_traces. split; [now rewrite map_length, seq_length, fins_length|]. apply List.Forall_map, List.Forall_forall. intros i _. now rewrite !map_length, fins_length. }
    assert (Q' : is_matrix (length lgmets) (length ages) (map (fun row => map2 Mul row aw) mw)).
    { destruct Q as [Q1 Q2]. split; [now rewrite map_length|]. apply List.Forall_map. eapply List.Forall_impl; [|exact Q2]. intros r Hr. cbv beta in Hr |- *. rewrite map2_length, La, Hr. apply Nat.min_id. }
    assert (J : List.Forall (fun r => Ts r v) (joint_table_traces mw aw)).
    { unfold joint_table_traces. apply T_quotients with (W := W); [| |exact EV1].
      - apply List.Forall_map. eapply List.Forall_impl; [|exact M]. intros r Tr. cbv beta. apply Forall_map2. intros a b Ia Ib. rewrite List.Forall_forall in Tr, R'. apply T_mul; auto.
      - destruct Q' as [Q1 Q2]. destruct (map (fun row => map2 Mul row aw) mw) as [|[|e r] q]; [simpl in Q1; lia| |discriminate]. apply List.Forall_inv in Q2. cbn [length] in Q2. lia. }
    assert (QJ : is_matrix (length lgmets) (length ages) (joint_table_traces mw aw)).
    { unfold joint_table_traces. destruct Q' as [Q1 Q2]. split; [now rewrite map_length|]. apply List.Forall_map. eapply List.Forall_impl; [|exact Q2]. intros r Hr. cbv beta. now rewrite map_length. }
    split; [|split; [|split]]; [|eapply List.Forall_impl; [|exact J]; intros; now apply Ts_right|eapply List.Forall_impl; [|exact M]; intros; now apply Ts_right|now apply Ts_right].
    apply Ts_right. apply T_sed; auto.
    + destruct QJ as [Q1 Q2]. split; [congruence|]. replace (length (hd [] (joint_table_traces mw aw))) with (length ages); auto.
      destruct (joint_table_traces mw aw) as [|r q]; [simpl in Q1; lia|]. now inversion Q2.
    + eapply List.Forall_impl; [|exact F]. intros p Hp. eapply List.Forall_impl; [|exact Hp]. intros q. apply Ts_right.
    + eapply T_mstar_t; eauto.
Qed.
