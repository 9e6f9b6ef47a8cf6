(** * Gradients with a metallicity table, and of galaxy magnitudes *)
From Coq Require Import Reals List Arith Lra Lia ZArith Bool.
From Coquelicot Require Import Coquelicot.
From Flocq Require Import Core.Raux.
From Verif Require Import Num Arr MUtils MSed MCosmo MPhot MGrad MTrace MTrace2 Spec Spec2 SpecGrad RList LUtils LBcast LKern LImf LMet LAge LJoint LPhot LDiff LGrad LGrad2 LGrad3 LGrad4 LGrad5 LGrad6 LGrad7 LGrad8 LGrad9.
Import ListNotations.
Open Scope R_scope.
Local Notation Ts l v := (List.Forall (fun e => T e v) l).

Section Ev.
Context {AR : Arith}.
Lemma lgmet_traces_len g s edges : length (lgmet_weight_traces g s edges) = (length edges - 1)%nat.
Proof. rewrite <- (map_length (fun e => eval e NaN)). unfold lgmet_weight_traces, filled_traces. rewrite map_length, !map2_length, !one_hot_len, normalized_len, hist_traces_len. lia. Qed.
Lemma lgmet_matrix_eval (ts : list num) tab s lgmets ages t_obs v :
  ev2 v (lgmet_matrix_traces ts tab s lgmets ages t_obs) = calc_lgmet_weights_from_lgmet_table_k ts (map (fun e => eval e v) tab) (eval s v) lgmets ages t_obs.
Proof.
  unfold lgmet_matrix_traces, calc_lgmet_weights_from_lgmet_table_k, calc_lgmet_at_ssp_lgage_table, transpose, ev2. rewrite map_map. apply map_ext. intros i. rewrite !map_map. apply map_ext. intros a.
  rewrite entry_eval, map_map. cbn [eval]. f_equal. rewrite <- interp_eval. rewrite <- lgmet_traces_eval, map_map. reflexivity.
Qed.
Lemma joint_table_eval m aw v : ev2 v (joint_table_traces m aw) = normalize_matrix (map (fun row => map2 nmul row (map (fun e => eval e v) aw)) (ev2 v m)).
Proof.
  assert (E : ev2 v (map (fun row => map2 Mul row aw) m) = map (fun row => map2 nmul row (map (fun e => eval e v) aw)) (ev2 v m)).
  { unfold ev2. rewrite !map_map. apply map_ext. intros row. rewrite map_map2, map2_map. reflexivity. }
  unfold joint_table_traces, normalize_matrix. rewrite <- E. set (w := map (fun row => map2 Mul row aw) m). rewrite <- concat_ev. unfold ev2. rewrite !map_map. apply map_ext. intros r. rewrite !map_map. reflexivity.
Qed.
Lemma ssp_table_eval (ts ages lgmets : list num) t_obs sfrs tab s v : length ts = length sfrs -> length ts = length tab -> ts <> [] -> (3 <= length ages)%nat -> (3 <= length lgmets)%nat ->
  let aw := age_weight_traces ts sfrs ages t_obs SFR_MIN in let mw := lgmet_matrix_traces ts tab s lgmets ages t_obs in
  calc_ssp_weights_sfh_table_met_table ts (map (fun e => eval e v) sfrs) (map (fun e => eval e v) tab) (eval s v) lgmets ages t_obs
  = Ok {| weights := ev2 v (joint_table_traces mw aw); lgmet_weights := ev2 v mw; age_weights := map (fun e => eval e v) aw |}.
Proof.
  intros L L' N A M aw mw. unfold calc_ssp_weights_sfh_table_met_table. rewrite age_weights_ok by auto. cbn [bind].
  unfold calc_lgmet_weights_from_lgmet_table, check_gal_tables, check_templates, check. rewrite (proj2 (same_len_true ts (map (fun e => eval e v) tab))) by (now rewrite map_length).
  destruct ts as [|t0 ts]; [contradiction|]. cbn [length Nat.eqb negb]. destruct (Nat.leb_spec 3 (length lgmets)); [|lia]. cbn [bind].
  unfold mw, aw. rewrite joint_table_eval, lgmet_matrix_eval. reflexivity.
Qed.
Lemma rest_sed_table_eval (ts ages lgmets : list num) t_obs smin sfrs tab s flux w v : length ts = length sfrs -> length ts = length tab -> ts <> [] -> (3 <= length ages)%nat -> (3 <= length lgmets)%nat ->
  trace_cube (length lgmets) (length ages) w flux ->
  let aw := age_weight_traces ts sfrs ages t_obs SFR_MIN in let mw := lgmet_matrix_traces ts tab s lgmets ages t_obs in let jw := joint_table_traces mw aw in
  calc_rest_sed_sfh_table_met_table ts (map (fun e => eval e v) sfrs) (map (fun e => eval e v) tab) (eval s v) lgmets ages (ev3 v flux) t_obs smin
  = Ok {| rest_sed := map (fun e => eval e v) (sed_traces w flux jw (mstar_trace ts sfrs t_obs smin));
          rs_weights := ev2 v jw; rs_lgmet_weights := ev2 v mw; rs_age_weights := map (fun e => eval e v) aw |}.
Proof.
  intros L L' N A M C aw mw jw. unfold calc_rest_sed_sfh_table_met_table. rewrite ssp_table_eval by auto. cbn [bind weights lgmet_weights age_weights].
  destruct (ev3_has (length lgmets) (length ages) w flux v ltac:(lia) ltac:(lia) C) as (C1 & C2 & C3). unfold check. rewrite C1, C3.
  rewrite sed_eval by exact C2. rewrite mstar_eval by auto. reflexivity.
Qed.
End Ev.
#[local] Existing Instance exact.

(** dividing by a sum: right as soon as the quotients are finite *)
Lemma T_quotients w v W : List.Forall (fun r => Ts r v) w -> concat w <> [] -> ev2 (Fin v) (map (map (fun x => Div x (Sum (concat w)))) w) = map fins W ->
  List.Forall (fun r => Ts r v) (map (map (fun x => Div x (Sum (concat w)))) w).
Proof.
  intros F N E. assert (S : T (Sum (concat w)) v) by (apply T_sum; now apply T_concat). destruct (T_val _ _ S) as [q Q].
  assert (q <> 0).
  { intros ->. destruct (concat w) as [|e l] eqn:C; [contradiction|]. assert (I : In e (concat w)) by (rewrite C; left; auto). rewrite <- C in *. apply in_concat in I as (r & Ir & Ie).
    assert (Q2 : In (eval (Div e (Sum (concat w))) (Fin v)) (concat (map fins W))).
    { rewrite <- E. apply in_concat. exists (map (fun e => eval e (Fin v)) (map (fun x => Div x (Sum (concat w))) r)). split.
      - unfold ev2. apply (in_map (map (fun e => eval e (Fin v)))). now apply (in_map (map (fun x => Div x (Sum (concat w))))) .
      - apply (in_map (fun e => eval e (Fin v))). now apply (in_map (fun x => Div x (Sum (concat w)))). }
    apply in_concat in Q2 as (fr & If & Ix). apply in_map_iff in If as (rr & <- & _). apply in_map_iff in Ix as (x & Ex & _).
    rewrite List.Forall_forall in F. specialize (F r Ir). rewrite List.Forall_forall in F. specialize (F e Ie). destruct (T_val _ _ F) as [p P].
    change (Fin x = ndiv (eval e (Fin v)) (eval (Sum (concat w)) (Fin v))) in Ex. rewrite P, Q in Ex. unfold ndiv in Ex. rewrite Req_bool_true in Ex by auto.
    destruct (Rlt_bool 0 p); [discriminate|]. destruct (Rlt_bool p 0); discriminate. }
  apply List.Forall_map. eapply List.Forall_impl; [|exact F]. intros r Tr. cbv beta. apply List.Forall_map. eapply List.Forall_impl; [|exact Tr]. intros x Tx. cbv beta.
  apply T_div; auto. rewrite Q. now apply neq_fin.
Qed.
Lemma T_lgmet lgmet scatter ssp_lgmet v m s : T lgmet v -> T scatter v -> eval lgmet (Fin v) = Fin m -> eval scatter (Fin v) = Fin s ->
  (3 <= length ssp_lgmet)%nat -> -10 <= m <= 10 -> 0 < s -> Ts (lgmet_weight_traces lgmet scatter (get_bin_edges_k (fins ssp_lgmet) LGMET_LO LGMET_HI)) v.
Proof. intros A B C D E F G. apply Ts_right. apply T_right in A, B. apply (C162_lemma lgmet scatter ssp_lgmet v m s); auto. Qed.
Lemma T_lgmet_matrix (ts ms ages lgmets : list R) tab s v h t_obs : Ts tab v -> T s v -> map (fun e => eval e (Fin v)) tab = fins ms -> eval s (Fin v) = Fin h ->
  length ts = length ms -> ts <> [] -> increasing (0.001 :: ts) -> 0 < h -> (3 <= length lgmets)%nat -> (3 <= length ages)%nat -> List.Forall (fun m => -10 <= m <= 10) ms ->
  List.Forall (fun r => Ts r v) (lgmet_matrix_traces (fins ts) tab s (fins lgmets) (fins ages) (Fin t_obs)).
Proof.
  intros F S E Eh L N I Hh Hl Ha B. pose proof (times_pos _ I) as Tp. pose proof (increasing_tl _ _ I) as I1.
  assert (Lt : length ts = length tab). { transitivity (length (map (fun e => eval e (Fin v)) tab)); [rewrite E, fins_length; auto|apply map_length]. }
  unfold lgmet_matrix_traces. rewrite !fins_length, log10_table_fins by auto. rewrite (map_fins (get_lgt_birth (Fin t_obs)) (fun a => log10 (birth_time t_obs a))) by (intros; apply get_lgt_birth_fin).
  apply List.Forall_map, List.Forall_forall. intros i Hi. apply in_seq in Hi. apply List.Forall_map. apply List.Forall_map. apply List.Forall_map. unfold fins at 1. apply List.Forall_map. apply List.Forall_map. apply List.Forall_forall.
  intros a _. set (g := interp_trace _ _ _).
  assert (Tg : T g v) by (apply T_interp; auto; [destruct ts; [contradiction|discriminate]|now rewrite map_length]).
  assert (Eg : eval g (Fin v) = Fin (pwlin (combine (map log10 ts) ms) (log10 (birth_time t_obs a)))).
  { unfold g. rewrite interp_eval, E. apply interp_fins; [now apply log10_increasing|now rewrite map_length|destruct ts; [contradiction|discriminate]]. }
  assert (Rg : -10 <= pwlin (combine (map log10 ts) ms) (log10 (birth_time t_obs a)) <= 10).
  { apply pwlin_range; auto; [now apply log10_increasing|now rewrite map_length|destruct ts; [contradiction|discriminate]]. }
  pose proof (T_lgmet g s lgmets v _ h Tg S Eg Eh Hl Rg Hh) as W.
  apply T_entry.
  - apply List.Forall_map. eapply List.Forall_impl; [|exact W]. intros e Te. cbv beta. apply T_div; ts. cbn [eval]. apply neq_fin. apply not_0_INR. lia.
  - rewrite map_length, lgmet_traces_len, lgmet_edges_k, fins_length by auto. rewrite met_edges_length. lia.
Qed.
(** ** C164 with a metallicity table *)
Lemma C164_table_lemma : forall ts sfrs lgmet_table scatter ssp_lgmet ages flux t_obs sfr_min v ss ms h n_wave,
  right_gradients sfrs v -> right_gradients lgmet_table v -> right_gradient scatter v -> List.Forall (List.Forall (fun s => right_gradients s v)) flux ->
  map (fun e => eval e (Fin v)) sfrs = fins ss -> map (fun e => eval e (Fin v)) lgmet_table = fins ms -> eval scatter (Fin v) = Fin h ->
  good_grids ts ss h ssp_lgmet ages t_obs -> length ts = length ms -> 0 < t_obs -> 0 < sfr_min -> List.Forall (fun m => -10 <= m <= 10) ms ->
  avoids sfr_min ss -> avoids (1 / 10 ^ 14) ss ->
  length flux = length ssp_lgmet -> List.Forall (is_matrix (length ages) n_wave) flux ->
  (forall (AR : Arith) w,
     let aw := age_weight_traces (AR := AR) (fins ts) sfrs (fins ages) (Fin t_obs) SFR_MIN in
     let mw := lgmet_matrix_traces (AR := AR) (fins ts) lgmet_table scatter (fins ssp_lgmet) (fins ages) (Fin t_obs) in
     let jw := joint_table_traces mw aw in
     calc_rest_sed_sfh_table_met_table (fins ts) (map (fun e => eval (AR := AR) e w) sfrs) (map (fun e => eval e w) lgmet_table) (eval scatter w)
       (fins ssp_lgmet) (fins ages) (map (map (map (fun e => eval e w))) flux) (Fin t_obs) (Fin sfr_min)
     = Ok {| rest_sed := map (fun e => eval e w) (sed_traces n_wave flux jw (mstar_trace (AR := AR) (fins ts) sfrs (Fin t_obs) (Fin sfr_min)));
             rs_weights := map (map (fun e => eval e w)) jw; rs_lgmet_weights := map (map (fun e => eval e w)) mw; rs_age_weights := map (fun e => eval e w) aw |})
  /\ let aw := age_weight_traces (fins ts) sfrs (fins ages) (Fin t_obs) SFR_MIN in
     let mw := lgmet_matrix_traces (fins ts) lgmet_table scatter (fins ssp_lgmet) (fins ages) (Fin t_obs) in
     let jw := joint_table_traces mw aw in
     right_gradients (sed_traces n_wave flux jw (mstar_trace (fins ts) sfrs (Fin t_obs) (Fin sfr_min))) v
     /\ List.Forall (fun row => right_gradients row v) jw /\ List.Forall (fun row => right_gradients row v) mw /\ right_gradients aw v.
Proof.
  intros ts sfrs tab scatter lgmets ages flux t_obs smin v ss ms h n_wave S G H F Es Em Eh GG Lm Ht Hs Hm A1 A2 Lf Cf.
  destruct (joint_met_fins ts ss ms h lgmets ages t_obs GG Lm) as (awv & W & E1 & L1 & D1 & E3 & SW & _).
  destruct GG as (Hl & Hn & Hi & Ha & He & Hh & Hlm & Hme & Hf).
  assert (Ls : length (fins ts) = length sfrs). { rewrite fins_length. transitivity (length (map (fun e => eval e (Fin v)) sfrs)); [rewrite Es, fins_length; auto|apply map_length]. }
  assert (Lt : length (fins ts) = length tab). { rewrite fins_length. transitivity (length (map (fun e => eval e (Fin v)) tab)); [rewrite Em, fins_length; auto|apply map_length]. }
  assert (Nf : fins ts <> []) by (intros Z; apply Hn; destruct ts; [auto|discriminate]).
  assert (A3 : (3 <= length (fins ages))%nat) by now rewrite fins_length. assert (M3 : (3 <= length (fins lgmets))%nat) by now rewrite fins_length.
  split.
  - intros AR w. apply rest_sed_table_eval; auto. rewrite !fins_length; split; auto.
  - cbv zeta. pose proof (ssp_table_eval (fins ts) (fins ages) (fins lgmets) (Fin t_obs) sfrs tab scatter (Fin v) Ls Lt Nf A3 M3) as V. cbv zeta in V.
    rewrite Es, Em, Eh, E3 in V. injection V as V1 V2 V3.
    destruct (C164_age_lemma ts sfrs ages t_obs (1 / 10 ^ 14) v ss S Es Hl Hn Hi Ha ltac:(exact sfr_min_pos) A2 Hf) as (_ & R').
    change SFR_MIN with (Fin (1 / 10 ^ 14)) in *. apply Ts_right in S, G, R'. apply T_right in H.
    pose proof (T_lgmet_matrix ts ms ages lgmets tab scatter v h t_obs G H Em Eh Lm Hn Hi Hh Hlm Ha Hm) as M.
    set (mw := lgmet_matrix_traces _ _ _ _ _ _) in *. set (aw := age_weight_traces _ _ _ _ _) in *.
    assert (La : length aw = length ages) by (rewrite <- (map_length (fun e => eval e (Fin v)) aw), <- V3, fins_length; auto).
    assert (Q : is_matrix (length lgmets) (length ages) mw).
    { unfold mw, lgmet_matrix_traces. split; [now rewrite map_length, seq_length, fins_length|]. apply List.Forall_map, List.Forall_forall. intros i _. now rewrite !map_length, fins_length. }
    assert (Q' : is_matrix (length lgmets) (length ages) (map (fun row => map2 Mul row aw) mw)).
    { destruct Q as [Q1 Q2]. split; [now rewrite map_length|]. apply List.Forall_map. eapply List.Forall_impl; [|exact Q2]. intros r Hr. cbv beta in Hr |- *. rewrite map2_length, La, Hr. apply Nat.min_id. }
    assert (J : List.Forall (fun r => Ts r v) (joint_table_traces mw aw)).
    { unfold joint_table_traces. apply T_quotients with (W := W); [| |symmetry; exact V1].
      - apply List.Forall_map. eapply List.Forall_impl; [|exact M]. intros r Tr. cbv beta. apply Forall_map2. intros a b Ia Ib. rewrite List.Forall_forall in Tr, R'. apply T_mul; auto.
      - destruct Q' as [Q1 Q2]. destruct (map (fun row => map2 Mul row aw) mw) as [|[|e r] q]; [simpl in Q1; lia| |discriminate]. apply List.Forall_inv in Q2. cbn [length] in Q2. lia. }
    assert (QJ : is_matrix (length lgmets) (length ages) (joint_table_traces mw aw)).
    { unfold joint_table_traces. destruct Q' as [Q1 Q2]. split; [now rewrite map_length|]. apply List.Forall_map. eapply List.Forall_impl; [|exact Q2]. intros r Hr. cbv beta. now rewrite map_length. }
    split; [|split; [|split]]; [|eapply List.Forall_impl; [|exact J]; intros; now apply Ts_right|eapply List.Forall_impl; [|exact M]; intros; now apply Ts_right|now apply Ts_right].
    apply Ts_right. apply T_sed; auto.
    + destruct QJ as [Q1 Q2]. split; [congruence|]. replace (length (hd [] (joint_table_traces mw aw))) with (length ages); auto.
      destruct (joint_table_traces mw aw) as [|r q]; [simpl in Q1; lia|]. now inversion Q2.
    + eapply List.Forall_impl; [|exact F]. intros p Hp. eapply List.Forall_impl; [|exact Hp]. intros q. apply Ts_right.
    + eapply T_mstar; eauto.
Qed.

(** ** C165: from the star formation history to the magnitude *)
Lemma C165_galaxy_lemma : forall ts sfrs lgmet scatter ssp_lgmet ages flux t_obs sfr_min ws wf tf z Om0 w0 wa h v ss m sc,
  right_gradients sfrs v -> right_gradient lgmet v -> right_gradient scatter v -> List.Forall (List.Forall (fun s => right_gradients s v)) flux ->
  map (fun e => eval e (Fin v)) sfrs = fins ss -> eval lgmet (Fin v) = Fin m -> eval scatter (Fin v) = Fin sc ->
  good_grids ts ss sc ssp_lgmet ages t_obs -> 0 < t_obs -> 0 < sfr_min -> -10 <= m <= 10 ->
  avoids sfr_min ss -> avoids (1 / 10 ^ 14) ss ->
  length flux = length ssp_lgmet -> List.Forall (is_matrix (length ages) (length ws)) flux ->
  increasing ws -> ws <> [] -> good_filter wf tf -> 0 < z -> 0 < Om0 <= 1 -> 0 < h ->
  (forall sed, calc_rest_sed_sfh_table_lognormal_mdf (fins ts) (fins ss) (Fin m) (Fin sc)
        (fins ssp_lgmet) (fins ages) (map (map (map (fun e => eval e (Fin v)))) flux) (Fin t_obs) (Fin sfr_min) = Ok sed ->
     exists l, rest_sed sed = fins l /\ 0 < band_flux (fun x => spectrum_at ws l (x / (1 + z))) wf tf) ->
  let mag (AR : Arith) :=
    obs_mag_trace (AR := AR) (fins ws)
      (sed_traces (length ws) flux
         (joint_traces (lgmet_weight_traces (AR := AR) lgmet scatter (get_bin_edges_k (fins ssp_lgmet) LGMET_LO LGMET_HI))
            (age_weight_traces (AR := AR) (fins ts) sfrs (fins ages) (Fin t_obs) SFR_MIN))
         (mstar_trace (AR := AR) (fins ts) sfrs (Fin t_obs) (Fin sfr_min)))
      (fins wf) (fins tf) (Fin z) (Fin Om0) (Fin w0) (Fin wa) (Fin h) in
  (forall (AR : Arith) w, exists sed,
     calc_rest_sed_sfh_table_lognormal_mdf (fins ts) (map (fun e => eval (AR := AR) e w) sfrs) (eval lgmet w) (eval scatter w)
       (fins ssp_lgmet) (fins ages) (map (map (map (fun e => eval e w))) flux) (Fin t_obs) (Fin sfr_min) = Ok sed
     /\ calc_obs_mag (fins ws) (rest_sed sed) (fins wf) (fins tf) (Fin z) (Fin Om0) (Fin w0) (Fin wa) (Fin h) = Ok (eval (mag AR) w))
  /\ right_gradient (mag exact) v.
Proof.
  intros ts sfrs lgmet scatter lgmets ages flux t_obs smin ws wf tf z Om0 w0 wa h v ss m sc S G H F Es Em Eh GG Ht Hs Hm A1 A2 Lf Cf I N Gf Hz HO Hh Pos mag.
  destruct (C164_lemma ts sfrs lgmet scatter lgmets ages flux t_obs smin v ss m sc (length ws) S G H F Es Em Eh GG Ht Hs Hm A1 A2 Lf Cf) as (V & R & _). cbv zeta in V, R.
  pose proof (V exact (Fin v)) as V0. rewrite Es, Em, Eh in V0. destruct (Pos _ V0) as (l & El & Pl). cbn [rest_sed] in El.
  set (sed := sed_traces _ _ _ _) in *.
  assert (Ll : length ws = length l). { rewrite <- (fins_length l), <- El, map_length. unfold sed, sed_traces, sed_unit_traces. now rewrite !map_length, seq_length. }
  destruct (C165_obs_lemma ws sed wf tf z Om0 w0 wa h v l R El ltac:(split; auto) Gf Hz HO Hh Pl) as (V' & R').
  split; [|exact R']. intros AR w. eexists. split; [apply V|]. cbn [rest_sed]. apply obs_mag_eval_ok.
  - unfold sed_traces, sed_unit_traces. now rewrite !map_length, seq_length, fins_length.
  - intros Z. apply N. destruct ws; [auto|discriminate].
  - rewrite !fins_length. apply Gf.
Qed.
