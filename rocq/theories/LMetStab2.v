(** * C148: the property lemmas *)
From Coq Require Import Reals List Arith Lra Lia.
From Coquelicot Require Import Coquelicot.
From Verif Require Import Num Arr MUtils MSed Spec SpecMetStab RList LUtils LCalc LKern LAge LMet LJoint LPhot LMetStab.
Import ListNotations.
Open Scope R_scope.

Lemma prefix_sum x h a k : (3 <= length a)%nat -> mdf_inside x h -> nondecreasing (met_edges a) -> (k <= length a)%nat ->
  Rsum (firstn k (met_weights x h (met_edges a))) = 1 - tail_frac x h a k.
Proof.
  intros Ha I He. destruct (inside_ends x h a Ha I) as [E0 _]. pose proof I as [Hh _]. destruct (met_weights_dist_met x h a Hh Ha He) as [_ L].
  induction k as [|k IH]; intros Hk; [simpl; lra|].
  assert (F : firstn (S k) (met_weights x h (met_edges a)) = firstn k (met_weights x h (met_edges a)) ++ [ent (met_weights x h (met_edges a)) k]).
  { set (w := met_weights x h (met_edges a)) in *. clear -L Hk. assert (Q : (k < length w)%nat) by lia. clear L Hk. revert k Q. induction w as [|y w IHw]; intros [|k] Q; simpl in *; try lia; auto.
    f_equal. unfold ent in *. simpl. apply IHw. lia. }
  rewrite F, Rsum_app, IH by lia. cbn [Rsum]. rewrite inside_weights by (auto; lia). lra.
Qed.
Lemma C148_weights_lemma : forall lgmet scatter lgmet' scatter' ssp_lgmet, (3 <= length ssp_lgmet)%nat -> nondecreasing (met_edges ssp_lgmet) ->
  mdf_inside lgmet scatter -> mdf_inside lgmet' scatter' ->
  exists w w',
    calc_lgmet_weights_from_lognormal_mdf (Fin lgmet) (Fin scatter) (fins ssp_lgmet) = Ok (fins w)
    /\ calc_lgmet_weights_from_lognormal_mdf (Fin lgmet') (Fin scatter') (fins ssp_lgmet) = Ok (fins w')
    /\ length w = length ssp_lgmet /\ length w' = length ssp_lgmet
    /\ (forall k, (k <= length ssp_lgmet)%nat -> Rabs (Rsum (firstn k w) - Rsum (firstn k w')) <= mdf_shift (Rabs (lgmet - lgmet')) scatter scatter')
    /\ (forall i, (i < length ssp_lgmet)%nat -> Rabs (ent w i - ent w' i) <= 2 * mdf_shift (Rabs (lgmet - lgmet')) scatter scatter').
Proof.
  intros x h x' h' a Ha He I I'. pose proof I as [Hh _]. pose proof I' as [Hh' _].
  exists (met_weights x h (met_edges a)), (met_weights x' h' (met_edges a)). rewrite !lognormal_fins by auto.
  destruct (met_weights_dist_met x h a Hh Ha He) as [_ L]. destruct (met_weights_dist_met x' h' a Hh' Ha He) as [_ L'].
  do 4 (split; [auto|]).
  assert (T : forall k, Rabs (tail_frac x h a k - tail_frac x' h' a k) <= mdf_shift (Rabs (x - x')) h h') by (intros; apply tw_shift; auto; lra).
  split.
  - intros k Hk. rewrite !prefix_sum by auto. specialize (T k). apply Rabs_le_between in T. apply Rabs_le_between. lra.
  - intros i Hi. rewrite !inside_weights by auto. pose proof (T i) as A. pose proof (T (S i)) as B. apply Rabs_le_between in A. apply Rabs_le_between in B. apply Rabs_le_between. lra.
Qed.

Lemma mix_by_columns n m (W : list (list R)) (q : nat -> nat -> R) (a : list R) f k : (forall i j, (i < n)%nat -> (j < m)%nat -> ent2 W i j = q i j * ent a j) ->
  template_mix n m W f k = Rsum (map (fun j => ent a j * Rsum (map (fun i => q i j * ent3 f i j k) (seq 0 n))) (seq 0 m)).
Proof.
  intros H. unfold template_mix. rewrite Rsum_swap. apply Rsum_map_ext. intros j Hj. apply in_seq in Hj.
  rewrite Rmult_comm, <- Rsum_scal_r, map_map. apply Rsum_map_ext. intros i Hi. apply in_seq in Hi. rewrite H by lia. ring.
Qed.
Lemma columns_close m (a : list R) (A B : nat -> R) e : length a = m -> distribution a -> (forall j, (j < m)%nat -> Rabs (A j - B j) <= e) ->
  Rabs (Rsum (map (fun j => ent a j * A j) (seq 0 m)) - Rsum (map (fun j => ent a j * B j) (seq 0 m))) <= e.
Proof.
  intros L [P S] H. rewrite Forall_ent in P. rewrite Rsum_ent, L in S.
  assert (G : forall k, (k <= m)%nat -> Rabs (Rsum (map (fun j => ent a j * A j) (seq 0 k)) - Rsum (map (fun j => ent a j * B j) (seq 0 k))) <= e * Rsum (map (ent a) (seq 0 k))).
  { induction k as [|k IH]; intros Hk; [simpl; rewrite Rminus_0_r, Rabs_R0; lra|].
    specialize (IH ltac:(lia)). rewrite !seq_S, !map_app, !Rsum_app. cbn [map Rsum]. rewrite Nat.add_0_l. specialize (H k ltac:(lia)). specialize (P k ltac:(lia)).
    match goal with |- Rabs (?X + (?a * ?p + 0) - (?Y + (?a * ?q + 0))) <= _ => replace (X + (a * p + 0) - (Y + (a * q + 0))) with ((X - Y) + a * (p - q)) by ring end.
    eapply Rle_trans; [apply Rabs_triang|]. rewrite Rabs_mult, (Rabs_right (ent a k)) by lra.
    assert (ent a k * Rabs (A k - B k) <= ent a k * e) by (apply Rmult_le_compat_l; lra). lra. }
  specialize (G m ltac:(lia)). rewrite S, Rmult_1_r in G. exact G.
Qed.

Lemma shift_nonneg dx h h' : 0 < h -> 0 < h' -> 0 <= dx -> 0 <= mdf_shift dx h h'.
Proof. intros. unfold mdf_shift. apply Rdiv_le_0_compat; [|apply Rmin_glb_lt; lra]. pose proof (Rabs_pos (h - h')). lra. Qed.

Lemma map_fins_inj (A B : list (list R)) : map fins A = map fins B -> A = B.
Proof. revert B. induction A as [|x A IH]; intros [|y B] E; try discriminate; auto. cbn [map] in E. injection E as Q1 Q2. f_equal; auto. now apply fins_inj. Qed.

Lemma C148_sed_lemma : forall ts sfrs lgmet scatter lgmet' scatter' ssp_lgmet ages n_wave flux t_obs sfr_min V,
  good_grids ts sfrs scatter ssp_lgmet ages t_obs -> 0 < t_obs -> 0 < sfr_min ->
  mdf_inside lgmet scatter -> mdf_inside lgmet' scatter' ->
  is_cube (length ssp_lgmet) (length ages) n_wave flux ->
  (forall j k, (j < length ages)%nat -> (k < n_wave)%nat -> met_variation (length ssp_lgmet) flux j k <= V) ->
  exists r r' sed sed',
    calc_rest_sed_sfh_table_lognormal_mdf (fins ts) (fins sfrs) (Fin lgmet) (Fin scatter) (fins ssp_lgmet) (fins ages) (fins3 flux) (Fin t_obs) (Fin sfr_min) = Ok r
    /\ calc_rest_sed_sfh_table_lognormal_mdf (fins ts) (fins sfrs) (Fin lgmet') (Fin scatter') (fins ssp_lgmet) (fins ages) (fins3 flux) (Fin t_obs) (Fin sfr_min) = Ok r'
    /\ rest_sed r = fins sed /\ rest_sed r' = fins sed' /\ length sed = n_wave /\ length sed' = n_wave
    /\ forall k, (k < n_wave)%nat ->
       Rabs (ent sed k - ent sed' k) <= mass_formed_by ts (floored sfr_min sfrs) t_obs * (mdf_shift (Rabs (lgmet - lgmet')) scatter scatter' * V).
Proof.
  intros ts s x h x' h' lg ages nw f t m V G Ht Hm I I' Hc HV. pose proof G as (Hl & Hn & Hi & Ha & He & Hh & Hlm & Hme & Hff). pose proof I' as [Hh' _].
  assert (G' : good_grids ts s h' lg ages t) by (repeat split; auto).
  destruct (joint_lognormal_fins ts s x h lg ages t G) as (mw & aw & EA & LA & DA & EM & LM & DM & EJ).
  destruct (joint_lognormal_fins ts s x' h' lg ages t G') as (mw' & aw' & EA' & LA' & DA' & EM' & LM' & DM' & EJ').
  rewrite EA in EA'. injection EA' as Q. apply fins_inj in Q. subst aw'.
  rewrite lognormal_fins in EM by auto. injection EM as Q. apply fins_inj in Q. subst mw. rewrite lognormal_fins in EM' by auto. injection EM' as Q. apply fins_inj in Q. subst mw'.
  destruct (sed_lognormal_fins ts s x h lg ages f nw t m G Ht Hm Hc) as (W & mw2 & aw2 & EW & _ & _ & _ & ES).
  destruct (sed_lognormal_fins ts s x' h' lg ages f nw t m G' Ht Hm Hc) as (W' & mw2' & aw2' & EW' & _ & _ & _ & ES').
  rewrite EJ in EW. injection EW as Q _ _. apply map_fins_inj in Q. subst W. rewrite EJ' in EW'. injection EW' as Q _ _. apply map_fins_inj in Q. subst W'.
  eexists. eexists. eexists. eexists. split; [exact ES|]. split; [exact ES'|]. split; [reflexivity|]. split; [reflexivity|].
  split; [now rewrite map_length, seq_length|]. split; [now rewrite map_length, seq_length|]. intros k Hk.
  rewrite !ent_map_seq by auto. pose proof (mass_formed_pos ts (floored m s) t) as PM. set (M := mass_formed_by ts (floored m s) t) in *.
  rewrite <- Rmult_minus_distr_r, Rabs_mult, (Rabs_right M), Rmult_comm by lra. apply Rmult_le_compat_l; [lra|].
  rewrite (mix_by_columns _ _ _ (fun i j => ent (met_weights x h (met_edges lg)) i) aw) by (intros; apply outer_ent; lia).
  rewrite (mix_by_columns _ _ _ (fun i j => ent (met_weights x' h' (met_edges lg)) i) aw) by (intros; apply outer_ent; lia).
  apply columns_close; auto. intros j Hj.
  eapply Rle_trans; [apply (column_diff x h x' h' (Rabs (x - x')) lg (fun i => ent3 f i j k)); auto; lra|].
  apply Rmult_le_compat_l; [apply shift_nonneg; auto; apply Rabs_pos|]. apply HV; auto.
Qed.

Lemma C148_met_lemma : forall ts sfrs lgmet_table scatter lgmet_table' scatter' ssp_lgmet ages n_wave flux t_obs sfr_min V dx,
  good_grids ts sfrs scatter ssp_lgmet ages t_obs -> 0 < t_obs -> 0 < sfr_min ->
  length ts = length lgmet_table -> length ts = length lgmet_table' ->
  List.Forall (fun x => mdf_inside x scatter) lgmet_table -> List.Forall (fun x => mdf_inside x scatter') lgmet_table' ->
  (forall i, (i < length ts)%nat -> Rabs (ent lgmet_table i - ent lgmet_table' i) <= dx) ->
  is_cube (length ssp_lgmet) (length ages) n_wave flux ->
  (forall j k, (j < length ages)%nat -> (k < n_wave)%nat -> met_variation (length ssp_lgmet) flux j k <= V) ->
  exists r r' sed sed',
    calc_rest_sed_sfh_table_met_table (fins ts) (fins sfrs) (fins lgmet_table) (Fin scatter) (fins ssp_lgmet) (fins ages) (fins3 flux) (Fin t_obs) (Fin sfr_min) = Ok r
    /\ calc_rest_sed_sfh_table_met_table (fins ts) (fins sfrs) (fins lgmet_table') (Fin scatter') (fins ssp_lgmet) (fins ages) (fins3 flux) (Fin t_obs) (Fin sfr_min) = Ok r'
    /\ rest_sed r = fins sed /\ rest_sed r' = fins sed' /\ length sed = n_wave /\ length sed' = n_wave
    /\ forall k, (k < n_wave)%nat ->
       Rabs (ent sed k - ent sed' k) <= mass_formed_by ts (floored sfr_min sfrs) t_obs * (mdf_shift dx scatter scatter' * V).
Proof.
  intros ts s ms h ms' h' lg ages nw f t m V dx G Ht Hm Lm Lm' I I' Hdx Hc HV. pose proof G as (Hl & Hn & Hi & Ha & He & Hh & Hlm & Hme & Hff).
  assert (L0 : (0 < length ts)%nat) by (destruct ts; simpl; [congruence|lia]).
  assert (Hh' : 0 < h'). { rewrite Forall_ent in I'. specialize (I' 0%nat ltac:(lia)). apply I'. }
  assert (D0 : 0 <= dx). { specialize (Hdx 0%nat L0). pose proof (Rabs_pos (ent ms 0 - ent ms' 0)). lra. }
  assert (G' : good_grids ts s h' lg ages t) by (repeat split; auto).
  destruct (joint_met_fins ts s ms h lg ages t G Lm) as (aw & W & EA & LA & DA & EJ & SW & HW).
  destruct (joint_met_fins ts s ms' h' lg ages t G' Lm') as (aw' & W' & EA' & LA' & DA' & EJ' & SW' & HW').
  rewrite EA in EA'. injection EA' as Q. apply fins_inj in Q. subst aw'.
  destruct (sed_met_fins ts s ms h lg ages f nw t m G Lm Ht Hm Hc) as (W2 & M2 & aw2 & EW & _ & _ & _ & ES).
  destruct (sed_met_fins ts s ms' h' lg ages f nw t m G' Lm' Ht Hm Hc) as (W2' & M2' & aw2' & EW' & _ & _ & _ & ES').
  rewrite EJ in EW. injection EW as Q _ _. apply map_fins_inj in Q. subst W2. rewrite EJ' in EW'. injection EW' as Q _ _. apply map_fins_inj in Q. subst W2'.
  eexists. eexists. eexists. eexists. split; [exact ES|]. split; [exact ES'|]. split; [reflexivity|]. split; [reflexivity|].
  split; [now rewrite map_length, seq_length|]. split; [now rewrite map_length, seq_length|]. intros k Hk.
  rewrite !ent_map_seq by auto. pose proof (mass_formed_pos ts (floored m s) t) as PM. set (M := mass_formed_by ts (floored m s) t) in *.
  rewrite <- Rmult_minus_distr_r, Rabs_mult, (Rabs_right M), Rmult_comm by lra. apply Rmult_le_compat_l; [lra|].
  rewrite Nat.add_0_l.  rewrite (mix_by_columns _ _ W _ aw f k HW), (mix_by_columns _ _ W' _ aw f k HW').
  pose proof (times_pos _ Hi) as Htp. pose proof (increasing_tl _ _ Hi) as Hi1.
  assert (XI : increasing (map log10 ts)) by (apply log10_increasing; auto).
  assert (IN : forall q z a, length ts = length q -> List.Forall (fun x => mdf_inside x z) q -> mdf_inside (lgmet_at_birth ts q t a) z).
  { intros q z a Lq Fq. assert (Hz : 0 < z) by (rewrite Forall_ent in Fq; specialize (Fq 0%nat ltac:(lia)); apply Fq). split; [exact Hz|].
    unfold lgmet_at_birth. apply pwlin_range; auto; [now rewrite map_length|now apply map_neq_nil|]. eapply Forall_impl; [|exact Fq]. intros b [_ Hb]. exact Hb. }
  assert (DX : forall a, Rabs (lgmet_at_birth ts ms t a - lgmet_at_birth ts ms' t a) <= dx).
  { intros a. unfold lgmet_at_birth. rewrite <- (Rmult_1_l (pwlin (combine (map log10 ts) ms) (log10 (birth_time t a)))).
    replace (1 * pwlin (combine (map log10 ts) ms) (log10 (birth_time t a)) - pwlin (combine (map log10 ts) ms') (log10 (birth_time t a)))
      with (1 * pwlin (combine (map log10 ts) ms) (log10 (birth_time t a)) + (-1) * pwlin (combine (map log10 ts) ms') (log10 (birth_time t a))) by ring.
    rewrite <- pwlin_linear by (rewrite map_length; auto). apply Rabs_le_between.
    apply pwlin_range; auto; [rewrite map_length, RList.map2_length; lia|now apply map_neq_nil|].
    apply Forall_ent. rewrite RList.map2_length. intros i Hii. rewrite ent_map2 by lia. specialize (Hdx i ltac:(lia)). apply Rabs_le_between in Hdx. lra. }
  apply columns_close; auto. intros j Hj.
  eapply Rle_trans; [apply (column_diff _ h _ h' dx lg (fun i => ent3 f i j k)); auto|].
  apply Rmult_le_compat_l; [apply shift_nonneg; auto|]. apply HV; auto.
Qed.
