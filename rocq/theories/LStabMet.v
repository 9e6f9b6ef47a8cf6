(** * C145, C147 for the function taking a metallicity table *)
From Coq Require Import Reals List Arith Lra Lia.
From Coquelicot Require Import Coquelicot.
From Verif Require Import Num Arr MUtils MSed MPhot Spec Spec2 SpecStab RList LUtils LAge LMet LJoint LPhot LPop LPop2 LStab1 LStab2 LStab3 LStab4 LStab5 LBcast LCalc LSuper.
Import ListNotations.
Open Scope R_scope.

Lemma C145_sed_met_lemma : forall ts s lgmet_table scatter ssp_lgmet ages n_wave flux t_obs sfr_min c eps,
  good_grids ts s scatter ssp_lgmet ages t_obs -> length ts = length lgmet_table -> 0 < t_obs -> 0 < sfr_min -> 0 < c -> 0 <= eps ->
  List.Forall (fun x => sfr_min <= x /\ sfr_min <= c * x /\ 1 / 10 ^ 14 <= x /\ 1 / 10 ^ 14 <= c * x) s ->
  1 / 10 ^ 14 <= eps * ent s 0 -> 1 / 10 ^ 14 <= eps * (c * ent s 0) ->
  nonneg_cube (length ssp_lgmet) (length ages) n_wave flux ->
  exists r r' sed sed',
    calc_rest_sed_sfh_table_met_table (fins ts) (fins s) (fins lgmet_table) (Fin scatter) (fins ssp_lgmet) (fins ages) (fins3 flux) (Fin t_obs) (Fin sfr_min) = Ok r
    /\ calc_rest_sed_sfh_table_met_table (fins ts) (fins (map (Rmult c) s)) (fins lgmet_table) (Fin scatter) (fins ssp_lgmet) (fins ages) (fins3 flux) (Fin t_obs) (Fin sfr_min) = Ok r'
    /\ rest_sed r = fins sed /\ rest_sed r' = fins sed'
    /\ (forall k, (k < n_wave)%nat -> within_factor ((1 + eps) ^ 11) (c * ent sed k) (ent sed' k))
    /\ forall ws, length ws = n_wave -> ws <> [] -> increasing ws -> mags_shifted ws sed sed' (- (2.5 * log10 c)) (27.5 * log10 (1 + eps)).
Proof.
  intros ts s ms h lgmets ages n_wave f t_obs m c e G Lm Ht Hm Hc He P H1 H2 Hf. pose proof G as (Hl & Hn & _).
  assert (Hs : s <> []) by (intro Q; subst; destruct ts; [congruence|discriminate]).
  assert (SF : sfr_follows c (1 + e) s (map (Rmult c) s)) by (apply scaled_follows; auto; eapply Forall_impl; [|exact P]; simpl; intros; lra).
  destruct (sed_core_met ts s (map (Rmult c) s) ms h lgmets ages n_wave f t_obs m c (1 + e)) as (r & r' & sed & sed' & E & E' & R & R' & L1 & L2 & W); auto; try lra.
  - now rewrite map_length.
  - rewrite !floored_id; [exact SF| |]; [apply Forall_map|]; (eapply Forall_impl; [|exact P]); simpl; intros; lra.
  - rewrite !floored_id; [exact SF| |]; [apply Forall_map|]; (eapply Forall_impl; [|exact P]); simpl; intros; lra.
  - exists r, r', sed, sed'. do 4 (split; [assumption|]). assert (W' : forall k, (k < n_wave)%nat -> within_factor ((1 + e) ^ 11) (c * ent sed k) (ent sed' k)) by (intros k Hk; now destruct (W k Hk) as (_ & _ & Q)).
    split; [exact W'|]. intros ws Hw Hwn Iw. replace (27.5 * log10 (1 + e)) with (2.5 * log10 ((1 + e) ^ 11)) by (rewrite log10_pow by lra; replace (INR 11) with 11 by (simpl; lra); lra).
    apply mags_of_sed; try lra.
    + apply pow_R1_Rle; lra.
    + repeat split; auto; lia.
    + repeat split; auto; lia.
    + intros k Hk. apply W'. lia.
Qed.

Lemma C147_step_met_lemma : forall ts s s' lgmet_table scatter ssp_lgmet ages n_wave flux t_obs sfr_min i,
  good_grids ts s scatter ssp_lgmet ages t_obs -> good_grids ts s' scatter ssp_lgmet ages t_obs ->
  good_grids ts (map2 Rplus s s') scatter ssp_lgmet ages t_obs -> length ts = length lgmet_table -> 0 < t_obs -> 0 < sfr_min ->
  List.Forall (fun x => sfr_min <= x) s -> List.Forall (fun x => sfr_min <= x) s' ->
  is_cube (length ssp_lgmet) (length ages) n_wave flux ->
  (forall i j k, (i < length ssp_lgmet)%nat -> (j < length ages)%nat -> (k < n_wave)%nat -> ent3 flux i j k = 1) ->
  (S i < length ts)%nat -> ent ts i <= t_obs <= ent ts (S i) ->
  exists r r' r2 m m' m2,
    calc_rest_sed_sfh_table_met_table (fins ts) (fins s) (fins lgmet_table) (Fin scatter) (fins ssp_lgmet) (fins ages) (fins3 flux) (Fin t_obs) (Fin sfr_min) = Ok r
    /\ calc_rest_sed_sfh_table_met_table (fins ts) (fins s') (fins lgmet_table) (Fin scatter) (fins ssp_lgmet) (fins ages) (fins3 flux) (Fin t_obs) (Fin sfr_min) = Ok r'
    /\ calc_rest_sed_sfh_table_met_table (fins ts) (fins (map2 Rplus s s')) (fins lgmet_table) (Fin scatter) (fins ssp_lgmet) (fins ages) (fins3 flux) (Fin t_obs) (Fin sfr_min) = Ok r2
    /\ rest_sed r = fins (repeat m n_wave) /\ rest_sed r' = fins (repeat m' n_wave) /\ rest_sed r2 = fins (repeat m2 n_wave)
    /\ Rabs (m2 - (m + m')) <= 10 ^ 9 * ((ent ts (S i) - ent ts i) * (ent s i + ent s' i + (ent s (S i) + ent s' (S i))) / 2 + 1 / 10 ^ 14 * (ent ts 0 - 0.001) / 2)
    /\ ((t_obs = ent ts i \/ t_obs = ent ts (S i)) -> m2 = m + m' - 10 ^ 9 * (1 / 10 ^ 14) * (ent ts 0 - 0.001) / 2).
Proof.
  intros ts s s' lgmet_table sc lgmets ages n_wave flux t m i G G' G2 Lm Ht Hm P P' Hc H1 Hi Hti.
  pose proof G as (L & Hn & Hinc & _). pose proof G' as (L' & _). pose proof G2 as (L2 & _).
  assert (FI : forall l, List.Forall (fun x => m <= x) l -> floored m l = l).
  { induction l as [|a l IH]; intros Q; [reflexivity|]. inversion Q; subst. unfold floored in *. cbn [map]. rewrite IH by auto. f_equal. now apply Rmax_right. }
  assert (P2 : List.Forall (fun x => m <= x) (map2 Rplus s s')).
  { rewrite Forall_ent in P, P'. apply Forall_ent. intros j Hj. rewrite map2_length_R in Hj by lia. rewrite map2_ent_R by lia.
    specialize (P j Hj). specialize (P' j ltac:(lia)). lra. }
  assert (MASS : forall q, good_grids ts q sc lgmets ages t -> List.Forall (fun x => m <= x) q -> exists r,
     calc_rest_sed_sfh_table_met_table (fins ts) (fins q) (fins lgmet_table) (Fin sc) (fins lgmets) (fins ages) (fins3 flux) (Fin t) (Fin m) = Ok r
     /\ rest_sed r = fins (repeat (mass_formed_by ts q t) n_wave)).
  { intros q Gq Pq. destruct (C17_met_lemma ts q lgmet_table sc lgmets ages n_wave t m Gq Lm Ht Hm) as (W & SW & HS & Hp & HW).
    destruct (HW flux Hc) as (r & sed & E & Er & _ & Ln & Hk). exists r. split; [exact E|]. rewrite Er. f_equal. rewrite (FI q Pq) in Hk.
    apply list_eq_ent; [now rewrite repeat_length|].
    intros k Hlt. rewrite Ln in Hlt. rewrite Hk by exact Hlt. unfold ent at 1. rewrite nth_repeat'' by auto.
    assert (B : 1 <= template_mix (length lgmets) (length ages) W flux k <= 1).
    { apply template_mix_bounds; auto. intros. rewrite H1 by (auto; lia). lra. }
    replace (template_mix _ _ _ _ _) with 1 by lra. lra. }
  destruct (MASS s G P) as (r & E & R). destruct (MASS s' G' P') as (r' & E' & R'). destruct (MASS _ G2 P2) as (r2 & E2 & R2).
  exists r, r', r2, (mass_formed_by ts s t), (mass_formed_by ts s' t), (mass_formed_by ts (map2 Rplus s s') t).
  do 6 (split; [assumption|]).
  assert (PP : forall q, List.Forall (fun x => m <= x) q -> List.Forall (fun x => 0 < x) q) by (intros q Q; eapply Forall_impl; [|exact Q]; simpl; intros; lra).
  assert (tp : forall j, (j < length ts)%nat -> 0 < ent ts j) by (intros j Hj; apply (times_pos _ Hinc), ent_In; auto).
  assert (BR : forall q, length ts = length q -> List.Forall (fun x => m <= x) q -> ent (cumulative_mass ts q) i <= mass_formed_by ts q t <= ent (cumulative_mass ts q) (S i)).
  { intros q Lq Pq. rewrite <- !mass_formed_node by (auto; lia). split; apply mass_formed_by_mono; auto; try lra. apply tp. lia. }
  pose proof (BR s L P) as B. pose proof (BR s' L' P') as B'. pose proof (BR _ L2 P2) as B2.
  rewrite !cum_sum in B2 by lia. pose proof (cumulative_mass_step ts s i L Hi) as S1. pose proof (cumulative_mass_step ts s' i L' Hi) as S2. unfold seed_mass in *.
  assert (T0 : 0.001 < ent ts 0) by (apply (proj1 (proj1 (increasing_cons _ _) Hinc)), ent_In; lia).
  split.
  - apply Rabs_le_between. lra.
  - intros [Q|Q]; rewrite Q; rewrite !mass_formed_node by (auto; lia); rewrite cum_sum by lia; unfold seed_mass; lra.
Qed.
