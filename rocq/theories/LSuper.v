(** * C147: superposition of star formation histories *)
From Coq Require Import Reals List Arith Lra Lia.
From Coquelicot Require Import Coquelicot.
From Verif Require Import Num Arr MUtils MSed Spec SpecStab RList LBcast LUtils LCalc LAge LMet LJoint Demo Demo2.
Import ListNotations.
Open Scope R_scope.

Lemma map2_length_R (f : R -> R -> R) : forall l l', length l = length l' -> length (map2 f l l') = length l.
Proof. intros l l' H. rewrite map2_length. lia. Qed.
Lemma map2_ent_R (f : R -> R -> R) : forall l l' i, length l = length l' -> (i < length l)%nat -> ent (map2 f l l') i = f (ent l i) (ent l' i).
Proof.
  induction l as [|x l IH]; intros [|y l'] i H Hi; simpl in *; try lia. destruct i as [|i]; [reflexivity|].
  unfold ent in *. simpl. apply IH; lia.
Qed.

(** the mass table of a sum: the seed (1e-14 Msun/yr at 0.001 Gyr) is counted once instead of twice *)
Definition seed_mass (ts : list R) : R := 10 ^ 9 * (1 / 10 ^ 14) * (ent ts 0 - 0.001) / 2.
Lemma cum_sum ts s s' : length ts = length s -> length ts = length s' -> forall i, (i < length ts)%nat ->
  ent (cumulative_mass ts (map2 Rplus s s')) i = ent (cumulative_mass ts s) i + ent (cumulative_mass ts s') i - seed_mass ts.
Proof.
  intros L L'. assert (L2 : length ts = length (map2 Rplus s s')) by (rewrite map2_length_R; lia).
  induction i as [|i IH]; intros Hi.
  - destruct ts as [|t ts]; [simpl in Hi; lia|]. destruct s as [|a s]; [discriminate|]. destruct s' as [|b s']; [discriminate|].
    simpl map2. rewrite !cumulative_mass_0. unfold seed_mass. rewrite ent_0. lra.
  - specialize (IH ltac:(lia)). pose proof (cumulative_mass_step ts s i L Hi). pose proof (cumulative_mass_step ts s' i L' Hi).
    pose proof (cumulative_mass_step ts (map2 Rplus s s') i L2 Hi) as Q. rewrite !map2_ent_R in Q by lia. lra.
Qed.
Lemma cum_mono ts s s' : length ts = length s -> length ts = length s' -> increasing (0.001 :: ts) ->
  (forall i, (i < length ts)%nat -> ent s i <= ent s' i) -> forall i, (i < length ts)%nat -> ent (cumulative_mass ts s) i <= ent (cumulative_mass ts s') i.
Proof.
  intros L L' Hi H. pose proof (proj1 (increasing_cons _ _) Hi) as [H0 Hi1]. induction i as [|i IH]; intros Hlt.
  - pose proof (H 0%nat Hlt) as Q. destruct ts as [|t ts]; [simpl in Hlt; lia|]. destruct s as [|a s]; [discriminate|]. destruct s' as [|b s']; [discriminate|].
    rewrite !cumulative_mass_0. rewrite !ent_0 in Q. assert (0.001 < t) by (apply H0; now left).
    assert ((t - 0.001) * (1 / 10 ^ 14 + a) <= (t - 0.001) * (1 / 10 ^ 14 + b)) by (apply Rmult_le_compat_l; lra). lra.
  - specialize (IH ltac:(lia)). pose proof (cumulative_mass_step ts s i L Hlt). pose proof (cumulative_mass_step ts s' i L' Hlt).
    pose proof (H i ltac:(lia)). pose proof (H (S i) Hlt). pose proof (Hi1 i (S i) ltac:(lia)).
    assert ((ent ts (S i) - ent ts i) * (ent s i + ent s (S i)) <= (ent ts (S i) - ent ts i) * (ent s' i + ent s' (S i))) by (apply Rmult_le_compat_l; lra). lra.
Qed.
Lemma cum_api ts s : length ts = length s -> cumulative_mstar_formed (fins ts) (fins s) = Ok (fins (cumulative_mass ts s)).
Proof.
  intros L. rewrite cum_same by (now rewrite !fins_length).
  now rewrite cumulative_mass_fins by auto.
Qed.

Lemma C147_tables_lemma : forall ts s s', length ts = length s -> length ts = length s' -> increasing (0.001 :: ts) ->
  exists m m' m2,
    cumulative_mstar_formed (fins ts) (fins s) = Ok (fins m) /\ cumulative_mstar_formed (fins ts) (fins s') = Ok (fins m')
    /\ cumulative_mstar_formed (fins ts) (fins (map2 Rplus s s')) = Ok (fins m2)
    /\ length m = length ts /\ length m' = length ts /\ length m2 = length ts
    /\ (forall i, (i < length ts)%nat -> ent m2 i = ent m i + ent m' i - 10 ^ 9 * (1 / 10 ^ 14) * (ent ts 0 - 0.001) / 2)
    /\ ((forall i, (i < length ts)%nat -> ent s i <= ent s' i) -> forall i, (i < length ts)%nat -> ent m i <= ent m' i).
Proof.
  intros ts s s' L L' Hi. exists (cumulative_mass ts s), (cumulative_mass ts s'), (cumulative_mass ts (map2 Rplus s s')).
  rewrite !cum_api by (auto; rewrite map2_length_R; lia). rewrite !cumulative_mass_length. repeat (split; [reflexivity|]). split.
  - intros i H. now apply cum_sum.
  - intros H i Hlt. now apply cum_mono.
Qed.

Lemma C147_step_lemma : forall ts s s' lgmet scatter ssp_lgmet ages n_wave flux t_obs sfr_min i,
  good_grids ts s scatter ssp_lgmet ages t_obs -> good_grids ts s' scatter ssp_lgmet ages t_obs ->
  good_grids ts (map2 Rplus s s') scatter ssp_lgmet ages t_obs -> 0 < t_obs -> 0 < sfr_min ->
  List.Forall (fun x => sfr_min <= x) s -> List.Forall (fun x => sfr_min <= x) s' ->
  is_cube (length ssp_lgmet) (length ages) n_wave flux ->
  (forall i j k, (i < length ssp_lgmet)%nat -> (j < length ages)%nat -> (k < n_wave)%nat -> ent3 flux i j k = 1) ->
  (S i < length ts)%nat -> ent ts i <= t_obs <= ent ts (S i) ->
  exists r r' r2 m m' m2,
    calc_rest_sed_sfh_table_lognormal_mdf (fins ts) (fins s) (Fin lgmet) (Fin scatter) (fins ssp_lgmet) (fins ages) (fins3 flux) (Fin t_obs) (Fin sfr_min) = Ok r
    /\ calc_rest_sed_sfh_table_lognormal_mdf (fins ts) (fins s') (Fin lgmet) (Fin scatter) (fins ssp_lgmet) (fins ages) (fins3 flux) (Fin t_obs) (Fin sfr_min) = Ok r'
    /\ calc_rest_sed_sfh_table_lognormal_mdf (fins ts) (fins (map2 Rplus s s')) (Fin lgmet) (Fin scatter) (fins ssp_lgmet) (fins ages) (fins3 flux) (Fin t_obs) (Fin sfr_min) = Ok r2
    /\ rest_sed r = fins (repeat m n_wave) /\ rest_sed r' = fins (repeat m' n_wave) /\ rest_sed r2 = fins (repeat m2 n_wave)
    /\ Rabs (m2 - (m + m')) <= 10 ^ 9 * ((ent ts (S i) - ent ts i) * (ent s i + ent s' i + (ent s (S i) + ent s' (S i))) / 2 + 1 / 10 ^ 14 * (ent ts 0 - 0.001) / 2)
    /\ ((t_obs = ent ts i \/ t_obs = ent ts (S i)) -> m2 = m + m' - 10 ^ 9 * (1 / 10 ^ 14) * (ent ts 0 - 0.001) / 2).
Proof.
  intros ts s s' lgmet sc lgmets ages n_wave flux t m i G G' G2 Ht Hm P P' Hc H1 Hi Hti.
  pose proof G as (L & Hn & Hinc & _). pose proof G' as (L' & _). pose proof G2 as (L2 & _).
  assert (FI : forall l, List.Forall (fun x => m <= x) l -> floored m l = l).
  { induction l as [|a l IH]; intros Q; [reflexivity|]. inversion Q; subst. unfold floored in *. cbn [map]. rewrite IH by auto. f_equal. now apply Rmax_right. }
  assert (P2 : List.Forall (fun x => m <= x) (map2 Rplus s s')).
  { rewrite Forall_ent in P, P'. apply Forall_ent. intros j Hj. rewrite map2_length_R in Hj by lia. rewrite map2_ent_R by lia.
    specialize (P j Hj). specialize (P' j ltac:(lia)). lra. }
  assert (MASS : forall q, good_grids ts q sc lgmets ages t -> List.Forall (fun x => m <= x) q -> exists r,
     calc_rest_sed_sfh_table_lognormal_mdf (fins ts) (fins q) (Fin lgmet) (Fin sc) (fins lgmets) (fins ages) (fins3 flux) (Fin t) (Fin m) = Ok r
     /\ rest_sed r = fins (repeat (mass_formed_by ts q t) n_wave)).
  { intros q Gq Pq. destruct (sed_lognormal_fins ts q lgmet sc lgmets ages flux n_wave t m Gq Ht Hm Hc) as (W & mw & aw & _ & SW & HS & Hp & E).
    eexists. split; [exact E|]. cbn [rest_sed]. f_equal. rewrite (FI q Pq). apply list_eq_ent; [now rewrite map_length, seq_length, repeat_length|].
    intros k Hk. rewrite map_length, seq_length in Hk. unfold ent. rewrite nth_map' with (d := 0%nat) by (now rewrite seq_length). rewrite seq_nth by auto. rewrite nth_repeat'' by auto.
    assert (B : 1 <= template_mix (length lgmets) (length ages) W flux (0 + k) <= 1).
    { apply template_mix_bounds; auto. intros. rewrite H1 by (auto; lia). lra. }
    replace (template_mix _ _ _ _ _) with 1 by lra. lra. }
  destruct (MASS s G P) as (r & E & R). destruct (MASS s' G' P') as (r' & E' & R'). destruct (MASS _ G2 P2) as (r2 & E2 & R2).
  exists r, r', r2, (mass_formed_by ts s t), (mass_formed_by ts s' t), (mass_formed_by ts (map2 Rplus s s') t).
  do 6 (split; [assumption|]).
  assert (PP : forall q, List.Forall (fun x => m <= x) q -> List.Forall (fun x => 0 < x) q) by (intros q Q; eapply Forall_impl; [|exact Q]; simpl; intros; lra).
  assert (tp : forall j, (j < length ts)%nat -> 0 < ent ts j) by (intros j Hj; apply (times_pos _ Hinc), ent_In; auto).
  assert (BR : forall q, length ts = length q -> List.Forall (fun x => m <= x) q -> ent (cumulative_mass ts q) i <= mass_formed_by ts q t <= ent (cumulative_mass ts q) (S i)).
  { intros q Lq Pq. rewrite <- !mass_formed_node by (auto; lia). split; apply mass_formed_by_mono; auto; try lra. apply tp. lia. }
  pose proof (BR s L P) as B. pose proof (BR s' L' P') as B'. pose proof (BR _ L2 P2) as B2.
  rewrite !cum_sum in B2 by lia. pose proof (cumulative_mass_step ts s i L Hi) as S1. pose proof (cumulative_mass_step ts s' i L' Hi) as S2. unfold seed_mass in *.
  assert (T0 : 0.001 < ent ts 0) by (apply (proj1 (proj1 (increasing_cons _ _) Hinc)), ent_In; lia).
  split.
  - apply Rabs_le_between. lra.
  - intros [Q|Q]; rewrite Q; rewrite !mass_formed_node by (auto; lia); rewrite cum_sum by lia; unfold seed_mass; lra.
Qed.
