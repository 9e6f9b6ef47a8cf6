(** * Rounding errors of the public functions: statements of C130-C134 *)
From Coq Require Import Reals List Arith Lra Lia ZArith Bool.
From Coquelicot Require Import Rcomplements.
From Flocq Require Import Core.Raux.
From Verif Require LFloat9.
From Verif Require Import Num Arr MUtils MSed Float Spec SpecFloat RList LBcast LUtils LAge LMet LJoint LFloat LFloat2 LFloat3 LFloat5 LFloat10 LFloat11 LFloat12 LFloat13 LRound1 LRound2 LRound3 LRound4 LRound5 LRound6 LRound7 LRound8 LRound9 LRound10 LRound11 Demo Demo2.
Import ListNotations.
Open Scope R_scope.

Lemma C130_lemma : forall AR u, accurate_to AR u -> forall ts sfrs,
  length ts = length sfrs -> (1 <= length ts <= 2 ^ 17)%nat -> increasing ts -> 0.003 <= ent ts 0 ->
  Forall (fun t => machine_number t /\ t <= 1000) ts -> Forall (fun s => machine_number s /\ 0 <= s <= 10 ^ 20) sfrs ->
  exists m m0, cumulative_mstar_formed (AR := AR) (fins ts) (fins sfrs) = Ok (fins m)
    /\ cumulative_mstar_formed (AR := exact) (fins ts) (fins sfrs) = Ok (fins m0)
    /\ length m = length ts /\ length m0 = length ts
    /\ forall i, (i < length ts)%nat -> 0 < ent m0 i /\ Rabs (ent m i - ent m0 i) <= 2 * (INR i + 10) * u * ent m0 i.
Proof.
  intros AR u U ts sfrs HL LN I T0 FT FS. pose proof (rel_err_unit _ _ U) as H.
  destruct (mass_err H ts sfrs HL LN I T0 FT FS) as (m & E & Lm & V). exists m, (cumulative_mass ts sfrs). split; auto.
  split. { rewrite cum_same by (now rewrite !fins_length). now rewrite cumulative_mass_fins. }
  split; auto. split; [apply cumulative_mass_length|].
  intros i Hi. destruct (V i Hi) as (V1 & V2). split; auto. assert (0 < / 10 ^ 8) by (apply Rinv_0_lt_compat, pow_lt; lra). lra.
Qed.

Lemma C131_age_lemma : forall AR u, accurate_to AR u -> forall K ts sfrs ages t_obs sfr_min,
  rounding_history K ts sfrs sfr_min -> rounding_ages ages -> machine_number t_obs -> ent ts 0 <= t_obs <= 1000 ->
  half_in_bins ts sfrs sfr_min t_obs ages -> INR (length ages) * (mass_amp K ts t_obs (length ages) * u) <= 1/100 ->
  exists w w0, calc_age_weights_from_sfh_table (AR := AR) (fins ts) (fins sfrs) (fins ages) (Fin t_obs) (lit sfr_min) = Ok (fins w)
    /\ calc_age_weights_from_sfh_table (AR := exact) (fins ts) (fins sfrs) (fins ages) (Fin t_obs) (Fin sfr_min) = Ok (fins w0)
    /\ length w = length ages /\ length w0 = length ages
    /\ forall i, (i < length ages)%nat -> Rabs (ent w i - ent w0 i) <= 40 * mass_amp K ts t_obs (length ages) * u.
Proof.
  intros AR u U K ts sfrs ages t_obs sfr_min RH RA Rt Bt HB HA. pose proof (rel_err_unit _ _ U) as H. pose proof (unit_eps _ _ U) as HE.
  destruct (age_public u H HE ts sfrs ages t_obs sfr_min K RH RA Rt Bt HB HA) as (w & Ew & Lw & _ & Vw).
  assert (SP : 0 < sfr_min). { destruct RH as (_ & _ & _ & _ & B & _). apply Rlt_le_trans with (1 / 10 ^ 20); [apply Rdiv_lt_0_compat; [lra|apply pow_lt; lra]|lra]. }
  assert (Lb : length (bin_masses ts sfrs sfr_min t_obs ages) = length ages) by (unfold bin_masses; now rewrite map_length, seq_length).
  eexists. eexists. split; [exact Ew|]. split.
  - apply age_weights_fins_ok; auto; try (apply RH). + apply times_increasing, RH. + destruct RA; lia. + now apply half_total.
  - split; auto. split; [now rewrite map_length|]. intros i Hi. rewrite ent_map by lia. now apply Vw.
Qed.

Lemma C131_mass_lemma : forall AR u, accurate_to AR u -> forall K ts sfrs t_obs sfr_min,
  rounding_history K ts sfrs sfr_min -> machine_number t_obs -> ent ts 0 <= t_obs <= 1000 -> mass_amp K ts t_obs 0 * u <= 1/100 ->
  exists M M0, mstar_at_t_obs (AR := AR) (fins ts) (fins sfrs) (Fin t_obs) (lit sfr_min) = Fin M
    /\ mstar_at_t_obs (AR := exact) (fins ts) (fins sfrs) (Fin t_obs) (Fin sfr_min) = Fin M0
    /\ 0 < M0 /\ Rabs (M - M0) <= 4 * mass_amp K ts t_obs 0 * u * M0.
Proof.
  intros AR u U K ts sfrs t_obs sfr_min RH Rt Bt HA. pose proof (rel_err_unit _ _ U) as H. pose proof (unit_eps _ _ U) as HE.
  destruct (mass_public u H HE ts sfrs t_obs sfr_min K 0 RH Rt Bt HA) as (M & EM & _ & DM).
  assert (SP : 0 < sfr_min). { destruct RH as (_ & _ & _ & _ & B & _). apply Rlt_le_trans with (1 / 10 ^ 20); [apply Rdiv_lt_0_compat; [lra|apply pow_lt; lra]|lra]. }
  destruct RH as (TO & LL & RH). assert (T0 : 0.003 <= ent ts 0) by apply TO.
  exists M, (mass_formed_by ts (floored sfr_min sfrs) t_obs). split; auto. split; [|split; [apply pow10_pos|exact DM]].
  apply mstar_fin; auto; try lra. - apply TO. - now apply times_increasing.
Qed.

Lemma C132_met_lemma : forall AR u, accurate_to AR u -> forall lgmet scatter lgmets,
  Rabs lgmet <= 5 -> machine_number scatter -> 1/1000 <= scatter <= 1 -> rounding_lgmets lgmets ->
  let eta := (130 + 8 * INR (length lgmets)) * u / scatter in INR (length lgmets) * eta <= 1/25 ->
  exists w w0, calc_lgmet_weights_from_lognormal_mdf (AR := AR) (Fin lgmet) (Fin scatter) (fins lgmets) = Ok (fins w)
    /\ calc_lgmet_weights_from_lognormal_mdf (AR := exact) (Fin lgmet) (Fin scatter) (fins lgmets) = Ok (fins w0)
    /\ length w = length lgmets /\ length w0 = length lgmets
    /\ forall i, (i < length lgmets)%nat -> Rabs (ent w i - ent w0 i) <= 10 * eta.
Proof.
  intros AR u U x h a Bx Rh Bh RM eta HN. pose proof (rel_err_unit _ _ U) as H.
  destruct (met_public u H x h a Rh Bh Bx RM HN) as (w & Ew & Lw & _ & Vw). exists w, (met_weights x h (met_edges a)). split; auto.
  destruct RM as (La & _ & ND). split; [apply lognormal_fins; auto; try lra; lia|]. split; auto. split; auto.
  apply met_weights_dist_met; auto; try lra; lia.
Qed.

Lemma C132_table_lemma : forall AR u, accurate_to AR u -> forall K ts lgmet_table scatter lgmets ages t_obs,
  times_ok ts -> rounding_lgmet_table K ts lgmet_table -> rounding_lgmets lgmets -> (1 <= length ages <= 2 ^ 18)%nat ->
  (forall i, (i < length ages)%nat -> -4 <= ent ages i <= 4) -> machine_number t_obs -> ent ts 0 <= t_obs <= 1000 ->
  machine_number scatter -> 1/1000 <= scatter <= 1 ->
  let eta := (130 + 8 * INR (length lgmets) + lgmet_amp K ts t_obs) * u / scatter in INR (length lgmets) * eta <= 1/25 ->
  exists B B0, calc_lgmet_weights_from_lgmet_table (AR := AR) (fins ts) (fins lgmet_table) (Fin scatter) (fins lgmets) (fins ages) (Fin t_obs) = Ok (map fins B)
    /\ calc_lgmet_weights_from_lgmet_table (AR := exact) (fins ts) (fins lgmet_table) (Fin scatter) (fins lgmets) (fins ages) (Fin t_obs) = Ok (map fins B0)
    /\ is_matrix (length lgmets) (length ages) B /\ is_matrix (length lgmets) (length ages) B0
    /\ forall i j, (i < length lgmets)%nat -> (j < length ages)%nat -> Rabs (ent2 B i j - ent2 B0 i j) <= (10 * eta + 1.2 * u) / INR (length ages).
Proof.
  intros AR u U K ts ms h lgmets ages t TO RZ RM La RA Rt Bt Rh Bh eta HN. pose proof (rel_err_unit _ _ U) as H. pose proof (unit_eps _ _ U) as HE.
  destruct (met_table_err u H HE ts ms h lgmets ages t K TO RZ RM La RA Rt Bt Rh Bh HN) as (B & EB & MB & VB).
  exists B, (met_matrix ts ms h lgmets ages t). split; auto. split.
  - pose proof (times_increasing _ TO) as TI. apply lgmet_table_weights_fins; try apply TO; try apply RZ; try lra; try apply RM.
    + intros x Hx. pose proof (increasing_head _ _ _ TI Hx). lra.
    + now apply increasing_tl in TI.
  - split; auto. split; auto. apply met_matrix_shape.
Qed.

Lemma C133_joint_lemma : forall AR u, accurate_to AR u -> forall K ts sfrs lgmet scatter lgmets ages t_obs,
  rounding_history K ts sfrs (1 / 10 ^ 14) -> rounding_ages ages -> rounding_lgmets lgmets ->
  machine_number t_obs -> ent ts 0 <= t_obs <= 1000 -> Rabs lgmet <= 5 -> machine_number scatter -> 1/1000 <= scatter <= 1 ->
  half_in_bins ts sfrs (1 / 10 ^ 14) t_obs ages ->
  let bound := joint_amp K ts t_obs (length ages) (length lgmets) scatter 0 * u in bound <= 1/20 ->
  exists r r0 W W0,
    calc_ssp_weights_sfh_table_lognormal_mdf (AR := AR) (fins ts) (fins sfrs) (Fin lgmet) (Fin scatter) (fins lgmets) (fins ages) (Fin t_obs) = Ok r
    /\ calc_ssp_weights_sfh_table_lognormal_mdf (AR := exact) (fins ts) (fins sfrs) (Fin lgmet) (Fin scatter) (fins lgmets) (fins ages) (Fin t_obs) = Ok r0
    /\ weights r = map fins W /\ weights r0 = map fins W0 /\ is_matrix (length lgmets) (length ages) W /\ is_matrix (length lgmets) (length ages) W0
    /\ total_difference W W0 <= bound.
Proof.
  intros AR u U K ts sfrs x h lgmets ages t RH RA RM Rt Bt Bx Rh Bh HB bound HJ.
  destruct (joint_public u (rel_err_unit _ _ U) (unit_eps _ _ U) ts sfrs x h lgmets ages t K) as (r & r0 & W & W0 & E1 & E2 & E3 & E4 & E5 & E6 & _ & _ & E7); auto.
  exists r, r0, W, W0. auto 10.
Qed.
Lemma C133_joint_met_lemma : forall AR u, accurate_to AR u -> forall K Kz ts sfrs lgmet_table scatter lgmets ages t_obs,
  rounding_history K ts sfrs (1 / 10 ^ 14) -> rounding_ages ages -> rounding_lgmets lgmets -> rounding_lgmet_table Kz ts lgmet_table ->
  machine_number t_obs -> ent ts 0 <= t_obs <= 1000 -> machine_number scatter -> 1/1000 <= scatter <= 1 ->
  half_in_bins ts sfrs (1 / 10 ^ 14) t_obs ages ->
  let bound := joint_amp K ts t_obs (length ages) (length lgmets) scatter (lgmet_amp Kz ts t_obs) * u in bound <= 1/20 ->
  exists r r0 W W0,
    calc_ssp_weights_sfh_table_met_table (AR := AR) (fins ts) (fins sfrs) (fins lgmet_table) (Fin scatter) (fins lgmets) (fins ages) (Fin t_obs) = Ok r
    /\ calc_ssp_weights_sfh_table_met_table (AR := exact) (fins ts) (fins sfrs) (fins lgmet_table) (Fin scatter) (fins lgmets) (fins ages) (Fin t_obs) = Ok r0
    /\ weights r = map fins W /\ weights r0 = map fins W0 /\ is_matrix (length lgmets) (length ages) W /\ is_matrix (length lgmets) (length ages) W0
    /\ total_difference W W0 <= bound.
Proof.
  intros AR u U K Kz ts sfrs ms h lgmets ages t RH RA RM RZ Rt Bt Rh Bh HB bound HJ.
  destruct (joint_met_public u (rel_err_unit _ _ U) (unit_eps _ _ U) ts sfrs ms h lgmets ages t K Kz) as (r & r0 & W & W0 & E1 & E2 & E3 & E4 & E5 & E6 & _ & _ & E7); auto.
  exists r, r0, W, W0. auto 10.
Qed.

Lemma C134_sed_lemma : forall AR u, accurate_to AR u -> forall K ts sfrs lgmet scatter lgmets ages flux n_wave t_obs sfr_min F,
  rounding_history K ts sfrs (1 / 10 ^ 14) -> rounding_history K ts sfrs sfr_min -> rounding_ages ages -> rounding_lgmets lgmets ->
  machine_number t_obs -> ent ts 0 <= t_obs <= 1000 -> Rabs lgmet <= 5 -> machine_number scatter -> 1/1000 <= scatter <= 1 ->
  half_in_bins ts sfrs (1 / 10 ^ 14) t_obs ages ->
  let n_met := length lgmets in let n_age := length ages in
  let bound := joint_amp K ts t_obs n_age n_met scatter 0 * u in bound <= 1/20 ->
  is_cube n_met n_age n_wave flux ->
  let M := mass_formed_by ts (floored sfr_min sfrs) t_obs in
  (forall k, (k < n_wave)%nat -> 0 <= F k <= 10 ^ 30 /\ F k * M <= 10 ^ 36) ->
  (forall i j k, (i < n_met)%nat -> (j < n_age)%nat -> (k < n_wave)%nat -> Rabs (ent3 flux i j k) <= F k) ->
  exists r r0 sed sed0,
    calc_rest_sed_sfh_table_lognormal_mdf (AR := AR) (fins ts) (fins sfrs) (Fin lgmet) (Fin scatter) (fins lgmets) (fins ages) (fins3 flux) (Fin t_obs) (lit sfr_min) = Ok r
    /\ calc_rest_sed_sfh_table_lognormal_mdf (AR := exact) (fins ts) (fins sfrs) (Fin lgmet) (Fin scatter) (fins lgmets) (fins ages) (fins3 flux) (Fin t_obs) (Fin sfr_min) = Ok r0
    /\ rest_sed r = fins sed /\ rest_sed r0 = fins sed0 /\ length sed = n_wave /\ length sed0 = n_wave
    /\ forall k, (k < n_wave)%nat -> Rabs (ent sed k - ent sed0 k) <= F k * M * (2 * bound) + (3 * INR (n_met * n_age) * M + 1) * (u * / 2 ^ 102).
Proof.
  intros AR u U K ts sfrs x h lgmets ages flux n_wave t sfr_min F RH RH' RA RM Rt Bt Bx Rh Bh HB n_met n_age bound HJ HC M BF FF.
  destruct (sed_public u (rel_err_unit _ _ U) (unit_eps _ _ U) ts sfrs x h lgmets ages flux n_wave t sfr_min K F) as (r & r0 & W & W0 & E1 & E2 & E3 & E4 & E5 & E6 & E7); auto.
  exists r, r0, W, W0. do 6 (split; auto). intros k Hk. specialize (E7 k Hk). rewrite (Rmult_assoc 2) in E7. exact E7.
Qed.
Lemma C134_sed_met_lemma : forall AR u, accurate_to AR u -> forall K Kz ts sfrs lgmet_table scatter lgmets ages flux n_wave t_obs sfr_min F,
  rounding_history K ts sfrs (1 / 10 ^ 14) -> rounding_history K ts sfrs sfr_min -> rounding_ages ages -> rounding_lgmets lgmets -> rounding_lgmet_table Kz ts lgmet_table ->
  machine_number t_obs -> ent ts 0 <= t_obs <= 1000 -> machine_number scatter -> 1/1000 <= scatter <= 1 ->
  half_in_bins ts sfrs (1 / 10 ^ 14) t_obs ages ->
  let n_met := length lgmets in let n_age := length ages in
  let bound := joint_amp K ts t_obs n_age n_met scatter (lgmet_amp Kz ts t_obs) * u in bound <= 1/20 ->
  is_cube n_met n_age n_wave flux ->
  let M := mass_formed_by ts (floored sfr_min sfrs) t_obs in
  (forall k, (k < n_wave)%nat -> 0 <= F k <= 10 ^ 30 /\ F k * M <= 10 ^ 36) ->
  (forall i j k, (i < n_met)%nat -> (j < n_age)%nat -> (k < n_wave)%nat -> Rabs (ent3 flux i j k) <= F k) ->
  exists r r0 sed sed0,
    calc_rest_sed_sfh_table_met_table (AR := AR) (fins ts) (fins sfrs) (fins lgmet_table) (Fin scatter) (fins lgmets) (fins ages) (fins3 flux) (Fin t_obs) (lit sfr_min) = Ok r
    /\ calc_rest_sed_sfh_table_met_table (AR := exact) (fins ts) (fins sfrs) (fins lgmet_table) (Fin scatter) (fins lgmets) (fins ages) (fins3 flux) (Fin t_obs) (Fin sfr_min) = Ok r0
    /\ rest_sed r = fins sed /\ rest_sed r0 = fins sed0 /\ length sed = n_wave /\ length sed0 = n_wave
    /\ forall k, (k < n_wave)%nat -> Rabs (ent sed k - ent sed0 k) <= F k * M * (2 * bound) + (3 * INR (n_met * n_age) * M + 1) * (u * / 2 ^ 102).
Proof.
  intros AR u U K Kz ts sfrs ms h lgmets ages flux n_wave t sfr_min F RH RH' RA RM RZ Rt Bt Rh Bh HB n_met n_age bound HJ HC M BF FF.
  destruct (sed_met_public u (rel_err_unit _ _ U) (unit_eps _ _ U) ts sfrs ms h lgmets ages flux n_wave t sfr_min K Kz F) as (r & r0 & W & W0 & E1 & E2 & E3 & E4 & E5 & E6 & E7); auto.
  exists r, r0, W, W0. do 6 (split; auto). intros k Hk. specialize (E7 k Hk). rewrite (Rmult_assoc 2) in E7. exact E7.
Qed.

(** ** A concrete case: constant star formation, double precision *)
Definition rd_t : list R := [1; 2].
Definition rd_sfr : list R := [1; 1].
Definition rd_ages : list R := [-1/2; 1/2; 3/2].
Definition rd_lgmets : list R := [-3; -2; -1; 0].
Definition rd_table : list R := [-2; -1].
Definition rd_flux : list (list (list R)) := repeat (repeat [1/2; 1] 3) 4.
#[local] Existing Instance binary64.
Lemma rd_unit : accurate_to binary64 (/ 2 ^ 53).
Proof. exact LFloat9.unit64. Qed.
Lemma rd_times : times_ok rd_t.
Proof.
  unfold times_ok, rd_t. split; [discriminate|]. split; [unfold ent; simpl; lra|]. split.
  - intros i Hi. destruct i as [|[|i]]; [| |simpl in Hi; lia]; unfold ent; simpl; split; try lra; [apply (LFloat9.demo_int 1)|apply (LFloat9.demo_int 2)]; auto; lia.
  - intros i Hi. destruct i as [|i]; [|simpl in Hi; lia]. unfold ent; simpl. lra.
Qed.
Lemma rd_floored s : 0 < s <= 1 -> floored s rd_sfr = rd_sfr.
Proof. intros Hs. unfold floored, rd_sfr. simpl. rewrite !Rmax_right by lra. reflexivity. Qed.
Lemma e14_range : 0 < 1 / 10 ^ 14 <= 1 / 100.
Proof.
  split; [apply Rdiv_lt_0_compat; [lra|apply pow_lt; lra]|]. unfold Rdiv. rewrite !Rmult_1_l. apply Rinv_le; [lra|]. replace 100 with (10 ^ 2) by (simpl; lra). apply Rle_pow; [lra|lia].
Qed.
(** the masses formed by 1 and 2 Gyr *)
Lemma rd_mass : exists m1 m2, cumulative_mass rd_t rd_sfr = [m1; m2] /\ 10 ^ 8 <= m1 /\ 2 * m1 <= m2 <= 4 * m1 /\ m2 <= 10 ^ 10.
Proof.
  pose proof e14_range as B. set (e := 1 / 10 ^ 14) in *. exists (10 ^ 9 * (0.999 * (e + 1) / 2)), (10 ^ 9 * (0.999 * (e + 1) / 2 + 1)). split.
  - unfold cumulative_mass, rd_t, rd_sfr. cbn [length seq map firstn trapezoid]. fold e. repeat (f_equal; try lra).
  - simpl (10 ^ 9). simpl (10 ^ 8). simpl (10 ^ 10). lra.
Qed.
Lemma rd_slope s : 0 < s <= 1 -> slope_ok 2 rd_t (floored s rd_sfr).
Proof.
  intros Hs. rewrite rd_floored by auto. destruct rd_mass as (m1 & m2 & E & B1 & B2 & B3). simpl in B1. split; [lra|]. intros i Hi. destruct i as [|i]; [|simpl in Hi; lia]. rewrite E. unfold ent, rd_t; cbn [nth].
  rewrite log10_1. replace (2 * (log10 2 - 0)) with (log10 4) by (replace 4 with (2 * 2) by lra; rewrite log10_mult by lra; lra).
  pose proof (log10_le m2 (4 * m1) ltac:(lra) ltac:(lra)) as LL. rewrite log10_mult in LL by lra. lra.
Qed.
Lemma rd_history s : 1 / 10 ^ 20 <= s <= 1 -> rounding_history 2 rd_t rd_sfr s.
Proof.
  intros Hs. assert (0 < 1 / 10 ^ 20) by (apply Rdiv_lt_0_compat; [lra|apply pow_lt; lra]). split; [apply rd_times|]. split; [reflexivity|]. split.
  - unfold rd_t; cbn [length]. apply (Nat.pow_le_mono_r 2 1 17); lia.
  - split. + assert (P : rnd 1 = Fin 1 /\ 1 <= 10 ^ 20) by (split; [apply (LFloat9.demo_int 1); auto; lia|apply pow_R1_Rle; lra]). unfold rd_sfr. constructor; [exact P|constructor; [exact P|constructor]].
    + split; [split; [lra|]; apply Rle_trans with 1; [lra|apply pow_R1_Rle; lra]|]. apply rd_slope. lra.
Qed.
Lemma rd_rages : rounding_ages rd_ages.
Proof.
  split; [|split; [apply LFloat9.demo_range|]].
  - unfold rd_ages; cbn [length]. split; [lia|]. apply Nat.le_trans with (2 ^ 2)%nat; [simpl; lia|apply Nat.pow_le_mono_r; lia].
  - unfold age_edges, rd_ages. cbn [length seq map]. apply increasing_nondecreasing. unfold age_edge, node_width, ent; simpl. solve_increasing.
Qed.
Lemma rd_rlgmets : rounding_lgmets rd_lgmets.
Proof.
  split; [|split; [|apply Demo2.demo_met_edges]].
  - unfold rd_lgmets; cbn [length]. split; [lia|]. apply (Nat.pow_le_mono_r 2 2 18); lia.
  - intros i Hi. destruct i as [|[|[|[|i]]]]; unfold ent; simpl in *; try lia; lra.
Qed.
Lemma rd_half s : 0 < s <= 1 -> half_in_bins rd_t rd_sfr s 4 rd_ages.
Proof.
  intros Hs. unfold half_in_bins. cbv zeta. rewrite rd_floored by auto. destruct rd_mass as (m1 & m2 & E & B1 & B2 & B3). simpl in B1. unfold mass_formed_by. rewrite E.
  assert (P2 : 10 <= pow10 2). { replace 10 with (pow10 1) at 1 by (unfold pow10; rewrite Rpower_1; lra). apply pow10_le. lra. }
  assert (P1 : pow10 (-1) <= 1). { rewrite <- pow10_0. apply pow10_le. lra. }
  assert (E1 : birth_time 4 (age_edge rd_ages (length rd_ages)) = 0.001).
  { unfold birth_time, age_edge, node_width, rd_ages, ent. simpl. replace (3 / 2 + _) with 2 by lra. apply Rmax_left. lra. }
  assert (E2 : 3 <= birth_time 4 (age_edge rd_ages 0)).
  { unfold birth_time, age_edge, node_width, rd_ages, ent. simpl. replace (-1 / 2 - _) with (-1) by lra. eapply Rle_trans; [|apply Rmax_r]. lra. }
  rewrite E1. unfold rd_t at 1 2. cbn [map combine]. rewrite log10_1. cbn [pwlin].
  pose proof (log10_lt 0.001 1 ltac:(lra) ltac:(lra)) as L1. pose proof (log10_lt 1 2 ltac:(lra) ltac:(lra)) as L2. rewrite log10_1 in L1, L2.
  pose proof (log10_le 2 (birth_time 4 (age_edge rd_ages 0)) ltac:(lra) ltac:(lra)) as L3. destruct (Rle_dec _ 0); [|lra].
  destruct (Rle_dec _ 0); [lra|]. destruct (Rlt_dec _ _); [lra|]. rewrite !pow10_log10 by lra. lra.
Qed.
Lemma rd_rtable : rounding_lgmet_table 4 rd_t rd_table.
Proof.
  split; [reflexivity|]. split; [lra|]. split.
  - intros i Hi. destruct i as [|[|i]]; [| |simpl in Hi; lia]; unfold ent, rd_table; cbn [nth]; split; try lra; [apply (LFloat9.demo_int (-2))|apply (LFloat9.demo_int (-1))]; auto; lia.
  - intros i Hi. destruct i as [|i]; [|simpl in Hi; lia]. unfold ent, rd_t, rd_table; cbn [nth]. rewrite log10_1. rewrite Rabs_right by lra.
    assert (1 <= 4 * log10 2); [|lra]. replace 1 with (log10 10) by (unfold log10; field; apply Rgt_not_eq, ln10_pos). replace (4 * log10 2) with (log10 16); [apply log10_le; lra|].
    replace 16 with (2 * 2 * (2 * 2)) by lra. rewrite !log10_mult by lra. lra.
Qed.
Lemma rd_u : 0 < / 2 ^ 53 <= / 10 ^ 15.
Proof. split; [apply Rinv_0_lt_compat, pow_lt; lra|]. apply Rinv_le; [apply pow_lt; lra|]. simpl. lra. Qed.
Lemma rd_small x : 0 <= x <= 10 ^ 7 -> x * / 2 ^ 53 <= 1 / 10 ^ 6.
Proof.
  intros Hx. pose proof rd_u. apply Rle_trans with (10 ^ 7 * / 10 ^ 15); [apply Rmult_le_compat; lra|]. simpl. lra.
Qed.
Lemma rd_mamp n : (n <= 3)%nat -> 0 <= mass_amp 2 rd_t 4 n <= 10000.
Proof.
  intros Hn. unfold mass_amp, rd_t, ent. cbn [length nth]. simpl (INR 2). pose proof (pos_INR n). apply le_INR in Hn. simpl (INR 3) in Hn. lra.
Qed.
Lemma rd_zamp : 0 <= lgmet_amp 4 rd_t 4 <= 10000.
Proof. unfold lgmet_amp, rd_t, ent. cbn [nth]. lra. Qed.
Lemma rd_jamp c : 0 <= c <= 10000 -> 0 <= joint_amp 2 rd_t 4 (length rd_ages) (length rd_lgmets) (1/4) c <= 10 ^ 7.
Proof.
  intros Hc. unfold joint_amp. pose proof (rd_mamp 3 ltac:(lia)) as A. unfold rd_ages, rd_lgmets. cbn [length]. change (4 * 3)%nat with 12%nat. simpl (INR _). simpl (10 ^ 6). lra.
Qed.
Lemma rd_cube : is_cube (length rd_lgmets) (length rd_ages) 2 rd_flux.
Proof. split; [reflexivity|]. unfold rd_flux. simpl. repeat constructor. Qed.
Lemma rd_flux_le i j k : (i < 4)%nat -> (j < 3)%nat -> (k < 2)%nat -> Rabs (ent3 rd_flux i j k) <= 1.
Proof.
  intros Hi Hj Hk. destruct i as [|[|[|[|i]]]]; try lia; destruct j as [|[|[|j]]]; try lia; destruct k as [|[|k]]; try lia; unfold ent3, ent2, ent, rd_flux; simpl; rewrite Rabs_right; lra.
Qed.
Lemma rd_M s : 0 < s <= 1 -> mass_formed_by rd_t (floored s rd_sfr) 4 <= 10 ^ 10.
Proof.
  intros Hs. rewrite rd_floored by auto. destruct rd_mass as (m1 & m2 & E & B1 & B2 & B3). simpl in B1. unfold mass_formed_by. rewrite E. unfold rd_t. cbn [map combine pwlin].
  pose proof (log10_lt 1 4 ltac:(lra) ltac:(lra)) as L1. pose proof (log10_lt 2 4 ltac:(lra) ltac:(lra)) as L2. 
  destruct (Rle_dec _ _); [lra|]. destruct (Rlt_dec _ _); [lra|]. rewrite pow10_log10 by lra. exact B3.
Qed.
