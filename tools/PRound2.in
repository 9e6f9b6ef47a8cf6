(** * Properties C141-: rounding errors in double and single precision, continued.
    [AR] is the arithmetic in which the code runs (IEEE-754 double or single precision, every
    operation and literal rounded to nearest), [exact] the arithmetic of the real numbers;
    the mathematical library (exp, log, pow) is any one accurate to [u] and sums are taken in any
    order ([accurate_to], SpecFloat.v). *)
From Coq Require Import Reals List Arith Lra Lia ZArith.
From Verif Require Import Num Arr MUtils MSed MDiffburst Float Spec SpecFloat SpecFloat3 RList LFloat9 LRound12 LRound34 LRound40 LRound41 SpecFloat4 LEval3 MDust LFloat10 MCosmo MPhot SpecFloat2 SpecFloat5 LRound10 LRound20 LRound26 LRound43 LRound44.
Import ListNotations.
Open Scope R_scope.

(** C141 *)
@@C141_bursty_weights_in_unit_interval = LRound34.C141_range_lemma
Example C141_range_nonvacuous : exists w,
  @calc_bursty_age_weights_from_u_params binary32 {| u_lgfburst := PInf; u_lgyr_peak := Fin (-100); u_lgyr_max := NInf |} (fins [1/4; 1/2; 1/4]) (fins [-3; -2; 0]) = Ok (fins w)
  /\ length w = 3%nat /\ Forall (fun x => 0 <= x <= 1) w.
Proof.
  apply (C141_bursty_weights_in_unit_interval binary32); try congruence; [exact ieee32|reflexivity|apply Nat.le_trans with (2 ^ 4)%nat; [simpl; lia|apply Nat.pow_le_mono_r; lia]| |]; repeat constructor; lra.
Qed.
@@C141_bursty_weights_sum = LRound34.C141_sum_lemma
@@C141_bursty_weights_close = LRound34.C141_close_lemma
Example C141_nonvacuous : exists w w0,
  @calc_bursty_age_weights binary64 {| lgfburst := Fin (-2); lgyr_peak := Fin 6; lgyr_max := Fin 7 |} (fins [1/4; 1/2; 1/4]) (fins [-3; -2; 0]) = Ok (fins w)
  /\ @calc_bursty_age_weights exact {| lgfburst := Fin (-2); lgyr_peak := Fin 6; lgyr_max := Fin 7 |} (fins [1/4; 1/2; 1/4]) (fins [-3; -2; 0]) = Ok (fins w0)
  /\ Rabs (Rsum w - 1) <= 18 * / 2 ^ 53 /\ sum_difference w w0 <= 36000 * / 2 ^ 53.
Proof.
  assert (RB : @rounding_burst binary64 (-2) 6 7).
  { split; [lra|]. split; [apply (demo_int 6); [lia|lra]|]. split; [apply (demo_int 7); [lia|lra]|]. lra. }
  assert (LN : (length [-3; -2; 0]%R <= 2 ^ 18)%nat) by (apply Nat.le_trans with (2 ^ 4)%nat; [simpl; lia|apply Nat.pow_le_mono_r; lia]).
  assert (FA : Forall (fun a => -4 <= a <= 4) [-3; -2; 0]) by (repeat constructor; lra).
  assert (FS : Forall (fun x => 0 <= x <= 1) [1/4; 1/2; 1/4]) by (repeat constructor; lra).
  assert (BC : burst_covered 6 7 [-3; -2; 0]) by (exists (-3); split; [now left|]; replace (-3 + 9 - 6) with 0 by lra; rewrite Rabs_R0; lra).
  assert (D : distribution [1/4; 1/2; 1/4]) by (split; [repeat constructor; lra|unfold Rsum; lra]).
  assert (SD : sum_difference [1/4; 1/2; 1/4] [1/4; 1/2; 1/4] = 0).
  { unfold sum_difference. cbn [map2 Rsum]. replace (1/4 - 1/4) with 0 by lra. replace (1/2 - 1/2) with 0 by lra. rewrite Rabs_R0. lra. }
  destruct (C141_bursty_weights_sum binary64 _ rd_unit (-2) 6 7 [1/4; 1/2; 1/4] [-3; -2; 0] RB eq_refl LN FA FS BC) as (w & E & _ & _ & S); [unfold Rsum; lra|].
  destruct (C141_bursty_weights_close binary64 _ rd_unit (-2) 6 7 [1/4; 1/2; 1/4] [1/4; 1/2; 1/4] [-3; -2; 0] RB eq_refl eq_refl LN FA FS BC D) as (w' & w0 & E' & E0 & C); [rewrite SD; lra|].
  rewrite E in E'. injection E' as E'. apply fins_inj in E'. subst w'. exists w, w0. split; auto. split; auto. replace (Rsum [1/4; 1/2; 1/4]) with 1 in S by (unfold Rsum; lra). rewrite SD in C.
  replace (1 - 1) with 0 in S by lra. rewrite Rabs_R0 in S. simpl (INR _) in S, C. split; lra.
Qed.

(** C142 *)
@@C142_unit_interval_refuted = LEval3.C142_refuted_lemma
@@C142_nearly_a_distribution = LEval3.C142_near_lemma
Example C142_nonvacuous : exists w,
  @calc_lgmet_weights_from_lognormal_mdf binary64 (Fin (-3/2)) (Fin 1) (fins rd_lgmets) = Ok (fins w)
  /\ Forall (fun x => - (1/1000) <= x <= 1 + 1/1000) w /\ Rabs (Rsum w - 1) <= 1/1000.
Proof.
  assert (S : (130 + 8 * INR 4) * / 2 ^ 53 / 1 <= 1 / 10 ^ 6).
  { simpl (INR 4). pose proof (rd_small (16 * 162) ltac:(simpl; lra)) as S. simpl (10 ^ 6) in S |- *. lra. }
  destruct (C142_nearly_a_distribution binary64 _ rd_unit (-3/2) 1 rd_lgmets) as (w & E & L & F & D).
  - rewrite Rabs_left; lra.
  - apply (demo_int 1); [lia|lra].
  - lra.
  - apply rd_rlgmets.
  - change (length rd_lgmets) with 4%nat. simpl (INR 4) in *. simpl (10 ^ 6) in S. lra.
  - exists w. split; [exact E|]. change (length rd_lgmets) with 4%nat in *. simpl (10 ^ 6) in S. split.
    + eapply Forall_impl; [|exact F]. intros a. cbv beta. simpl (INR 4) in *. lra.
    + simpl (INR 4) in *. lra.
Qed.

(** C143 *)
@@C143_transmission = LRound40.C143_transmission_lemma
@@C143_base_curves = LRound41.C143_curves_lemma
@@C143_noll_curve = LRound41.C143_noll_lemma
@@C143_salim_curve = LRound41.C143_sbl_lemma
@@C143_noll_transmission = LRound41.C143_noll_transmission_lemma
@@C143_salim_transmission = LRound41.C143_sbl_transmission_lemma
@@C143_break_point_single_precision = LRound41.C143_break_lemma
Example C143_nonvacuous : exists t t0,
  frac_transmission_from_k_lambda (AR := binary64) (noll09_k_lambda (AR := binary64) (Fin (1/2)) (Fin 3) (Fin 0) (Fin (1/4)) (Fin (1/16))) (Fin 1) (Fin 0) = Fin t
  /\ frac_transmission_from_k_lambda (AR := exact) (noll09_k_lambda (AR := exact) (Fin (1/2)) (Fin 3) (Fin 0) (Fin (1/4)) (Fin (1/16))) (Fin 1) (Fin 0) = Fin t0
  /\ Rabs (t - t0) <= 600 * / 2 ^ 53.
Proof.
  pose proof (rel_err_unit _ _ rd_unit) as H. assert (G : LFloat.good_rounding binary64) by apply (re_good _ _ H).
  destruct (C143_noll_transmission binary64 _ rd_unit (1/2) 3 0 (1/4) (1/16) 1 0) as (t & t0 & E & E0 & D).
  - split; [apply (LFloat2.rnd_dy G 1 1); [lia|lia|simpl; lra]|lra].
  - apply (off_break_far _ H); [rewrite Rabs_right; lra|rewrite Rabs_right; lra].
  - apply (off_break_far _ H); [rewrite Rabs_right; lra|rewrite Rabs_left; lra].
  - split; [apply (demo_int 3); [lia|lra]|]. split; [apply (demo_int 0); [lia|lra]|]. split; [apply (LFloat2.rnd_dy G 1 2); [lia|lia|simpl; lra]|]. split; [apply (LFloat2.rnd_dy G 1 4); [lia|lia|simpl; lra]|].
    rewrite Rabs_R0, Rabs_right by lra. repeat split; simpl; lra.
  - unfold bump_amp. simpl. lra.
  - apply (demo_int 1); [lia|lra].
  - apply (demo_int 0); [lia|lra].
  - simpl; lra.
  - lra.
  - exists t, t0. split; [exact E|]. split; [exact E0|]. eapply Rle_trans; [exact D|]. apply Rmult_le_compat_r; [left; apply Rinv_0_lt_compat, pow_lt; lra|].
    unfold tilt, Rpower, bump_amp. rewrite Rmult_0_l, exp_0, (Rabs_right 3) by lra. simpl. lra.
Qed.

(** C152 *)
@@C152_rest_magnitude = LRound43.C152_rest_lemma
@@C152_rest_magnitude_met_table = LRound43.C152_rest_met_lemma
@@C152_observed_magnitude = LRound43.C152_obs_lemma
@@C152_observed_magnitude_met_table = LRound43.C152_obs_met_lemma
Example C152_nonvacuous_rest : exists r r0 m m0,
  @calc_rest_sed_sfh_table_lognormal_mdf binary64 (fins rd_t) (fins rd_sfr) (Fin (-3/2)) (Fin (1/4)) (fins rd_lgmets) (fins rd_ages) (fins3 e2_flux) (Fin 4) (@lit binary64 (1 / 10 ^ 14)) = Ok r
  /\ calc_rest_sed_sfh_table_lognormal_mdf (fins rd_t) (fins rd_sfr) (Fin (-3/2)) (Fin (1/4)) (fins rd_lgmets) (fins rd_ages) (fins3 e2_flux) (Fin 4) (Fin (1 / 10 ^ 14)) = Ok r0
  /\ @calc_rest_mag binary64 (fins ph_ws) (rest_sed r) (fins ph_wf) (fins ph_tf) = Ok (Fin m)
  /\ calc_rest_mag (fins ph_ws) (rest_sed r0) (fins ph_wf) (fins ph_tf) = Ok (Fin m0) /\ Rabs (m - m0) <= 1 / 500.
Proof.
  pose proof e14_ok as E14. pose proof e14_range as E14'. assert (Q : @machine_number binary64 (1/4)) by (apply (LFloat2.rnd_dy LFloat.good_binary64 1 2); [lia|lia|simpl; lra]).
  pose proof rd_zamp as Z. pose proof (rd_small _ (rd_jamp 0 ltac:(lra))) as S0. assert (T6 : 1 / 10 ^ 6 <= 1/20) by (simpl; lra). pose proof ph_u as Uu. set (u := / 2 ^ 53) in *.
  destruct e2_sed as (r0 & sed0 & E0 & Es0 & L & V). assert (XE : e2_exact sed0) by (split; auto).
  destruct (C152_rest_magnitude binary64 u rd_unit 2 rd_t rd_sfr (-3/2) (1/4) rd_lgmets rd_ages e2_flux 4 4 (1 / 10 ^ 14) (fun _ => 1) ph_ws ph_wf ph_tf (10 ^ 10) (1/1000) 200 r0 sed0) as (r & sed & m & m0 & E & _ & _ & Em & Em0 & D); try lra; auto.
  + apply rd_history; lra. + apply rd_history; lra. + apply rd_rages. + apply rd_rlgmets. + apply (LFloat9.demo_int 4); auto; lia. + unfold rd_t, ent; simpl; lra. + rewrite Rabs_left; lra. + apply rd_half; lra.
  + apply e2_cube.
  + intros k _. split; [split; [lra|apply pow_R1_Rle; lra]|]. rewrite Rmult_1_l. eapply Rle_trans; [apply e2_M|apply Rle_pow; [lra|lia]].
  + intros i j k Hi Hj Hk. now apply e2_flux_le.
  + intros k Hk. destruct (V k Hk) as (B1 & B2). split; [simpl in B1 |- *; lra|]. apply B2; [split; [apply Rlt_le, Rinv_0_lt_compat, pow_lt; lra|simpl in Uu; lra]|exact S0].
  + apply e2_wavelengths. + apply ph_filter. + apply e2_BI. + apply e2_flux_S; apply e2_at; auto; lra.
  + unfold ph_wf. simpl in Uu |- *. lra.
  + exists r, r0, m, m0. split; [exact E|]. split; [exact E0|]. split; [exact Em|]. split; [exact Em0|]. eapply Rle_trans; [exact D|]. unfold ph_wf. simpl in Uu |- *. lra.
Qed.
Example C152_nonvacuous_rest_met_table : exists r r0 m m0,
  @calc_rest_sed_sfh_table_met_table binary64 (fins rd_t) (fins rd_sfr) (fins rd_table) (Fin (1/4)) (fins rd_lgmets) (fins rd_ages) (fins3 e2_flux) (Fin 4) (@lit binary64 (1 / 10 ^ 14)) = Ok r
  /\ calc_rest_sed_sfh_table_met_table (fins rd_t) (fins rd_sfr) (fins rd_table) (Fin (1/4)) (fins rd_lgmets) (fins rd_ages) (fins3 e2_flux) (Fin 4) (Fin (1 / 10 ^ 14)) = Ok r0
  /\ @calc_rest_mag binary64 (fins ph_ws) (rest_sed r) (fins ph_wf) (fins ph_tf) = Ok (Fin m)
  /\ calc_rest_mag (fins ph_ws) (rest_sed r0) (fins ph_wf) (fins ph_tf) = Ok (Fin m0) /\ Rabs (m - m0) <= 1 / 500.
Proof.
  pose proof e14_ok as E14. pose proof e14_range as E14'. assert (Q : @machine_number binary64 (1/4)) by (apply (LFloat2.rnd_dy LFloat.good_binary64 1 2); [lia|lia|simpl; lra]).
  pose proof rd_zamp as Z. pose proof (rd_small _ (rd_jamp _ Z)) as S0. assert (T6 : 1 / 10 ^ 6 <= 1/20) by (simpl; lra). pose proof ph_u as Uu. set (u := / 2 ^ 53) in *.
  destruct e2_sed_met as (r0 & sed0 & E0 & Es0 & L & V). assert (XE : e2_exact sed0) by (split; auto).
  destruct (C152_rest_magnitude_met_table binary64 u rd_unit 2 4 rd_t rd_sfr rd_table (1/4) rd_lgmets rd_ages e2_flux 4 4 (1 / 10 ^ 14) (fun _ => 1) ph_ws ph_wf ph_tf (10 ^ 10) (1/1000) 200 r0 sed0) as (r & sed & m & m0 & E & _ & _ & Em & Em0 & D); try lra; auto.
  + apply rd_history; lra. + apply rd_history; lra. + apply rd_rages. + apply rd_rlgmets. + apply rd_rtable. + apply (LFloat9.demo_int 4); auto; lia. + unfold rd_t, ent; simpl; lra. + apply rd_half; lra.
  + apply e2_cube.
  + intros k _. split; [split; [lra|apply pow_R1_Rle; lra]|]. rewrite Rmult_1_l. eapply Rle_trans; [apply e2_M|apply Rle_pow; [lra|lia]].
  + intros i j k Hi Hj Hk. now apply e2_flux_le.
  + intros k Hk. destruct (V k Hk) as (B1 & B2). split; [simpl in B1 |- *; lra|]. apply B2; [split; [apply Rlt_le, Rinv_0_lt_compat, pow_lt; lra|simpl in Uu; lra]|exact S0].
  + apply e2_wavelengths. + apply ph_filter. + apply e2_BI. + apply e2_flux_S; apply e2_at; auto; lra.
  + unfold ph_wf. simpl in Uu |- *. lra.
  + exists r, r0, m, m0. split; [exact E|]. split; [exact E0|]. split; [exact Em|]. split; [exact Em0|]. eapply Rle_trans; [exact D|]. unfold ph_wf. simpl in Uu |- *. lra.
Qed.
Example C152_nonvacuous_observed : exists r r0 m m0,
  @calc_rest_sed_sfh_table_lognormal_mdf binary64 (fins rd_t) (fins rd_sfr) (Fin (-3/2)) (Fin (1/4)) (fins rd_lgmets) (fins rd_ages) (fins3 e2_flux) (Fin 4) (@lit binary64 (1 / 10 ^ 14)) = Ok r
  /\ calc_rest_sed_sfh_table_lognormal_mdf (fins rd_t) (fins rd_sfr) (Fin (-3/2)) (Fin (1/4)) (fins rd_lgmets) (fins rd_ages) (fins3 e2_flux) (Fin 4) (Fin (1 / 10 ^ 14)) = Ok r0
  /\ @calc_obs_mag binary64 (fins ph_ws) (rest_sed r) (fins ph_wf) (fins ph_tf) (Fin (1/2)) (Fin (1/4)) (Fin (-1)) (Fin 0) (Fin (3/4)) = Ok (Fin m)
  /\ calc_obs_mag (fins ph_ws) (rest_sed r0) (fins ph_wf) (fins ph_tf) (Fin (1/2)) (Fin (1/4)) (Fin (-1)) (Fin 0) (Fin (3/4)) = Ok (Fin m0) /\ Rabs (m - m0) <= 1 / 500.
Proof.
  pose proof e14_ok as E14. pose proof e14_range as E14'. assert (Q : @machine_number binary64 (1/4)) by (apply (LFloat2.rnd_dy LFloat.good_binary64 1 2); [lia|lia|simpl; lra]).
  pose proof rd_zamp as Z. pose proof (rd_small _ (rd_jamp 0 ltac:(lra))) as S0. assert (T6 : 1 / 10 ^ 6 <= 1/20) by (simpl; lra). pose proof ph_u as Uu. set (u := / 2 ^ 53) in *.
  destruct e2_sed as (r0 & sed0 & E0 & Es0 & L & V). assert (XE : e2_exact sed0) by (split; auto).
  destruct (C152_observed_magnitude binary64 u rd_unit 2 rd_t rd_sfr (-3/2) (1/4) rd_lgmets rd_ages e2_flux 4 4 (1 / 10 ^ 14) (fun _ => 1) ph_ws ph_wf ph_tf (10 ^ 10) (1/1000) 200 3 (1/2) (1/4) (-1) 0 (3/4) r0 sed0) as (r & sed & m & m0 & E & _ & _ & Em & Em0 & D); try lra; auto.
  + apply rd_history; lra. + apply rd_history; lra. + apply rd_rages. + apply rd_rlgmets. + apply (LFloat9.demo_int 4); auto; lia. + unfold rd_t, ent; simpl; lra. + rewrite Rabs_left; lra. + apply rd_half; lra.
  + apply e2_cube.
  + intros k _. split; [split; [lra|apply pow_R1_Rle; lra]|]. rewrite Rmult_1_l. eapply Rle_trans; [apply e2_M|apply Rle_pow; [lra|lia]].
  + intros i j k Hi Hj Hk. now apply e2_flux_le.
  + intros k Hk. destruct (V k Hk) as (B1 & B2). split; [simpl in B1 |- *; lra|]. apply B2; [split; [apply Rlt_le, Rinv_0_lt_compat, pow_lt; lra|simpl in Uu; lra]|exact S0].
  + apply e2_wavelengths. + apply ph_filter. + apply ph_resolution. + apply cos_demo64. + apply ph_inside. + apply e2_BI. + apply e2_flux_S; apply e2_at; auto; lra.
  + unfold ph_wf. simpl in Uu |- *. lra.
  + exists r, r0, m, m0. split; [exact E|]. split; [exact E0|]. split; [exact Em|]. split; [exact Em0|]. eapply Rle_trans; [exact D|]. unfold ph_wf. simpl in Uu |- *. lra.
Qed.
Example C152_nonvacuous_observed_met_table : exists r r0 m m0,
  @calc_rest_sed_sfh_table_met_table binary64 (fins rd_t) (fins rd_sfr) (fins rd_table) (Fin (1/4)) (fins rd_lgmets) (fins rd_ages) (fins3 e2_flux) (Fin 4) (@lit binary64 (1 / 10 ^ 14)) = Ok r
  /\ calc_rest_sed_sfh_table_met_table (fins rd_t) (fins rd_sfr) (fins rd_table) (Fin (1/4)) (fins rd_lgmets) (fins rd_ages) (fins3 e2_flux) (Fin 4) (Fin (1 / 10 ^ 14)) = Ok r0
  /\ @calc_obs_mag binary64 (fins ph_ws) (rest_sed r) (fins ph_wf) (fins ph_tf) (Fin (1/2)) (Fin (1/4)) (Fin (-1)) (Fin 0) (Fin (3/4)) = Ok (Fin m)
  /\ calc_obs_mag (fins ph_ws) (rest_sed r0) (fins ph_wf) (fins ph_tf) (Fin (1/2)) (Fin (1/4)) (Fin (-1)) (Fin 0) (Fin (3/4)) = Ok (Fin m0) /\ Rabs (m - m0) <= 1 / 500.
Proof.
  pose proof e14_ok as E14. pose proof e14_range as E14'. assert (Q : @machine_number binary64 (1/4)) by (apply (LFloat2.rnd_dy LFloat.good_binary64 1 2); [lia|lia|simpl; lra]).
  pose proof rd_zamp as Z. pose proof (rd_small _ (rd_jamp _ Z)) as S0. assert (T6 : 1 / 10 ^ 6 <= 1/20) by (simpl; lra). pose proof ph_u as Uu. set (u := / 2 ^ 53) in *.
  destruct e2_sed_met as (r0 & sed0 & E0 & Es0 & L & V). assert (XE : e2_exact sed0) by (split; auto).
  destruct (C152_observed_magnitude_met_table binary64 u rd_unit 2 4 rd_t rd_sfr rd_table (1/4) rd_lgmets rd_ages e2_flux 4 4 (1 / 10 ^ 14) (fun _ => 1) ph_ws ph_wf ph_tf (10 ^ 10) (1/1000) 200 3 (1/2) (1/4) (-1) 0 (3/4) r0 sed0) as (r & sed & m & m0 & E & _ & _ & Em & Em0 & D); try lra; auto.
  + apply rd_history; lra. + apply rd_history; lra. + apply rd_rages. + apply rd_rlgmets. + apply rd_rtable. + apply (LFloat9.demo_int 4); auto; lia. + unfold rd_t, ent; simpl; lra. + apply rd_half; lra.
  + apply e2_cube.
  + intros k _. split; [split; [lra|apply pow_R1_Rle; lra]|]. rewrite Rmult_1_l. eapply Rle_trans; [apply e2_M|apply Rle_pow; [lra|lia]].
  + intros i j k Hi Hj Hk. now apply e2_flux_le.
  + intros k Hk. destruct (V k Hk) as (B1 & B2). split; [simpl in B1 |- *; lra|]. apply B2; [split; [apply Rlt_le, Rinv_0_lt_compat, pow_lt; lra|simpl in Uu; lra]|exact S0].
  + apply e2_wavelengths. + apply ph_filter. + apply ph_resolution. + apply cos_demo64. + apply ph_inside. + apply e2_BI. + apply e2_flux_S; apply e2_at; auto; lra.
  + unfold ph_wf. simpl in Uu |- *. lra.
  + exists r, r0, m, m0. split; [exact E|]. split; [exact E0|]. split; [exact Em|]. split; [exact Em0|]. eapply Rle_trans; [exact D|]. unfold ph_wf. simpl in Uu |- *. lra.
Qed.
