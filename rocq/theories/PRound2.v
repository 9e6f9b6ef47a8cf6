(** * Properties C141-: rounding errors in double and single precision, continued.
    [AR] is the arithmetic in which the code runs (IEEE-754 double or single precision, every
    operation and literal rounded to nearest), [exact] the arithmetic of the real numbers;
    the mathematical library (exp, log, pow) is any one accurate to [u] and sums are taken in any
    order ([accurate_to], SpecFloat.v). *)
From Coq Require Import Reals List Arith Lra Lia ZArith.
From Verif Require Import Num Arr MUtils MSed MDiffburst Float Spec SpecFloat SpecFloat3 RList LFloat9 LRound12 LRound34 LRound40 LRound41 SpecFloat4 LEval3 MDust LFloat10 MCosmo MPhot SpecFloat2 SpecFloat5 LRound10 LRound20 LRound26 LRound43 LRound44.
Import ListNotations.
Open Scope R_scope.

(** C141 *)
Theorem C141_bursty_weights_in_unit_interval : forall AR, ieee_arithmetic AR -> forall u_fb u_peak u_max smooth ages,
  u_fb <> NaN -> u_peak <> NaN -> u_max <> NaN -> length smooth = length ages -> (length ages <= 2 ^ 18)%nat ->
  Forall (fun a => -4 <= a <= 4) ages -> Forall (fun x => 0 <= x <= 1) smooth ->
  exists w, calc_bursty_age_weights_from_u_params {| u_lgfburst := u_fb; u_lgyr_peak := u_peak; u_lgyr_max := u_max |} (fins smooth) (fins ages) = Ok (fins w)
    /\ length w = length ages /\ Forall (fun x => 0 <= x <= 1) w.
Proof. exact C141_range_lemma. Qed.
Print Assumptions C141_bursty_weights_in_unit_interval.
Example C141_range_nonvacuous : exists w,
  @calc_bursty_age_weights_from_u_params binary32 {| u_lgfburst := PInf; u_lgyr_peak := Fin (-100); u_lgyr_max := NInf |} (fins [1/4; 1/2; 1/4]) (fins [-3; -2; 0]) = Ok (fins w)
  /\ length w = 3%nat /\ Forall (fun x => 0 <= x <= 1) w.
Proof.
  apply (C141_bursty_weights_in_unit_interval binary32); try congruence; [exact ieee32|reflexivity|apply Nat.le_trans with (2 ^ 4)%nat; [simpl; lia|apply Nat.pow_le_mono_r; lia]| |]; repeat constructor; lra.
Qed.
Theorem C141_bursty_weights_sum : forall AR u, accurate_to AR u -> forall lgfb peak mx smooth ages,
  rounding_burst lgfb peak mx -> length smooth = length ages -> (length ages <= 2 ^ 18)%nat ->
  Forall (fun a => -4 <= a <= 4) ages -> Forall (fun x => 0 <= x <= 1) smooth -> burst_covered peak mx ages -> Rsum smooth <= 2 ->
  exists w, calc_bursty_age_weights {| lgfburst := Fin lgfb; lgyr_peak := Fin peak; lgyr_max := Fin mx |} (fins smooth) (fins ages) = Ok (fins w)
    /\ length w = length ages /\ Forall (fun x => 0 <= x <= 1) w
    /\ Rabs (Rsum w - 1) <= Rabs (Rsum smooth - 1) + 2 * (INR (length ages) + 6) * u.
Proof. exact C141_sum_lemma. Qed.
Print Assumptions C141_bursty_weights_sum.
Theorem C141_bursty_weights_close : forall AR u, accurate_to AR u -> forall lgfb peak mx smooth smooth0 ages,
  rounding_burst lgfb peak mx -> length smooth = length ages -> length smooth0 = length ages -> (length ages <= 2 ^ 18)%nat ->
  Forall (fun a => -4 <= a <= 4) ages -> Forall (fun x => 0 <= x <= 1) smooth -> burst_covered peak mx ages ->
  distribution smooth0 -> sum_difference smooth smooth0 <= 1 ->
  let p := {| lgfburst := Fin lgfb; lgyr_peak := Fin peak; lgyr_max := Fin mx |} in
  exists w w0, @calc_bursty_age_weights AR p (fins smooth) (fins ages) = Ok (fins w)
    /\ @calc_bursty_age_weights exact p (fins smooth0) (fins ages) = Ok (fins w0)
    /\ sum_difference w w0 <= sum_difference smooth smooth0 + 12000 * INR (length ages) * u.
Proof. exact C141_close_lemma. Qed.
Print Assumptions C141_bursty_weights_close.
Example C141_nonvacuous : exists w w0,
  @calc_bursty_age_weights binary64 {| lgfburst := Fin (-2); lgyr_peak := Fin 6; lgyr_max := Fin 7 |} (fins [1/4; 1/2; 1/4]) (fins [-3; -2; 0]) = Ok (fins w)
  /\ @calc_bursty_age_weights exact {| lgfburst := Fin (-2); lgyr_peak := Fin 6; lgyr_max := Fin 7 |} (fins [1/4; 1/2; 1/4]) (fins [-3; -2; 0]) = Ok (fins w0)
  /\ Rabs (Rsum w - 1) <= 18 * / 2 ^ 53 /\ sum_difference w w0 <= 36000 * / 2 ^ 53.
Proof.
  assert (RB : @rounding_burst binary64 (-2) 6 7).
  { split; [lra|]. split; [apply (demo_int 6); [lia|lra]|]. split; [apply (demo_int 7); [lia|lra]|]. lra. }
  assert (LN : (length [-3; -2; 0]%R <= 2 ^ 18)%nat) by (apply Nat.le_trans with (2 ^ 4)%nat; [simpl; lia|apply Nat.pow_le_mono_r; lia]).
  assert (FA : Forall (fun a => -4 <= a <= 4) [-3; -2; 0]) by (repeat constructor; lra).
  assert (FS : Forall (fun x => 0 <= x <= 1) [1/4; 1/2; 1/4]) by (repeat constructor; lra).
  assert (BC : burst_covered 6 7 [-3; -2; 0]) by (exists (-3); split; [now left|]; replace (-3 + 9 - 6) with 0 by lra; rewrite Rabs_R0; lra).
  assert (D : distribution [1/4; 1/2; 1/4]) by (split; [repeat constructor; lra|unfold Rsum; lra]).
  assert (SD : sum_difference [1/4; 1/2; 1/4] [1/4; 1/2; 1/4] = 0).
  { unfold sum_difference. cbn [map2 Rsum]. replace (1/4 - 1/4) with 0 by lra. replace (1/2 - 1/2) with 0 by lra. rewrite Rabs_R0. lra. }
  destruct (C141_bursty_weights_sum binary64 _ rd_unit (-2) 6 7 [1/4; 1/2; 1/4] [-3; -2; 0] RB eq_refl LN FA FS BC) as (w & E & _ & _ & S); [unfold Rsum; lra|].
  destruct (C141_bursty_weights_close binary64 _ rd_unit (-2) 6 7 [1/4; 1/2; 1/4] [1/4; 1/2; 1/4] [-3; -2; 0] RB eq_refl eq_refl LN FA FS BC D) as (w' & w0 & E' & E0 & C); [rewrite SD; lra|].
  rewrite E in E'. injection E' as E'. apply fins_inj in E'. subst w'. exists w, w0. split; auto. split; auto. replace (Rsum [1/4; 1/2; 1/4]) with 1 in S by (unfold Rsum; lra). rewrite SD in C.
  replace (1 - 1) with 0 in S by lra. rewrite Rabs_R0 in S. simpl (INR _) in S, C. split; lra.
Qed.

(** C142 *)
Theorem C142_unit_interval_refuted : forall AR, AR = binary32 \/ AR = binary64 ->
  ~ (forall lgmet scatter lgmets w, machine_number lgmet -> machine_number scatter -> Forall machine_number lgmets ->
       Rabs lgmet <= 5 -> 1/1000 <= scatter <= 1 -> rounding_lgmets lgmets ->
       calc_lgmet_weights_from_lognormal_mdf (AR := AR) (Fin lgmet) (Fin scatter) (fins lgmets) = Ok (fins w) ->
       Forall (fun x => 0 <= x) w \/ Forall (fun x => x <= 1) w).
Proof. exact C142_refuted_lemma. Qed.
Print Assumptions C142_unit_interval_refuted.
Theorem C142_nearly_a_distribution : forall AR u, accurate_to AR u -> forall lgmet scatter lgmets,
  Rabs lgmet <= 5 -> machine_number scatter -> 1/1000 <= scatter <= 1 -> rounding_lgmets lgmets ->
  let eta := (130 + 8 * INR (length lgmets)) * u / scatter in INR (length lgmets) * eta <= 1/25 ->
  exists w, calc_lgmet_weights_from_lognormal_mdf (AR := AR) (Fin lgmet) (Fin scatter) (fins lgmets) = Ok (fins w) /\ length w = length lgmets
    /\ Forall (fun x => - (10 * eta) <= x <= 1 + 10 * eta) w /\ Rabs (Rsum w - 1) <= INR (length lgmets) * (10 * eta).
Proof. exact C142_near_lemma. Qed.
Print Assumptions C142_nearly_a_distribution.
Example C142_nonvacuous : exists w,
  @calc_lgmet_weights_from_lognormal_mdf binary64 (Fin (-3/2)) (Fin 1) (fins rd_lgmets) = Ok (fins w)
  /\ Forall (fun x => - (1/1000) <= x <= 1 + 1/1000) w /\ Rabs (Rsum w - 1) <= 1/1000.
Proof.
  assert (S : (130 + 8 * INR 4) * / 2 ^ 53 / 1 <= 1 / 10 ^ 6).
  { simpl (INR 4). pose proof (rd_small (16 * 162) ltac:(simpl; lra)) as S. simpl (10 ^ 6) in S |- *. lra. }
  destruct (C142_nearly_a_distribution binary64 _ rd_unit (-3/2) 1 rd_lgmets) as (w & E & L & F & D).
  - rewrite Rabs_left; lra.
  - apply (demo_int 1); [lia|lra].
  - lra.
  - apply rd_rlgmets.
  - change (length rd_lgmets) with 4%nat. simpl (INR 4) in *. simpl (10 ^ 6) in S. lra.
  - exists w. split; [exact E|]. change (length rd_lgmets) with 4%nat in *. simpl (10 ^ 6) in S. split.
    + eapply Forall_impl; [|exact F]. intros a. cbv beta. simpl (INR 4) in *. lra.
    + simpl (INR 4) in *. lra.
Qed.

(** C143 *)
Theorem C143_transmission : forall AR u, accurate_to AR u -> forall k k0 av floor,
  machine_number k -> machine_number av -> machine_number floor -> Rabs k <= 10 ^ 15 -> 0 <= av <= 10 ^ 15 -> 0 <= floor <= 1 ->
  exists t t0, frac_transmission_from_k_lambda (AR := AR) (Fin k) (Fin av) (Fin floor) = Fin t
    /\ frac_transmission_from_k_lambda (AR := exact) (Fin k0) (Fin av) (Fin floor) = Fin t0
    /\ Rabs (t - t0) <= 6.1 * u + 0.25 * av * Rabs (k - k0).
Proof. exact C143_transmission_lemma. Qed.
Print Assumptions C143_transmission.
Theorem C143_base_curves : forall AR u, accurate_to AR u -> forall w, rounding_wave (AR := AR) w ->
  (exists k k0, leitherer02_k_lambda (AR := AR) (Fin w) = Fin k /\ leitherer02_k_lambda (AR := exact) (Fin w) = Fin k0 /\ Rabs (k - k0) <= 140 * u)
  /\ (off_break (AR := AR) 0.63 w -> exists k k0, calzetti00_k_lambda (AR := AR) (Fin w) = Fin k /\ calzetti00_k_lambda (AR := exact) (Fin w) = Fin k0 /\ Rabs (k - k0) <= 1900 * u).
Proof. exact C143_curves_lemma. Qed.
Print Assumptions C143_base_curves.
Theorem C143_noll_curve : forall AR u, accurate_to AR u -> forall w ampl slope centre width,
  rounding_wave (AR := AR) w -> off_break (AR := AR) 0.63 w -> off_break (AR := AR) 0.15 w -> rounding_bump (AR := AR) ampl slope centre width -> bump_amp w centre width <= 1000 ->
  exists k k0, noll09_k_lambda (AR := AR) (Fin w) (Fin ampl) (Fin slope) (Fin centre) (Fin width) = Fin k
    /\ noll09_k_lambda (AR := exact) (Fin w) (Fin ampl) (Fin slope) (Fin centre) (Fin width) = Fin k0
    /\ Rabs (k - k0) <= tilt w slope * (1700 + (Rabs ampl + 1) * (2.4 * bump_amp w centre width + 30)) * u.
Proof. exact C143_noll_lemma. Qed.
Print Assumptions C143_noll_curve.
Theorem C143_salim_curve : forall AR u, accurate_to AR u -> forall w ampl slope centre width,
  rounding_wave (AR := AR) w -> off_break (AR := AR) 0.63 w -> off_break (AR := AR) 0.15 w -> rounding_bump (AR := AR) ampl slope centre width -> bump_amp w centre width <= 1000 ->
  exists k k0, sbl18_k_lambda (AR := AR) (Fin w) (Fin ampl) (Fin slope) (Fin centre) (Fin width) = Fin k
    /\ sbl18_k_lambda (AR := exact) (Fin w) (Fin ampl) (Fin slope) (Fin centre) (Fin width) = Fin k0
    /\ Rabs (k - k0) <= (1700 * tilt w slope + (Rabs ampl + 1) * (2.4 * bump_amp w centre width + 30)) * u.
Proof. exact C143_sbl_lemma. Qed.
Print Assumptions C143_salim_curve.
Theorem C143_noll_transmission : forall AR u, accurate_to AR u -> forall w ampl slope centre width av floor,
  rounding_wave (AR := AR) w -> off_break (AR := AR) 0.63 w -> off_break (AR := AR) 0.15 w -> rounding_bump (AR := AR) ampl slope centre width -> bump_amp w centre width <= 1000 ->
  machine_number av -> machine_number floor -> 0 <= av <= 10 ^ 15 -> 0 <= floor <= 1 ->
  exists t t0, frac_transmission_from_k_lambda (AR := AR) (noll09_k_lambda (AR := AR) (Fin w) (Fin ampl) (Fin slope) (Fin centre) (Fin width)) (Fin av) (Fin floor) = Fin t
    /\ frac_transmission_from_k_lambda (AR := exact) (noll09_k_lambda (AR := exact) (Fin w) (Fin ampl) (Fin slope) (Fin centre) (Fin width)) (Fin av) (Fin floor) = Fin t0
    /\ Rabs (t - t0) <= (6.1 + 0.25 * av * (tilt w slope * (1700 + (Rabs ampl + 1) * (2.4 * bump_amp w centre width + 30)))) * u.
Proof. exact C143_noll_transmission_lemma. Qed.
Print Assumptions C143_noll_transmission.
Theorem C143_salim_transmission : forall AR u, accurate_to AR u -> forall w ampl slope centre width av floor,
  rounding_wave (AR := AR) w -> off_break (AR := AR) 0.63 w -> off_break (AR := AR) 0.15 w -> rounding_bump (AR := AR) ampl slope centre width -> bump_amp w centre width <= 1000 ->
  machine_number av -> machine_number floor -> 0 <= av <= 10 ^ 15 -> 0 <= floor <= 1 ->
  exists t t0, frac_transmission_from_k_lambda (AR := AR) (sbl18_k_lambda (AR := AR) (Fin w) (Fin ampl) (Fin slope) (Fin centre) (Fin width)) (Fin av) (Fin floor) = Fin t
    /\ frac_transmission_from_k_lambda (AR := exact) (sbl18_k_lambda (AR := exact) (Fin w) (Fin ampl) (Fin slope) (Fin centre) (Fin width)) (Fin av) (Fin floor) = Fin t0
    /\ Rabs (t - t0) <= (6.1 + 0.25 * av * (1700 * tilt w slope + (Rabs ampl + 1) * (2.4 * bump_amp w centre width + 30))) * u.
Proof. exact C143_sbl_transmission_lemma. Qed.
Print Assumptions C143_salim_transmission.
Theorem C143_break_point_single_precision : exists w k k0, rounding_wave (AR := binary32) w /\ calzetti00_k_lambda (AR := binary32) (Fin w) = Fin k
  /\ calzetti00_k_lambda (AR := exact) (Fin w) = Fin k0 /\ 0.02 <= Rabs (k - k0).
Proof. exact C143_break_lemma. Qed.
Print Assumptions C143_break_point_single_precision.
Example C143_nonvacuous : exists t t0,
  frac_transmission_from_k_lambda (AR := binary64) (noll09_k_lambda (AR := binary64) (Fin (1/2)) (Fin 3) (Fin 0) (Fin (1/4)) (Fin (1/16))) (Fin 1) (Fin 0) = Fin t
  /\ frac_transmission_from_k_lambda (AR := exact) (noll09_k_lambda (AR := exact) (Fin (1/2)) (Fin 3) (Fin 0) (Fin (1/4)) (Fin (1/16))) (Fin 1) (Fin 0) = Fin t0
  /\ Rabs (t - t0) <= 600 * / 2 ^ 53.
Proof.
  pose proof (rel_err_unit _ _ rd_unit) as H. assert (G : LFloat.good_rounding binary64) by apply (re_good _ _ H).
  destruct (C143_noll_transmission binary64 _ rd_unit (1/2) 3 0 (1/4) (1/16) 1 0) as (t & t0 & E & E0 & D).
  - split; [apply (LFloat2.rnd_dy G 1 1); [lia|lia|simpl; lra]|lra].
  - apply (off_break_far _ H); [rewrite Rabs_right; lra|rewrite Rabs_right; lra].
  - apply (off_break_far _ H); [rewrite Rabs_right; lra|rewrite Rabs_left; lra].
  - split; [apply (demo_int 3); [lia|lra]|]. split; [apply (demo_int 0); [lia|lra]|]. split; [apply (LFloat2.rnd_dy G 1 2); [lia|lia|simpl; lra]|]. split; [apply (LFloat2.rnd_dy G 1 4); [lia|lia|simpl; lra]|].
    rewrite Rabs_R0, Rabs_right by lra. repeat split; simpl; lra.
  - unfold bump_amp. simpl. lra.
  - apply (demo_int 1); [lia|lra].
  - apply (demo_int 0); [lia|lra].
  - simpl; lra.
  - lra.
  - exists t, t0. split; [exact E|]. split; [exact E0|]. eapply Rle_trans; [exact D|]. apply Rmult_le_compat_r; [left; apply Rinv_0_lt_compat, pow_lt; lra|].
    unfold tilt, Rpower, bump_amp. rewrite Rmult_0_l, exp_0, (Rabs_right 3) by lra. simpl. lra.
Qed.

(** C152 *)
Theorem C152_rest_magnitude : forall AR u, accurate_to AR u -> forall K ts sfrs lgmet scatter lgmets ages flux n_wave t_obs sfr_min F ws wf tf B eps kappa r0 sed0,
  rounding_history K ts sfrs (1 / 10 ^ 14) -> rounding_history K ts sfrs sfr_min -> rounding_ages ages -> rounding_lgmets lgmets ->
  machine_number t_obs -> ent ts 0 <= t_obs <= 1000 -> Rabs lgmet <= 5 -> machine_number scatter -> 1/1000 <= scatter <= 1 ->
  half_in_bins ts sfrs (1 / 10 ^ 14) t_obs ages ->
  let n_met := length lgmets in let n_age := length ages in
  let bound := joint_amp K ts t_obs n_age n_met scatter 0 * u in bound <= 1/20 ->
  is_cube n_met n_age n_wave flux ->
  let M := mass_formed_by ts (floored sfr_min sfrs) t_obs in
  (forall k, (k < n_wave)%nat -> 0 <= F k <= 10 ^ 30 /\ F k * M <= 10 ^ 36) ->
  (forall i j k, (i < n_met)%nat -> (j < n_age)%nat -> (k < n_wave)%nat -> Rabs (ent3 flux i j k) <= F k) ->
  calc_rest_sed_sfh_table_lognormal_mdf (AR := exact) (fins ts) (fins sfrs) (Fin lgmet) (Fin scatter) (fins lgmets) (fins ages) (fins3 flux) (Fin t_obs) (Fin sfr_min) = Ok r0 ->
  rest_sed r0 = fins sed0 ->
  0 <= eps <= 1/100 -> (forall k, (k < n_wave)%nat -> 0 <= ent sed0 k <= B /\ sed_error u (F k) M bound (n_met * n_age) <= eps * ent sed0 k) ->
  / 10 ^ 20 <= B <= 10 ^ 19 -> length ws = n_wave -> rounding_wavelengths ws -> rounding_filter (AR := AR) wf tf ->
  1 / 10 ^ 18 <= B * band_integral (fun _ => 1) wf tf ->
  0 < kappa -> B <= kappa * (ab0 * band_flux (spectrum_at ws sed0) wf tf) -> 3 * (INR (length wf) + 25) * u * kappa <= 1 / 110 ->
  exists r sed m m0,
    calc_rest_sed_sfh_table_lognormal_mdf (AR := AR) (fins ts) (fins sfrs) (Fin lgmet) (Fin scatter) (fins lgmets) (fins ages) (fins3 flux) (Fin t_obs) (lit sfr_min) = Ok r
    /\ rest_sed r = fins sed /\ relatively_close eps sed sed0
    /\ calc_rest_mag (AR := AR) (fins ws) (rest_sed r) (fins wf) (fins tf) = Ok (Fin m)
    /\ calc_rest_mag (AR := exact) (fins ws) (rest_sed r0) (fins wf) (fins tf) = Ok (Fin m0)
    /\ Rabs (m - m0) <= 5 * (INR (length wf) + 70) * u * kappa + 1.3 * eps.
Proof. exact C152_rest_lemma. Qed.
Print Assumptions C152_rest_magnitude.
Theorem C152_rest_magnitude_met_table : forall AR u, accurate_to AR u -> forall K Kz ts sfrs lgmet_table scatter lgmets ages flux n_wave t_obs sfr_min F ws wf tf B eps kappa r0 sed0,
  rounding_history K ts sfrs (1 / 10 ^ 14) -> rounding_history K ts sfrs sfr_min -> rounding_ages ages -> rounding_lgmets lgmets -> rounding_lgmet_table Kz ts lgmet_table ->
  machine_number t_obs -> ent ts 0 <= t_obs <= 1000 -> machine_number scatter -> 1/1000 <= scatter <= 1 ->
  half_in_bins ts sfrs (1 / 10 ^ 14) t_obs ages ->
  let n_met := length lgmets in let n_age := length ages in
  let bound := joint_amp K ts t_obs n_age n_met scatter (lgmet_amp Kz ts t_obs) * u in bound <= 1/20 ->
  is_cube n_met n_age n_wave flux ->
  let M := mass_formed_by ts (floored sfr_min sfrs) t_obs in
  (forall k, (k < n_wave)%nat -> 0 <= F k <= 10 ^ 30 /\ F k * M <= 10 ^ 36) ->
  (forall i j k, (i < n_met)%nat -> (j < n_age)%nat -> (k < n_wave)%nat -> Rabs (ent3 flux i j k) <= F k) ->
  calc_rest_sed_sfh_table_met_table (AR := exact) (fins ts) (fins sfrs) (fins lgmet_table) (Fin scatter) (fins lgmets) (fins ages) (fins3 flux) (Fin t_obs) (Fin sfr_min) = Ok r0 ->
  rest_sed r0 = fins sed0 ->
  0 <= eps <= 1/100 -> (forall k, (k < n_wave)%nat -> 0 <= ent sed0 k <= B /\ sed_error u (F k) M bound (n_met * n_age) <= eps * ent sed0 k) ->
  / 10 ^ 20 <= B <= 10 ^ 19 -> length ws = n_wave -> rounding_wavelengths ws -> rounding_filter (AR := AR) wf tf ->
  1 / 10 ^ 18 <= B * band_integral (fun _ => 1) wf tf ->
  0 < kappa -> B <= kappa * (ab0 * band_flux (spectrum_at ws sed0) wf tf) -> 3 * (INR (length wf) + 25) * u * kappa <= 1 / 110 ->
  exists r sed m m0,
    calc_rest_sed_sfh_table_met_table (AR := AR) (fins ts) (fins sfrs) (fins lgmet_table) (Fin scatter) (fins lgmets) (fins ages) (fins3 flux) (Fin t_obs) (lit sfr_min) = Ok r
    /\ rest_sed r = fins sed /\ relatively_close eps sed sed0
    /\ calc_rest_mag (AR := AR) (fins ws) (rest_sed r) (fins wf) (fins tf) = Ok (Fin m)
    /\ calc_rest_mag (AR := exact) (fins ws) (rest_sed r0) (fins wf) (fins tf) = Ok (Fin m0)
    /\ Rabs (m - m0) <= 5 * (INR (length wf) + 70) * u * kappa + 1.3 * eps.
Proof. exact C152_rest_met_lemma. Qed.
Print Assumptions C152_rest_magnitude_met_table.
Theorem C152_observed_magnitude : forall AR u, accurate_to AR u -> forall K ts sfrs lgmet scatter lgmets ages flux n_wave t_obs sfr_min F ws wf tf B eps kappa Res z Om0 w0 wa h r0 sed0,
  rounding_history K ts sfrs (1 / 10 ^ 14) -> rounding_history K ts sfrs sfr_min -> rounding_ages ages -> rounding_lgmets lgmets ->
  machine_number t_obs -> ent ts 0 <= t_obs <= 1000 -> Rabs lgmet <= 5 -> machine_number scatter -> 1/1000 <= scatter <= 1 ->
  half_in_bins ts sfrs (1 / 10 ^ 14) t_obs ages ->
  let n_met := length lgmets in let n_age := length ages in
  let bound := joint_amp K ts t_obs n_age n_met scatter 0 * u in bound <= 1/20 ->
  is_cube n_met n_age n_wave flux ->
  let M := mass_formed_by ts (floored sfr_min sfrs) t_obs in
  (forall k, (k < n_wave)%nat -> 0 <= F k <= 10 ^ 30 /\ F k * M <= 10 ^ 36) ->
  (forall i j k, (i < n_met)%nat -> (j < n_age)%nat -> (k < n_wave)%nat -> Rabs (ent3 flux i j k) <= F k) ->
  calc_rest_sed_sfh_table_lognormal_mdf (AR := exact) (fins ts) (fins sfrs) (Fin lgmet) (Fin scatter) (fins lgmets) (fins ages) (fins3 flux) (Fin t_obs) (Fin sfr_min) = Ok r0 ->
  rest_sed r0 = fins sed0 ->
  0 <= eps <= 1/100 -> (forall k, (k < n_wave)%nat -> 0 <= ent sed0 k <= B /\ sed_error u (F k) M bound (n_met * n_age) <= eps * ent sed0 k) ->
  / 10 ^ 20 <= B <= 10 ^ 19 -> length ws = n_wave -> rounding_wavelengths ws -> rounding_filter (AR := AR) wf tf ->
  rounding_resolution Res ws -> rounding_cosmology (AR := AR) z Om0 w0 wa h -> inside_spectrum ws wf z ->
  1 / 10 ^ 18 <= B * band_integral (fun _ => 1) wf tf ->
  0 < kappa -> B <= kappa * (ab0 * band_flux (fun x => spectrum_at ws sed0 (x / (1 + z))) wf tf) -> 3 * (INR (length wf) + 5 * Res + 25) * u * kappa <= 1 / 1100 ->
  exists r sed m m0,
    calc_rest_sed_sfh_table_lognormal_mdf (AR := AR) (fins ts) (fins sfrs) (Fin lgmet) (Fin scatter) (fins lgmets) (fins ages) (fins3 flux) (Fin t_obs) (lit sfr_min) = Ok r
    /\ rest_sed r = fins sed /\ relatively_close eps sed sed0
    /\ calc_obs_mag (AR := AR) (fins ws) (rest_sed r) (fins wf) (fins tf) (Fin z) (Fin Om0) (Fin w0) (Fin wa) (Fin h) = Ok (Fin m)
    /\ calc_obs_mag (AR := exact) (fins ws) (rest_sed r0) (fins wf) (fins tf) (Fin z) (Fin Om0) (Fin w0) (Fin wa) (Fin h) = Ok (Fin m0)
    /\ Rabs (m - m0) <= 5 * (INR (length wf) + 5 * Res + 70) * u * kappa + 4200 * u + 1.3 * eps.
Proof. exact C152_obs_lemma. Qed.
Print Assumptions C152_observed_magnitude.
Theorem C152_observed_magnitude_met_table : forall AR u, accurate_to AR u -> forall K Kz ts sfrs lgmet_table scatter lgmets ages flux n_wave t_obs sfr_min F ws wf tf B eps kappa Res z Om0 w0 wa h r0 sed0,
  rounding_history K ts sfrs (1 / 10 ^ 14) -> rounding_history K ts sfrs sfr_min -> rounding_ages ages -> rounding_lgmets lgmets -> rounding_lgmet_table Kz ts lgmet_table ->
  machine_number t_obs -> ent ts 0 <= t_obs <= 1000 -> machine_number scatter -> 1/1000 <= scatter <= 1 ->
  half_in_bins ts sfrs (1 / 10 ^ 14) t_obs ages ->
  let n_met := length lgmets in let n_age := length ages in
  let bound := joint_amp K ts t_obs n_age n_met scatter (lgmet_amp Kz ts t_obs) * u in bound <= 1/20 ->
  is_cube n_met n_age n_wave flux ->
  let M := mass_formed_by ts (floored sfr_min sfrs) t_obs in
  (forall k, (k < n_wave)%nat -> 0 <= F k <= 10 ^ 30 /\ F k * M <= 10 ^ 36) ->
  (forall i j k, (i < n_met)%nat -> (j < n_age)%nat -> (k < n_wave)%nat -> Rabs (ent3 flux i j k) <= F k) ->
  calc_rest_sed_sfh_table_met_table (AR := exact) (fins ts) (fins sfrs) (fins lgmet_table) (Fin scatter) (fins lgmets) (fins ages) (fins3 flux) (Fin t_obs) (Fin sfr_min) = Ok r0 ->
  rest_sed r0 = fins sed0 ->
  0 <= eps <= 1/100 -> (forall k, (k < n_wave)%nat -> 0 <= ent sed0 k <= B /\ sed_error u (F k) M bound (n_met * n_age) <= eps * ent sed0 k) ->
  / 10 ^ 20 <= B <= 10 ^ 19 -> length ws = n_wave -> rounding_wavelengths ws -> rounding_filter (AR := AR) wf tf ->
  rounding_resolution Res ws -> rounding_cosmology (AR := AR) z Om0 w0 wa h -> inside_spectrum ws wf z ->
  1 / 10 ^ 18 <= B * band_integral (fun _ => 1) wf tf ->
  0 < kappa -> B <= kappa * (ab0 * band_flux (fun x => spectrum_at ws sed0 (x / (1 + z))) wf tf) -> 3 * (INR (length wf) + 5 * Res + 25) * u * kappa <= 1 / 1100 ->
  exists r sed m m0,
    calc_rest_sed_sfh_table_met_table (AR := AR) (fins ts) (fins sfrs) (fins lgmet_table) (Fin scatter) (fins lgmets) (fins ages) (fins3 flux) (Fin t_obs) (lit sfr_min) = Ok r
    /\ rest_sed r = fins sed /\ relatively_close eps sed sed0
    /\ calc_obs_mag (AR := AR) (fins ws) (rest_sed r) (fins wf) (fins tf) (Fin z) (Fin Om0) (Fin w0) (Fin wa) (Fin h) = Ok (Fin m)
    /\ calc_obs_mag (AR := exact) (fins ws) (rest_sed r0) (fins wf) (fins tf) (Fin z) (Fin Om0) (Fin w0) (Fin wa) (Fin h) = Ok (Fin m0)
    /\ Rabs (m - m0) <= 5 * (INR (length wf) + 5 * Res + 70) * u * kappa + 4200 * u + 1.3 * eps.
Proof. exact C152_obs_met_lemma. Qed.
Print Assumptions C152_observed_magnitude_met_table.
Example C152_nonvacuous_rest : exists r r0 m m0,
  @calc_rest_sed_sfh_table_lognormal_mdf binary64 (fins rd_t) (fins rd_sfr) (Fin (-3/2)) (Fin (1/4)) (fins rd_lgmets) (fins rd_ages) (fins3 e2_flux) (Fin 4) (@lit binary64 (1 / 10 ^ 14)) = Ok r
  /\ calc_rest_sed_sfh_table_lognormal_mdf (fins rd_t) (fins rd_sfr) (Fin (-3/2)) (Fin (1/4)) (fins rd_lgmets) (fins rd_ages) (fins3 e2_flux) (Fin 4) (Fin (1 / 10 ^ 14)) = Ok r0
  /\ @calc_rest_mag binary64 (fins ph_ws) (rest_sed r) (fins ph_wf) (fins ph_tf) = Ok (Fin m)
  /\ calc_rest_mag (fins ph_ws) (rest_sed r0) (fins ph_wf) (fins ph_tf) = Ok (Fin m0) /\ Rabs (m - m0) <= 1 / 500.
Proof.
  pose proof e14_ok as E14. pose proof e14_range as E14'. assert (Q : @machine_number binary64 (1/4)) by (apply (LFloat2.rnd_dy LFloat.good_binary64 1 2); [lia|lia|simpl; lra]).
  pose proof rd_zamp as Z. pose proof (rd_small _ (rd_jamp 0 ltac:(lra))) as S0. assert (T6 : 1 / 10 ^ 6 <= 1/20) by (simpl; lra). pose proof ph_u as Uu. set (u := / 2 ^ 53) in *.
  destruct e2_sed as (r0 & sed0 & E0 & Es0 & L & V). assert (XE : e2_exact sed0) by (split; auto).
  destruct (C152_rest_magnitude binary64 u rd_unit 2 rd_t rd_sfr (-3/2) (1/4) rd_lgmets rd_ages e2_flux 4 4 (1 / 10 ^ 14) (fun _ => 1) ph_ws ph_wf ph_tf (10 ^ 10) (1/1000) 200 r0 sed0) as (r & sed & m & m0 & E & _ & _ & Em & Em0 & D); try lra; auto.
  + apply rd_history; lra. + apply rd_history; lra. + apply rd_rages. + apply rd_rlgmets. + apply (LFloat9.demo_int 4); auto; lia. + unfold rd_t, ent; simpl; lra. + rewrite Rabs_left; lra. + apply rd_half; lra.
  + apply e2_cube.
  + intros k _. split; [split; [lra|apply pow_R1_Rle; lra]|]. rewrite Rmult_1_l. eapply Rle_trans; [apply e2_M|apply Rle_pow; [lra|lia]].
  + intros i j k Hi Hj Hk. now apply e2_flux_le.
  + intros k Hk. destruct (V k Hk) as (B1 & B2). split; [simpl in B1 |- *; lra|]. apply B2; [split; [apply Rlt_le, Rinv_0_lt_compat, pow_lt; lra|simpl in Uu; lra]|exact S0].
  + apply e2_wavelengths. + apply ph_filter. + apply e2_BI. + apply e2_flux_S; apply e2_at; auto; lra.
  + unfold ph_wf. simpl in Uu |- *. lra.
  + exists r, r0, m, m0. split; [exact E|]. split; [exact E0|]. split; [exact Em|]. split; [exact Em0|]. eapply Rle_trans; [exact D|]. unfold ph_wf. simpl in Uu |- *. lra.
Qed.
Example C152_nonvacuous_rest_met_table : exists r r0 m m0,
  @calc_rest_sed_sfh_table_met_table binary64 (fins rd_t) (fins rd_sfr) (fins rd_table) (Fin (1/4)) (fins rd_lgmets) (fins rd_ages) (fins3 e2_flux) (Fin 4) (@lit binary64 (1 / 10 ^ 14)) = Ok r
  /\ calc_rest_sed_sfh_table_met_table (fins rd_t) (fins rd_sfr) (fins rd_table) (Fin (1/4)) (fins rd_lgmets) (fins rd_ages) (fins3 e2_flux) (Fin 4) (Fin (1 / 10 ^ 14)) = Ok r0
  /\ @calc_rest_mag binary64 (fins ph_ws) (rest_sed r) (fins ph_wf) (fins ph_tf) = Ok (Fin m)
  /\ calc_rest_mag (fins ph_ws) (rest_sed r0) (fins ph_wf) (fins ph_tf) = Ok (Fin m0) /\ Rabs (m - m0) <= 1 / 500.
Proof.
  pose proof e14_ok as E14. pose proof e14_range as E14'. assert (Q : @machine_number binary64 (1/4)) by (apply (LFloat2.rnd_dy LFloat.good_binary64 1 2); [lia|lia|simpl; lra]).
  pose proof rd_zamp as Z. pose proof (rd_small _ (rd_jamp _ Z)) as S0. assert (T6 : 1 / 10 ^ 6 <= 1/20) by (simpl; lra). pose proof ph_u as Uu. set (u := / 2 ^ 53) in *.
  destruct e2_sed_met as (r0 & sed0 & E0 & Es0 & L & V). assert (XE : e2_exact sed0) by (split; auto).
  destruct (C152_rest_magnitude_met_table binary64 u rd_unit 2 4 rd_t rd_sfr rd_table (1/4) rd_lgmets rd_ages e2_flux 4 4 (1 / 10 ^ 14) (fun _ => 1) ph_ws ph_wf ph_tf (10 ^ 10) (1/1000) 200 r0 sed0) as (r & sed & m & m0 & E & _ & _ & Em & Em0 & D); try lra; auto.
  + apply rd_history; lra. + apply rd_history; lra. + apply rd_rages. + apply rd_rlgmets. + apply rd_rtable. + apply (LFloat9.demo_int 4); auto; lia. + unfold rd_t, ent; simpl; lra. + apply rd_half; lra.
  + apply e2_cube.
  + intros k _. split; [split; [lra|apply pow_R1_Rle; lra]|]. rewrite Rmult_1_l. eapply Rle_trans; [apply e2_M|apply Rle_pow; [lra|lia]].
  + intros i j k Hi Hj Hk. now apply e2_flux_le.
  + intros k Hk. destruct (V k Hk) as (B1 & B2). split; [simpl in B1 |- *; lra|]. apply B2; [split; [apply Rlt_le, Rinv_0_lt_compat, pow_lt; lra|simpl in Uu; lra]|exact S0].
  + apply e2_wavelengths. + apply ph_filter. + apply e2_BI. + apply e2_flux_S; apply e2_at; auto; lra.
  + unfold ph_wf. simpl in Uu |- *. lra.
  + exists r, r0, m, m0. split; [exact E|]. split; [exact E0|]. split; [exact Em|]. split; [exact Em0|]. eapply Rle_trans; [exact D|]. unfold ph_wf. simpl in Uu |- *. lra.
Qed.
Example C152_nonvacuous_observed : exists r r0 m m0,
  @calc_rest_sed_sfh_table_lognormal_mdf binary64 (fins rd_t) (fins rd_sfr) (Fin (-3/2)) (Fin (1/4)) (fins rd_lgmets) (fins rd_ages) (fins3 e2_flux) (Fin 4) (@lit binary64 (1 / 10 ^ 14)) = Ok r
  /\ calc_rest_sed_sfh_table_lognormal_mdf (fins rd_t) (fins rd_sfr) (Fin (-3/2)) (Fin (1/4)) (fins rd_lgmets) (fins rd_ages) (fins3 e2_flux) (Fin 4) (Fin (1 / 10 ^ 14)) = Ok r0
  /\ @calc_obs_mag binary64 (fins ph_ws) (rest_sed r) (fins ph_wf) (fins ph_tf) (Fin (1/2)) (Fin (1/4)) (Fin (-1)) (Fin 0) (Fin (3/4)) = Ok (Fin m)
  /\ calc_obs_mag (fins ph_ws) (rest_sed r0) (fins ph_wf) (fins ph_tf) (Fin (1/2)) (Fin (1/4)) (Fin (-1)) (Fin 0) (Fin (3/4)) = Ok (Fin m0) /\ Rabs (m - m0) <= 1 / 500.
Proof.
  pose proof e14_ok as E14. pose proof e14_range as E14'. assert (Q : @machine_number binary64 (1/4)) by (apply (LFloat2.rnd_dy LFloat.good_binary64 1 2); [lia|lia|simpl; lra]).
  pose proof rd_zamp as Z. pose proof (rd_small _ (rd_jamp 0 ltac:(lra))) as S0. assert (T6 : 1 / 10 ^ 6 <= 1/20) by (simpl; lra). pose proof ph_u as Uu. set (u := / 2 ^ 53) in *.
  destruct e2_sed as (r0 & sed0 & E0 & Es0 & L & V). assert (XE : e2_exact sed0) by (split; auto).
  destruct (C152_observed_magnitude binary64 u rd_unit 2 rd_t rd_sfr (-3/2) (1/4) rd_lgmets rd_ages e2_flux 4 4 (1 / 10 ^ 14) (fun _ => 1) ph_ws ph_wf ph_tf (10 ^ 10) (1/1000) 200 3 (1/2) (1/4) (-1) 0 (3/4) r0 sed0) as (r & sed & m & m0 & E & _ & _ & Em & Em0 & D); try lra; auto.
  + apply rd_history; lra. + apply rd_history; lra. + apply rd_rages. + apply rd_rlgmets. + apply (LFloat9.demo_int 4); auto; lia. + unfold rd_t, ent; simpl; lra. + rewrite Rabs_left; lra. + apply rd_half; lra.
  + apply e2_cube.
  + intros k _. split; [split; [lra|apply pow_R1_Rle; lra]|]. rewrite Rmult_1_l. eapply Rle_trans; [apply e2_M|apply Rle_pow; [lra|lia]].
  + intros i j k Hi Hj Hk. now apply e2_flux_le.
  + intros k Hk. destruct (V k Hk) as (B1 & B2). split; [simpl in B1 |- *; lra|]. apply B2; [split; [apply Rlt_le, Rinv_0_lt_compat, pow_lt; lra|simpl in Uu; lra]|exact S0].
  + apply e2_wavelengths. + apply ph_filter. + apply ph_resolution. + apply cos_demo64. + apply ph_inside. + apply e2_BI. + apply e2_flux_S; apply e2_at; auto; lra.
  + unfold ph_wf. simpl in Uu |- *. lra.
  + exists r, r0, m, m0. split; [exact E|]. split; [exact E0|]. split; [exact Em|]. split; [exact Em0|]. eapply Rle_trans; [exact D|]. unfold ph_wf. simpl in Uu |- *. lra.
Qed.
Example C152_nonvacuous_observed_met_table : exists r r0 m m0,
  @calc_rest_sed_sfh_table_met_table binary64 (fins rd_t) (fins rd_sfr) (fins rd_table) (Fin (1/4)) (fins rd_lgmets) (fins rd_ages) (fins3 e2_flux) (Fin 4) (@lit binary64 (1 / 10 ^ 14)) = Ok r
  /\ calc_rest_sed_sfh_table_met_table (fins rd_t) (fins rd_sfr) (fins rd_table) (Fin (1/4)) (fins rd_lgmets) (fins rd_ages) (fins3 e2_flux) (Fin 4) (Fin (1 / 10 ^ 14)) = Ok r0
  /\ @calc_obs_mag binary64 (fins ph_ws) (rest_sed r) (fins ph_wf) (fins ph_tf) (Fin (1/2)) (Fin (1/4)) (Fin (-1)) (Fin 0) (Fin (3/4)) = Ok (Fin m)
  /\ calc_obs_mag (fins ph_ws) (rest_sed r0) (fins ph_wf) (fins ph_tf) (Fin (1/2)) (Fin (1/4)) (Fin (-1)) (Fin 0) (Fin (3/4)) = Ok (Fin m0) /\ Rabs (m - m0) <= 1 / 500.
Proof.
  pose proof e14_ok as E14. pose proof e14_range as E14'. assert (Q : @machine_number binary64 (1/4)) by (apply (LFloat2.rnd_dy LFloat.good_binary64 1 2); [lia|lia|simpl; lra]).
  pose proof rd_zamp as Z. pose proof (rd_small _ (rd_jamp _ Z)) as S0. assert (T6 : 1 / 10 ^ 6 <= 1/20) by (simpl; lra). pose proof ph_u as Uu. set (u := / 2 ^ 53) in *.
  destruct e2_sed_met as (r0 & sed0 & E0 & Es0 & L & V). assert (XE : e2_exact sed0) by (split; auto).
  destruct (C152_observed_magnitude_met_table binary64 u rd_unit 2 4 rd_t rd_sfr rd_table (1/4) rd_lgmets rd_ages e2_flux 4 4 (1 / 10 ^ 14) (fun _ => 1) ph_ws ph_wf ph_tf (10 ^ 10) (1/1000) 200 3 (1/2) (1/4) (-1) 0 (3/4) r0 sed0) as (r & sed & m & m0 & E & _ & _ & Em & Em0 & D); try lra; auto.
  + apply rd_history; lra. + apply rd_history; lra. + apply rd_rages. + apply rd_rlgmets. + apply rd_rtable. + apply (LFloat9.demo_int 4); auto; lia. + unfold rd_t, ent; simpl; lra. + apply rd_half; lra.
  + apply e2_cube.
  + intros k _. split; [split; [lra|apply pow_R1_Rle; lra]|]. rewrite Rmult_1_l. eapply Rle_trans; [apply e2_M|apply Rle_pow; [lra|lia]].
  + intros i j k Hi Hj Hk. now apply e2_flux_le.
  + intros k Hk. destruct (V k Hk) as (B1 & B2). split; [simpl in B1 |- *; lra|]. apply B2; [split; [apply Rlt_le, Rinv_0_lt_compat, pow_lt; lra|simpl in Uu; lra]|exact S0].
  + apply e2_wavelengths. + apply ph_filter. + apply ph_resolution. + apply cos_demo64. + apply ph_inside. + apply e2_BI. + apply e2_flux_S; apply e2_at; auto; lra.
  + unfold ph_wf. simpl in Uu |- *. lra.
  + exists r, r0, m, m0. split; [exact E|]. split; [exact E0|]. split; [exact Em|]. split; [exact Em0|]. eapply Rle_trans; [exact D|]. unfold ph_wf. simpl in Uu |- *. lra.
Qed.
