(** * Properties C93-C94: what survives floating-point rounding (double and single
    precision).  Vocabulary: Float.v (the two formats), SpecFloat.v, Spec.v. *)
From Coq Require Import Reals List Arith Lra Lia ZArith.
From Verif Require Import Num Arr MUtils MDiffburst MMzr MDust MSed Float Spec SpecFloat LFloat LFloat9.
Import ListNotations.
Open Scope R_scope.

(** C93: bounded parameters and transmissions *)
Theorem C93_sigmoid_stays_in_bounds : forall AR : Arith, ieee_arithmetic AR -> forall (u : num) (x0 k ylo yhi : R),
  u <> NaN -> k <> 0 -> machine_number ylo -> machine_number yhi -> machine_number (yhi - ylo) -> ylo <= yhi ->
  exists y, sigmoid u (Fin x0) (Fin k) (Fin ylo) (Fin yhi) = Fin y /\ ylo <= y <= yhi.
Proof. exact C93_sigmoid. Qed.
Print Assumptions C93_sigmoid_stays_in_bounds.
Example C93_sigmoid_nonvacuous : exists y, @sigmoid binary64 PInf (Fin 3) (Fin 2) (Fin (-5)) (Fin 7) = Fin y /\ -5 <= y <= 7.
Proof.
  apply (C93_sigmoid_stays_in_bounds binary64); try exact ieee64; try congruence; try lra; unfold machine_number.
  - apply (demo_int (-5)); [lia|lra]. - apply (demo_int 7); [lia|lra]. - apply (demo_int 12); [lia|lra].
Qed.
Theorem C93_sigmoid_is_monotone : forall AR : Arith, ieee_arithmetic AR -> monotone_library AR -> forall (a b : num) (x0 k ylo yhi : R),
  nleb a b = true -> 0 < k -> machine_number (yhi - ylo) -> ylo <= yhi ->
  nleb (sigmoid a (Fin x0) (Fin k) (Fin ylo) (Fin yhi)) (sigmoid b (Fin x0) (Fin k) (Fin ylo) (Fin yhi)) = true.
Proof. exact C93_sigmoid_monotone. Qed.
Print Assumptions C93_sigmoid_is_monotone.
(** without an exactly representable height the bound fails: the claim that a sigmoid
    never leaves its bounds in double precision is false *)
Theorem C93_sigmoid_bound_refuted : exists u x0 k ylo yhi y,
  @machine_number binary64 u /\ @machine_number binary64 x0 /\ @machine_number binary64 k /\ @machine_number binary64 ylo /\ @machine_number binary64 yhi
  /\ 0 < k /\ ylo < yhi
  /\ @sigmoid binary64 (Fin u) (Fin x0) (Fin k) (Fin ylo) (Fin yhi) = Fin y /\ yhi < y.
Proof. exact C93_sigmoid_refuted. Qed.
Print Assumptions C93_sigmoid_bound_refuted.
Theorem C93_burst_parameters : forall AR : Arith, ieee_arithmetic AR -> forall u_fb u_peak u_max : num,
  u_fb <> NaN -> u_peak <> NaN -> u_max <> NaN ->
  exists fb peak lo mx,
    get_params_from_u_params {| u_lgfburst := u_fb; u_lgyr_peak := u_peak; u_lgyr_max := u_max |}
      = {| lgfburst := Fin fb; lgyr_peak := Fin peak; lgyr_max := Fin mx |}
    /\ -8 <= fb <= -1 /\ 5 <= peak <= 8
    /\ nadd (Fin peak) (Fin 1) = Fin lo /\ lo <= mx <= 9 /\ peak + 1/2 <= mx.
Proof. exact C93_burst. Qed.
Print Assumptions C93_burst_parameters.
Example C93_burst_nonvacuous : exists fb peak lo mx,
  @get_params_from_u_params binary32 {| u_lgfburst := Fin (-1000); u_lgyr_peak := PInf; u_lgyr_max := Fin 12 |}
    = {| lgfburst := Fin fb; lgyr_peak := Fin peak; lgyr_max := Fin mx |}
  /\ -8 <= fb <= -1 /\ 5 <= peak <= 8 /\ @nadd binary32 (Fin peak) (Fin 1) = Fin lo /\ lo <= mx <= 9 /\ peak + 1/2 <= mx.
Proof. apply (C93_burst_parameters binary32); [exact ieee32|congruence|congruence|congruence]. Qed.
Theorem C93_mzr_parameters : forall AR : Arith, ieee_arithmetic AR -> forall u : MZRParams, not_nan_params u ->
  exists y x k lo hi a b c d tenth, lit 0.1 = Fin tenth /\
  get_bounded_mzr_params u = {| mzr_t0_ytp := Fin y; mzr_t0_x0 := Fin x; mzr_t0_k := Fin k; mzr_t0_slope_lo := Fin lo;
    mzr_t0_slope_hi := Fin hi; c0_y_at_tlook_c := Fin a; c1_y_at_tlook_c := Fin b; c0_early_time_slope := Fin c;
    c1_early_time_slope := Fin d |}
  /\ -1 <= y <= 1/4 /\ 10.25 <= x <= 10.75 /\ 0.5 <= k <= 2 /\ tenth <= lo <= 1 /\ 0 <= hi <= lo
  /\ -2 <= a <= -1 /\ 0 <= b <= 0.5 /\ -1.5 <= c <= -0.5 /\ 0 <= d <= 0.5.
Proof. exact C93_mzr. Qed.
Print Assumptions C93_mzr_parameters.
Example C93_mzr_nonvacuous : not_nan_params {| mzr_t0_ytp := Fin 1; mzr_t0_x0 := Fin 2; mzr_t0_k := NInf; mzr_t0_slope_lo := Fin 3;
    mzr_t0_slope_hi := PInf; c0_y_at_tlook_c := Fin 4; c1_y_at_tlook_c := Fin 5; c0_early_time_slope := Fin 6; c1_early_time_slope := Fin 7 |}.
Proof. unfold not_nan_params. cbn. repeat split; congruence. Qed.
Theorem C93_dust_transmission : forall AR : Arith, ieee_arithmetic AR -> forall (k_lambda av : num) (floor : R),
  0 <= floor <= 1 -> machine_number floor ->
  (frac_transmission_from_k_lambda k_lambda av (Fin floor) = NaN
   \/ exists t, frac_transmission_from_k_lambda k_lambda av (Fin floor) = Fin t /\ floor <= t <= 1)
  /\ forall kl a, k_lambda = Fin kl -> av = Fin a ->
     exists t, frac_transmission_from_k_lambda k_lambda av (Fin floor) = Fin t /\ floor <= t <= 1.
Proof. exact C93_transmission. Qed.
Print Assumptions C93_dust_transmission.
Example C93_transmission_nonvacuous : exists t,
  @frac_transmission_from_k_lambda binary64 (Fin 4.0517) (Fin 1.5) (Fin 0) = Fin t /\ 0 <= t <= 1.
Proof. eapply (C93_dust_transmission binary64); [exact ieee64|lra|apply (demo_int 0); [lia|lra]|reflexivity|reflexivity]. Qed.

(** C94: age weights *)
Theorem C94_age_weights_nonnegative : forall AR : Arith, ieee_arithmetic AR -> monotone_library AR -> forall ts sfrs ages t_obs sfr_min m k,
  length ts = length sfrs -> ts <> [] -> increasing (0.001 :: ts) ->
  Forall (fun t => machine_number t /\ t <= 1000) ts -> machine_number t_obs -> t_obs <= 1000 -> 0 < sfr_min ->
  (3 <= length ages)%nat -> (forall i, (i < length ages)%nat -> -4 <= ent ages i <= 4) ->
  (forall i, (i < length ages)%nat -> age_edge ages i + / 2 ^ 16 <= age_edge ages (S i)) ->
  cumulative_mstar_formed (fins ts) (fins (floored sfr_min sfrs)) = Ok (fins m) ->
  (1 <= k <= 15)%nat -> Forall (fun x => 1.001 * 10 ^ k <= x <= 10 ^ (2 * k) / 1.001) m ->
  exists w, calc_age_weights_from_sfh_table (fins ts) (fins sfrs) (fins ages) (Fin t_obs) (Fin sfr_min) = Ok w
    /\ length w = length ages /\ (all_nan w \/ all_unit w).
Proof. exact C94_sfh. Qed.
Print Assumptions C94_age_weights_nonnegative.
Example C94_nonvacuous : exists w,
  @calc_age_weights_from_sfh_table binary64 (fins [1; 2]) (fins [1/1024; 1/1024]) (fins [-1/2; 1/2; 3/2]) (Fin 11) (Fin (1/10^20)) = Ok w
  /\ length w = 3%nat /\ (all_nan w \/ all_unit w).
Proof.
  destruct demo_masses as (m0 & m1 & E & B0 & B1).
  assert (P : 0 < 1 / 10 ^ 20) by (apply Rdiv_lt_0_compat; [lra|apply pow_lt; lra]).
  assert (Q : 1 / 10 ^ 20 <= 1 / 1024).
  { unfold Rdiv. rewrite !Rmult_1_l. apply Rinv_le_contravar; [lra|]. apply Rle_trans with (10 ^ 4); [lra|apply Rle_pow; [lra|lia]]. }
  apply (C94_age_weights_nonnegative binary64) with (m := [m0; m1]) (k := 5%nat); auto; try exact ieee64; try exact mono64; try lia; try lra.
  - discriminate.
  - intros i j Hij. simpl in Hij. unfold ent. destruct i as [|[|i]], j as [|[|[|j]]]; try lia; simpl; lra.
  - constructor; [|constructor; [|constructor]]; (split; [|lra]); [apply (demo_int 1)|apply (demo_int 2)]; (lia || lra).
  - apply (demo_int 11); [lia|lra].
  - exact demo_range.
  - exact demo_edges.
  - unfold floored. cbn [map]. rewrite !Rmax_right by lra. exact E.
Qed.
Theorem C94_age_weights_from_log_masses_nonnegative : forall AR : Arith, ieee_arithmetic AR -> monotone_library AR -> forall lgts logsm ages t_obs,
  length logsm = length lgts -> lgts <> [] -> nondecreasing lgts -> nondecreasing logsm ->
  (forall i, (i < length lgts)%nat -> machine_number (ent lgts i) /\ -1000 <= ent lgts i <= 1000) ->
  (forall i, (i < length logsm)%nat -> machine_number (ent logsm i)) ->
  (forall i, (S i < length logsm)%nat -> machine_number (ent logsm (S i) - ent logsm i)) ->
  ent logsm (length logsm - 1) <= 30 -> machine_number t_obs -> t_obs <= 1000 ->
  (3 <= length ages)%nat -> (forall i, (i < length ages)%nat -> -4 <= ent ages i <= 4) ->
  (forall i, (i < length ages)%nat -> age_edge ages i + / 2 ^ 16 <= age_edge ages (S i)) ->
  let w := snd (calc_age_weights_from_logsm_table_k (fins lgts) (fins logsm) (fins ages) (Fin t_obs)) in
  length w = length ages /\ (all_nan w \/ all_unit w).
Proof. exact C94_logsm. Qed.
Print Assumptions C94_age_weights_from_log_masses_nonnegative.
Example C94_logsm_nonvacuous : let w := snd (@calc_age_weights_from_logsm_table_k binary64 (fins [0; 1]) (fins [5; 9]) (fins [-1/2; 1/2; 3/2]) (Fin 11)) in
  length w = 3%nat /\ (all_nan w \/ all_unit w).
Proof.
  apply (C94_age_weights_from_log_masses_nonnegative binary64); auto; try exact ieee64; try exact mono64; try discriminate; try lra.
  - intros i j Hij. simpl in Hij. unfold ent. destruct i as [|[|i]], j as [|[|[|j]]]; try lia; simpl; lra.
  - intros i j Hij. simpl in Hij. unfold ent. destruct i as [|[|i]], j as [|[|[|j]]]; try lia; simpl; lra.
  - intros [|[|i]] Hi; simpl in Hi; try lia; unfold ent; cbn [nth]; split; try lra; [apply (demo_int 0)|apply (demo_int 1)]; (lia || lra).
  - intros [|[|i]] Hi; simpl in Hi; try lia; unfold ent; cbn [nth]; [apply (demo_int 5)|apply (demo_int 9)]; (lia || lra).
  - intros [|i] Hi; simpl in Hi; try lia; unfold ent; cbn [nth]. apply (demo_int 4); (lia || lra).
  - unfold ent; simpl; lra.
  - apply (demo_int 11); [lia|lra].
  - exact demo_range.
  - exact demo_edges.
Qed.
(** without the condition on the differences of the log-mass table the claim is false in
    double precision: rounding in the interpolation makes the youngest weight negative *)
Theorem C94_negative_weight_refuted : exists lgts logsm ages t_obs w0 w1 w2,
  increasing lgts /\ nondecreasing logsm /\ increasing ages
  /\ (forall x, In x (t_obs :: lgts ++ logsm ++ ages) -> @machine_number binary64 x)
  /\ snd (@calc_age_weights_from_logsm_table_k binary64 (fins lgts) (fins logsm) (fins ages) (Fin t_obs)) = [Fin w0; w1; w2]
  /\ w0 < 0.
Proof. exact C94_refuted. Qed.
Print Assumptions C94_negative_weight_refuted.
