(** * Properties C93-C94: what survives floating-point rounding (double and single
    precision).  Vocabulary: Float.v (the two formats), SpecFloat.v, Spec.v. *)
From Coq Require Import Reals List Arith Lra Lia ZArith.
From Verif Require Import Num Arr MUtils MDiffburst MMzr MDust MSed Float Spec SpecFloat LFloat LFloat9.
Import ListNotations.
Open Scope R_scope.

(** C93: bounded parameters and transmissions *)
@@C93_sigmoid_stays_in_bounds = LFloat9.C93_sigmoid
Example C93_sigmoid_nonvacuous : exists y, @sigmoid binary64 PInf (Fin 3) (Fin 2) (Fin (-5)) (Fin 7) = Fin y /\ -5 <= y <= 7.
Proof.
  apply (C93_sigmoid_stays_in_bounds binary64); try exact ieee64; try congruence; try lra; unfold machine_number.
  - apply (demo_int (-5)); [lia|lra]. - apply (demo_int 7); [lia|lra]. - apply (demo_int 12); [lia|lra].
Qed.
@@C93_sigmoid_is_monotone = LFloat9.C93_sigmoid_monotone
(** without an exactly representable height the bound fails: the claim that a sigmoid
    never leaves its bounds in double precision is false *)
@@C93_sigmoid_bound_refuted = LFloat9.C93_sigmoid_refuted
@@C93_burst_parameters = LFloat9.C93_burst
Example C93_burst_nonvacuous : exists fb peak lo mx,
  @get_params_from_u_params binary32 {| u_lgfburst := Fin (-1000); u_lgyr_peak := PInf; u_lgyr_max := Fin 12 |}
    = {| lgfburst := Fin fb; lgyr_peak := Fin peak; lgyr_max := Fin mx |}
  /\ -8 <= fb <= -1 /\ 5 <= peak <= 8 /\ @nadd binary32 (Fin peak) (Fin 1) = Fin lo /\ lo <= mx <= 9 /\ peak + 1/2 <= mx.
Proof. apply (C93_burst_parameters binary32); [exact ieee32|congruence|congruence|congruence]. Qed.
@@C93_mzr_parameters = LFloat9.C93_mzr
Example C93_mzr_nonvacuous : not_nan_params {| mzr_t0_ytp := Fin 1; mzr_t0_x0 := Fin 2; mzr_t0_k := NInf; mzr_t0_slope_lo := Fin 3;
    mzr_t0_slope_hi := PInf; c0_y_at_tlook_c := Fin 4; c1_y_at_tlook_c := Fin 5; c0_early_time_slope := Fin 6; c1_early_time_slope := Fin 7 |}.
Proof. unfold not_nan_params. cbn. repeat split; congruence. Qed.
@@C93_dust_transmission = LFloat9.C93_transmission
Example C93_transmission_nonvacuous : exists t,
  @frac_transmission_from_k_lambda binary64 (Fin 4.0517) (Fin 1.5) (Fin 0) = Fin t /\ 0 <= t <= 1.
Proof. eapply (C93_dust_transmission binary64); [exact ieee64|lra|apply (demo_int 0); [lia|lra]|reflexivity|reflexivity]. Qed.

(** C94: age weights *)
@@C94_age_weights_nonnegative = LFloat9.C94_sfh
Example C94_nonvacuous : exists w,
  @calc_age_weights_from_sfh_table binary64 (fins [1; 2]) (fins [1/1024; 1/1024]) (fins [-1/2; 1/2; 3/2]) (Fin 11) (Fin (1/10^20)) = Ok w
  /\ length w = 3%nat /\ (all_nan w \/ all_unit w).
Proof.
  destruct demo_masses as (m0 & m1 & E & B0 & B1).
  assert (P : 0 < 1 / 10 ^ 20) by (apply Rdiv_lt_0_compat; [lra|apply pow_lt; lra]).
  assert (Q : 1 / 10 ^ 20 <= 1 / 1024).
  { unfold Rdiv. rewrite !Rmult_1_l. apply Rinv_le_contravar; [lra|]. apply Rle_trans with (10 ^ 4); [lra|apply Rle_pow; [lra|lia]]. }
  apply (C94_age_weights_nonnegative binary64) with (m := [m0; m1]) (k := 5%nat); auto; try exact ieee64; try exact mono64; try lia; try lra.
  - discriminate.
  - intros i j Hij. simpl in Hij. unfold ent. destruct i as [|[|i]], j as [|[|[|j]]]; try lia; simpl; lra.
  - constructor; [|constructor; [|constructor]]; (split; [|lra]); [apply (demo_int 1)|apply (demo_int 2)]; (lia || lra).
  - apply (demo_int 11); [lia|lra].
  - exact demo_range.
  - exact demo_edges.
  - unfold floored. cbn [map]. rewrite !Rmax_right by lra. exact E.
Qed.
@@C94_age_weights_from_log_masses_nonnegative = LFloat9.C94_logsm
Example C94_logsm_nonvacuous : let w := snd (@calc_age_weights_from_logsm_table_k binary64 (fins [0; 1]) (fins [5; 9]) (fins [-1/2; 1/2; 3/2]) (Fin 11)) in
  length w = 3%nat /\ (all_nan w \/ all_unit w).
Proof.
  apply (C94_age_weights_from_log_masses_nonnegative binary64); auto; try exact ieee64; try exact mono64; try discriminate; try lra.
  - intros i j Hij. simpl in Hij. unfold ent. destruct i as [|[|i]], j as [|[|[|j]]]; try lia; simpl; lra.
  - intros i j Hij. simpl in Hij. unfold ent. destruct i as [|[|i]], j as [|[|[|j]]]; try lia; simpl; lra.
  - intros [|[|i]] Hi; simpl in Hi; try lia; unfold ent; cbn [nth]; split; try lra; [apply (demo_int 0)|apply (demo_int 1)]; (lia || lra).
  - intros [|[|i]] Hi; simpl in Hi; try lia; unfold ent; cbn [nth]; [apply (demo_int 5)|apply (demo_int 9)]; (lia || lra).
  - intros [|i] Hi; simpl in Hi; try lia; unfold ent; cbn [nth]. apply (demo_int 4); (lia || lra).
  - unfold ent; simpl; lra.
  - apply (demo_int 11); [lia|lra].
  - exact demo_range.
  - exact demo_edges.
Qed.
(** without the condition on the differences of the log-mass table the claim is false in
    double precision: rounding in the interpolation makes the youngest weight negative *)
@@C94_negative_weight_refuted = LFloat9.C94_refuted
