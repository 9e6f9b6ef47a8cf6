(** * Property C146: tabulated star formation histories converge to continuous ones.
    Exact real arithmetic; the vocabulary is in SpecConv.v. *)
From Coq Require Import Reals List Arith Lra Lia.
From Coquelicot Require Import Coquelicot.
From Verif Require Import Num MUtils MSed Spec SpecConv SpecStab SpecMetStab RList LUtils LAge LMet LJoint LConv1 LConv4 LConvMet LConvLim Demo Demo2 Demo3.
Import ListNotations.
Open Scope R_scope.

(** C146 *)
Theorem C146_age_weights_error : forall K F f h d T ts ages t_obs sfr_min,
  smooth_history K F f -> 1 / 10 ^ 14 <= F -> 0 < sfr_min <= F -> 0 <= d -> (forall t, sfr_min <= f t + d) ->
  resolves h t_obs T ts -> (3 <= length ages)%nat -> nondecreasing (age_edges ages) ->
  let e := table_error K F h d T in
  2 * e < mass_in_range f t_obs ages ->
  exists w,
    calc_age_weights_from_sfh_table (fins ts) (fins (map f ts)) (fins ages) (Fin t_obs) (Fin sfr_min) = Ok (fins w)
    /\ length w = length ages
    /\ forall j, (j < length ages)%nat ->
       Rabs (ent w j - mass_in_bin f t_obs ages j / mass_in_range f t_obs ages) <= 4 * e / mass_in_range f t_obs ages.
Proof. exact C146_weights_lemma. Qed.
Print Assumptions C146_age_weights_error.
Theorem C146_age_weights_converge : forall K F f T ages t_obs sfr_min eps,
  smooth_history K F f -> 1 / 10 ^ 14 <= F -> 0 < sfr_min -> (forall t, sfr_min <= f t) -> 0 <= T ->
  (3 <= length ages)%nat -> nondecreasing (age_edges ages) -> 0 < mass_in_range f t_obs ages -> 0 < eps ->
  exists h, 0 < h /\ forall ts, resolves h t_obs T ts -> exists w,
    calc_age_weights_from_sfh_table (fins ts) (fins (map f ts)) (fins ages) (Fin t_obs) (Fin sfr_min) = Ok (fins w)
    /\ length w = length ages
    /\ forall j, (j < length ages)%nat -> Rabs (ent w j - mass_in_bin f t_obs ages j / mass_in_range f t_obs ages) <= eps.
Proof. exact C146_limit_lemma. Qed.
Print Assumptions C146_age_weights_converge.
Theorem C146_sed_error : forall K F f h d T ts lgmet scatter ssp_lgmet ages n_wave flux B t_obs sfr_min,
  smooth_history K F f -> 1 / 10 ^ 14 <= F -> 0 < sfr_min <= F -> 0 <= d -> (forall t, sfr_min <= f t + d /\ 1 / 10 ^ 14 <= f t + d) ->
  resolves h t_obs T ts -> (3 <= length ages)%nat -> nondecreasing (age_edges ages) -> 0.001 <= t_obs ->
  0 < scatter -> (3 <= length ssp_lgmet)%nat -> nondecreasing (met_edges ssp_lgmet) ->
  is_cube (length ssp_lgmet) (length ages) n_wave flux ->
  (forall i j k, (i < length ssp_lgmet)%nat -> (j < length ages)%nat -> (k < n_wave)%nat -> Rabs (ent3 flux i j k) <= B) -> 0 <= B ->
  let e := table_error K F h d T in
  2 * e < mass_in_range f t_obs ages ->
  exists r sed q,
    calc_lgmet_weights_from_lognormal_mdf (Fin lgmet) (Fin scatter) (fins ssp_lgmet) = Ok (fins q) /\ distribution q
    /\ calc_rest_sed_sfh_table_lognormal_mdf (fins ts) (fins (map f ts)) (Fin lgmet) (Fin scatter) (fins ssp_lgmet) (fins ages) (fins3 flux) (Fin t_obs) (Fin sfr_min) = Ok r
    /\ rest_sed r = fins sed /\ length sed = n_wave
    /\ forall k, (k < n_wave)%nat ->
       Rabs (ent sed k - synthesis f t_obs (length ssp_lgmet) ages q flux k)
       <= 10 ^ 9 * B * e * (1 + 4 * INR (length ages) * (RInt f 0.001 t_obs / mass_in_range f t_obs ages)).
Proof. exact C146_sed_lemma. Qed.
Print Assumptions C146_sed_error.
Theorem C146_sed_error_met_table : forall K F f Kz Z h d T ts scatter ssp_lgmet ages n_wave flux B V t_obs sfr_min,
  smooth_history K F f -> 1 / 10 ^ 14 <= F -> 0 < sfr_min <= F -> 0 <= d -> (forall t, sfr_min <= f t + d /\ 1 / 10 ^ 14 <= f t + d) ->
  (forall s t, Rabs (Z s - Z t) <= Kz * Rabs (s - t)) -> (forall t, mdf_inside (Z t) scatter) ->
  resolves h t_obs T ts -> (3 <= length ages)%nat -> nondecreasing (age_edges ages) -> 0.001 <= t_obs ->
  (3 <= length ssp_lgmet)%nat -> nondecreasing (met_edges ssp_lgmet) ->
  is_cube (length ssp_lgmet) (length ages) n_wave flux ->
  (forall i j k, (i < length ssp_lgmet)%nat -> (j < length ages)%nat -> (k < n_wave)%nat -> Rabs (ent3 flux i j k) <= B) -> 0 <= B ->
  (forall j k, (j < length ages)%nat -> (k < n_wave)%nat -> met_variation (length ssp_lgmet) flux j k <= V) ->
  let e := table_error K F h d T in
  2 * e < mass_in_range f t_obs ages ->
  exists r sed q,
    (forall j, (j < length ages)%nat ->
       calc_lgmet_weights_from_lognormal_mdf (Fin (Z (birth_time t_obs (ent ages j)))) (Fin scatter) (fins ssp_lgmet) = Ok (fins (q j)) /\ distribution (q j))
    /\ calc_rest_sed_sfh_table_met_table (fins ts) (fins (map f ts)) (fins (map Z ts)) (Fin scatter) (fins ssp_lgmet) (fins ages) (fins3 flux) (Fin t_obs) (Fin sfr_min) = Ok r
    /\ rest_sed r = fins sed /\ length sed = n_wave
    /\ forall k, (k < n_wave)%nat ->
       Rabs (ent sed k - synthesis_history f t_obs (length ssp_lgmet) ages q flux k)
       <= 10 ^ 9 * B * e * (1 + 4 * INR (length ages) * (RInt f 0.001 t_obs / mass_in_range f t_obs ages))
          + 10 ^ 9 * RInt f 0.001 t_obs * (mdf_shift (Kz * h) scatter scatter * V).
Proof. exact C146_sed_met_lemma. Qed.
Print Assumptions C146_sed_error_met_table.
Theorem C146_sed_converges : forall K F f T lgmet scatter ssp_lgmet ages n_wave flux t_obs sfr_min eps,
  smooth_history K F f -> 0 < sfr_min -> (forall t, sfr_min <= f t /\ 1 / 10 ^ 14 <= f t) -> 0 <= T ->
  (3 <= length ages)%nat -> nondecreasing (age_edges ages) -> 0.001 <= t_obs -> 0 < mass_in_range f t_obs ages ->
  0 < scatter -> (3 <= length ssp_lgmet)%nat -> nondecreasing (met_edges ssp_lgmet) ->
  is_cube (length ssp_lgmet) (length ages) n_wave flux -> 0 < eps ->
  exists q, calc_lgmet_weights_from_lognormal_mdf (Fin lgmet) (Fin scatter) (fins ssp_lgmet) = Ok (fins q) /\ distribution q
  /\ exists h, 0 < h /\ forall ts, resolves h t_obs T ts -> exists r sed,
    calc_rest_sed_sfh_table_lognormal_mdf (fins ts) (fins (map f ts)) (Fin lgmet) (Fin scatter) (fins ssp_lgmet) (fins ages) (fins3 flux) (Fin t_obs) (Fin sfr_min) = Ok r
    /\ rest_sed r = fins sed /\ length sed = n_wave
    /\ forall k, (k < n_wave)%nat -> Rabs (ent sed k - synthesis f t_obs (length ssp_lgmet) ages q flux k) <= eps.
Proof. exact C146_sed_limit_lemma. Qed.
Print Assumptions C146_sed_converges.
Theorem C146_sed_converges_met_table : forall K F f Kz Z T scatter ssp_lgmet ages n_wave flux t_obs sfr_min eps,
  smooth_history K F f -> 0 < sfr_min -> (forall t, sfr_min <= f t /\ 1 / 10 ^ 14 <= f t) -> 0 <= T ->
  (forall s t, Rabs (Z s - Z t) <= Kz * Rabs (s - t)) -> (forall t, mdf_inside (Z t) scatter) ->
  (3 <= length ages)%nat -> nondecreasing (age_edges ages) -> 0.001 <= t_obs -> 0 < mass_in_range f t_obs ages ->
  (3 <= length ssp_lgmet)%nat -> nondecreasing (met_edges ssp_lgmet) ->
  is_cube (length ssp_lgmet) (length ages) n_wave flux -> 0 < eps ->
  exists q,
    (forall j, (j < length ages)%nat ->
       calc_lgmet_weights_from_lognormal_mdf (Fin (Z (birth_time t_obs (ent ages j)))) (Fin scatter) (fins ssp_lgmet) = Ok (fins (q j)) /\ distribution (q j))
  /\ exists h, 0 < h /\ forall ts, resolves h t_obs T ts -> exists r sed,
    calc_rest_sed_sfh_table_met_table (fins ts) (fins (map f ts)) (fins (map Z ts)) (Fin scatter) (fins ssp_lgmet) (fins ages) (fins3 flux) (Fin t_obs) (Fin sfr_min) = Ok r
    /\ rest_sed r = fins sed /\ length sed = n_wave
    /\ forall k, (k < n_wave)%nat -> Rabs (ent sed k - synthesis_history f t_obs (length ssp_lgmet) ages q flux k) <= eps.
Proof. exact C146_sed_met_limit_lemma. Qed.
Print Assumptions C146_sed_converges_met_table.
Theorem C146_magnitudes_converge : forall K F f T lgmet scatter ssp_lgmet ages ws flux t_obs sfr_min q tol,
  smooth_history K F f -> 0 < sfr_min -> (forall t, sfr_min <= f t /\ 1 / 10 ^ 14 <= f t) -> 0 <= T ->
  (3 <= length ages)%nat -> nondecreasing (age_edges ages) -> 0.001 <= t_obs -> 0 < mass_in_range f t_obs ages ->
  0 < scatter -> (3 <= length ssp_lgmet)%nat -> nondecreasing (met_edges ssp_lgmet) ->
  is_cube (length ssp_lgmet) (length ages) (length ws) flux -> ws <> [] -> increasing ws -> 0 < tol ->
  calc_lgmet_weights_from_lognormal_mdf (Fin lgmet) (Fin scatter) (fins ssp_lgmet) = Ok (fins q) ->
  let spectrum := map (synthesis f t_obs (length ssp_lgmet) ages q flux) (seq 0 (length ws)) in
  List.Forall (fun x => 0 < x) spectrum ->
  exists h, 0 < h /\ forall ts, resolves h t_obs T ts -> exists r sed,
    calc_rest_sed_sfh_table_lognormal_mdf (fins ts) (fins (map f ts)) (Fin lgmet) (Fin scatter) (fins ssp_lgmet) (fins ages) (fins3 flux) (Fin t_obs) (Fin sfr_min) = Ok r
    /\ rest_sed r = fins sed /\ mags_shifted ws spectrum sed 0 tol.
Proof. exact C146_mag_limit_lemma. Qed.
Print Assumptions C146_magnitudes_converge.
Theorem C146_magnitudes_converge_met_table : forall K F f Kz Z T scatter ssp_lgmet ages ws flux t_obs sfr_min q tol,
  smooth_history K F f -> 0 < sfr_min -> (forall t, sfr_min <= f t /\ 1 / 10 ^ 14 <= f t) -> 0 <= T ->
  (forall s t, Rabs (Z s - Z t) <= Kz * Rabs (s - t)) -> (forall t, mdf_inside (Z t) scatter) ->
  (3 <= length ages)%nat -> nondecreasing (age_edges ages) -> 0.001 <= t_obs -> 0 < mass_in_range f t_obs ages ->
  (3 <= length ssp_lgmet)%nat -> nondecreasing (met_edges ssp_lgmet) ->
  is_cube (length ssp_lgmet) (length ages) (length ws) flux -> ws <> [] -> increasing ws -> 0 < tol ->
  (forall j, (j < length ages)%nat ->
     calc_lgmet_weights_from_lognormal_mdf (Fin (Z (birth_time t_obs (ent ages j)))) (Fin scatter) (fins ssp_lgmet) = Ok (fins (q j))) ->
  let spectrum := map (synthesis_history f t_obs (length ssp_lgmet) ages q flux) (seq 0 (length ws)) in
  List.Forall (fun x => 0 < x) spectrum ->
  exists h, 0 < h /\ forall ts, resolves h t_obs T ts -> exists r sed,
    calc_rest_sed_sfh_table_met_table (fins ts) (fins (map f ts)) (fins (map Z ts)) (Fin scatter) (fins ssp_lgmet) (fins ages) (fins3 flux) (Fin t_obs) (Fin sfr_min) = Ok r
    /\ rest_sed r = fins sed /\ mags_shifted ws spectrum sed 0 tol.
Proof. exact C146_mag_met_limit_lemma. Qed.
Print Assumptions C146_magnitudes_converge_met_table.

(** an oscillating history *)
Definition wavy (t : R) : R := 2 + sin t.
Lemma wavy_smooth : smooth_history 1 3 wavy.
Proof.
  split.
  - intros t. unfold wavy. pose proof (SIN_bound t). lra.
  - intros s t. unfold wavy. replace (2 + sin s - (2 + sin t)) with (sin s - sin t) by ring.
    destruct (MVT_gen sin t s cos) as (c & _ & E).
    + intros x _. auto_derive; auto. ring.
    + intros x _. apply continuity_sin.
    + rewrite E, Rabs_mult. apply Rmult_le_compat_r; [apply Rabs_pos|]. pose proof (COS_bound c). now apply Rabs_le.
Qed.
(** a table of [n] steps up to 14 Gyr *)
Definition fine (n : nat) : list R := map (fun i => 0.001 + INR (S i) * (13.999 / INR n)) (seq 0 n).
Lemma fine_ent n i : (i < n)%nat -> ent (fine n) i = 0.001 + INR (S i) * (13.999 / INR n).
Proof. intros H. unfold fine, ent. rewrite nth_map' with (d := 0%nat) by (now rewrite seq_length). now rewrite seq_nth. Qed.
Lemma fine_resolves n : (1 <= n)%nat -> resolves (13.999 / INR n) demo_tobs 14 (fine n).
Proof.
  intros Hn. assert (N0 : 0 < INR n) by (apply lt_0_INR; lia). assert (S0 : 0 < 13.999 / INR n) by (apply Rdiv_lt_0_compat; lra).
  assert (LF : length (fine n) = n) by (unfold fine; now rewrite map_length, seq_length).
  assert (G : forall i, (i < n)%nat -> gap (0.001 :: fine n) i = 13.999 / INR n).
  { intros [|i] Hi; unfold gap; rewrite !ent_cons_S, ?ent_0, !fine_ent by lia; [simpl; lra|]. rewrite !(S_INR (S i)). lra. }
  split; [|split; [|split]].
  - destruct n; [lia|]. discriminate.
  - apply increasing_step. intros i Hi. simpl length in Hi. rewrite LF in Hi. specialize (G i ltac:(lia)). unfold gap in G. lra.
  - rewrite LF, fine_ent by lia. replace (S (n - 1)) with n by lia. unfold demo_tobs.
    replace (INR n * (13.999 / INR n)) with 13.999 by (field; lra). lra.
  - intros i Hi. rewrite LF in Hi. rewrite G by auto. lra.
Qed.
Lemma wavy_mass : 9 <= mass_in_range wavy demo_tobs demo_ages.
Proof.
  unfold mass_in_range. rewrite demo_e0, demo_e3.
  assert (B1 : 12 <= birth_time demo_tobs (-3/2)).
  { unfold birth_time, demo_tobs. pose proof (pow10_lt (-3/2) 0 ltac:(lra)) as P. rewrite pow10_0 in P. eapply Rle_trans; [|apply Rmax_r]. lra. }
  assert (B2 : birth_time demo_tobs (3/2) <= 3).
  { unfold birth_time, demo_tobs. pose proof (pow10_lt 1 (3/2) ltac:(lra)) as P. rewrite pow10_1 in P. apply Rmax_lub; lra. }
  set (a := birth_time demo_tobs (3/2)) in *. set (b := birth_time demo_tobs (-3/2)) in *.
  pose proof (RInt_le (fun _ => 1) wavy a b ltac:(lra) ltac:(apply ex_RInt_const)
    ltac:(eapply lip_ex; apply wavy_smooth) ltac:(intros x _; unfold wavy; pose proof (SIN_bound x); lra)) as L.
  rewrite RInt_const in L. change (scal (b - a) 1) with ((b - a) * 1) in L. lra.
Qed.
Example C146_nonvacuous :
  (exists w, calc_age_weights_from_sfh_table (fins (fine 1000)) (fins (map wavy (fine 1000))) (fins demo_ages) (Fin demo_tobs) (Fin demo_min) = Ok (fins w)
     /\ Rabs (ent w 1 - mass_in_bin wavy demo_tobs demo_ages 1 / mass_in_range wavy demo_tobs demo_ages) <= 1 / 10)
  /\ (exists h, 0 < h /\ (exists n, resolves (13.999 / INR n) demo_tobs 14 (fine n) /\ 13.999 / INR n <= h)
      /\ forall ts, resolves h demo_tobs 14 ts -> exists w,
      calc_age_weights_from_sfh_table (fins ts) (fins (map wavy ts)) (fins demo_ages) (Fin demo_tobs) (Fin demo_min) = Ok (fins w)
      /\ length w = length demo_ages
      /\ forall j, (j < length demo_ages)%nat -> Rabs (ent w j - mass_in_bin wavy demo_tobs demo_ages j / mass_in_range wavy demo_tobs demo_ages) <= 1 / 10 ^ 6)
  /\ (exists r sed q, calc_rest_sed_sfh_table_lognormal_mdf (fins (fine 1000)) (fins (map wavy (fine 1000))) (Fin (-2)) (Fin (1/5)) (fins demo_lgmet) (fins demo_ages) (fins3 demo_flux)
       (Fin demo_tobs) (Fin demo_min) = Ok r /\ rest_sed r = fins sed
     /\ Rabs (ent sed 0 - synthesis wavy demo_tobs (length demo_lgmet) demo_ages q demo_flux 0)
        <= 10 ^ 9 * 9 * table_error 1 3 (13.999 / INR 1000) 0 14 * (1 + 4 * INR (length demo_ages) * (RInt wavy 0.001 demo_tobs / mass_in_range wavy demo_tobs demo_ages))).
Proof.
  pose proof wavy_mass as WM.
  assert (I1 : INR 1000 = 1000) by (rewrite INR_IZR_INZ; f_equal).
  assert (Fl : forall t, demo_min <= wavy t) by (intros t; unfold wavy, demo_min; pose proof (SIN_bound t); lra).
  assert (TE : table_error 1 3 (13.999 / INR 1000) 0 14 <= 17 / 100) by (rewrite I1; unfold table_error; lra).
  pose proof demo_min_pos as MP.
  split; [|split].
  - destruct (C146_age_weights_error 1 3 wavy (13.999 / INR 1000) 0 14 (fine 1000) demo_ages demo_tobs demo_min) as (w & E & L & W);
      [apply wavy_smooth|lra|unfold demo_min in *; lra|lra|intros t; specialize (Fl t); lra|apply fine_resolves; lia|auto with demo|auto with demo|lra|].
    exists w. split; [exact E|]. eapply Rle_trans; [apply W; simpl; lia|].
    apply (Rmult_le_reg_r (mass_in_range wavy demo_tobs demo_ages)); [lra|]. unfold Rdiv at 1. rewrite Rmult_assoc, Rinv_l by lra. lra.
  - destruct (C146_age_weights_converge 1 3 wavy 14 demo_ages demo_tobs demo_min (1 / 10 ^ 6)) as (h & Hh & W);
      [apply wavy_smooth|lra|lra|exact Fl|lra|auto with demo|auto with demo|lra|lra|].
    exists h. split; [exact Hh|]. split; [|exact W].
    destruct (nfloor_ex (13.999 / h)) as (n & _ & N2); [left; apply Rdiv_lt_0_compat; lra|].
    exists (S n). split; [apply fine_resolves; lia|]. rewrite S_INR. pose proof (pos_INR n).
    apply (Rmult_le_reg_r ((INR n + 1) / h)); [apply Rdiv_lt_0_compat; lra|]. 
    replace (13.999 / (INR n + 1) * ((INR n + 1) / h)) with (13.999 / h) by (field; lra).
    replace (h * ((INR n + 1) / h)) with (INR n + 1) by (field; lra). lra.
  - destruct (C146_sed_error 1 3 wavy (13.999 / INR 1000) 0 14 (fine 1000) (-2) (1/5) demo_lgmet demo_ages 2 demo_flux 9 demo_tobs demo_min) as (r & sed & q & _ & _ & E & R & _ & W);
      [apply wavy_smooth|lra|unfold demo_min in *; lra|lra|intros t; specialize (Fl t); unfold demo_min in *; lra|apply fine_resolves; lia|auto with demo|auto with demo
      |unfold demo_tobs; lra|lra|auto with demo|auto with demo|auto with demo| |lra|lra|].
    + intros i j k Hi Hj Hk. destruct (demo_flux_range i j k Hi Hj Hk). apply Rabs_le. lra.
    + exists r, sed, q. split; [exact E|]. split; [exact R|]. apply W. lia.
Qed.
(** a galaxy whose metallicity oscillates too *)
Definition wavy_met (t : R) : R := -2 + sin t / 10.
Example C146_met_nonvacuous :
  exists r sed q, calc_rest_sed_sfh_table_met_table (fins (fine 1000)) (fins (map wavy (fine 1000))) (fins (map wavy_met (fine 1000))) (Fin (1/5)) (fins demo_lgmet) (fins demo_ages)
       (fins3 demo_flux) (Fin demo_tobs) (Fin demo_min) = Ok r /\ rest_sed r = fins sed
     /\ calc_lgmet_weights_from_lognormal_mdf (Fin (wavy_met (birth_time demo_tobs (ent demo_ages 1)))) (Fin (1/5)) (fins demo_lgmet) = Ok (fins (q 1%nat))
     /\ Rabs (ent sed 0 - synthesis_history wavy demo_tobs (length demo_lgmet) demo_ages q demo_flux 0)
        <= 10 ^ 9 * 9 * table_error 1 3 (13.999 / INR 1000) 0 14 * (1 + 4 * INR (length demo_ages) * (RInt wavy 0.001 demo_tobs / mass_in_range wavy demo_tobs demo_ages))
           + 10 ^ 9 * RInt wavy 0.001 demo_tobs * (mdf_shift (1/10 * (13.999 / INR 1000)) (1/5) (1/5) * 27).
Proof.
  pose proof wavy_mass as WM.
  assert (I1 : INR 1000 = 1000) by (rewrite INR_IZR_INZ; f_equal).
  assert (Fl : forall t, demo_min <= wavy t) by (intros t; unfold wavy, demo_min; pose proof (SIN_bound t); lra).
  assert (TE : table_error 1 3 (13.999 / INR 1000) 0 14 <= 17 / 100) by (rewrite I1; unfold table_error; lra).
  pose proof demo_min_pos as MP.
  destruct (C146_sed_error_met_table 1 3 wavy (1/10) wavy_met (13.999 / INR 1000) 0 14 (fine 1000) (1/5) demo_lgmet demo_ages 2 demo_flux 9 27 demo_tobs demo_min)
    as (r & sed & q & Q & E & R & _ & W);
    [apply wavy_smooth|lra|unfold demo_min in *; lra|lra|intros t; specialize (Fl t); unfold demo_min in *; lra| | |apply fine_resolves; lia|auto with demo|auto with demo
    |unfold demo_tobs; lra|auto with demo|auto with demo|auto with demo| |lra| |lra|].
  - intros s t. pose proof (proj2 wavy_smooth s t) as H. unfold wavy in H. unfold wavy_met.
    replace (-2 + sin s / 10 - (-2 + sin t / 10)) with (/ 10 * (2 + sin s - (2 + sin t))) by field.
    rewrite Rabs_mult, (Rabs_right (/ 10)) by lra. lra.
  - intros t. unfold mdf_inside, wavy_met. pose proof (SIN_bound t). lra.
  - intros i j k Hi Hj Hk. destruct (demo_flux_range i j k Hi Hj Hk). apply Rabs_le. lra.
  - intros j k Hj Hk. unfold met_variation. cbn [length demo_lgmet Nat.sub seq map Rsum].
    assert (B : forall i, (i < 3)%nat -> Rabs (ent3 demo_flux (S i) j k - ent3 demo_flux i j k) <= 9).
    { intros i Hi. pose proof (demo_flux_range i j k ltac:(simpl; lia) Hj Hk). pose proof (demo_flux_range (S i) j k ltac:(simpl; lia) Hj Hk). apply Rabs_le. lra. }
    pose proof (B 0%nat ltac:(lia)). pose proof (B 1%nat ltac:(lia)). pose proof (B 2%nat ltac:(lia)). lra.
  - exists r, sed, q. split; [exact E|]. split; [exact R|]. split; [apply Q; simpl; lia|]. apply W. lia.
Qed.
Example C146_sed_limit_nonvacuous :
  (exists q h, 0 < h /\ (exists n, resolves (13.999 / INR n) demo_tobs 14 (fine n) /\ 13.999 / INR n <= h)
   /\ forall ts, resolves h demo_tobs 14 ts -> exists r sed,
    calc_rest_sed_sfh_table_lognormal_mdf (fins ts) (fins (map wavy ts)) (Fin (-2)) (Fin (1/5)) (fins demo_lgmet) (fins demo_ages) (fins3 demo_flux) (Fin demo_tobs) (Fin demo_min) = Ok r
    /\ rest_sed r = fins sed /\ Rabs (ent sed 0 - synthesis wavy demo_tobs (length demo_lgmet) demo_ages q demo_flux 0) <= 1 / 10)
  /\ (exists q h, 0 < h /\ (exists n, resolves (13.999 / INR n) demo_tobs 14 (fine n) /\ 13.999 / INR n <= h)
   /\ forall ts, resolves h demo_tobs 14 ts -> exists r sed,
    calc_rest_sed_sfh_table_met_table (fins ts) (fins (map wavy ts)) (fins (map wavy_met ts)) (Fin (1/5)) (fins demo_lgmet) (fins demo_ages) (fins3 demo_flux) (Fin demo_tobs) (Fin demo_min) = Ok r
    /\ rest_sed r = fins sed /\ Rabs (ent sed 0 - synthesis_history wavy demo_tobs (length demo_lgmet) demo_ages q demo_flux 0) <= 1 / 10).
Proof.
  pose proof wavy_mass as WM. pose proof demo_min_pos as MP.
  assert (Fl : forall t, demo_min <= wavy t /\ 1 / 10 ^ 14 <= wavy t) by (intros t; unfold wavy, demo_min; pose proof (SIN_bound t); lra).
  assert (N : forall h, 0 < h -> exists n, resolves (13.999 / INR n) demo_tobs 14 (fine n) /\ 13.999 / INR n <= h).
  { intros h Hh. destruct (nfloor_ex (13.999 / h)) as (n & _ & N2); [left; apply Rdiv_lt_0_compat; lra|].
    exists (S n). split; [apply fine_resolves; lia|]. rewrite S_INR. pose proof (pos_INR n).
    apply (Rmult_le_reg_r ((INR n + 1) / h)); [apply Rdiv_lt_0_compat; lra|].
    replace (13.999 / (INR n + 1) * ((INR n + 1) / h)) with (13.999 / h) by (field; lra).
    replace (h * ((INR n + 1) / h)) with (INR n + 1) by (field; lra). lra. }
  split.
  - destruct (C146_sed_converges 1 3 wavy 14 (-2) (1/5) demo_lgmet demo_ages 2 demo_flux demo_tobs demo_min (1 / 10)) as (q & _ & _ & h & Hh & W);
      [apply wavy_smooth|lra|exact Fl|lra|auto with demo|auto with demo|unfold demo_tobs; lra|lra|lra|auto with demo|auto with demo|auto with demo|lra|].
    exists q, h. split; [exact Hh|]. split; [now apply N|]. intros ts Hr. destruct (W ts Hr) as (r & sed & E & R & _ & X).
    exists r, sed. split; [exact E|]. split; [exact R|]. apply X. lia.
  - destruct (C146_sed_converges_met_table 1 3 wavy (1/10) wavy_met 14 (1/5) demo_lgmet demo_ages 2 demo_flux demo_tobs demo_min (1 / 10)) as (q & _ & h & Hh & W);
      [apply wavy_smooth|lra|exact Fl|lra| | |auto with demo|auto with demo|unfold demo_tobs; lra|lra|auto with demo|auto with demo|auto with demo|lra|].
    + intros s t. pose proof (proj2 wavy_smooth s t) as H. unfold wavy in H. unfold wavy_met.
      replace (-2 + sin s / 10 - (-2 + sin t / 10)) with (/ 10 * (2 + sin s - (2 + sin t))) by field.
      rewrite Rabs_mult, (Rabs_right (/ 10)) by lra. lra.
    + intros t. unfold mdf_inside, wavy_met. pose proof (SIN_bound t). lra.
    + exists q, h. split; [exact Hh|]. split; [now apply N|]. intros ts Hr. destruct (W ts Hr) as (r & sed & E & R & _ & X).
      exists r, sed. split; [exact E|]. split; [exact R|]. apply X. lia.
Qed.
(** strictly positive templates give strictly positive spectra, and the tables of [fine n] become fine enough *)
Example C146_mag_limit_nonvacuous :
  (exists spectrum h n, List.Forall (fun x => 0 < x) spectrum /\ length spectrum = 2%nat /\ 13.999 / INR n <= h /\ exists r sed,
    calc_rest_sed_sfh_table_lognormal_mdf (fins (fine n)) (fins (map wavy (fine n))) (Fin (-2)) (Fin (1/5)) (fins demo_lgmet) (fins demo_ages) (fins3 demo_flux_pos)
      (Fin demo_tobs) (Fin demo_min) = Ok r /\ rest_sed r = fins sed /\ mags_shifted [1000; 9000] spectrum sed 0 (1 / 100))
  /\ (exists spectrum h n, List.Forall (fun x => 0 < x) spectrum /\ length spectrum = 2%nat /\ 13.999 / INR n <= h /\ exists r sed,
    calc_rest_sed_sfh_table_met_table (fins (fine n)) (fins (map wavy (fine n))) (fins (map wavy_met (fine n))) (Fin (1/5)) (fins demo_lgmet) (fins demo_ages) (fins3 demo_flux_pos)
      (Fin demo_tobs) (Fin demo_min) = Ok r /\ rest_sed r = fins sed /\ mags_shifted [1000; 9000] spectrum sed 0 (1 / 100)).
Proof.
  pose proof wavy_mass as WM. pose proof demo_min_pos as MP.
  assert (Fl : forall t, demo_min <= wavy t /\ 1 / 10 ^ 14 <= wavy t) by (intros t; unfold wavy, demo_min; pose proof (SIN_bound t); lra).
  assert (WI : 0 < RInt wavy 0.001 demo_tobs).
  { unfold demo_tobs. pose proof (RInt_le (fun _ => 1) wavy 0.001 13 ltac:(lra) ltac:(apply ex_RInt_const)
      ltac:(eapply lip_ex; apply wavy_smooth) ltac:(intros x _; unfold wavy; pose proof (SIN_bound x); lra)) as L.
    rewrite RInt_const in L. change (scal (13 - 0.001) 1) with ((13 - 0.001) * 1) in L. lra. }
  assert (N : forall h, 0 < h -> exists n, resolves h demo_tobs 14 (fine n) /\ 13.999 / INR n <= h).
  { intros h Hh. destruct (nfloor_ex (13.999 / h)) as (n & _ & N2); [left; apply Rdiv_lt_0_compat; lra|].
    assert (Q : 13.999 / INR (S n) <= h).
    { rewrite S_INR. pose proof (pos_INR n).
      apply (Rmult_le_reg_r ((INR n + 1) / h)); [apply Rdiv_lt_0_compat; lra|].
      replace (13.999 / (INR n + 1) * ((INR n + 1) / h)) with (13.999 / h) by (field; lra).
      replace (h * ((INR n + 1) / h)) with (INR n + 1) by (field; lra). lra. }
    exists (S n). split; [|exact Q]. destruct (fine_resolves (S n) ltac:(lia)) as (A1 & A2 & A3 & A4).
    split; [exact A1|]. split; [exact A2|]. split; [exact A3|]. intros i Hi. specialize (A4 i Hi). lra. }
  assert (M : forall x, distribution (met_weights x (1/5) (met_edges demo_lgmet)) /\ length (met_weights x (1/5) (met_edges demo_lgmet)) = length demo_lgmet).
  { intros x. apply met_weights_dist_met; [lra|auto with demo|auto with demo]. }
  split.
  - destruct (C146_magnitudes_converge 1 3 wavy 14 (-2) (1/5) demo_lgmet demo_ages [1000; 9000] demo_flux_pos demo_tobs demo_min
      (met_weights (-2) (1/5) (met_edges demo_lgmet)) (1 / 100)) as (h & Hh & W);
      [apply wavy_smooth|lra|exact Fl|lra|auto with demo|auto with demo|unfold demo_tobs; lra|lra|lra|auto with demo|auto with demo|apply demo_cube_pos|discriminate
      |solve_increasing|lra|apply lognormal_fins; [lra|auto with demo|auto with demo]| |].
    + apply List.Forall_map, List.Forall_forall. intros k Hk. apply in_seq in Hk. simpl in Hk.
      apply (synthesis_pos 1 3 _ _ _ _ _ _ _ 1); [apply wavy_smooth|auto with demo|lra|exact WI|lra|apply M|apply M|].
      intros i j Hi Hj. apply demo_flux_pos_range; auto; lia.
    + destruct (N h Hh) as (n & Rn & Hn). destruct (W _ Rn) as (r & sed & E & R & X). eexists. exists h, n.
      split; [|split; [|split; [exact Hn|exists r, sed; split; [exact E|]; split; [exact R|exact X]]]]; [|reflexivity].
      apply List.Forall_map, List.Forall_forall. intros k Hk. apply in_seq in Hk. simpl in Hk.
      apply (synthesis_pos 1 3 _ _ _ _ _ _ _ 1); [apply wavy_smooth|auto with demo|lra|exact WI|lra|apply M|apply M|].
      intros i j Hi Hj. apply demo_flux_pos_range; auto; lia.
  - destruct (C146_magnitudes_converge_met_table 1 3 wavy (1/10) wavy_met 14 (1/5) demo_lgmet demo_ages [1000; 9000] demo_flux_pos demo_tobs demo_min
      (fun j => met_weights (wavy_met (birth_time demo_tobs (ent demo_ages j))) (1/5) (met_edges demo_lgmet)) (1 / 100)) as (h & Hh & W);
      [apply wavy_smooth|lra|exact Fl|lra| | |auto with demo|auto with demo|unfold demo_tobs; lra|lra|auto with demo|auto with demo|apply demo_cube_pos|discriminate
      |solve_increasing|lra|intros j _; apply lognormal_fins; [lra|auto with demo|auto with demo]| |].
    + intros s t. pose proof (proj2 wavy_smooth s t) as H. unfold wavy in H. unfold wavy_met.
      replace (-2 + sin s / 10 - (-2 + sin t / 10)) with (/ 10 * (2 + sin s - (2 + sin t))) by field.
      rewrite Rabs_mult, (Rabs_right (/ 10)) by lra. lra.
    + intros t. unfold mdf_inside, wavy_met. pose proof (SIN_bound t). lra.
    + apply List.Forall_map, List.Forall_forall. intros k Hk. apply in_seq in Hk. simpl in Hk.
      apply (synthesis_history_pos 1 3 _ _ _ _ _ _ _ 1); [apply wavy_smooth|auto with demo|lra|exact WI|lra|intros; apply M|].
      intros i j Hi Hj. apply demo_flux_pos_range; auto; lia.
    + destruct (N h Hh) as (n & Rn & Hn). destruct (W _ Rn) as (r & sed & E & R & X). eexists. exists h, n.
      split; [|split; [|split; [exact Hn|exists r, sed; split; [exact E|]; split; [exact R|exact X]]]]; [|reflexivity].
      apply List.Forall_map, List.Forall_forall. intros k Hk. apply in_seq in Hk. simpl in Hk.
      apply (synthesis_history_pos 1 3 _ _ _ _ _ _ _ 1); [apply wavy_smooth|auto with demo|lra|exact WI|lra|intros; apply M|].
      intros i j Hi Hj. apply demo_flux_pos_range; auto; lia.
Qed.
