(** * Blackbody (dsps/dust/blackbody.py) *)
From Coq Require Import Reals List Arith Lra Lia Bool.
From Coquelicot Require Import Coquelicot.
From Flocq Require Import Core.Raux.
From Verif Require Import Num Arr MBlackbody Spec RList LCalc LKern LKern2 LBurst LImf.
Import ListNotations.
Open Scope R_scope.

Lemma hP_pos : 0 < h_planck. Proof. unfold h_planck. lra. Qed.
Lemma kB_pos : 0 < k_boltzmann. Proof. unfold k_boltzmann. lra. Qed.
Lemma cl_pos : 0 < c_light. Proof. unfold c_light. lra. Qed.
Lemma ls_pos : 0 < watts_per_lsun. Proof. unfold watts_per_lsun. lra. Qed.
Lemma exp_gt_1 x : 0 < x -> 1 < exp x.
Proof. intros H. rewrite <- exp_0. now apply exp_increasing. Qed.
Lemma planck_arg nu T : 0 < nu -> 0 < T -> 0 < h_planck * nu / (k_boltzmann * T).
Proof.
  intros. pose proof hP_pos. pose proof kB_pos. apply Rdiv_lt_0_compat; apply Rmult_lt_0_compat; lra.
Qed.
Lemma exp_ln2 x : 0 < x -> exp (2 * ln x) = x ^ 2.
Proof. intros H. replace (2 * ln x) with (ln x + ln x) by lra. rewrite exp_plus, exp_ln by auto. ring. Qed.
Lemma exp_ln3 x : 0 < x -> exp (3 * ln x) = x ^ 3.
Proof. intros H. replace (3 * ln x) with (ln x + ln x + ln x) by lra. rewrite !exp_plus, exp_ln by auto. ring. Qed.
Lemma exp_ln5 x : 0 < x -> exp (5 * ln x) = x ^ 5.
Proof. intros H. replace (5 * ln x) with (ln x + ln x + ln x + ln x + ln x) by lra. rewrite !exp_plus, exp_ln by auto. ring. Qed.

Ltac consts := unfold LGH, LGK, LGC, LG2, H_PLANCK, K_BOLTZ, C_SPEED, WATTS_PER_LSUN; unlit;
  change (6.62607015 / 10 ^ 34) with h_planck; change (1.380649 / 10 ^ 23) with k_boltzmann;
  change 299792458 with c_light; change (3.828 * 10 ^ 26) with watts_per_lsun.

Lemma freq_fin nu T : 0 < nu -> 0 < T ->
  blackbody_freq_density (Fin nu) (Fin T) = Fin (planck_freq nu T / watts_per_lsun).
Proof.
  intros Hn HT. pose proof hP_pos. pose proof kB_pos. pose proof cl_pos. pose proof ls_pos.
  pose proof (planck_arg nu T Hn HT) as A. pose proof (exp_gt_1 _ A) as E1.
  assert (0 < k_boltzmann * T) by nra.
  unfold blackbody_freq_density, blackbody_freq_density_si, freq_density_denom, jax_bb_freq_density_exparg. consts.
  rewrite !nln_fin by (auto; lra). rewrite !nmul_fin, ndiv_fin, nexp_fin, nsub_fin by lra.
  rewrite ndiv_fin by lra. rewrite !nadd_fin, nsub_fin, nadd_fin, nexp_fin, nmul_fin, ndiv_fin by lra.
  f_equal. unfold planck_freq. f_equal.
  rewrite exp_plus. unfold Rminus at 2. rewrite !exp_plus, exp_Ropp, exp_ln2, exp_ln3, !exp_ln by (auto; lra).
  field. split; [|lra]. lra.
Qed.

Lemma wave_fin w T : 0 < w -> 0 < T ->
  blackbody_wave_density (Fin w) (Fin T)
  = Fin (planck_wave (w / 10 ^ 10) T / watts_per_lsun / 10 ^ 10).
Proof.
  intros Hn HT. pose proof hP_pos. pose proof kB_pos. pose proof cl_pos. pose proof ls_pos.
  assert (Hw : 0 < w / 10 ^ 10) by lra.
  unfold blackbody_wave_density, blackbody_wave_density_si, wave_density_denom.
  rewrite ndiv_fin by lra. set (l := w / 10 ^ 10) in *. consts.
  assert (0 < k_boltzmann * T) by nra.
  assert (A : 0 < h_planck * c_light / (k_boltzmann * T) / l).
  { apply Rdiv_lt_0_compat; auto. apply Rdiv_lt_0_compat; auto. now apply Rmult_lt_0_compat. }
  pose proof (exp_gt_1 _ A) as E1.
  rewrite !nln_fin by (auto; lra). rewrite !nmul_fin, !ndiv_fin, nexp_fin, nsub_fin by lra.
  rewrite ndiv_fin by lra. rewrite !nadd_fin, nsub_fin, nexp_fin, nmul_fin, ndiv_fin, nmul_fin by lra.
  f_equal. unfold planck_wave.
  replace (h_planck * c_light / (l * k_boltzmann * T)) with (h_planck * c_light / (k_boltzmann * T) / l)
    by (field; repeat split; lra).
  unfold Rminus at 1. rewrite !exp_plus, exp_Ropp, exp_ln2, exp_ln5, !exp_ln by (auto; lra).
  field. repeat split; lra.
Qed.

Lemma C48_lemma :
  (forall nu T, 0 < nu -> 0 < T -> exists B,
     blackbody_freq_density (Fin nu) (Fin T) = Fin B /\ B = planck_freq nu T / watts_per_lsun /\ 0 < B)
  /\ (forall wave_aa T, 0 < wave_aa -> 0 < T -> exists B,
     blackbody_wave_density (Fin wave_aa) (Fin T) = Fin B
     /\ B = planck_wave (wave_aa / 10 ^ 10) T / watts_per_lsun / 10 ^ 10 /\ 0 < B).
Proof.
  pose proof hP_pos. pose proof kB_pos. pose proof cl_pos. pose proof ls_pos. split.
  - intros nu T Hn HT. eexists. split; [apply freq_fin; auto|]. split; [reflexivity|].
    pose proof (exp_gt_1 _ (planck_arg nu T Hn HT)). unfold planck_freq.
    assert (0 < nu ^ 3) by (apply pow_lt; auto). assert (0 < c_light ^ 2) by (apply pow_lt; auto).
    repeat apply Rdiv_lt_0_compat; try lra. nra.
  - intros w T Hn HT. eexists. split; [apply wave_fin; auto|]. split; [reflexivity|].
    unfold planck_wave. assert (Hw : 0 < w / 10 ^ 10) by lra. set (l := w / 10 ^ 10) in *.
    assert (A : 0 < h_planck * c_light / (l * k_boltzmann * T)).
    { apply Rdiv_lt_0_compat; [now apply Rmult_lt_0_compat|]. apply Rmult_lt_0_compat; auto. now apply Rmult_lt_0_compat. }
    pose proof (exp_gt_1 _ A).
    assert (0 < l ^ 5) by (apply pow_lt; auto). assert (0 < c_light ^ 2) by (apply pow_lt; auto).
    apply Rdiv_lt_0_compat; [|lra]. apply Rdiv_lt_0_compat; [|lra].
    apply Rdiv_lt_0_compat; [|lra]. apply Rdiv_lt_0_compat; auto. nra.
Qed.

Lemma C49_lemma : forall wave_aa T, 0 < wave_aa -> 0 < T ->
  exists Bnu Blam,
    blackbody_freq_density (Fin (c_light / (wave_aa / 10 ^ 10))) (Fin T) = Fin Bnu
    /\ blackbody_wave_density (Fin wave_aa) (Fin T) = Fin Blam
    /\ c_light / (wave_aa / 10 ^ 10) * Bnu = wave_aa * Blam.
Proof.
  intros w T Hn HT. pose proof hP_pos. pose proof kB_pos. pose proof cl_pos. pose proof ls_pos.
  assert (Hw : 0 < w / 10 ^ 10) by lra.
  do 2 eexists. split; [apply freq_fin; auto; now apply Rdiv_lt_0_compat|]. split; [apply wave_fin; auto|].
  replace w with (w / 10 ^ 10 * 10 ^ 10) at 3 by lra.
  set (l := w / 10 ^ 10) in *. unfold planck_freq, planck_wave.
  replace (h_planck * (c_light / l) / (k_boltzmann * T)) with (h_planck * c_light / (l * k_boltzmann * T))
    by (field; repeat split; lra).
  assert (A : 0 < h_planck * c_light / (l * k_boltzmann * T)).
  { apply Rdiv_lt_0_compat; [now apply Rmult_lt_0_compat|]. apply Rmult_lt_0_compat; auto. now apply Rmult_lt_0_compat. }
  pose proof (exp_gt_1 _ A). field. repeat split; try lra.
Qed.

Lemma C50_lemma : forall nu, 0 < nu -> exists B : R -> R,
  (forall T, 0 < T -> blackbody_freq_density (Fin nu) (Fin T) = Fin (B T))
  /\ (forall T1 T2, 0 < T1 < T2 -> B T1 < B T2)
  /\ (forall T, 0 < T -> B T < 2 * nu ^ 2 * k_boltzmann * T / c_light ^ 2 / watts_per_lsun).
Proof.
  intros nu Hn. pose proof hP_pos. pose proof kB_pos. pose proof cl_pos. pose proof ls_pos.
  assert (N3 : 0 < nu ^ 3) by (apply pow_lt; auto). assert (C2 : 0 < c_light ^ 2) by (apply pow_lt; auto).
  exists (fun T => planck_freq nu T / watts_per_lsun). split; [intros; now apply freq_fin|]. split.
  - intros T1 T2 HT. apply div_lt_mono; auto. unfold planck_freq.
    assert (X : h_planck * nu / (k_boltzmann * T2) < h_planck * nu / (k_boltzmann * T1)).
    { unfold Rdiv. apply Rmult_lt_compat_l; [nra|]. apply Rinv_lt_contravar; [|nra].
      apply Rmult_lt_0_compat; apply Rmult_lt_0_compat; lra. }
    pose proof (exp_increasing _ _ X) as EX.
    pose proof (exp_gt_1 _ (planck_arg nu T2 Hn ltac:(lra))).
    assert (0 < 2 * h_planck * nu ^ 3 / c_light ^ 2) by (apply Rdiv_lt_0_compat; nra).
    unfold Rdiv at 1 4. apply Rmult_lt_compat_l; auto. apply Rinv_lt_contravar; [|lra].
    apply Rmult_lt_0_compat; lra.
  - intros T HT. apply div_lt_mono; auto. unfold planck_freq.
    pose proof (planck_arg nu T Hn HT) as A. set (x := h_planck * nu / (k_boltzmann * T)) in *.
    assert (E : x < exp x - 1). { pose proof (exp_ineq1 x ltac:(lra)). lra. }
    replace (2 * nu ^ 2 * k_boltzmann * T / c_light ^ 2) with (2 * h_planck * nu ^ 3 / c_light ^ 2 / x)
      by (unfold x; field; repeat split; lra).
    assert (0 < 2 * h_planck * nu ^ 3 / c_light ^ 2) by (apply Rdiv_lt_0_compat; nra).
    unfold Rdiv at 1 3. apply Rmult_lt_compat_l; auto. apply Rinv_lt_contravar; [|lra].
    apply Rmult_lt_0_compat; lra.
Qed.

Lemma C51_lemma :
  (forall nu, 0 < nu -> blackbody_freq_density (Fin nu) (Fin 0) = Fin 0)
  /\ (forall T, 0 < T -> blackbody_freq_density (Fin 0) (Fin T) = NaN).
Proof.
  pose proof hP_pos. pose proof kB_pos. pose proof cl_pos. pose proof ls_pos. split.
  - intros nu Hn.
    unfold blackbody_freq_density, blackbody_freq_density_si, freq_density_denom, jax_bb_freq_density_exparg. consts.
    rewrite !nln_fin by (auto; lra). rewrite !nmul_fin. rewrite Rmult_0_r, ndiv_pos_0 by nra.
    change (nsub (nexp PInf) (Fin 1)) with PInf. change (ndiv (Fin 1) PInf) with (Fin 0).
    rewrite !nadd_fin, nsub_fin, nadd_fin, nexp_fin, nmul_fin, ndiv_fin by lra. f_equal. unfold Rdiv. lra.
  - intros T HT.
    unfold blackbody_freq_density, blackbody_freq_density_si, freq_density_denom, jax_bb_freq_density_exparg. consts.
    rewrite !nln_fin by (auto; lra). rewrite !nmul_fin. rewrite Rmult_0_r, ndiv_fin by nra.
    replace (0 / (k_boltzmann * T)) with 0 by (unfold Rdiv; lra).
    rewrite nexp_fin, exp_0, nsub_fin. replace (1 - 1) with 0 by lra. rewrite ndiv_pos_0 by lra.
    assert (L : nln (Fin 0) = NInf) by (simpl; rewrite Rlt_bool_false, Req_bool_true; auto; lra).
    rewrite L. assert (M : nmul (Fin 3) NInf = NInf) by (simpl; unfold inf_times; rewrite Rlt_bool_true; auto; lra).
    rewrite M, !nadd_fin, nsub_fin. simpl. unfold inf_times. rewrite !Rlt_bool_false by lra. reflexivity.
Qed.
