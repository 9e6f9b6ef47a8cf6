(** * The blackbody density per wavelength in double precision: relative error *)
From Coq Require Import Reals List Arith Lra Lia ZArith Bool.
From Flocq Require Import Core.Raux.
From Verif Require Import Num Arr MBlackbody Float Spec SpecFloat SpecFloat6 LFloat LFloat2 LFloat10 LRound1 LRound2 LRound6 LRound21 LRound45 LRound46 LRound47 LRound48.
Import ListNotations.
Open Scope R_scope.
#[local] Existing Instance binary64 | 0.

Section WaveX.
Variables w T : R.
Let lam := w / 10 ^ 10.
Hypothesis Hw : rnd (Arith := binary64) w = Fin w. Hypothesis Hw2 : 0.1 <= w <= 10 ^ 10.
Hypothesis HT : rnd (Arith := binary64) T = Fin T. Hypothesis HT2 : 0.1 <= T <= 10 ^ 12.
Let x := photon_x (c_light / lam) T.
Hypothesis Hx : / 10 ^ 12 <= x <= 500.
Lemma w0 : 0 < w. Proof. lra. Qed.
Lemma t10 : 0 < 10 ^ 10. Proof. apply pow_lt. lra. Qed.
Lemma lam0 : 0 < lam. Proof. apply Rdiv_lt_0_compat; [exact w0|exact t10]. Qed.
Lemma T0' : 0 < T. Proof. lra. Qed.
Lemma lnw' : -2.8 <= ln w <= 23.8.
Proof.
  split; [apply Rle_trans with (- (0.7 * INR 4)); [simpl; lra|apply ln_geI2; simpl; lra]|]. apply Rle_trans with (ln (10 ^ 10)); [|apply ln10_10]. apply ln_le_; [exact w0|apply Hw2].
Qed.
Lemma lnlam : -26 <= ln lam <= 0.
Proof.
  pose proof lam0 as L0. split; [apply Rle_trans with (- (0.7 * INR 37)); [simpl; lra|apply ln_geI2]|rewrite <- ln_1; apply ln_le_; auto].
  - unfold lam. apply Rmult_le_reg_r with (10 ^ 10); [exact t10|]. unfold Rdiv. rewrite (Rmult_assoc w), Rinv_l by (apply Rgt_not_eq, t10). simpl. lra.
  - unfold lam. apply Rmult_le_reg_r with (10 ^ 10); [exact t10|]. unfold Rdiv. rewrite (Rmult_assoc w), Rinv_l by (apply Rgt_not_eq, t10). lra.
Qed.
Lemma lam_dlog : dlog 1.01 (ndiv (Fin w) (Fin (10 ^ 10))) (ln lam).
Proof.
  pose proof lnlam. cbn [ndiv]. rewrite Req_bool_false by (apply Rgt_not_eq, t10). apply dlog_weaken with (0 + 1.01); [|lra]. apply dlog_rnd; [exact lam0| |apply pow_le; lra|ab].
  fold lam. rewrite Rminus_eq_0, Rabs_R0. lra.
Qed.
Lemma ln_x' : ln x = ln h_planck + ln c_light - (ln k_boltzmann + ln T) - ln lam.
Proof.
  pose proof lam0. pose proof T0'. pose proof hp. pose proof kp. pose proof cp. unfold x, photon_x. rewrite ln_quot by (apply Rmult_lt_0_compat; auto; apply Rdiv_lt_0_compat; auto).
  rewrite !ln_mult by (auto; apply Rdiv_lt_0_compat; auto). rewrite ln_quot by auto. ring.
Qed.
Lemma xw_dlog : dlog 8.1 (ndiv (ndiv (nmul H_PLANCK C_SPEED) (nmul K_BOLTZ (Fin T))) (ndiv (Fin w) (Fin (10 ^ 10)))) (ln x).
Proof.
  pose proof lnh. pose proof lnk. pose proof lnc. pose proof (lnT T HT2). pose proof lnlam. rewrite ln_x'.
  eapply dlog_weaken; [apply dlog_div with (j := 6.06) (k := 1.01)|]; try k15; [| |ab].
  - eapply dlog_weaken; [apply dlog_div with (j := 3.03) (k := 2.02)|]; try k15; [| |ab].
    + eapply dlog_weaken; [apply dlog_mul with (j := 1.01) (k := 1.01); [exact H_d|exact C_d|k15|ab]|lra].
    + eapply dlog_weaken; [apply dlog_mul with (j := 1.01) (k := 0); [exact K_d|apply dlog_machine; [exact HT|apply T0']|k15|ab]|lra].
  - exact lam_dlog.
Qed.
Lemma wdenom_dlog : dlog (0.99 * planck_amp x + 2.02) (wave_density_denom (ndiv (Fin w) (Fin (10 ^ 10))) (Fin T)) (- ln (exp x - 1)).
Proof.
  assert (P12 : 0 < / 10 ^ 12) by (apply Rinv_0_lt_compat, pow_lt; lra).
  pose proof (lnexpm1 x Hx) as [E0 E1]. pose proof (amp_u x Hx) as A. pose proof (amp_ge 8.1 x ltac:(lra) ltac:(lra)) as G.
  pose proof (expm1_dlog 8.1 _ x xw_dlog ltac:(lra) Hx) as D. unfold wave_density_denom.
  replace (- ln (exp x - 1)) with (0 - ln (exp x - 1)) by ring.
  eapply dlog_weaken; [apply dlog_div with (j := 0) (2 := D); [exact dlog_1| |ab]|]; [|lra]. simpl in A |- *. lra.
Qed.
Lemma wexparg_near : near64 (LG2 + LGH + Fin 2 * LGC - Fin 5 * nln (ndiv (Fin w) (Fin (10 ^ 10))))%num (ln 2 + ln h_planck + 2 * ln c_light - 5 * ln lam) 1000 249.
Proof.
  pose proof lnlam.
  assert (T1 : near64 (LG2 + LGH + Fin 2 * LGC)%num (ln 2 + ln h_planck + 2 * ln c_light) 376 119) by (eapply (near_add u64 H64) with (B := 120); [exact sum2h|exact two_lgc|nm..]).
  assert (T2 : near64 (Fin 5 * nln (ndiv (Fin w) (Fin (10 ^ 10))))%num (5 * ln lam) (2.1 * 5 * (26 + 1) + 3 * 5) (5 * 26)) by (apply (times_ln 5) with (k := 1.01); try lra; [lia|exact lam_dlog|ab]).
  eapply (near_sub u64 H64) with (B := 250); [exact T1|exact T2|nm..].
Qed.
Lemma wave_error : exists b, blackbody_wave_density (Fin w) (Fin T) = Fin b
  /\ Rabs (b - planck_wave lam T / watts_per_lsun / 10 ^ 10) <= (1100 + planck_amp x) * u64 * (planck_wave lam T / watts_per_lsun / 10 ^ 10).
Proof.
  pose proof lnh. pose proof lnc. pose proof lnw. pose proof ln10_10. pose proof ln2_b. pose proof lnlam. pose proof (lnexpm1 x Hx) as [E0 E1]. pose proof (amp_u x Hx) as A.
  pose proof hp. pose proof cp. pose proof wp. pose proof kp. pose proof lam0. pose proof t10. pose proof T0'.
  pose proof wdenom_dlog as D1. pose proof (dlog_exp _ _ _ _ wexparg_near ltac:(k15) ltac:(lra)) as D2.
  set (L := ln 2 + ln h_planck + 2 * ln c_light - 5 * ln lam) in *. assert (HL : -40 <= L <= 96) by (unfold L; lra).
  assert (M10 : dlog 1.01 (lit (1 / 10 ^ 10)) (- ln (10 ^ 10))).
  { replace (- ln (10 ^ 10)) with (ln (1 / 10 ^ 10)) by (unfold Rdiv; rewrite Rmult_1_l; apply ln_Rinv; auto). apply dlog_lit; [apply Rdiv_lt_0_compat; lra|]. unfold Rdiv; rewrite Rmult_1_l, ln_Rinv; auto; ab. }
  assert (D3 : dlog (1020 + 0.99 * planck_amp x) (blackbody_wave_density (Fin w) (Fin T)) (L + - ln (exp x - 1) - ln watts_per_lsun + - ln (10 ^ 10))).
  { unfold blackbody_wave_density, blackbody_wave_density_si.
    eapply dlog_weaken; [apply dlog_mul with (j := (1000 + 1.01) + (0.99 * planck_amp x + 2.02) + 1.01 + 1.01 + 1.01) (k := 1.01);
      [apply dlog_div; [apply dlog_mul; [exact D2|exact D1| |ab]|exact W_d| |ab]|exact M10| |ab]|]; simpl in A |- *; lra. }
  assert (X0 : h_planck * c_light / (lam * k_boltzmann * T) = x) by (unfold x, photon_x; field; lra).
  assert (LE : L + - ln (exp x - 1) - ln watts_per_lsun + - ln (10 ^ 10) = ln (planck_wave lam T / watts_per_lsun / 10 ^ 10)).
  { unfold planck_wave. rewrite X0. assert (0 < lam ^ 5) by (apply pow_lt; auto). assert (0 < c_light ^ 2) by (apply pow_lt; auto).
    assert (0 < 2 * h_planck) by lra. assert (P1 : 0 < 2 * h_planck * c_light ^ 2) by (apply Rmult_lt_0_compat; auto). assert (P2 : 0 < 2 * h_planck * c_light ^ 2 / lam ^ 5) by (apply Rdiv_lt_0_compat; auto).
    pose proof (Rdiv_lt_0_compat _ _ P2 E0) as P3. pose proof (Rdiv_lt_0_compat _ _ P3 H7) as P4.
    rewrite !ln_quot by auto. rewrite (ln_mult (2 * h_planck)), (ln_mult 2 h_planck) by (auto; lra). rewrite (ln_pow c_light), (ln_pow lam) by auto. unfold L. simpl INR. lra. }
  assert (P0 : 0 < planck_wave lam T / watts_per_lsun / 10 ^ 10).
  { apply Rdiv_lt_0_compat; auto. apply Rdiv_lt_0_compat; auto. unfold planck_wave. rewrite X0. apply Rdiv_lt_0_compat; auto. apply Rdiv_lt_0_compat; [|apply pow_lt; auto]. apply Rmult_lt_0_compat; [lra|apply pow_lt; auto]. }
  destruct (dlog_pub2 _ _ _ _ D3 P0 LE) as (b & Eb & B0 & Hb). { simpl in A |- *. split; lra. }
  exists b. split; auto. eapply Rle_trans; [exact Hb|]. apply Rmult_le_compat_r; [lra|]. apply Rmult_le_compat_r; [pose proof u64_pos; lra|]. lra.
Qed.
End WaveX.
