(** * The blackbody in double precision: where it overflows and where it cancels *)
From Coq Require Import Reals List Arith Lra Lia ZArith Bool.
From Flocq Require Import Core.Raux Core.Zaux Core.Generic_fmt Core.FLT Core.Round_NE Core.Defs Core.FLX Core.Ulp.
From Verif Require Import Num Arr MBlackbody Float Spec SpecFloat SpecFloat6 LFloat LFloat2 LFloat10 LRound1 LRound2 LRound6 LRound21 LRound45 LRound46 LRound47 LRound48.
Import ListNotations.
Open Scope R_scope.
#[local] Existing Instance binary64 | 0.

Lemma rnd_over y : bpow radix2 1024 <= y -> rnd (Arith := binary64) y = PInf.
Proof.
  intros B. cbn [rnd binary64 double_precision]. assert (P : Prec_gt_0 53) by (unfold Prec_gt_0; lia). apply ri_pinf; try lia.
  assert (E : round radix2 (FLT_exp (-1074) 53) ZnearestE (bpow radix2 1024) = bpow radix2 1024) by (apply round_generic; [apply valid_rnd_N|apply generic_format_bpow; unfold FLT_exp; lia]).
  rewrite <- E. apply round_le; auto. apply FLT_exp_valid; auto. apply valid_rnd_N.
Qed.
Lemma rnd_one y : 1 <= y < 1 + / 2 ^ 53 -> rnd (Arith := binary64) y = Fin 1.
Proof.
  intros Y. assert (P : Prec_gt_0 53) by (unfold Prec_gt_0; lia). set (fx := FLT_exp (-1074) 53).
  assert (V : Valid_exp fx) by (apply FLT_exp_valid; auto).
  assert (I53 : 0 < / 2 ^ 53 < 1). { split; [apply Rinv_0_lt_compat, pow_lt; lra|]. rewrite <- Rinv_1. apply Rinv_lt_contravar; [rewrite Rmult_1_l; apply pow_lt; lra|simpl; lra]. }
  assert (C : cexp radix2 fx y = (-52)%Z).
  { unfold cexp. rewrite (mag_unique radix2 y 1); [reflexivity|]. rewrite Rabs_right by lra. change (bpow radix2 (1 - 1)) with 1. change (bpow radix2 1) with 2. lra. }
  assert (Hs : / 2 ^ 53 * 2 ^ 52 = / 2) by (change (2 ^ 53) with (2 * 2 ^ 52); rewrite Rinv_mult, Rmult_assoc, Rinv_l by (apply pow_nonzero; lra); lra).
  assert (R : round radix2 fx ZnearestE y = 1).
  { unfold round, scaled_mantissa. rewrite C. change (bpow radix2 (- -52)) with (bpow radix2 (Z.of_nat 52)). rewrite <- pow_IZR_bpow.
    assert (N : ZnearestE (y * 2 ^ 52) = (2 ^ 52)%Z).
    { apply Znearest_imp. assert (E : IZR (2 ^ 52) = 2 ^ 52) by (rewrite pow_IZR_bpow; reflexivity). rewrite E. replace (y * 2 ^ 52 - 2 ^ 52) with ((y - 1) * 2 ^ 52) by ring.
      assert (0 < 2 ^ 52) by (apply pow_lt; lra). rewrite Rabs_right by (apply Rle_ge, Rmult_le_pos; lra). rewrite <- Hs. apply Rmult_lt_compat_r; lra. }
    rewrite N. unfold F2R. cbn [Fnum Fexp]. change (bpow radix2 (-52)) with (bpow radix2 (- Z.of_nat 52)). rewrite bpow_inv.
    replace (IZR (2 ^ 52)) with (2 ^ 52) by (rewrite pow_IZR_bpow; reflexivity). apply Rinv_r, pow_nonzero. lra. }
  cbn [rnd binary64 double_precision]. unfold round_ieee. fold fx. rewrite R. rewrite Rlt_bool_true; auto. rewrite Rabs_R1. change 1 with (bpow radix2 0). now apply bpow_lt.
Qed.
Section Edge.
Variables nu T : R.
Hypothesis Hnu : rnd (Arith := binary64) nu = Fin nu. Hypothesis Hnu2 : 0.001 <= nu <= 10 ^ 22.
Hypothesis HT : rnd (Arith := binary64) T = Fin T. Hypothesis HT2 : 0.1 <= T <= 10 ^ 12.
Let x := photon_x nu T.
Lemma nu0' : 0 < nu. Proof. simpl in Hnu2. lra. Qed.
Lemma lnnu' : -7 <= ln nu <= 51.8.
Proof. pose proof nu0'. split; [apply Rle_trans with (- (0.7 * INR 10)); [simpl; lra|apply ln_geI2]|apply Rle_trans with (0.7 * INR 74); [apply ln_le2; [lra|]|simpl; lra]]; simpl in Hnu2 |- *; lra. Qed.
Lemma x_dlog' : dlog 5.05 (ndiv (nmul H_PLANCK (Fin nu)) (nmul K_BOLTZ (Fin T))) (ln x).
Proof.
  pose proof lnh. pose proof lnk. pose proof (lnT T HT2). pose proof lnnu'. 
  assert (LX : ln x = ln h_planck + ln nu - (ln k_boltzmann + ln T)). { pose proof nu0'. assert (0 < T) by lra. pose proof hp. pose proof kp. unfold x, photon_x. rewrite ln_quot by (apply Rmult_lt_0_compat; auto). rewrite !ln_mult by auto. reflexivity. }
  rewrite LX.
  eapply dlog_weaken; [apply dlog_div with (j := 2.02) (k := 2.02)|]; try k15; [| |ab].
  - eapply dlog_weaken; [apply dlog_mul with (j := 1.01) (k := 0); [exact H_d|apply dlog_machine; [exact Hnu|apply nu0']|k15|ab]|lra].
  - eapply dlog_weaken; [apply dlog_mul with (j := 1.01) (k := 0); [exact K_d|apply dlog_machine; [exact HT|lra]|k15|ab]|lra].
Qed.
Lemma x0 : 0 < x.
Proof. pose proof nu0'. pose proof hp. pose proof kp. unfold x, photon_x. apply Rdiv_lt_0_compat; apply Rmult_lt_0_compat; auto; lra. Qed.
Lemma xh_close : exists xh, ndiv (nmul H_PLANCK (Fin nu)) (nmul K_BOLTZ (Fin T)) = Fin xh /\ 0 < xh /\ 0.999 * x <= xh <= 1.001 * x.
Proof.
  pose proof x0 as X. pose proof u64_pos as U. destruct (dlog_pub _ _ _ x x_dlog' X eq_refl) as (xh & E & P & D). { split; [lra|simpl; lra]. }
  exists xh. split; auto. split; auto. apply Rabs_le_inv in D. assert (1.002 * 5.05 * u64 * x <= 0.001 * x). { apply Rmult_le_compat_r; [lra|]. apply Rle_trans with (1.002 * 5.05 * / 10 ^ 15); [apply Rmult_le_compat_l; lra|simpl; lra]. } lra.
Qed.
Lemma expfac : exists e, nexp (jax_bb_freq_density_exparg (Fin nu)) = Fin e /\ 0 < e.
Proof.
  pose proof lnnu'. assert (N : near64 (jax_bb_freq_density_exparg (Fin nu)) (ln 2 + ln h_planck - 2 * ln c_light + 3 * ln nu) 1000 274.4).
  { unfold jax_bb_freq_density_exparg.
    assert (T1 : near64 (LG2 + LGH - Fin 2 * LGC)%num (ln 2 + ln h_planck - 2 * ln c_light) 376 119) by (eapply (near_sub u64 H64) with (B := 120); [exact sum2h|exact two_lgc|nm..]).
    assert (T2 : near64 (Fin 3 * nln (Fin nu))%num (3 * ln nu) (2.1 * 3 * (51.8 + 1) + 3 * 3) (3 * 51.8)) by (apply (times_ln 3) with (k := 0); try lra; [lia|apply dlog_machine; [exact Hnu|apply nu0']|ab]).
    eapply (near_add u64 H64) with (B := 276); [exact T1|exact T2|nm..]. }
  destruct (dlog_exp _ _ _ _ N ltac:(k15) ltac:(lra)) as (e & E & _ & P & _). eauto.
Qed.
Lemma W_fin : exists W, WATTS_PER_LSUN = Fin W /\ 0 < W. Proof. destruct W_d as (W & E & _ & P & _). eauto. Qed.
Lemma overflow_zero : 720 <= x -> blackbody_freq_density (Fin nu) (Fin T) = Fin 0.
Proof.
  intros B. destruct xh_close as (xh & E & P & C). destruct expfac as (e & Ee & Pe). destruct W_fin as (W & EW & PW).
  assert (R0 : rnd (Arith := binary64) 0 = Fin 0) by exact (rnd0 (re_good _ _ H64)).
  assert (O : nexp (Fin xh) = PInf). { cbn [nexp]. change (elem (EXP xh)) with (@rnd binary64 (exp xh)). apply rnd_over. rewrite bpow_exp. apply exp_mono. change (IZR radix2) with 2. pose proof ln2_b. assert (IZR 1024 * ln 2 <= 1024 * 0.7) by (apply Rmult_le_compat_l; lra). lra. }
  unfold blackbody_freq_density, blackbody_freq_density_si, freq_density_denom. rewrite E, O, Ee, EW. cbn [nsub nopp nadd ndiv nmul]. rewrite Rmult_0_l, R0. cbn [ndiv]. rewrite Req_bool_false by lra. unfold Rdiv. rewrite Rmult_0_l. exact R0.
Qed.
Lemma cancel_inf : x <= / 2 ^ 54 -> blackbody_freq_density (Fin nu) (Fin T) = PInf.
Proof.
  intros B. destruct xh_close as (xh & E & P & C). destruct expfac as (e & Ee & Pe). destruct W_fin as (W & EW & PW).
  assert (R0 : rnd (Arith := binary64) 0 = Fin 0) by exact (rnd0 (re_good _ _ H64)).
  assert (I54 : 0 < / 2 ^ 54) by (apply Rinv_0_lt_compat, pow_lt; lra). assert (Q : / 2 ^ 53 = 2 * / 2 ^ 54) by (change (2 ^ 54) with (2 * 2 ^ 53); rewrite Rinv_mult; lra).
  assert (S : / 2 ^ 54 <= / 1000) by (apply Rinv_le_contravar; [lra|simpl; lra]).
  assert (O : nexp (Fin xh) = Fin 1). { cbn [nexp]. change (elem (EXP xh)) with (@rnd binary64 (exp xh)). apply rnd_one. pose proof (exp_ge1 xh). pose proof (exp_ge1 (- xh)) as G. rewrite exp_Ropp in G. pose proof (exp_pos xh) as EP. split; [lra|].
    apply (Rmult_le_compat_r (exp xh)) in G; [|lra]. rewrite Rinv_l in G by lra. assert (exp xh <= 1.002) by (apply exp_small; lra).
    assert (xh * exp xh <= (1.001 * / 2 ^ 54) * 1.002) by (apply Rmult_le_compat; lra). lra. }
  unfold blackbody_freq_density, blackbody_freq_density_si, freq_density_denom. rewrite E, O, Ee, EW. unfold nsub. cbn [nopp nadd]. replace (1 + - (1)) with 0 by lra. rewrite R0. cbn [ndiv]. rewrite Req_bool_true by auto. rewrite Rlt_bool_true by lra.
  cbn [nmul]. unfold inf_times. rewrite Rlt_bool_true by auto. cbn [ndiv]. rewrite Rlt_bool_false by lra. reflexivity.
Qed.
End Edge.
