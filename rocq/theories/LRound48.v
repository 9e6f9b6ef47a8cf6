(** * The blackbody densities in double precision: relative errors *)
From Coq Require Import Reals List Arith Lra Lia ZArith Bool.
From Flocq Require Import Core.Raux.
From Verif Require Import Num Arr MBlackbody Float Spec SpecFloat SpecFloat6 LFloat LFloat2 LFloat10 LRound1 LRound2 LRound6 LRound21 LRound45 LRound46 LRound47.
Import ListNotations.
Open Scope R_scope.
#[local] Existing Instance binary64 | 0.

Lemma lnT T : 0.1 <= T <= 10 ^ 12 -> -2.8 <= ln T <= 28.
Proof. intros B. split; [apply Rle_trans with (- (0.7 * INR 4)); [simpl; lra|apply ln_geI2]|apply Rle_trans with (0.7 * INR 40); [apply ln_le2; [lra|]|simpl; lra]]; simpl in B |- *; lra. Qed.
Lemma lnnu nu : 10 ^ 6 <= nu <= 10 ^ 22 -> 13.1 <= ln nu <= 51.8.
Proof. intros B. split; [apply Rle_trans with (0.69 * INR 19); [simpl; lra|apply ln_ge2]|apply Rle_trans with (0.7 * INR 74); [apply ln_le2|simpl; lra]]; simpl in B |- *; lra. Qed.
Lemma amp_ge k x : 0 < x -> 0 <= k <= 8.1 -> 1.005 * (1.002 * k * x + 1.01) * (1 + 1 / x) <= 0.99 * planck_amp x.
Proof.
  intros X K. unfold planck_amp. assert (I : 0 < 1 / x) by (apply Rdiv_lt_0_compat; lra). rewrite <- Rmult_assoc. apply Rmult_le_compat_r; [lra|].
  assert (k * x <= 8.1 * x) by (apply Rmult_le_compat_r; lra). lra.
Qed.
Lemma amp_u x : / 10 ^ 12 <= x <= 500 -> 0 <= planck_amp x <= 3 * 10 ^ 12.
Proof.
  intros X. assert (P12 : 0 < / 10 ^ 12) by (apply Rinv_0_lt_compat, pow_lt; lra). assert (X0 : 0 < x) by lra.
  assert (I1 : 0 < 1 / x <= 10 ^ 12). { split; [apply Rdiv_lt_0_compat; lra|]. unfold Rdiv. rewrite Rmult_1_l, <- (Rinv_inv (10 ^ 12)). apply Rinv_le_contravar; lra. }
  unfold planck_amp. split; [apply Rmult_le_pos; lra|]. replace ((9 * x + 2) * (1 + 1 / x)) with (9 * x + 2 + 9 * (x * (1 / x)) + 2 * (1 / x)) by ring.
  replace (x * (1 / x)) with 1 by (field; lra). simpl in I1 |- *. lra.
Qed.
Lemma dlog_pub2 k v L X : dlog k v L -> 0 < X -> L = ln X -> 0 <= k <= 5 * 10 ^ 12 -> exists x, v = Fin x /\ 0 < x /\ Rabs (x - X) <= 1.002 * k * u64 * X.
Proof.
  intros (x & -> & _ & Px & D) PX -> K. exists x. split; auto. split; auto. pose proof u64_pos as U. pose proof u64_b.
  apply (lre_diff u64 H64 k x X); [apply lre_ln|..]; try lra; auto.
  apply Rle_trans with (5 * 10 ^ 12 * / (5 * 10 ^ 15)); [apply Rmult_le_compat; lra|simpl; lra].
Qed.
Ltac k15 := first [lra|simpl; lra].
Section FreqX.
Variables nu T : R.
Hypothesis Hnu : rnd (Arith := binary64) nu = Fin nu. Hypothesis Hnu2 : 10 ^ 6 <= nu <= 10 ^ 22.
Hypothesis HT : rnd (Arith := binary64) T = Fin T. Hypothesis HT2 : 0.1 <= T <= 10 ^ 12.
Hypothesis Hx : / 10 ^ 12 <= photon_x nu T <= 500.
Lemma nu0 : 0 < nu. Proof. simpl in Hnu2. lra. Qed.
Lemma T0 : 0 < T. Proof. lra. Qed.
Lemma ln_x : ln (photon_x nu T) = ln h_planck + ln nu - (ln k_boltzmann + ln T).
Proof. pose proof nu0. pose proof T0. pose proof hp. pose proof kp. unfold photon_x. rewrite ln_quot by (apply Rmult_lt_0_compat; auto). rewrite !ln_mult by auto. reflexivity. Qed.
Lemma x_dlog : dlog 5.05 (ndiv (AR := binary64) (nmul (AR := binary64) H_PLANCK (Fin nu)) (nmul (AR := binary64) K_BOLTZ (Fin T))) (ln (photon_x nu T)).
Proof.
  pose proof lnh. pose proof lnk. pose proof (lnT T HT2). pose proof (lnnu nu Hnu2). rewrite ln_x.
  eapply dlog_weaken; [apply dlog_div with (j := 2.02) (k := 2.02)|]; try k15; [| |ab].
  - eapply dlog_weaken; [apply dlog_mul with (j := 1.01) (k := 0); [exact H_d|apply dlog_machine; [exact Hnu|apply nu0]|k15|ab]|lra].
  - eapply dlog_weaken; [apply dlog_mul with (j := 1.01) (k := 0); [exact K_d|apply dlog_machine; [exact HT|apply T0]|k15|ab]|lra].
Qed.
Lemma denom_dlog : dlog (0.99 * planck_amp (photon_x nu T) + 2.02) (freq_density_denom (AR := binary64) (Fin nu) (Fin T)) (- ln (exp (photon_x nu T) - 1)).
Proof.
  set (x := photon_x nu T) in *. assert (P12 : 0 < / 10 ^ 12) by (apply Rinv_0_lt_compat, pow_lt; lra).
  pose proof (lnexpm1 x Hx) as [E0 E1]. pose proof (amp_u x Hx) as A. pose proof (amp_ge 5.05 x ltac:(lra) ltac:(lra)) as G.
  pose proof (expm1_dlog 5.05 _ x x_dlog ltac:(lra) Hx) as D. unfold freq_density_denom.
  replace (- ln (exp x - 1)) with (0 - ln (exp x - 1)) by ring.
  eapply dlog_weaken; [apply dlog_div with (j := 0) (2 := D); [exact dlog_1| |ab]|]; [|lra]. simpl in A |- *. lra.
Qed.
Lemma exparg_near : near64 (jax_bb_freq_density_exparg (AR := binary64) (Fin nu)) (ln 2 + ln h_planck - 2 * ln c_light + 3 * ln nu) 1000 274.4.
Proof.
  unfold jax_bb_freq_density_exparg. pose proof (lnnu nu Hnu2).
  assert (T1 : near64 (LG2 + LGH - Fin 2 * LGC)%num (ln 2 + ln h_planck - 2 * ln c_light) 376 119) by (eapply (near_sub u64 H64) with (B := 120); [exact sum2h|exact two_lgc|nm..]).
  assert (T2 : near64 (Fin 3 * nln (Fin nu))%num (3 * ln nu) (2.1 * 3 * (51.8 + 1) + 3 * 3) (3 * 51.8)) by (apply (times_ln 3) with (k := 0); try lra; [lia|apply dlog_machine; [exact Hnu|apply nu0]|ab]).
  eapply (near_add u64 H64) with (B := 276); [exact T1|exact T2|nm..].
Qed.
Lemma freq_error : exists b, blackbody_freq_density (AR := binary64) (Fin nu) (Fin T) = Fin b
  /\ Rabs (b - planck_freq nu T / watts_per_lsun) <= (1100 + planck_amp (photon_x nu T)) * u64 * (planck_freq nu T / watts_per_lsun).
Proof.
  set (x := photon_x nu T) in *. pose proof lnh. pose proof lnc. pose proof lnw. pose proof ln2_b. pose proof (lnnu nu Hnu2). pose proof (lnexpm1 x Hx) as [E0 E1]. pose proof (amp_u x Hx) as A.
  pose proof hp. pose proof cp. pose proof wp. pose proof nu0.
  pose proof denom_dlog as D1. fold x in D1. pose proof (dlog_exp _ _ _ _ exparg_near ltac:(k15) ltac:(lra)) as D2.
  set (L := ln 2 + ln h_planck - 2 * ln c_light + 3 * ln nu) in *. assert (HL : -80 <= L <= 42) by (unfold L; lra).
  assert (D3 : dlog (1010 + 0.99 * planck_amp x) (blackbody_freq_density (AR := binary64) (Fin nu) (Fin T)) (- ln (exp x - 1) + L - ln watts_per_lsun)).
  { unfold blackbody_freq_density, blackbody_freq_density_si.
    eapply dlog_weaken; [apply dlog_div with (j := 0.99 * planck_amp x + 2.02 + (1000 + 1.01) + 1.01) (k := 1.01); [apply dlog_mul; [exact D1|exact D2| |ab]|exact W_d| |ab]|]; simpl in A |- *; lra. }
  assert (LE : - ln (exp x - 1) + L - ln watts_per_lsun = ln (planck_freq nu T / watts_per_lsun)).
  { unfold planck_freq. fold (photon_x nu T). fold x. assert (0 < nu ^ 3) by (apply pow_lt; auto). assert (0 < c_light ^ 2) by (apply pow_lt; auto).
    assert (0 < 2 * h_planck) by lra. assert (0 < 2 * h_planck * nu ^ 3) by (apply Rmult_lt_0_compat; auto). assert (0 < 2 * h_planck * nu ^ 3 / c_light ^ 2) by (apply Rdiv_lt_0_compat; auto).
    rewrite ln_quot; auto; [|apply Rdiv_lt_0_compat; auto]. rewrite !ln_quot by auto. rewrite !ln_mult by (auto; lra). rewrite !ln_pow by auto. unfold L. simpl INR. lra. }
  assert (P0 : 0 < planck_freq nu T / watts_per_lsun).
  { apply Rdiv_lt_0_compat; auto. unfold planck_freq. fold (photon_x nu T). fold x. apply Rdiv_lt_0_compat; auto. apply Rdiv_lt_0_compat; [|apply pow_lt; auto]. apply Rmult_lt_0_compat; [lra|apply pow_lt; auto]. }
  destruct (dlog_pub2 _ _ _ _ D3 P0 LE) as (b & Eb & B0 & Hb). { simpl in A |- *. split; lra. }
  exists b. split; auto. eapply Rle_trans; [exact Hb|]. apply Rmult_le_compat_r; [lra|]. apply Rmult_le_compat_r; [pose proof u64_pos; lra|]. lra.
Qed.
End FreqX.
