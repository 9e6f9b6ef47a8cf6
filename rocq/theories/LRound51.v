(** * C153: the blackbody in double precision, closed statements and examples *)
From Coq Require Import Reals List Arith Lra Lia ZArith Bool.
From Flocq Require Import Core.Raux Core.Zaux Core.Generic_fmt Core.FLT Core.Defs Core.FLX Core.Round_NE.
From Verif Require Import Num Arr MBlackbody Float Spec SpecFloat SpecFloat6 LFloat LFloat2 LFloat10 LRound6 LRound45 LRound46 LRound47 LRound48 LRound49 LRound50.
Import ListNotations.
Open Scope R_scope.
#[local] Existing Instance binary64 | 0.

Lemma C153_freq nu T : @machine_number binary64 nu -> @machine_number binary64 T -> 10 ^ 6 <= nu <= 10 ^ 22 -> 0.1 <= T <= 10 ^ 12 -> / 10 ^ 12 <= photon_x nu T <= 500 ->
  exists b, @blackbody_freq_density binary64 (Fin nu) (Fin T) = Fin b
    /\ Rabs (b - planck_freq nu T / watts_per_lsun) <= (1100 + planck_amp (photon_x nu T)) * / 2 ^ 53 * (planck_freq nu T / watts_per_lsun).
Proof. intros A B C D E. apply freq_error; assumption. Qed.
Lemma C153_wave wave_aa T : @machine_number binary64 wave_aa -> @machine_number binary64 T -> 0.1 <= wave_aa <= 10 ^ 10 -> 0.1 <= T <= 10 ^ 12 ->
  / 10 ^ 12 <= photon_x (c_light / (wave_aa / 10 ^ 10)) T <= 500 ->
  exists b, @blackbody_wave_density binary64 (Fin wave_aa) (Fin T) = Fin b
    /\ Rabs (b - planck_wave (wave_aa / 10 ^ 10) T / watts_per_lsun / 10 ^ 10)
       <= (1100 + planck_amp (photon_x (c_light / (wave_aa / 10 ^ 10)) T)) * / 2 ^ 53 * (planck_wave (wave_aa / 10 ^ 10) T / watts_per_lsun / 10 ^ 10).
Proof. intros A B C D E. apply wave_error; assumption. Qed.
Lemma C153_edges nu T : @machine_number binary64 nu -> @machine_number binary64 T -> 0.001 <= nu <= 10 ^ 22 -> 0.1 <= T <= 10 ^ 12 ->
  (720 <= photon_x nu T -> @blackbody_freq_density binary64 (Fin nu) (Fin T) = Fin 0)
  /\ (photon_x nu T <= / 2 ^ 54 -> @blackbody_freq_density binary64 (Fin nu) (Fin T) = PInf).
Proof. intros A B C D. split; intros E; [apply overflow_zero; assumption|apply cancel_inf; assumption]. Qed.

Lemma mach_pow n : (0 <= n <= 1000)%nat -> @machine_number binary64 (2 ^ n).
Proof.
  intros N. assert (P : Prec_gt_0 53) by (unfold Prec_gt_0; lia). unfold machine_number. cbn [rnd binary64 double_precision]. rewrite pow_IZR_bpow. apply ri_id; [apply generic_format_bpow; unfold FLT_exp; lia|rewrite Rabs_right by (apply Rle_ge, bpow_ge_0); apply bpow_lt; lia].
Qed.
Lemma photon_q nu T : 0 < T -> photon_x nu T = 6.62607015 / 1.380649 / 10 ^ 11 * (nu / T).
Proof. intros. unfold photon_x, h_planck, k_boltzmann. field. lra. Qed.
Lemma e153_T : @machine_number binary64 5800. Proof. apply (rn_int 5800). lia. Qed.
Lemma e153_x1 : 4 <= photon_x (2 ^ 49) 5800 <= 5.
Proof. rewrite photon_q by lra. simpl. split; lra. Qed.
Lemma e153_x2 : 4 <= photon_x (c_light / (5000 / 10 ^ 10)) 5800 <= 6.
Proof. rewrite photon_q by lra. unfold c_light. simpl. split; lra. Qed.
Lemma e153_x3 : 720 <= photon_x (2 ^ 57) 5800. Proof. rewrite photon_q by lra. simpl. lra. Qed.
Lemma e153_x4 : photon_x 1 1000000 <= / 2 ^ 54. Proof. rewrite photon_q by lra. simpl. lra. Qed.
Lemma amp46 x : 4 <= x <= 6 -> planck_amp x <= 70.
Proof. intros X. unfold planck_amp. assert (1 / x <= / 4) by (unfold Rdiv; rewrite Rmult_1_l; apply Rinv_le_contravar; lra). assert (0 < 1 / x) by (apply Rdiv_lt_0_compat; lra). apply Rle_trans with (56 * 1.25); [apply Rmult_le_compat; lra|lra]. Qed.
Lemma e153_freq : exists b, @blackbody_freq_density binary64 (Fin (2 ^ 49)) (Fin 5800) = Fin b
  /\ Rabs (b - planck_freq (2 ^ 49) 5800 / watts_per_lsun) <= (1100 + planck_amp (photon_x (2 ^ 49) 5800)) * / 2 ^ 53 * (planck_freq (2 ^ 49) 5800 / watts_per_lsun).
Proof. pose proof e153_x1. apply C153_freq; [apply mach_pow; lia|exact e153_T|simpl; lra|simpl; lra|assert (/ 10 ^ 12 <= 4) by (simpl; lra); lra]. Qed.
Lemma e153_wave : exists b, @blackbody_wave_density binary64 (Fin 5000) (Fin 5800) = Fin b
  /\ Rabs (b - planck_wave (5000 / 10 ^ 10) 5800 / watts_per_lsun / 10 ^ 10) <= 1200 * / 2 ^ 53 * (planck_wave (5000 / 10 ^ 10) 5800 / watts_per_lsun / 10 ^ 10).
Proof.
  pose proof e153_x2. destruct (C153_wave 5000 5800) as (b & E & D); [apply (rn_int 5000); lia|exact e153_T|simpl; lra|simpl; lra|assert (/ 10 ^ 12 <= 4) by (simpl; lra); lra|].
  exists b. split; auto. eapply Rle_trans; [exact D|]. pose proof (amp46 _ H). pose proof u64_pos. unfold u64 in *. apply Rmult_le_compat_r; [|apply Rmult_le_compat_r; lra].
  pose proof cp. pose proof hp. pose proof kp. pose proof wp. assert (0 < 10 ^ 10) by (apply pow_lt; lra). unfold planck_wave.
  assert (0 < exp (h_planck * c_light / (5000 / 10 ^ 10 * k_boltzmann * 5800)) - 1).
  { assert (0 < h_planck * c_light / (5000 / 10 ^ 10 * k_boltzmann * 5800)). { apply Rdiv_lt_0_compat; [apply Rmult_lt_0_compat; auto|]. apply Rmult_lt_0_compat; [|lra]. apply Rmult_lt_0_compat; auto. apply Rdiv_lt_0_compat; lra. }
    pose proof (exp_ineq1 _ (Rgt_not_eq _ _ H7)). lra. }
  left. repeat (apply Rdiv_lt_0_compat; auto); try (apply pow_lt; lra). apply Rmult_lt_0_compat; [lra|]. apply pow_lt; auto.
Qed.
Lemma e153_edges : @blackbody_freq_density binary64 (Fin (2 ^ 57)) (Fin 5800) = Fin 0 /\ @blackbody_freq_density binary64 (Fin 1) (Fin 1000000) = PInf.
Proof.
  split.
  - apply C153_edges; [apply mach_pow; lia|exact e153_T|simpl; lra|simpl; lra|exact e153_x3].
  - apply C153_edges; [exact r1_64|apply (rn_int 1000000); lia|simpl; lra|simpl; lra|exact e153_x4].
Qed.
