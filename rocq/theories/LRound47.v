(** * The blackbody densities in double precision *)
From Coq Require Import Reals List Arith Lra Lia ZArith Bool.
From Flocq Require Import Core.Raux.
From Verif Require Import Num Arr MBlackbody Float Spec SpecFloat SpecFloat6 LFloat LFloat2 LFloat10 LRound1 LRound2 LRound6 LRound21 LRound45 LRound46.
Import ListNotations.
Open Scope R_scope.

Lemma hp : 0 < h_planck. Proof. unfold h_planck. simpl. lra. Qed.
Lemma kp : 0 < k_boltzmann. Proof. unfold k_boltzmann. simpl. lra. Qed.
Lemma cp : 0 < c_light. Proof. unfold c_light. lra. Qed.
Lemma wp : 0 < watts_per_lsun. Proof. unfold watts_per_lsun. simpl. lra. Qed.
Lemma lnh : -77.7 <= ln h_planck <= -75.9.
Proof. pose proof hp. split; [apply Rle_trans with (- (0.7 * INR 111)); [simpl; lra|apply ln_geI2]|apply Rle_trans with (- (0.69 * INR 110)); [apply ln_leI2; auto|simpl; lra]]; unfold h_planck; simpl; lra. Qed.
Lemma lnk : -53.2 <= ln k_boltzmann <= -51.7.
Proof. pose proof kp. split; [apply Rle_trans with (- (0.7 * INR 76)); [simpl; lra|apply ln_geI2]|apply Rle_trans with (- (0.69 * INR 75)); [apply ln_leI2; auto|simpl; lra]]; unfold k_boltzmann; simpl; lra. Qed.
Lemma lnc : 19.3 <= ln c_light <= 20.3.
Proof. pose proof cp. split; [apply Rle_trans with (0.69 * INR 28); [simpl; lra|apply ln_ge2]|apply Rle_trans with (0.7 * INR 29); [apply ln_le2; auto|simpl; lra]]; unfold c_light; simpl; lra. Qed.
Lemma lnw : 60.7 <= ln watts_per_lsun <= 62.3.
Proof. pose proof wp. split; [apply Rle_trans with (0.69 * INR 88); [simpl; lra|apply ln_ge2]|apply Rle_trans with (0.7 * INR 89); [apply ln_le2; auto|simpl; lra]]; unfold watts_per_lsun; simpl; lra. Qed.
Lemma ln10_10 : 22.7 <= ln (10 ^ 10) <= 23.8.
Proof. assert (0 < 10 ^ 10) by (apply pow_lt; lra). split; [apply Rle_trans with (0.69 * INR 33); [simpl; lra|apply ln_ge2]|apply Rle_trans with (0.7 * INR 34); [apply ln_le2; auto|simpl; lra]]; simpl; lra. Qed.

Ltac ab := apply Rabs_le; lra.
Lemma H_d : dlog 1.01 (H_PLANCK (AR := binary64)) (ln h_planck).
Proof. pose proof lnh. apply dlog_lit; [exact hp|ab]. Qed.
Lemma K_d : dlog 1.01 (K_BOLTZ (AR := binary64)) (ln k_boltzmann).
Proof. pose proof lnk. apply dlog_lit; [exact kp|ab]. Qed.
Lemma C_d : dlog 1.01 (C_SPEED (AR := binary64)) (ln c_light).
Proof. pose proof lnc. apply dlog_lit; [exact cp|ab]. Qed.
Lemma W_d : dlog 1.01 (WATTS_PER_LSUN (AR := binary64)) (ln watts_per_lsun).
Proof. pose proof lnw. apply dlog_lit; [exact wp|ab]. Qed.
Lemma rn_int n : (Z.abs n <= 2 ^ 24)%Z -> rnd (Arith := binary64) (IZR n) = Fin (IZR n).
Proof. intros N. apply (rnd_dy (re_good _ _ H64) n 0); auto; [lia|simpl; lra]. Qed.
Notation near64 := (near (AR := binary64) u64).
Lemma nearw v x e e' M : near64 v x e M -> e <= e' -> near64 v x e' M.
Proof. intros (y & A & B & C & E) L. pose proof u64_pos. exists y. repeat split; auto. eapply Rle_trans; [exact C|]. apply Rmult_le_compat_r; lra. Qed.
Lemma LG2_n : near64 (LG2 (AR := binary64)) (ln 2) 1.1 0.7.
Proof. pose proof ln2_b. assert (D : dlog 0 (Fin 2) (ln 2)) by (apply dlog_machine; [apply (rn_int 2); lia|lra]). eapply nearw; [apply (near_ln _ _ 0 1 0.7 D)|lra]; first [lra|ab|simpl; lra]. Qed.
Lemma LGH_n : near64 (LGH (AR := binary64)) (ln h_planck) 80 77.7.
Proof. pose proof lnh. eapply nearw; [apply (near_ln _ _ 1.01 78 77.7 H_d)|lra]; first [lra|ab|simpl; lra]. Qed.
Lemma LGC_n : near64 (LGC (AR := binary64)) (ln c_light) 23 20.3.
Proof. pose proof lnc. eapply nearw; [apply (near_ln _ _ 1.01 21 20.3 C_d)|lra]; first [lra|ab|simpl; lra]. Qed.
Ltac nm := first [lra|simpl; lra|simpl; repeat split; lra].
Lemma two_lgc : near64 (nmul (AR := binary64) (Fin 2) (LGC (AR := binary64))) (2 * ln c_light) 90 40.6.
Proof. eapply (near_mul u64 H64) with (e := 0) (M := 2) (B := 42); [apply (near_int u64 H64 2); [lia|simpl; lra]|exact LGC_n|nm..]. Qed.
Lemma sum2h : near64 (nadd (AR := binary64) (LG2 (AR := binary64)) (LGH (AR := binary64))) (ln 2 + ln h_planck) 165 78.4.
Proof. eapply (near_add u64 H64) with (B := 79); [exact LG2_n|exact LGH_n|nm..]. Qed.
Lemma times_ln n v L k M : (0 < n <= 5)%Z -> dlog k v L -> 0 <= k <= 2 -> Rabs L <= M -> 20 <= M <= 60 -> near64 (nmul (AR := binary64) (Fin (IZR n)) (nln (AR := binary64) v)) (IZR n * L) (2.1 * IZR n * (M + 1) + 3 * IZR n) (IZR n * M).
Proof.
  intros N D K HL HM. assert (N1 : 1 <= IZR n <= 5) by (split; apply IZR_le; lia).
  assert (Q1 : 20 <= IZR n * M <= 300) by (split; [apply Rle_trans with (1 * 20); [lra|apply Rmult_le_compat; lra]|apply Rle_trans with (5 * 60); [apply Rmult_le_compat; lra|lra]]).
  assert (L1 : near64 (nln (AR := binary64) v) L (k + 1.001 * (M + 0.01)) M) by (apply near_ln; auto; first [lra|simpl; lra]).
  assert (Q2 : IZR n * k <= IZR n * 2) by (apply Rmult_le_compat_l; lra).
  assert (Q3 : 0 <= IZR n * k) by (apply Rmult_le_pos; lra).
  assert (I : near64 (Fin (IZR n)) (IZR n) 0 (IZR n)).
  { apply (near_int u64 H64 n); [lia|]. rewrite Z.abs_eq by lia. lra. }
  eapply (near_mul u64 H64) with (B := IZR n * M + 0.1) (2 := L1); [exact I|..]; try lra; try (simpl; lra).
Qed.
