(** * Closed forms of the published fits *)
From Coq Require Import Reals List Arith Lra Lia Bool.
From Coquelicot Require Import Coquelicot.
From Flocq Require Import Core.Raux.
From Verif Require Import Num Arr MUtils MImf MMzr MDust MCosmo Spec RList LUtils LCalc LKern LKern2 LBurst LDust LImf LCosmo.
Import ListNotations.
Open Scope R_scope.


Lemma C138_surviving_lemma : forall p a d, In (p, a, d) [(SUR_CHABRIER, 0.225, 0.145); (SUR_SALPETER, 0.13, 0.055); (SUR_KROUPA, 0.211, 0.13); (SUR_VAN_DOKKUM, 0.238, 0.156)] ->
  forall x, let old := a + (d + (0.08 - d) * logistic (pow10 (-0.5) * (x - 8))) * (x - 8) in
    surviving_mstar (Fin x) p = Fin (1 - (0.005 + (old - 0.005) * logistic (pow10 0.7 * (x - 6.5)))).
Proof.
  intros p a d H x. simpl in H. destruct H as [E|[E|[E|[E|[]]]]]; injection E as <- <- <-; apply surviving_fin.
Qed.
Lemma C138_remnant_lemma : forall p a, In (p, a) [(REM_CHABRIER, -1.42); (REM_SALPETER, -1.67); (REM_KROUPA, -1.45); (REM_VAN_DOKKUM, -1.4)] ->
  forall x, remnant_mass (Fin x) p = Fin (pow10 (a + (1.3 + (0.2 - 1.3) * logistic (10 * (x - 7))) * (x - 7))).
Proof.
  intros p a H x. simpl in H. destruct H as [E|[E|[E|[E|[]]]]]; injection E as <- <-; apply remnant_fin.
Qed.
Lemma log10_mul10 w : 0 < w -> log10 (w / 0.1) = log10 w + 1.
Proof.
  intros Hw. unfold log10. pose proof ln10_pos. rewrite ln_div by lra. replace 0.1 with (/ 10) by lra. rewrite ln_Rinv by lra. field. lra.
Qed.
Lemma pow10_log_slope w s : 0 < w -> pow10 (1.15 + s * (log10 w - -1)) = pow10 1.15 * Rpower (w / 0.1) s.
Proof.
  intros Hw. rewrite pow10_plus. f_equal. replace (log10 w - -1) with (log10 (w / 0.1)) by (rewrite log10_mul10 by auto; lra).
  unfold pow10, Rpower, log10. f_equal. pose proof ln10_pos. field. lra.
Qed.
Lemma C138_triweight_lemma : exists k : R -> R, (forall w, 0 < w -> triweight_k_lambda_default (Fin w) = Fin (k w))
  /\ (forall w, 0 < w <= 0.1 -> k w = pow10 1.15 * Rpower (w / 0.1) (-0.65))
  /\ (forall w, 100 <= w -> k w = pow10 1.15 * Rpower (w / 0.1) (-1.95))
  /\ (forall w, 0.1 <= w <= 100 -> pow10 1.15 * Rpower (w / 0.1) (-1.95) <= k w <= pow10 1.15 * Rpower (w / 0.1) (-0.65))
  /\ k (pow10 0.5) = pow10 1.15 * Rpower (pow10 1.5) (-1.3).
Proof.
  exists (fun w => twk w (-1) 1.15 0.5 0.5 (-0.65) (-1.95)).
  assert (L : log10 0.1 = -1).
  { unfold log10. replace 0.1 with (/ 10) by lra. rewrite ln_Rinv by lra. pose proof ln10_pos. field. lra. }
  assert (L2 : log10 100 = 2). { replace 100 with (pow10 2); [apply log10_pow10|]. unfold pow10. replace 2 with (INR 2) by (simpl; lra). rewrite Rpower_pow by lra. lra. }
  split; [intros; unfold triweight_k_lambda_default; unlit; apply twk_fin; lra|]. split; [|split; [|split]].
  - intros w Hw. unfold twk. pose proof (log10_le w 0.1 ltac:(lra) ltac:(lra)). rewrite tw_lo by lra. rewrite <- pow10_log_slope by lra. f_equal. ring.
  - intros w Hw. unfold twk. pose proof (log10_le 100 w ltac:(lra) ltac:(lra)). rewrite tw_hi by lra. rewrite <- pow10_log_slope by lra. f_equal. lra.
  - intros w Hw. unfold twk. pose proof (log10_le 0.1 w ltac:(lra) ltac:(lra)). pose proof (tw_range ((log10 w - 0.5) / 0.5)). rewrite <- !pow10_log_slope by lra.
    split; apply pow10_le; nra.
  - unfold twk. rewrite log10_pow10. replace ((0.5 - 0.5) / 0.5) with 0 by lra. rewrite tw_0. rewrite pow10_plus. f_equal. unfold pow10. rewrite Rpower_mult. f_equal. lra.
Qed.
Lemma C138_maiolino_lemma : forall logm logm0 k0,
  maiolino08_metallicity_evolution (Fin logm) (Fin logm0) (Fin k0) = Fin (- 0.0864 * (logm - logm0) ^ 2 + k0 - 12).
Proof. intros. unfold maiolino08_metallicity_evolution. unlit. rewrite nsub_fin, !nmul_fin, nsub_fin, nadd_fin. f_equal. lra. Qed.
Lemma C138_scales_lemma : forall Om0 w0 wa h z, 0 < Om0 <= 1 -> 0 < h -> -1 < z -> exists tH,
  hubble_time (Fin z) (Fin Om0) (Fin w0) (Fin wa) (Fin h) = Fin tH
  /\ 9.77812 / (h * expansion Om0 w0 wa z) < tH < 9.77814 / (h * expansion Om0 w0 wa z)
  /\ rho_crit (Fin z) (Fin Om0) (Fin w0) (Fin wa) (Fin h) = Fin (277.536627 * h ^ 2 * (Om0 * (1 + z) ^ 3 + (1 - Om0) * dark_energy w0 wa z)).
Proof.
  intros Om0 w0 wa h z HO Hh Hz. exists (tH h / expansion Om0 w0 wa z). pose proof (E_pos Om0 w0 wa z HO Hz) as EP. split; [apply hubble_time_fin; auto; lra|]. split.
  - assert (B : 9.77812 < 1 / 10 ^ 16 * (3.08567758149 * 10 ^ 24) / 31556925.2 < 9.77814) by (simpl; lra). unfold tH. set (c := 1 / 10 ^ 16 * _ / _) in *. clearbody c. set (e := expansion Om0 w0 wa z) in *. clearbody e.
    replace (c / h / e) with (c / (h * e)) by (field; split; lra). assert (0 < / (h * e)) by (apply Rinv_0_lt_compat; now apply Rmult_lt_0_compat). unfold Rdiv. split; apply Rmult_lt_compat_r; lra.
  - unfold rho_crit, RHO_CRIT0_KPC3_UNITY_H. unlit. rewrite Ez_fin by auto. rewrite ipow_fin, !nmul_fin. f_equal. change (Pos.to_nat 2) with 2%nat. unfold expansion in *. rewrite pow2_sqrt; [ring|].
    destruct (Rle_or_lt 0 (Om0 * (1 + z) ^ 3 + (1 - Om0) * dark_energy w0 wa z)) as [|N]; auto. rewrite sqrt_neg_0 in EP by lra. lra.
Qed.
