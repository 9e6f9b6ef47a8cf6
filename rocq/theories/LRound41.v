(** * C143: public forms *)
From Coq Require Import Reals List Arith Lra Lia ZArith Bool.
From Coquelicot Require Import Coquelicot.
From Flocq Require Import Core.Raux.
From Verif Require LFloat9.
From Verif Require Import Num Arr MUtils MSed MDust Float Spec SpecFloat SpecFloat4 RList LUtils LFloat LFloat2 LFloat5 LFloat10 LRound1 LRound2 LRound6 LRound12 LRound21 LRound23 LRound35 LRound36 LRound37 LRound38 LRound39 LRound40 LDust LImf LRound22 LEval LEval2.
Import ListNotations.
Open Scope R_scope.

Lemma C143_curves_lemma : forall AR u, accurate_to AR u -> forall w, rounding_wave (AR := AR) w ->
  (exists k k0, leitherer02_k_lambda (AR := AR) (Fin w) = Fin k /\ leitherer02_k_lambda (AR := exact) (Fin w) = Fin k0 /\ Rabs (k - k0) <= 140 * u)
  /\ (off_break (AR := AR) 0.63 w -> exists k k0, calzetti00_k_lambda (AR := AR) (Fin w) = Fin k /\ calzetti00_k_lambda (AR := exact) (Fin w) = Fin k0 /\ Rabs (k - k0) <= 1900 * u).
Proof.
  intros AR u U w [Rw Bw]. pose proof (rel_err_unit _ _ U) as H. split.
  - destruct (l02_err u H w Rw Bw) as (k & E & _ & D & _). exists k, (l02 (1 / w)). split; auto. split; auto. apply leitherer_fin. lra.
  - intros N. destruct (calz_err u H w Rw Bw N) as (k & E & _ & D & _). exists k, (c00 w). split; auto. split; auto. apply calzetti_fin. lra.
Qed.
Lemma C143_noll_lemma : forall AR u, accurate_to AR u -> forall w ampl slope centre width,
  rounding_wave (AR := AR) w -> off_break (AR := AR) 0.63 w -> off_break (AR := AR) 0.15 w -> rounding_bump (AR := AR) ampl slope centre width -> bump_amp w centre width <= 1000 ->
  exists k k0, noll09_k_lambda (AR := AR) (Fin w) (Fin ampl) (Fin slope) (Fin centre) (Fin width) = Fin k
    /\ noll09_k_lambda (AR := exact) (Fin w) (Fin ampl) (Fin slope) (Fin centre) (Fin width) = Fin k0
    /\ Rabs (k - k0) <= tilt w slope * (1700 + (Rabs ampl + 1) * (2.4 * bump_amp w centre width + 30)) * u.
Proof.
  intros AR u U w a s x0 g [Rw Bw] N1 N2 (Ra & Rs & Rx & Rg & Ba & Bs & Bx & Bg) BA. pose proof (rel_err_unit _ _ U) as H.
  destruct (noll_err u H w a s x0 g Rw Rx Rg Ra Rs Bw Bx Bg Ba Bs N1 N2 BA) as (k & E & _ & D & _). exists k, (noll w a s x0 g). split; auto. split; auto. apply noll_fin; lra.
Qed.
Lemma C143_sbl_lemma : forall AR u, accurate_to AR u -> forall w ampl slope centre width,
  rounding_wave (AR := AR) w -> off_break (AR := AR) 0.63 w -> off_break (AR := AR) 0.15 w -> rounding_bump (AR := AR) ampl slope centre width -> bump_amp w centre width <= 1000 ->
  exists k k0, sbl18_k_lambda (AR := AR) (Fin w) (Fin ampl) (Fin slope) (Fin centre) (Fin width) = Fin k
    /\ sbl18_k_lambda (AR := exact) (Fin w) (Fin ampl) (Fin slope) (Fin centre) (Fin width) = Fin k0
    /\ Rabs (k - k0) <= (1700 * tilt w slope + (Rabs ampl + 1) * (2.4 * bump_amp w centre width + 30)) * u.
Proof.
  intros AR u U w a s x0 g [Rw Bw] N1 N2 (Ra & Rs & Rx & Rg & Ba & Bs & Bx & Bg) BA. pose proof (rel_err_unit _ _ U) as H.
  destruct (sbl_err u H w a s x0 g Rw Rx Rg Ra Rs Bw Bx Bg Ba Bs N1 N2 BA) as (k & E & _ & D & _). exists k, (sbl w a s x0 g). split; auto. split; auto. apply sbl_fin; lra.
Qed.
Lemma tilt_le w s : 0.09 <= w <= 10 -> Rabs s <= 5 -> 0 < tilt w s <= 10 ^ 8.
Proof.
  intros Bw Bs. unfold tilt, Rpower. split; [apply exp_pos|]. assert (XR : 0.16 <= w / 0.55 <= 18.2) by lra.
  assert (LR : Rabs (ln (w / 0.55)) <= 3.06).
  { apply Rabs_le. split.
    - assert (0 <= ln (1 / (w / 0.55)) <= 3.06 \/ 0 <= ln (w / 0.55)) as [Q|Q].
      { destruct (Rle_dec 1 (w / 0.55)); [right; apply ln21; lra|left; apply ln21]. split.
        - apply Rmult_le_reg_r with (w / 0.55); [lra|]. replace (1 / (w / 0.55) * (w / 0.55)) with 1 by (field; lra). lra.
        - apply Rmult_le_reg_r with (w / 0.55); [lra|]. replace (1 / (w / 0.55) * (w / 0.55)) with 1 by (field; lra). lra. }
      + replace (1 / (w / 0.55)) with (/ (w / 0.55)) in Q by (field; lra). rewrite ln_Rinv in Q by lra. lra.
      + lra.
    - destruct (Rle_dec 1 (w / 0.55)); [apply ln21; lra|]. apply Rle_trans with (ln 1); [apply Rlt_le, ln_increasing; lra|rewrite ln_1; lra]. }
  assert (A : Rabs (s * ln (w / 0.55)) <= 5 * 3.06) by (rewrite Rabs_mult; apply Rmult_le_compat; try apply Rabs_pos; lra). apply Rabs_le_inv in A.
  apply Rle_trans with (exp (INR 8 * 2)); [apply exp_mono; simpl; lra|]. rewrite exp_mult_nat. apply pow_incr. split; [apply Rlt_le, exp_pos|]. rewrite <- (exp_ln 10) by lra. apply exp_mono. apply ln10_ge.
Qed.
Lemma near_mach {AR : Arith} u (H : rel_err AR u) v x e M : near (AR := AR) u v x e M -> 0 <= e <= 10 ^ 21 -> M <= 5 * 10 ^ 14 -> exists y, v = Fin y /\ rnd y = Fin y /\ Rabs (y - x) <= e * u /\ Rabs y <= 10 ^ 15.
Proof.
  intros (y & E & R & D & B) E0 M0. exists y. split; auto. split; auto. split; auto. pose proof (u_le u H) as U. assert (e * u <= 10 ^ 21 * / (4 * 10 ^ 6)) by (apply Rmult_le_compat; lra).
  replace y with ((y - x) + x) by ring. eapply Rle_trans; [apply Rabs_triang|]. simpl (10 ^ _) in *. lra.
Qed.
Lemma C143_noll_transmission_lemma : forall AR u, accurate_to AR u -> forall w ampl slope centre width av floor,
  rounding_wave (AR := AR) w -> off_break (AR := AR) 0.63 w -> off_break (AR := AR) 0.15 w -> rounding_bump (AR := AR) ampl slope centre width -> bump_amp w centre width <= 1000 ->
  machine_number av -> machine_number floor -> 0 <= av <= 10 ^ 15 -> 0 <= floor <= 1 ->
  exists t t0, frac_transmission_from_k_lambda (AR := AR) (noll09_k_lambda (AR := AR) (Fin w) (Fin ampl) (Fin slope) (Fin centre) (Fin width)) (Fin av) (Fin floor) = Fin t
    /\ frac_transmission_from_k_lambda (AR := exact) (noll09_k_lambda (AR := exact) (Fin w) (Fin ampl) (Fin slope) (Fin centre) (Fin width)) (Fin av) (Fin floor) = Fin t0
    /\ Rabs (t - t0) <= (6.1 + 0.25 * av * (tilt w slope * (1700 + (Rabs ampl + 1) * (2.4 * bump_amp w centre width + 30)))) * u.
Proof.
  intros AR u U w a s x0 g av f [Rw Bw] N1 N2 (Ra & Rs & Rx & Rg & Ba & Bs & Bx & Bg) BA Rav Rf Bav Bf. pose proof (rel_err_unit _ _ U) as H.
  pose proof (noll_err u H w a s x0 g Rw Rx Rg Ra Rs Bw Bx Bg Ba Bs N1 N2 BA) as N. pose proof (tilt_le w s Bw Bs) as T. change (vband w s) with (tilt w s) in N.
  pose proof (A_pos w x0 g Bw Bx Bg) as AP. fold (bump_amp w x0 g) in AP, N. pose proof (Rabs_pos a) as PA. set (A := bump_amp w x0 g) in *. set (P := tilt w s) in *.
  assert (E1 : 0 <= (Rabs a + 1) * (2.4 * A + 30) <= 10 ^ 10). { split; [apply Rmult_le_pos; lra|]. apply Rle_trans with ((10 ^ 6 + 1) * 2430); [apply Rmult_le_compat; lra|simpl; lra]. }
  set (ee := (Rabs a + 1) * (2.4 * A + 30)) in *.
  destruct (near_mach u H _ _ _ _ N) as (k & E & Rk & Dk & Bk).
  - split; [apply Rmult_le_pos; lra|]. apply Rle_trans with (10 ^ 8 * (1700 + 10 ^ 10)); [apply Rmult_le_compat; lra|simpl; lra].
  - apply Rle_trans with (10 ^ 8 * (71 + 10 ^ 6)); [apply Rmult_le_compat; lra|simpl; lra].
  - rewrite E, noll_fin by lra. destruct (C143_transmission_lemma AR u U k (noll w a s x0 g) av f Rk Rav Rf Bk Bav Bf) as (t & t0 & Et & Et0 & D). exists t, t0. split; auto. split; auto. eapply Rle_trans; [exact D|].
    assert (0.25 * av * Rabs (k - noll w a s x0 g) <= 0.25 * av * (P * (1700 + ee) * u)) by (apply Rmult_le_compat_l; lra). lra.
Qed.
Lemma C143_sbl_transmission_lemma : forall AR u, accurate_to AR u -> forall w ampl slope centre width av floor,
  rounding_wave (AR := AR) w -> off_break (AR := AR) 0.63 w -> off_break (AR := AR) 0.15 w -> rounding_bump (AR := AR) ampl slope centre width -> bump_amp w centre width <= 1000 ->
  machine_number av -> machine_number floor -> 0 <= av <= 10 ^ 15 -> 0 <= floor <= 1 ->
  exists t t0, frac_transmission_from_k_lambda (AR := AR) (sbl18_k_lambda (AR := AR) (Fin w) (Fin ampl) (Fin slope) (Fin centre) (Fin width)) (Fin av) (Fin floor) = Fin t
    /\ frac_transmission_from_k_lambda (AR := exact) (sbl18_k_lambda (AR := exact) (Fin w) (Fin ampl) (Fin slope) (Fin centre) (Fin width)) (Fin av) (Fin floor) = Fin t0
    /\ Rabs (t - t0) <= (6.1 + 0.25 * av * (1700 * tilt w slope + (Rabs ampl + 1) * (2.4 * bump_amp w centre width + 30))) * u.
Proof.
  intros AR u U w a s x0 g av f [Rw Bw] N1 N2 (Ra & Rs & Rx & Rg & Ba & Bs & Bx & Bg) BA Rav Rf Bav Bf. pose proof (rel_err_unit _ _ U) as H.
  pose proof (sbl_err u H w a s x0 g Rw Rx Rg Ra Rs Bw Bx Bg Ba Bs N1 N2 BA) as N. pose proof (tilt_le w s Bw Bs) as T. change (vband w s) with (tilt w s) in N.
  pose proof (A_pos w x0 g Bw Bx Bg) as AP. fold (bump_amp w x0 g) in AP, N. pose proof (Rabs_pos a) as PA. set (A := bump_amp w x0 g) in *. set (P := tilt w s) in *.
  assert (E1 : 0 <= (Rabs a + 1) * (2.4 * A + 30) <= 10 ^ 10). { split; [apply Rmult_le_pos; lra|]. apply Rle_trans with ((10 ^ 6 + 1) * 2430); [apply Rmult_le_compat; lra|simpl; lra]. }
  set (ee := (Rabs a + 1) * (2.4 * A + 30)) in *.
  destruct (near_mach u H _ _ _ _ N) as (k & E & Rk & Dk & Bk).
  - simpl (10 ^ _) in *. split; lra.
  - simpl (10 ^ _) in *. lra.
  - rewrite E, sbl_fin by lra. destruct (C143_transmission_lemma AR u U k (sbl w a s x0 g) av f Rk Rav Rf Bk Bav Bf) as (t & t0 & Et & Et0 & D). exists t, t0. split; auto. split; auto. eapply Rle_trans; [exact D|].
    assert (0.25 * av * Rabs (k - sbl w a s x0 g) <= 0.25 * av * ((1700 * P + ee) * u)) by (apply Rmult_le_compat_l; lra). lra.
Qed.

(** at the machine number nearest to 0.63 the single-precision run takes the other branch *)
Lemma C143_break_lemma : exists w k k0, rounding_wave (AR := binary32) w /\ calzetti00_k_lambda (AR := binary32) (Fin w) = Fin k
  /\ calzetti00_k_lambda (AR := exact) (Fin w) = Fin k0 /\ 0.02 <= Rabs (k - k0).
Proof.
  assert (U : accurate_to binary32 (/ 2 ^ 24)) by exact LFloat9.unit32. pose proof (rel_err_unit _ _ U) as H. set (w := 5284823/8388608).
  assert (E63 : rnd (Arith := binary32) 0.63 = Fin w).
  { change binary32 with (far f32). replace 0.63 with (rat (63%Z, 100%positive)) by (unfold rat; cbn [fst snd]; lra). rewrite rnd_rat by vmr. f_equal. unfold rat, w. cbn -[IZR]. lra. }
  assert (Rw : rnd (Arith := binary32) w = Fin w) by (eapply (rnd_idem _ (re_good _ _ H)); eauto).
  assert (Bw : 0.09 <= w <= 10) by (unfold w; lra).
  destruct (c00b_err _ H w Rw Bw) as (k & Ek & _ & Dk & _). exists w, k, (c00 w). split; [split; auto|]. split; [|split; [apply calzetti_fin; lra|]].
  - unfold calzetti00_k_lambda. cbv zeta. assert (EL : lit (AR := binary32) 0.63 = Fin w) by exact E63. rewrite EL. cbn [nltb]. rewrite Rlt_bool_false by lra. exact Ek.
  - unfold c00. destruct (Rlt_dec w 0.63) as [_|N]; [|exfalso; apply N; unfold w; lra]. assert (Y : 1.587 <= 1 / w <= 1.588) by (unfold w; lra). set (y := 1 / w) in *. clearbody y.
    assert (D : c00b y - c00a y >= 0.022). { unfold c00a, c00b. simpl (y ^ 2). simpl (y ^ 3). assert (2.518 <= y * (y * 1) <= 2.522) by (split; nra). assert (y * (y * (y * 1)) <= 4.01) by nra. lra. }
    assert (1900 * / 2 ^ 24 <= 0.0002) by (simpl; lra). apply Rabs_le_inv in Dk. rewrite Rabs_right; lra.
Qed.
Lemma off_break_far {AR : Arith} u (H : rel_err AR u) b w : Rabs b <= 1 -> 0.001 <= Rabs (b - w) -> off_break (AR := AR) b w.
Proof.
  intros B D E. destruct (rnd_err_B u H b 1 B) as (y & Ey & Dy & _); [simpl; lra|]. rewrite E in Ey. injection Ey as <-. pose proof (u_le u H) as U. simpl (10 ^ 6) in U. rewrite Rabs_minus_sym in Dy. lra.
Qed.
