(** * Wien's displacement law and the two peak functions of dust/blackbody.py *)
From Coq Require Import Reals List Bool Arith Lra Lia.
From Coquelicot Require Import Coquelicot.
From Flocq Require Import Core.Raux.
From Verif Require Import Num Arr MBlackbody Spec RList LCalc LKern LKern2 LBurst LImf LBlack.
Import ListNotations.
Open Scope R_scope.

Lemma expm_ge_3 y : 0 <= y -> 1 - y + y ^ 2 / 2 - y ^ 3 / 6 <= exp (- y).
Proof.
  intros Hy. destruct (Req_dec y 0) as [->|N]; [rewrite Ropp_0, exp_0; lra|].
  assert (E2 : forall z, 0 <= z -> exp (- z) <= 1 - z + z ^ 2 / 2).
  { intros z Hz. destruct (Req_dec z 0) as [->|Nz]; [rewrite Ropp_0, exp_0; lra|].
    pose (f := fun x => 1 - x + x ^ 2 / 2 - exp (- x)).
    pose (df := fun x => -1 + x + exp (- x)).
    destruct (MVT_gen f 0 z df) as (c & Hc & E).
    - intros x _. unfold f, df. auto_derive; auto. field.
    - intros x _. apply derivable_continuous_pt. unfold f. apply ex_derive_Reals_0. auto_derive; auto.
    - rewrite Rmin_left, Rmax_right in Hc by lra. unfold f at 2 in E. rewrite Ropp_0, exp_0 in E.
      assert (0 <= df c) by (unfold df; pose proof (exp_ge_1 (- c)); lra).
      assert (0 <= df c * (z - 0)) by (apply Rmult_le_pos; lra). unfold f in E. lra. }
  pose (f := fun x => exp (- x) - (1 - x + x ^ 2 / 2 - x ^ 3 / 6)).
  pose (df := fun x => 1 - x + x ^ 2 / 2 - exp (- x)).
  destruct (MVT_gen f 0 y df) as (c & Hc & E).
  - intros x _. unfold f, df. auto_derive; auto. field.
  - intros x _. apply derivable_continuous_pt. unfold f. apply ex_derive_Reals_0. auto_derive; auto.
  - rewrite Rmin_left, Rmax_right in Hc by lra. unfold f at 2 in E. rewrite Ropp_0, exp_0 in E.
    assert (0 <= df c) by (unfold df; pose proof (E2 c ltac:(lra)); lra).
    assert (0 <= df c * (y - 0)) by (apply Rmult_le_pos; lra). unfold f in E. lra.
Qed.

Lemma h_decr x y : 0 < x < y -> (1 - exp (- y)) / y < (1 - exp (- x)) / x.
Proof.
  intros H. pose (f := fun x => (1 - exp (- x)) / x).
  pose (df := fun x => (x * exp (- x) - (1 - exp (- x))) / x ^ 2).
  destruct (MVT_gen f x y df) as (c & Hc & E).
  - intros z Hz. rewrite Rmin_left, Rmax_right in Hz by lra. unfold f, df. auto_derive; [lra|]. field. lra.
  - intros z Hz. rewrite Rmin_left, Rmax_right in Hz by lra. apply derivable_continuous_pt. unfold f. apply ex_derive_Reals_0. auto_derive; lra.
  - rewrite Rmin_left, Rmax_right in Hc by lra.
    assert (D : df c < 0).
    { unfold df. assert (0 < c ^ 2) by (apply pow_lt; lra).
      assert (c * exp (- c) - (1 - exp (- c)) < 0).
      { assert (G : 1 + c < exp c) by (apply exp_ineq1; lra).
        assert (exp (- c) * exp c = 1) by (rewrite <- exp_plus; replace (- c + c) with 0 by ring; apply exp_0).
        pose proof (exp_pos (- c)). nra. }
      apply Ropp_lt_cancel. rewrite Ropp_0. replace (- ((c * exp (- c) - (1 - exp (- c))) / c ^ 2)) with ((- (c * exp (- c) - (1 - exp (- c)))) / c ^ 2) by (field; lra).
      apply Rdiv_lt_0_compat; lra. }
    assert (df c * (y - x) < 0) by nra. unfold f in E. lra.
Qed.

(** the peak equation [m (1 - e^-x) = x] has exactly one positive root, inside any bracket of
    opposite signs, and [x^m / (e^x - 1)] rises before it and falls after it *)
Lemma wien (m : nat) a b : (1 <= m)%nat -> 0 < a < b ->
  a < INR m * (1 - exp (- a)) -> INR m * (1 - exp (- b)) < b ->
  exists x0, a < x0 < b /\ INR m * (1 - exp (- x0)) = x0
   /\ (forall x y, 0 < x < y -> y <= x0 -> x ^ m / (exp x - 1) < y ^ m / (exp y - 1))
   /\ (forall x y, x0 <= x < y -> y ^ m / (exp y - 1) < x ^ m / (exp x - 1)).
Proof.
  intros Hm Hab Ga Gb. set (M := INR m) in *.
  assert (HM : 1 <= M) by (unfold M; replace 1 with (INR 1) by reflexivity; now apply le_INR).
  destruct (IVT (fun x => x - M * (1 - exp (- x))) a b) as (x0 & Hx0 & E0); try lra.
  { intros x. apply derivable_continuous_pt. apply ex_derive_Reals_0. auto_derive; auto. }
  assert (Hx : a < x0 < b).
  { destruct Hx0 as [[?|?] [?|?]]; subst; try lra. }
  exists x0. split; auto. split; [lra|].
  assert (P0 : 0 < x0) by lra.
  assert (Hm0 : M * ((1 - exp (- x0)) / x0) = 1).
  { replace (M * ((1 - exp (- x0)) / x0)) with (M * (1 - exp (- x0)) / x0) by (field; lra).
    replace (M * (1 - exp (- x0))) with x0 by lra. field. lra. }
  assert (L : forall x, 0 < x < x0 -> x < M * (1 - exp (- x))).
  { intros x Hx'. pose proof (h_decr x x0 Hx') as D.
    assert (1 < M * ((1 - exp (- x)) / x)) by (eapply Rle_lt_trans; [apply Req_le, eq_sym, Hm0|apply Rmult_lt_compat_l; [lra|exact D]]).
    assert (Q : M * (1 - exp (- x)) = M * ((1 - exp (- x)) / x) * x) by (field; lra). rewrite Q.
    set (A := M * ((1 - exp (- x)) / x)) in *. clearbody A. nra. }
  assert (U : forall x, x0 < x -> M * (1 - exp (- x)) < x).
  { intros x Hx'. pose proof (h_decr x0 x ltac:(lra)) as D.
    assert (M * ((1 - exp (- x)) / x) < 1) by (eapply Rlt_le_trans; [apply Rmult_lt_compat_l; [lra|exact D]|apply Req_le, Hm0]).
    assert (Q : M * (1 - exp (- x)) = M * ((1 - exp (- x)) / x) * x) by (field; lra). rewrite Q.
    set (A := M * ((1 - exp (- x)) / x)) in *. clearbody A. nra. }
  pose (f := fun x => x ^ m / (exp x - 1)).
  pose (df := fun x => x ^ (pred m) * exp x * (M * (1 - exp (- x)) - x) / (exp x - 1) ^ 2).
  assert (D : forall x, 0 < x -> is_derive f x (df x)).
  { intros x Hx'. pose proof (exp_gt_1 x Hx'). unfold f, df. auto_derive; [lra|].
    assert (EE : exp (- x) = / exp x) by apply exp_Ropp. rewrite EE.
    fold M. destruct m as [|k]; [lia|]. cbn [pred]. change (x ^ S k) with (x * x ^ k). field.
    split; [lra|]. pose proof (exp_pos x). lra. }
  assert (DP : forall c, 0 < c -> exists q, 0 < q /\ df c = q * (M * (1 - exp (- c)) - c)).
  { intros c Hc. pose proof (exp_gt_1 c Hc). exists (c ^ pred m * exp c / (exp c - 1) ^ 2). split.
    - apply Rdiv_lt_0_compat; [apply Rmult_lt_0_compat; [now apply pow_lt|apply exp_pos]|apply pow_lt; lra].
    - unfold df. field. lra. }
  split.
  - intros x y Hxy Hy. destruct (MVT_cor2 f df x y) as (c & E & Hc); [lra|intros; apply is_derive_Reals, D; lra|].
    destruct (DP c ltac:(lra)) as (q & Hq & Eq). pose proof (L c ltac:(lra)).
    fold (f x) (f y). assert (0 < df c * (y - x)) by (rewrite Eq; apply Rmult_lt_0_compat; [apply Rmult_lt_0_compat|]; lra). lra.
  - intros x y Hxy. destruct (MVT_cor2 f df x y) as (c & E & Hc); [lra|intros; apply is_derive_Reals, D; lra|].
    destruct (DP c ltac:(lra)) as (q & Hq & Eq). pose proof (U c ltac:(lra)).
    fold (f x) (f y). assert (0 < q * (c - M * (1 - exp (- c))) * (y - x)) by (apply Rmult_lt_0_compat; [apply Rmult_lt_0_compat|]; lra).
    rewrite Eq in E. lra.
Qed.

Lemma exp_pow_n y n : exp y ^ n = exp (INR n * y).
Proof.
  induction n; [simpl; now rewrite Rmult_0_l, exp_0|]. rewrite S_INR. cbn [pow]. rewrite IHn, <- exp_plus. f_equal. ring.
Qed.
Lemma expm_upper x n : 0 <= x -> (0 < n)%nat -> forall u,
  (1 <= u * (1 + x / INR n + (x / INR n) ^ 2 / 2 + (x / INR n) ^ 3 / 6) ^ n) -> exp (- x) <= u.
Proof.
  intros Hx Hn u Hu. assert (0 < INR n) by now apply lt_0_INR.
  assert (Hy : 0 <= x / INR n) by (apply Rmult_le_pos; [lra|]; apply Rlt_le, Rinv_0_lt_compat; auto).
  set (y := x / INR n) in *. pose proof (exp_ge_3 y Hy) as G.
  assert (P : 0 < 1 + y + y ^ 2 / 2 + y ^ 3 / 6) by (pose proof (pow_le y 2 Hy); pose proof (pow_le y 3 Hy); lra).
  assert (A : (1 + y + y ^ 2 / 2 + y ^ 3 / 6) ^ n <= exp x).
  { replace x with (INR n * y) by (unfold y; field; lra). rewrite <- exp_pow_n. apply pow_incr. lra. }
  assert (0 < u). { pose proof (pow_lt _ n P). destruct (Rle_or_lt u 0); [|auto]. nra. }
  assert (1 <= u * exp x) by (apply Rle_trans with (1 := Hu); apply Rmult_le_compat_l; lra).
  rewrite exp_Ropp. apply Rmult_le_reg_r with (exp x); [apply exp_pos|]. rewrite Rinv_l; [lra|]. pose proof (exp_pos x). lra.
Qed.
Lemma expm_lower x n : 0 <= x <= INR n -> (0 < n)%nat -> forall l,
  l <= (1 - x / INR n + (x / INR n) ^ 2 / 2 - (x / INR n) ^ 3 / 6) ^ n -> l <= exp (- x).
Proof.
  intros Hx Hn l Hl. assert (0 < INR n) by now apply lt_0_INR.
  assert (Hy : 0 <= x / INR n <= 1).
  { split; [apply Rmult_le_pos; [lra|]; apply Rlt_le, Rinv_0_lt_compat; auto|].
    apply Rmult_le_reg_r with (INR n); auto. unfold Rdiv. rewrite Rmult_assoc, Rinv_l by lra. lra. }
  set (y := x / INR n) in *. pose proof (expm_ge_3 y ltac:(lra)) as G.
  apply Rle_trans with (1 := Hl).
  replace (- x) with (INR n * - y) by (unfold y; field; lra). rewrite <- exp_pow_n.
  apply pow_incr. split; auto. assert (y ^ 3 <= y ^ 2). { pose proof (pow_le y 2 ltac:(lra)). change (y ^ 3) with (y * y ^ 2). nra. } pose proof (pow_le y 2 ltac:(lra)). lra.
Qed.

Lemma wien3 : exists x0, 2.8213 < x0 < 2.8216 /\ INR 3 * (1 - exp (- x0)) = x0
   /\ (forall x y, 0 < x < y -> y <= x0 -> x ^ 3 / (exp x - 1) < y ^ 3 / (exp y - 1))
   /\ (forall x y, x0 <= x < y -> y ^ 3 / (exp y - 1) < x ^ 3 / (exp x - 1)).
Proof.
  assert (E32 : INR 32 = 32) by (simpl; lra). assert (E3 : INR 3 = 3) by (simpl; lra).
  apply wien; [lia|lra| |].
  - assert (exp (- (2.8213)) <= 0.05956) by (apply (expm_upper _ 32); [lra|lia|]; rewrite E32; lra). rewrite E3; lra.
  - assert (0.05948 <= exp (- (2.8216))) by (apply (expm_lower _ 32); [rewrite E32; lra|lia|]; rewrite E32; lra). rewrite E3; lra.
Qed.
Lemma wien5 : exists x0, 4.9649 < x0 < 4.9653 /\ INR 5 * (1 - exp (- x0)) = x0
   /\ (forall x y, 0 < x < y -> y <= x0 -> x ^ 5 / (exp x - 1) < y ^ 5 / (exp y - 1))
   /\ (forall x y, x0 <= x < y -> y ^ 5 / (exp y - 1) < x ^ 5 / (exp x - 1)).
Proof.
  assert (E32 : INR 32 = 32) by (simpl; lra). assert (E3 : INR 5 = 5) by (simpl; lra).
  apply wien; [lia|lra| |].
  - assert (exp (- (4.9649)) <= 0.00701) by (apply (expm_upper _ 32); [lra|lia|]; rewrite E32; lra). rewrite E3; lra.
  - assert (0.00695 <= exp (- (4.9653))) by (apply (expm_lower _ 32); [rewrite E32; lra|lia|]; rewrite E32; lra). rewrite E3; lra.
Qed.

Lemma wien_ratio : h_planck / k_boltzmann * (5.879 * 10 ^ 10) = 6.62607015 * 0.5879 / 1.380649.
Proof. unfold h_planck, k_boltzmann. lra. Qed.

Lemma C111_frequency_lemma : forall T, 0 < T -> exists (peak nu0 : R) (B : R -> R),
  jax_bb_frequency_peak (Fin T) = Fin peak /\ 0 < nu0
  /\ (forall nu, 0 < nu -> blackbody_freq_density (Fin nu) (Fin T) = Fin (B nu))
  /\ (forall nu nu', 0 < nu < nu' -> nu' <= nu0 -> B nu < B nu')
  /\ (forall nu nu', nu0 <= nu < nu' -> B nu' < B nu)
  /\ Rabs (peak - nu0) <= nu0 / 10000.
Proof.
  intros T HT. destruct wien3 as (x0 & Hx0 & _ & I & D).
  pose proof hP_pos as Hh. pose proof kB_pos as Hk. pose proof cl_pos as Hc. pose proof ls_pos as Hs.
  set (s := h_planck / (k_boltzmann * T)).
  assert (Hs0 : 0 < s) by (unfold s; apply Rdiv_lt_0_compat; nra).
  exists (5.879 * 10 ^ 10 * T), (x0 / s), (fun nu => planck_freq nu T / watts_per_lsun).
  assert (K : forall nu, planck_freq nu T / watts_per_lsun
     = (2 * h_planck / c_light ^ 2 / watts_per_lsun / s ^ 3) * ((s * nu) ^ 3 / (exp (s * nu) - 1))).
  { intros nu. unfold planck_freq. replace (h_planck * nu / (k_boltzmann * T)) with (s * nu) by (unfold s; field; lra).
    unfold Rdiv. rewrite !Rpow_mult_distr. set (e := / (exp (s * nu) - 1)). clearbody e. field.
    split; [lra|]. split; lra. }
  assert (KP : 0 < 2 * h_planck / c_light ^ 2 / watts_per_lsun / s ^ 3).
  { repeat apply Rdiv_lt_0_compat; try apply pow_lt; lra. }
  split; [unfold jax_bb_frequency_peak; unlit; now rewrite nmul_fin|].
  split; [apply Rdiv_lt_0_compat; lra|].
  split; [intros nu Hn; now apply freq_fin|].
  assert (sx : forall nu, nu <= x0 / s <-> s * nu <= x0).
  { intros nu. assert (E : x0 = s * (x0 / s)) by (field; lra). split; intros H.
    - rewrite E. apply Rmult_le_compat_l; lra.
    - rewrite E in H. apply Rmult_le_reg_l in H; lra. }
  assert (sx' : forall nu, x0 / s <= nu <-> x0 <= s * nu).
  { intros nu. assert (E : x0 = s * (x0 / s)) by (field; lra). split; intros H.
    - rewrite E. apply Rmult_le_compat_l; lra.
    - rewrite E in H. apply Rmult_le_reg_l in H; lra. }
  split; [|split].
  - intros nu nu' Hn Hn'. rewrite !K. apply Rmult_lt_compat_l; auto. apply I.
    + split; [apply Rmult_lt_0_compat; lra|apply Rmult_lt_compat_l; lra].
    + now apply sx.
  - intros nu nu' Hn. rewrite !K. apply Rmult_lt_compat_l; auto. apply D.
    split; [now apply sx'|apply Rmult_lt_compat_l; lra].
  - set (p := 5.879 * 10 ^ 10 * T).
    assert (Ep : s * p = 6.62607015 * 0.5879 / 1.380649).
    { rewrite <- wien_ratio. unfold s, p. field. lra. }
    replace (p - x0 / s) with ((s * p - x0) / s) by (field; lra).
    unfold Rdiv at 1. rewrite Rabs_mult, (Rabs_right (/ s)) by (apply Rle_ge, Rlt_le, Rinv_0_lt_compat; auto).
    replace (x0 / s / 10000) with (x0 / 10000 * / s) by (field; lra).
    apply Rmult_le_compat_r; [apply Rlt_le, Rinv_0_lt_compat; auto|].
    rewrite Ep. apply Rabs_le. split; lra.
Qed.

Lemma C111_wavelength_lemma : forall T, 0 < T -> exists (peak_m lam0 : R) (B : R -> R),
  jax_bb_wavelength_peak (Fin T) = Fin peak_m /\ 0 < lam0
  /\ (forall wave_aa, 0 < wave_aa -> blackbody_wave_density (Fin wave_aa) (Fin T) = Fin (B wave_aa))
  /\ (forall w w', 0 < w < w' -> w' <= lam0 -> B w < B w')
  /\ (forall w w', lam0 <= w < w' -> B w' < B w)
  /\ Rabs (peak_m * 10 ^ 10 - lam0) <= lam0 / 5000.
Proof.
  intros T HT. destruct wien5 as (x0 & Hx0 & _ & I & D).
  pose proof hP_pos as Hh. pose proof kB_pos as Hk. pose proof cl_pos as Hc. pose proof ls_pos as Hs.
  set (s := h_planck * c_light / (k_boltzmann * T) * 10 ^ 10).
  assert (Hs0 : 0 < s).
  { unfold s. apply Rmult_lt_0_compat; [|lra]. apply Rdiv_lt_0_compat; nra. }
  exists (c_light / (5.879 * 10 ^ 10 * T) / 1.76), (s / x0), (fun w => planck_wave (w / 10 ^ 10) T / watts_per_lsun / 10 ^ 10).
  assert (K : forall w, 0 < w -> planck_wave (w / 10 ^ 10) T / watts_per_lsun / 10 ^ 10
     = (2 * h_planck * c_light ^ 2 * (10 ^ 10) ^ 4 / watts_per_lsun / s ^ 5) * ((s / w) ^ 5 / (exp (s / w) - 1))).
  { intros w Hw. unfold planck_wave. replace (h_planck * c_light / (w / 10 ^ 10 * k_boltzmann * T)) with (s / w) by (unfold s; field; lra).
    unfold Rdiv. rewrite !Rpow_mult_distr. set (e := / (exp (s * / w) - 1)). clearbody e. field.
    repeat split; lra. }
  assert (KP : 0 < 2 * h_planck * c_light ^ 2 * (10 ^ 10) ^ 4 / watts_per_lsun / s ^ 5).
  { repeat apply Rdiv_lt_0_compat; try apply pow_lt; try lra.
    pose proof (pow_lt c_light 2 Hc). assert (0 < (10 ^ 10) ^ 4) by (apply pow_lt; lra).
    apply Rmult_lt_0_compat; [apply Rmult_lt_0_compat|]; lra. }
  split.
  { unfold jax_bb_wavelength_peak, jax_bb_frequency_peak, C_SPEED. unlit. rewrite nmul_fin.
    change 299792458 with c_light. rewrite ndiv_fin by lra. rewrite ndiv_fin by lra. reflexivity. }
  split; [apply Rdiv_lt_0_compat; lra|].
  split; [intros w Hw; now apply wave_fin|].
  assert (DL : forall w w', 0 < w < w' -> s / w' < s / w).
  { intros w w' H. unfold Rdiv. apply Rmult_lt_compat_l; auto. apply Rinv_lt_contravar; [nra|lra]. }
  assert (P : forall w, 0 < w -> 0 < s / w) by (intros; now apply Rdiv_lt_0_compat).
  assert (R0 : s / (s / x0) = x0) by (field; lra).
  assert (P0 : 0 < s / x0) by (apply P; lra).
  split; [|split].
  - intros w w' H H'. rewrite !K by lra. apply Rmult_lt_compat_l; auto. apply D. split; [|now apply DL].
    destruct H' as [H'|H']; [|rewrite H', R0; apply Rle_refl]. pose proof (DL w' (s / x0) ltac:(lra)) as G. rewrite R0 in G. lra.
  - intros w w' H. rewrite !K by lra. apply Rmult_lt_compat_l; auto. apply I.
    + split; [apply P; lra|apply DL; lra].
    + destruct H as [[H|H] _]; [|rewrite <- H, R0; apply Rle_refl]. pose proof (DL (s / x0) w ltac:(lra)) as G. rewrite R0 in G. lra.
  - set (p := c_light / (5.879 * 10 ^ 10 * T) / 1.76).
    assert (Ep : p * 10 ^ 10 = s * / (6.62607015 * 0.5879 / 1.380649 * 1.76)).
    { rewrite <- wien_ratio. unfold s, p. field. repeat split; lra. }
    rewrite Ep. replace (s * / (6.62607015 * 0.5879 / 1.380649 * 1.76) - s / x0) with (s / x0 * (x0 * / (6.62607015 * 0.5879 / 1.380649 * 1.76) - 1)) by (field; lra).
    rewrite Rabs_mult, (Rabs_right (s / x0)) by lra. replace (s / x0 / 5000) with (s / x0 * / 5000) by (field; lra). apply Rmult_le_compat_l; [lra|].
    apply Rabs_le. split; lra.
Qed.
