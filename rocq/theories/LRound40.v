(** * C143: attenuation curves and transmissions in rounded arithmetic *)
From Coq Require Import Reals List Arith Lra Lia ZArith Bool.
From Coquelicot Require Import Coquelicot.
From Flocq Require Import Core.Raux.
From Verif Require Import Num Arr MUtils MSed MDust Float Spec SpecFloat RList LUtils LFloat LFloat2 LFloat5 LFloat10 LRound1 LRound2 LRound3 LRound6 LRound12 LRound14 LRound15 LRound21 LRound22 LRound23 LRound24 LRound29 LRound35 LRound36 LRound37 LRound38 LRound39 LDust.
Import ListNotations.
Open Scope R_scope.

Section F.
Context {AR : Arith} (u : R) (H : rel_err AR u).
Notation G := (re_good _ _ H).

Lemma pow10_exp x : pow10 x = exp (x * ln 10). Proof. reflexivity. Qed.
(** the transmission before the floor *)
Lemma ftrans_err k av : rnd k = Fin k -> rnd av = Fin av -> 0 <= av <= 10 ^ 15 -> Rabs k <= 10 ^ 15 ->
  exists t, npow10 (lit (-0.4) * att_curve_from_k_lambda (Fin k) (Fin av))%num = Fin t /\ rnd t = Fin t /\ 0 <= t <= 1 /\ Rabs (t - pow10 (-0.4 * att k av)) <= 3.05 * u.
Proof.
  intros Rk Rav Bav Bk. destruct (expo_err u H k av Rk Rav Bav Bk) as (X & EX & RX & X0 & DX). rewrite EX.
  pose proof (u_le u H) as U. simpl (10 ^ 6) in U. pose proof (att_nonneg k av) as A0. set (Y := 0.4 * att k av) in *. assert (Y0 : 0 <= Y) by (unfold Y; lra).
  replace (-0.4 * att k av) with (- Y) by (unfold Y; lra). clearbody Y.
  assert (T20 : 0 < / 10 ^ 20 <= 0.0000000001) by (split; [apply Rinv_0_lt_compat, pow_lt; lra|simpl; lra]). set (tt := / 10 ^ 20) in *. clearbody tt.
  assert (P01 : 0 <= pow10 (- X) <= 1) by (split; [apply Rlt_le, pow10_pos|apply pow10_le_1; lra]).
  destruct (npow10_unit G (- X)) as (t & Et & Bt & Rt); [lra|]. exists t. split; auto. split; auto. split; auto.
  assert (Dt : Rabs (t - pow10 (- X)) <= 1.001 * 1 * u).
  { destruct (npow10_any u H (- X)) as (t' & Et' & _ & _ & Dt); [apply Rle_trans with 1; [lra|apply pow_R1_Rle; lra]|]. rewrite Et in Et'. injection Et' as <-.
    assert (u * pow10 (- X) <= u * 1) by (apply Rmult_le_compat_l; lra). destruct (tiny_u u H) as [_ T].
    assert (/ 10 ^ 27 <= 0.001) by (apply Rle_trans with (/ 10 ^ 3); [apply Rinv_le_contravar; [apply pow_lt; lra|apply Rle_pow; [lra|lia]]|simpl; lra]).
    assert (u * / 10 ^ 27 <= u * 0.001) by (apply Rmult_le_compat_l; lra). lra. }
  replace (t - pow10 (- Y)) with ((t - pow10 (- X)) + (pow10 (- X) - pow10 (- Y))) by ring. eapply Rle_trans; [apply Rabs_triang|].
  assert (D : Rabs (pow10 (- X) - pow10 (- Y)) <= 2 * u); [|lra].
  rewrite !pow10_exp. pose proof ln10_ge as L2. pose proof ln10_le as L5. set (L := ln 10) in *.
  assert (UY : u * (5.2 * Y + 10 * tt) <= 0.000002 * Y + tt). { apply Rle_trans with (0.00000025 * (5.2 * Y + 10 * tt)); [apply Rmult_le_compat_r; lra|lra]. }
  pose proof DX as DX'. apply Rabs_le_inv in DX'.
  (* both exponents are at most c *)
  set (c := (- (0.999 * Y) + tt) * L).
  assert (C1 : - X * L <= c) by (apply Rmult_le_compat_r; lra). assert (C2 : - Y * L <= c) by (apply Rmult_le_compat_r; lra).
  eapply Rle_trans; [apply (exp_diff_abs _ _ c C1 C2)|].
  replace (- X * L - - Y * L) with (- ((X - Y) * L)) by ring. rewrite Rabs_Ropp, Rabs_mult, (Rabs_right L) by lra.
  assert (EC : exp c <= 1.001 * exp (- (0.999 * (Y * L)))).
  { unfold c. replace ((- (0.999 * Y) + tt) * L) with (tt * L + - (0.999 * (Y * L))) by ring. rewrite exp_plus. apply Rmult_le_compat_r; [apply Rlt_le, exp_pos|].
    assert (TL : tt * L <= 0.0001) by (apply Rle_trans with (0.0000000001 * 2.5); [apply Rmult_le_compat; lra|lra]).
    pose proof (exp_ge1 (- (tt * L))) as E. rewrite exp_Ropp in E. pose proof (exp_pos (tt * L)) as EP. apply (Rmult_le_compat_r (exp (tt * L))) in E; [|lra]. rewrite Rinv_l in E by lra.
    assert (0 <= tt * L) by (apply Rmult_le_pos; lra). nra. }
  pose proof (t_exp (0.999 * (Y * L))) as TE. set (e := exp (- (0.999 * (Y * L)))) in *.
  assert (e1 : 0 < e <= 1). { split; [apply exp_pos|]. unfold e. rewrite <- exp_0. apply exp_mono. assert (0 <= Y * L) by (apply Rmult_le_pos; lra). lra. }
  apply Rle_trans with (u * (5.2 * Y + 10 * tt) * L * (1.001 * e)).
  { apply Rmult_le_compat; [apply Rmult_le_pos; [apply Rabs_pos|lra]|apply Rlt_le, exp_pos| |exact EC]. apply Rmult_le_compat_r; lra. }
  replace (u * (5.2 * Y + 10 * tt) * L * (1.001 * e)) with (u * (5.2 * 1.001 * (Y * L * e) + 10.01 * (tt * L * e))) by lra. rewrite (Rmult_comm 2 u). apply Rmult_le_compat_l; [lra|].
  assert (tt * L * e <= 0.0000000001 * 2.5 * 1) by (apply Rmult_le_compat; try lra; [apply Rmult_le_pos; lra|apply Rmult_le_compat; lra]). lra.
Qed.
Lemma trans_err k av f : rnd k = Fin k -> rnd av = Fin av -> rnd f = Fin f -> 0 <= av <= 10 ^ 15 -> Rabs k <= 10 ^ 15 -> 0 <= f <= 1 ->
  exists t, frac_transmission_from_k_lambda (Fin k) (Fin av) (Fin f) = Fin t /\ Rabs (t - trans k av f) <= 6.1 * u.
Proof.
  intros Rk Rav Rf Bav Bk Bf. destruct (ftrans_err k av Rk Rav Bav Bk) as (g & Eg & Rg & Bg & Dg). pose proof (u_le u H) as U. simpl (10 ^ 6) in U.
  unfold frac_transmission_from_k_lambda, trans. cbv zeta. rewrite Eg. pose proof (pow10_le_1 (-0.4 * att k av)) as P. pose proof (att_nonneg k av). specialize (P ltac:(lra)). set (p := pow10 (-0.4 * att k av)) in *. clearbody p.
  assert (N : near (AR := AR) u (Fin f + (Fin 1 - Fin f) * Fin g)%num (f + (1 - f) * p) 6.1 1).
  { assert (Np : near (AR := AR) u (Fin g) p 3.05 1). { exists g. split; auto. split; auto. split; auto. rewrite Rabs_right; lra. }
    assert (N1 : near (AR := AR) u (Fin 1 - Fin f)%num (1 - f) 1.001 1).
    { cbn [nsub nopp nadd]. replace (1 + - f) with (1 - f) by ring. apply (near_rnd u H) with (d := 0) (B := 1); try lra; try (simpl; lra).
      - rewrite Rminus_diag_eq, Rabs_R0 by reflexivity. lra. - rewrite Rabs_right; lra. }
    assert (N2 : near (AR := AR) u ((Fin 1 - Fin f) * Fin g)%num ((1 - f) * p) 5.06 1).
    { eapply (near_mul u H) with (B := 1.001); [exact N1|exact Np| | | | | | | |]; simpl (10 ^ _); lra. }
    destruct N2 as (m & Em & Rm & Dm & Bm). rewrite Em. cbn [nadd]. apply (near_rnd u H) with (d := 5.06) (B := 1.001); try lra; try (simpl; lra).
    - replace (f + m - (f + (1 - f) * p)) with (m - (1 - f) * p) by ring. exact Dm.
    - rewrite Rabs_right; nra. }
  destruct N as (t & Et & _ & Dt & _). exists t. auto.
Qed.
(** the exact transmission is Lipschitz in the curve *)
Lemma Rmax_lip a b : Rabs (Rmax 0 a - Rmax 0 b) <= Rabs (a - b).
Proof. unfold Rmax. destruct (Rle_dec 0 a), (Rle_dec 0 b); unfold Rabs; repeat destruct Rcase_abs; lra. Qed.
Lemma trans_lip k k0 av f : 0 <= av -> 0 <= f <= 1 -> Rabs (trans k av f - trans k0 av f) <= 0.25 * av * Rabs (k - k0).
Proof.
  intros Av F. unfold trans. replace (f + (1 - f) * pow10 (-0.4 * att k av) - (f + (1 - f) * pow10 (-0.4 * att k0 av))) with ((1 - f) * (pow10 (-0.4 * att k av) - pow10 (-0.4 * att k0 av))) by ring.
  rewrite Rabs_mult, (Rabs_right (1 - f)) by lra. rewrite !pow10_exp. pose proof ln10_ge as L2. pose proof ln10_le as L5. set (L := ln 10) in *. pose proof (att_nonneg k av) as A1. pose proof (att_nonneg k0 av) as A2.
  assert (E : Rabs (exp (-0.4 * att k av * L) - exp (-0.4 * att k0 av * L)) <= Rabs (-0.4 * att k av * L - -0.4 * att k0 av * L) * exp 0).
  { apply exp_diff_abs; [assert (0 <= att k av * L) by (apply Rmult_le_pos; lra)|assert (0 <= att k0 av * L) by (apply Rmult_le_pos; lra)]; lra. }
  rewrite exp_0, Rmult_1_r in E. replace (-0.4 * att k av * L - -0.4 * att k0 av * L) with (-0.4 * L * (att k av - att k0 av)) in E by ring. rewrite Rabs_mult, (Rabs_left (-0.4 * L)) in E by lra.
  pose proof (Rmax_lip (av * k / 4.05) (av * k0 / 4.05)) as M. replace (av * k / 4.05 - av * k0 / 4.05) with (av / 4.05 * (k - k0)) in M by lra. rewrite Rabs_mult, (Rabs_right (av / 4.05)) in M by lra.
  change (Rabs (att k av - att k0 av) <= av / 4.05 * Rabs (k - k0)) in M.
  set (dk := Rabs (k - k0)) in *. assert (dk0 : 0 <= dk) by apply Rabs_pos. set (da := Rabs (att k av - att k0 av)) in *. assert (da0 : 0 <= da) by apply Rabs_pos.
  assert (E2 : - (-0.4 * L) * da <= 1 * (av / 4.05 * dk)) by (apply Rmult_le_compat; lra).
  set (ee := Rabs (exp (-0.4 * att k av * L) - exp (-0.4 * att k0 av * L))) in *. assert (ee0 : 0 <= ee) by apply Rabs_pos. assert (0 <= av * dk) by (apply Rmult_le_pos; lra).
  assert ((1 - f) * ee <= 1 * ee) by (apply Rmult_le_compat_r; lra). lra.
Qed.
End F.

Lemma C143_transmission_lemma : forall AR u, accurate_to AR u -> forall k k0 av floor,
  machine_number k -> machine_number av -> machine_number floor -> Rabs k <= 10 ^ 15 -> 0 <= av <= 10 ^ 15 -> 0 <= floor <= 1 ->
  exists t t0, frac_transmission_from_k_lambda (AR := AR) (Fin k) (Fin av) (Fin floor) = Fin t
    /\ frac_transmission_from_k_lambda (AR := exact) (Fin k0) (Fin av) (Fin floor) = Fin t0
    /\ Rabs (t - t0) <= 6.1 * u + 0.25 * av * Rabs (k - k0).
Proof.
  intros AR u U k k0 av f Rk Rav Rf Bk Bav Bf. pose proof (rel_err_unit _ _ U) as H. destruct (trans_err u H k av f Rk Rav Rf Bav Bk Bf) as (t & Et & Dt).
  exists t, (trans k0 av f). split; auto. split; [apply trans_fin|]. pose proof (trans_lip k k0 av f ltac:(lra) Bf) as T. replace (t - trans k0 av f) with ((t - trans k av f) + (trans k av f - trans k0 av f)) by ring. eapply Rle_trans; [apply Rabs_triang|]. lra.
Qed.
