(** * Transmission in rounded arithmetic *)
From Coq Require Import Reals List Arith Lra Lia ZArith Bool.
From Coquelicot Require Import Coquelicot.
From Flocq Require Import Core.Raux.
From Verif Require Import Num Arr MUtils MSed MDust Float Spec SpecFloat RList LUtils LFloat LFloat2 LFloat10 LRound1 LRound2 LRound3 LRound6 LRound14 LRound15 LRound21 LRound22 LRound23 LRound24 LRound29 LRound35 LRound36 LRound37 LRound38 LDust.
Import ListNotations.
Open Scope R_scope.

Lemma exp_diff_le a b : a <= b -> 0 <= exp b - exp a <= (b - a) * exp b.
Proof.
  intros L. pose proof (exp_pos b). split; [apply exp_mono in L; lra|]. replace a with (b + - (b - a)) at 1 by ring. rewrite exp_plus. pose proof (exp_ge1 (- (b - a))). assert (exp b * (1 + - (b - a)) <= exp b * exp (- (b - a))) by (apply Rmult_le_compat_l; lra). lra.
Qed.
Lemma exp_diff_abs a b c : a <= c -> b <= c -> Rabs (exp a - exp b) <= Rabs (a - b) * exp c.
Proof.
  intros A B. assert (K : forall p q, p <= q -> q <= c -> Rabs (exp p - exp q) <= Rabs (p - q) * exp c).
  { intros p q L Q. destruct (exp_diff_le p q L) as [E1 E2]. rewrite !Rabs_left1 by lra. apply Rle_trans with ((q - p) * exp q); [lra|]. replace (- (p - q)) with (q - p) by ring. apply Rmult_le_compat_l; [lra|now apply exp_mono]. }
  destruct (Rle_dec a b) as [L|L]; [now apply K|]. rewrite Rabs_minus_sym, (Rabs_minus_sym a). apply K; lra.
Qed.
(** t exp(-t) is at most 1/e *)
Lemma t_exp t : t * exp (- t) <= 0.375.
Proof.
  pose proof (exp_ge1 (t - 1)) as E. assert (P : 0 < exp (- t)) by apply exp_pos.
  assert (X : t * exp (- t) <= exp (t - 1) * exp (- t)) by (apply Rmult_le_compat_r; lra). rewrite <- exp_plus in X. replace (t - 1 + - t) with (-(1)) in X by ring.
  rewrite (exp_Ropp 1) in X. pose proof (LImf.exp_ge_3 1 ltac:(lra)) as E3. assert (Q : / exp 1 <= 0.375). { apply Rmult_le_reg_r with (exp 1); [apply exp_pos|]. rewrite Rinv_l by lra. lra. } lra.
Qed.

Section F.
Context {AR : Arith} (u : R) (H : rel_err AR u).
Notation G := (re_good _ _ H).
Notation lre := (lre u).
Notation npos := (npos (AR := AR) u).
Notation near := (near (AR := AR) u).

Lemma rnd_rel x : 0 <= x <= 10 ^ 37 -> exists y, rnd x = Fin y /\ rnd y = Fin y /\ 0 <= y /\ Rabs (y - x) <= u * x + u * / 10 ^ 27.
Proof.
  intros X. destruct (rnd_range _ G x) as (y & E). { rewrite Rabs_right by lra. apply Rle_trans with (10 ^ 37); [lra|simpl; lra]. }
  exists y. split; auto. split; [eapply (rnd_idem _ G); eauto|]. pose proof (re_any _ _ H _ _ E) as A. rewrite (Rabs_right x) in A by lra. pose proof (tiny_u u H) as T. split; [|lra].
  pose proof (rnd_mono _ G 0 x ltac:(lra)) as Q. rewrite (rnd0 G), E in Q. now apply nle_fin in Q.
Qed.
(** the exponent 0.4 A *)
Lemma expo_err k av : rnd k = Fin k -> rnd av = Fin av -> 0 <= av <= 10 ^ 15 -> Rabs k <= 10 ^ 15 ->
  exists X, (lit (-0.4) * att_curve_from_k_lambda (Fin k) (Fin av))%num = Fin (- X) /\ rnd X = Fin X /\ 0 <= X /\ Rabs (X - 0.4 * att k av) <= u * (5.2 * (0.4 * att k av) + 10 * / 10 ^ 20).
Proof.
  intros Rk Rav Bav Bk. pose proof (u_le u H) as U. simpl (10 ^ 6) in U. assert (T20 : 0 < / 10 ^ 20) by (apply Rinv_0_lt_compat, pow_lt; lra).
  destruct (rnd_rel 4.05) as (r & Er & Rr & r0 & Dr); [simpl; lra|]. destruct (rnd_rel 0.4) as (c & Ec & Rc & c0 & Dc); [simpl; lra|].
  assert (T27 : / 10 ^ 27 = / 10 ^ 7 * / 10 ^ 20) by (rewrite <- Rinv_mult, <- pow_add; reflexivity). simpl (10 ^ 7) in T27. set (tt := / 10 ^ 20) in *. assert (tt1 : tt <= 0.0000000001) by (unfold tt; simpl; lra). clearbody tt.
  assert (EM : lit (-0.4) = Fin (- c)) by (unfold lit; replace (-0.4)%R with (Ropp 0.4) by lra; rewrite (rnd_opp _ G), Ec; reflexivity).
  assert (Dr' : Rabs (r - 4.05) <= 4.06 * u). { eapply Rle_trans; [exact Dr|]. rewrite T27. assert (u * (/ (10 * (10 * (10 * (10 * (10 * (10 * (10 * 1))))))) * tt) <= u * 0.01) by (apply Rmult_le_compat_l; lra). lra. }
  assert (Dc' : Rabs (c - 0.4) <= 0.41 * u). { eapply Rle_trans; [exact Dc|]. rewrite T27. assert (u * (/ (10 * (10 * (10 * (10 * (10 * (10 * (10 * 1))))))) * tt) <= u * 0.01) by (apply Rmult_le_compat_l; lra). lra. }
  apply Rabs_le_inv in Dr'. apply Rabs_le_inv in Dc'.
  unfold att_curve_from_k_lambda, RV_C00. cbv zeta. assert (EL : lit 4.05 = Fin r) by exact Er. rewrite ?EL, EM. cbn [nmul].
  destruct (Rle_or_lt (av * k) 0) as [N|N].
  - (* no attenuation *)
    assert (A0 : att k av = 0). { unfold att. apply Rmax_left. unfold Rdiv. assert (0 < / 4.05) by lra. assert (av * k * / 4.05 <= 0 * / 4.05) by (apply Rmult_le_compat_r; lra). lra. }
    destruct (rnd_range _ G (av * k)) as (p & Ep). { rewrite Rabs_mult, (Rabs_right av) by lra. apply Rle_trans with (10 ^ 15 * 10 ^ 15); [apply Rmult_le_compat; try lra; apply Rabs_pos|simpl; lra]. }
    rewrite Ep. assert (p0 : p <= 0) by (pose proof (rnd_mono _ G _ _ N) as Q; rewrite (rnd0 G), Ep in Q; now apply nle_fin in Q).
    cbn [ndiv]. rewrite Req_bool_false by lra.
    assert (PB : Rabs p <= 10 ^ 31). { pose proof (re_any _ _ H _ _ Ep) as A. replace p with ((p - av * k) + av * k) by ring. eapply Rle_trans; [apply Rabs_triang|]. assert (Rabs (av * k) <= 10 ^ 15 * 10 ^ 15) by (rewrite Rabs_mult, (Rabs_right av) by lra; apply Rmult_le_compat; try lra; apply Rabs_pos). assert (u * Rabs (av * k) <= 0.00000025 * Rabs (av * k)) by (apply Rmult_le_compat_r; [apply Rabs_pos|lra]). pose proof (tiny_u u H) as TU. assert ((u * / 2 ^ 102) <= 1) by (assert (u * / 10 ^ 27 <= u * 1) by (apply Rmult_le_compat_l; [lra|simpl; lra]); lra). simpl (10 ^ _) in *. lra. }
    assert (Pr : p / r <= 0). { unfold Rdiv. assert (0 < / r) by (apply Rinv_0_lt_compat; lra). assert (p * / r <= 0 * / r) by (apply Rmult_le_compat_r; lra). lra. }
    destruct (rnd_range _ G (p / r)) as (q & Eq). { unfold Rdiv. rewrite Rabs_mult, (Rabs_right (/ r)) by (apply Rle_ge, Rlt_le, Rinv_0_lt_compat; lra). apply Rle_trans with (10 ^ 31 * 1); [apply Rmult_le_compat; try lra; [apply Rabs_pos|apply Rlt_le, Rinv_0_lt_compat; lra|]|simpl; lra]. rewrite <- Rinv_1. apply Rinv_le_contravar; lra. }
    rewrite Eq. assert (q0 : q <= 0) by (pose proof (rnd_mono _ G _ _ Pr) as Q; rewrite (rnd0 G), Eq in Q; now apply nle_fin in Q).
    exists 0. rewrite A0. assert (C : nwhere (Fin q <? Fin 0)%num (Fin 0) (Fin q) = Fin 0). { unfold nwhere, nltb. case Rlt_bool_spec; auto. intros. f_equal. lra. }
    rewrite C. cbn [nmul].
    split; [|split; [apply (rnd0 G)|split; [lra|]]].
    + replace (- c * 0) with 0 by ring. rewrite (rnd0 G). f_equal. ring.
    + rewrite Rmult_0_r, Rminus_0_r, Rabs_R0. apply Rmult_le_pos; lra.
  - (* attenuation *)
    assert (A0 : att k av = av * k / 4.05). { unfold att. apply Rmax_right. apply Rlt_le, Rdiv_lt_0_compat; lra. }
    assert (AB : av * k <= 10 ^ 30). { eapply Rle_trans; [apply Rle_abs|]. rewrite Rabs_mult, (Rabs_right av) by lra. apply Rle_trans with (10 ^ 15 * 10 ^ 15); [apply Rmult_le_compat; try lra; apply Rabs_pos|simpl; lra]. }
    set (m := av * k) in *. clearbody m.
    destruct (rnd_rel m) as (p & Ep & Rp & p0 & Dp). { simpl (10 ^ _) in *. lra. } rewrite Ep. cbn [ndiv]. rewrite Req_bool_false by lra.
    apply Rabs_le_inv in Dp. rewrite T27 in Dp. simpl (10 ^ 30) in AB. assert (um : 0 <= u * m <= 0.00000025 * m) by (split; [apply Rmult_le_pos; lra|apply Rmult_le_compat_r; lra]).
    assert (ut : 0 <= u * tt <= 0.00000025 * tt) by (split; [apply Rmult_le_pos; lra|apply Rmult_le_compat_r; lra]).
    assert (Pb : p <= 1.001 * m + tt) by lra.
    assert (IR : 0.24 <= / r <= 0.25). { split; [replace 0.24 with (/ (1/0.24)) by lra; apply Rinv_le_contravar; lra|replace 0.25 with (/ 4) by lra; apply Rinv_le_contravar; lra]. }
    assert (IRd : Rabs (/ r - / 4.05) <= 0.252 * u). { replace (/ r - / 4.05) with ((4.05 - r) * (/ r * / 4.05)) by (field; lra). rewrite Rabs_mult. assert (Rabs (4.05 - r) <= 4.06 * u) by (apply Rabs_le; lra). rewrite (Rabs_right (/ r * / 4.05)) by (apply Rle_ge, Rmult_le_pos; lra).
      apply Rle_trans with (4.06 * u * (0.25 * / 4.05)); [apply Rmult_le_compat; [apply Rabs_pos|apply Rmult_le_pos; lra|lra|apply Rmult_le_compat_r; lra]|]. lra. }
    apply Rabs_le_inv in IRd.
    assert (PR : 0 <= p / r <= 0.2503 * m + tt). { unfold Rdiv. split; [apply Rmult_le_pos; lra|]. apply Rle_trans with (p * 0.25); [apply Rmult_le_compat_l; lra|lra]. }
    destruct (rnd_rel (p / r)) as (q & Eq & Rq & q0 & Dq). { simpl (10 ^ _). lra. } rewrite Eq.
    assert (C : nwhere (Fin q <? Fin 0)%num (Fin 0) (Fin q) = Fin q). { unfold nwhere, nltb. rewrite Rlt_bool_false by lra. auto. } rewrite C. cbn [nmul].
    apply Rabs_le_inv in Dq. rewrite T27 in Dq.
    assert (D1 : Rabs (p / r - m / 4.05) <= 0.503 * (u * m) + u * tt). { unfold Rdiv. replace (p * / r - m * / 4.05) with ((p - m) * / r + m * (/ r - / 4.05)) by ring. eapply Rle_trans; [apply Rabs_triang|]. rewrite !Rabs_mult, (Rabs_right (/ r)), (Rabs_right m) by lra.
      assert (Rabs (p - m) * / r <= (u * m + u * (0.00000025 * tt)) * 0.25) by (apply Rmult_le_compat; try lra; [apply Rabs_pos|apply Rabs_le; lra]).
      assert (m * Rabs (/ r - / 4.05) <= m * (0.252 * u)) by (apply Rmult_le_compat_l; [lra|apply Rabs_le; lra]). lra. }
    assert (D2 : Rabs (q - m / 4.05) <= 0.7534 * (u * m) + 3 * (u * tt)). { replace (q - m / 4.05) with ((q - p / r) + (p / r - m / 4.05)) by ring. eapply Rle_trans; [apply Rabs_triang|].
      assert (UP : u * (p / r) <= 0.2503 * (u * m) + u * tt). { apply Rle_trans with (u * (0.2503 * m + tt)); [apply Rmult_le_compat_l; lra|lra]. }
      assert (Rabs (q - p / r) <= u * (p / r) + u * (0.00000025 * tt)) by (apply Rabs_le; lra). lra. }
    apply Rabs_le_inv in D2.
    assert (Qb : 0 <= q <= 0.2471 * m + 4 * tt) by lra.
    assert (CQ : 0 <= c * q) by (apply Rmult_le_pos; lra).
    assert (CQb : c * q <= 0.099 * m + 2 * tt). { apply Rle_trans with (0.4001 * (0.2471 * m + 4 * tt)); [apply Rmult_le_compat; lra|lra]. }
    assert (D3 : Rabs (c * q - 0.4 * (m / 4.05)) <= 0.403 * (u * m) + 3 * (u * tt)). { replace (c * q - 0.4 * (m / 4.05)) with ((c - 0.4) * q + 0.4 * (q - m / 4.05)) by ring. eapply Rle_trans; [apply Rabs_triang|]. rewrite !Rabs_mult, (Rabs_right q), (Rabs_right 0.4) by lra.
      assert (Rabs (c - 0.4) * q <= 0.41 * u * (0.2471 * m + 4 * tt)) by (apply Rmult_le_compat; [apply Rabs_pos|lra|apply Rabs_le; lra|lra]).
      assert (Rabs (q - m / 4.05) <= 0.7534 * (u * m) + 3 * (u * tt)) by (apply Rabs_le; lra). lra. }
    destruct (rnd_rel (c * q)) as (X & EX & RX & X0 & DX). { simpl (10 ^ _). lra. }
    exists X. split; [|split; [exact RX|split; [exact X0|]]].
    + replace (- c * q) with (- (c * q)) by ring. rewrite (rnd_opp _ G), EX. reflexivity.
    + rewrite A0. replace (X - 0.4 * (m / 4.05)) with ((X - c * q) + (c * q - 0.4 * (m / 4.05))) by ring. eapply Rle_trans; [apply Rabs_triang|].
      assert (u * (c * q) <= 0.099 * (u * m) + 2 * (u * tt)) by (apply Rle_trans with (u * (0.099 * m + 2 * tt)); [apply Rmult_le_compat_l; lra|lra]).
      rewrite T27 in DX. lra.
Qed.
End F.
