(** * Attenuation curves in rounded arithmetic: hybrid base curve, bump, power law *)
From Coq Require Import Reals List Arith Lra Lia ZArith Bool.
From Coquelicot Require Import Coquelicot.
From Flocq Require Import Core.Raux.
From Verif Require Import Num Arr MUtils MSed MDust Float Spec SpecFloat RList LUtils LFloat LFloat2 LFloat10 LRound1 LRound2 LRound3 LRound6 LRound14 LRound15 LRound21 LRound22 LRound23 LRound24 LRound35 LDust.
Import ListNotations.
Open Scope R_scope.

Section F.
Context {AR : Arith} (u : R) (H : rel_err AR u).
Notation G := (re_good _ _ H).
Notation lre := (lre u).
Notation npos := (npos (AR := AR) u).
Notation near := (near (AR := AR) u).

Section W.
Variable w : R.
Hypothesis Rw : rnd w = Fin w.
Hypothesis Bw : 0.09 <= w <= 10.
Let y := 1 / w.
Lemma c00a_err2 : 0.15 <= w -> near (lit 2.659 * (lit (-2.156) + lit 1.509 * (Fin 1 / Fin w) - lit 0.198 * (Fin 1 / Fin w) ^i 2 + lit 0.011 * (Fin 1 / Fin w) ^i 3) + RV_C00)%num (c00a y) 640 70.
Proof.
  intros W. assert (B1 : 0.1 <= y <= 6.7). { split; [apply (y_range w Bw)|]. unfold y. apply Rmult_le_reg_r with w; [lra|]. replace (1 / w * w) with 1 by (field; lra). lra. }
  assert (B2 : 0.01 <= y ^ 2 <= 44.9) by (simpl; split; nra).
  assert (B3 : 0.001 <= y ^ 3 <= 300.9) by (replace (y ^ 3) with (y * y ^ 2) by ring; split; [replace 0.001 with (0.1 * 0.01) by lra; apply Rmult_le_compat; lra|apply Rle_trans with (6.7 * 44.9); [apply Rmult_le_compat; lra|lra]]).
  destruct (term u H 1.509 1.02 _ y 6.7 10.12 (Y1 u H w Rw Bw)) as [_ T1]; try lra; try num.
  destruct (term u H 0.198 3.06 _ (y ^ 2) 44.9 8.9 (Y2 u H w Rw Bw)) as [_ T2]; try lra; try num.
  destruct (term u H 0.011 5.1 _ (y ^ 3) 300.9 3.32 (Y3 u H w Rw Bw)) as [_ T3]; try lra; try num.
  pose proof (near_lit u H (-2.156) 2.156) as T0. rewrite Rabs_left in T0 by lra. specialize (T0 ltac:(lra) ltac:(num)).
  pose proof (near_lit u H 2.659 2.659) as C1. rewrite Rabs_right in C1 by lra. specialize (C1 ltac:(lra) ltac:(num)).
  pose proof (near_lit u H 4.05 4.05) as C2. rewrite Rabs_right in C2 by lra. specialize (C2 ltac:(lra) ltac:(num)).
  unfold c00a.
  eapply (near_add u H) with (M := 65.2) (e := 563) (B := 70.1); [|exact C2| | | | | |]; try num.
  eapply (near_mul u H) with (M := 2.659) (N := 24.5) (f := 162) (B := 65.3); [exact C1| | | | | | | | |]; try num.
  eapply (near_add u H) with (M := 21.18) (e := 112.8) (B := 24.6); [|exact T3| | | | | |]; try num.
  eapply (near_sub u H) with (M := 12.28) (e := 45.6) (B := 21.2); [|exact T2| | | | | |]; try num.
  eapply (near_add u H) with (B := 12.3); [exact T0|exact T1| | | | | |]; try num.
Qed.
Lemma calz_err : rnd 0.63 <> Fin w -> near (calzetti00_k_lambda (Fin w)) (c00 w) 1900 200.
Proof.
  intros N. unfold calzetti00_k_lambda, c00. cbv zeta. destruct (lit_lt u H w 0.63 ltac:(rewrite Rabs_right; lra) Rw N) as (l & El & B1 & B2).
  rewrite El. cbn [nltb]. rewrite B1. unfold nwhere. rewrite Rlt_bool_dec. destruct (Rlt_dec w 0.63); [apply (c00a_err u H w Rw Bw)|apply (c00b_err u H w Rw Bw)].
Qed.
Lemma calz_err2 : rnd 0.63 <> Fin w -> 0.15 <= w -> near (calzetti00_k_lambda (Fin w)) (c00 w) 640 70.
Proof.
  intros N W. unfold calzetti00_k_lambda, c00. cbv zeta. destruct (lit_lt u H w 0.63 ltac:(rewrite Rabs_right; lra) Rw N) as (l & El & B1 & B2).
  rewrite El. cbn [nltb]. rewrite B1. unfold nwhere. rewrite Rlt_bool_dec. destruct (Rlt_dec w 0.63); [apply c00a_err2; lra|].
  assert (YR : 0.1 <= y <= 1.6). { split; [apply (y_range w Bw)|]. unfold y. apply Rmult_le_reg_r with w; [lra|]. replace (1 / w * w) with 1 by (field; lra). lra. }
  destruct (term u H 1.040 1.02 _ y 1.6 1.7 (Y1 u H w Rw Bw)) as [_ T1]; try lra; try num.
  pose proof (near_lit u H (-1.857) 1.857) as T0. rewrite Rabs_left in T0 by lra. specialize (T0 ltac:(lra) ltac:(num)).
  pose proof (near_lit u H 2.659 2.659) as C1. rewrite Rabs_right in C1 by lra. specialize (C1 ltac:(lra) ltac:(num)).
  pose proof (near_lit u H 4.05 4.05) as C2. rewrite Rabs_right in C2 by lra. specialize (C2 ltac:(lra) ltac:(num)).
  unfold c00b. fold y.
  eapply (near_add u H) with (M := 40) (e := 300) (B := 71); [|exact C2| | | | | |]; try num.
  eapply (near_mul u H) with (M := 2.659) (N := 15) (f := 62) (B := 45); [exact C1| | | | | | | | |]; try num.
  eapply (near_add u H) with (B := 15.1); [exact T0|exact T1| | | | | |]; try num.
Qed.
Lemma base_err : rnd 0.63 <> Fin w -> rnd 0.15 <> Fin w -> near (l02_below_c00_above (Fin w) (lit 0.15)) (l02c00 w) 640 70.
Proof.
  intros N1 N2. unfold l02_below_c00_above, l02c00. cbv zeta. destruct (lit_lt u H w 0.15 ltac:(rewrite Rabs_right; lra) Rw N2) as (l & El & B1 & B2).
  rewrite El. unfold ngtb. cbn [nltb]. rewrite B2. unfold nwhere. rewrite Rlt_bool_dec. destruct (Rlt_dec 0.15 w).
  - apply calz_err2; auto; lra.
  - apply (near_weaken u H _ _ 140 _ 25); [apply (l02_err u H w Rw Bw)|lra|lra].
Qed.

Lemma vb_err s : rnd s = Fin s -> Rabs s <= 5 -> npos 11.3 (power_law_vband_norm (Fin w) (Fin s) (lit 0.55)) (vband w s) /\ / 10 ^ 20 <= vband w s <= 10 ^ 20.
Proof.
  intros Rs Bs.
  assert (XR : 0.16 <= w / 0.55 <= 18.2) by lra.
  assert (LR : Rabs (ln (w / 0.55)) <= 3.06).
  { apply Rabs_le. split.
    - assert (0 <= ln (1 / (w / 0.55)) <= 3.06 \/ 0 <= ln (w / 0.55)) as [Q|Q].
      { destruct (Rle_dec 1 (w / 0.55)); [right; apply ln21; lra|left; apply ln21]. split.
        - apply Rmult_le_reg_r with (w / 0.55); [lra|]. replace (1 / (w / 0.55) * (w / 0.55)) with 1 by (field; lra). lra.
        - apply Rmult_le_reg_r with (w / 0.55); [lra|]. replace (1 / (w / 0.55) * (w / 0.55)) with 1 by (field; lra). lra. }
      + replace (1 / (w / 0.55)) with (/ (w / 0.55)) in Q by (field; lra). rewrite ln_Rinv in Q by lra. lra.
      + lra.
    - destruct (Rle_dec 1 (w / 0.55)); [apply ln21; lra|]. apply Rle_trans with (ln 1); [apply Rlt_le, ln_increasing; lra|rewrite ln_1; lra]. }
  assert (VR : / 10 ^ 20 <= vband w s <= 10 ^ 20).
  { unfold vband, Rpower. destruct e40 as [E1 E2]. assert (A : Rabs (s * ln (w / 0.55)) <= 5 * 3.06) by (rewrite Rabs_mult; apply Rmult_le_compat; try apply Rabs_pos; lra). apply Rabs_le_inv in A.
    split; [eapply Rle_trans; [exact E2|]|eapply Rle_trans; [|exact E1]]; apply exp_mono; lra. }
  split; auto. unfold power_law_vband_norm. cbv zeta.
  assert (N : npos 2.04 (Fin w / lit 0.55)%num (w / 0.55)).
  { apply (npos_weaken u H (0 + 1.02 + 1.02)); [|lra]. apply (npos_div u H); [apply npos_machine; auto; lra|apply (npos_lit u H); num|lra|num]. }
  apply (npos_weaken u H ((5 + 0 / (4 * 10 ^ 6)) * 2.04 + 0 * 3.06 + 1.02)); [|num].
  apply (npow_npos u H 2.04 0 3.06 5); auto; try num. now apply near_machine.
Qed.
End W.
End F.
