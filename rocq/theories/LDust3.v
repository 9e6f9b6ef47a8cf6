(** * Dust: the published curves and the default UV bump *)
From Coq Require Import Reals List Arith Lra Lia Bool.
From Coquelicot Require Import Coquelicot.
From Flocq Require Import Core.Raux.
From Verif Require Import Num Arr MUtils MDust Spec RList LUtils LCalc LKern LKern2 LBurst LDust.
Import ListNotations.
Open Scope R_scope.

Lemma C137_curves_lemma : exists k_c00 k_l02 : R -> R,
  (forall w, 0 < w < 0.63 -> k_c00 w = 2.659 * (-2.156 + 1.509 / w - 0.198 / w ^ 2 + 0.011 / w ^ 3) + 4.05)
  /\ (forall w, 0.63 <= w -> k_c00 w = 2.659 * (-1.857 + 1.040 / w) + 4.05)
  /\ (forall w, 0 < w -> k_l02 w = 5.472 + 0.671 / w - 0.009218 / w ^ 2 + 0.002620 / w ^ 3)
  /\ (forall w, 0 < w -> calzetti00_k_lambda (Fin w) = Fin (k_c00 w) /\ leitherer02_k_lambda (Fin w) = Fin (k_l02 w))
  /\ (forall w av, 0 < w -> calzetti00_att_curve (Fin w) (Fin av) = Fin (Rmax 0 (av * k_c00 w / 4.05))
        /\ leitherer02_att_curve (Fin w) (Fin av) = Fin (Rmax 0 (av * k_l02 w / 4.05)))
  /\ (forall w a s x0 g, 0 < w -> g <> 0 ->
        let base := if Rlt_dec 0.15 w then k_c00 w else k_l02 w in
        let tilt := Rpower (w / 0.55) s in
        let bump := a * (w * g) ^ 2 / ((w ^ 2 - x0 ^ 2) ^ 2 + (w * g) ^ 2) in
        noll09_k_lambda (Fin w) (Fin a) (Fin s) (Fin x0) (Fin g) = Fin (Rmax 0 ((base + bump) * tilt))
        /\ sbl18_k_lambda (Fin w) (Fin a) (Fin s) (Fin x0) (Fin g) = Fin (Rmax 0 (base * tilt + bump))
        /\ forall av, noll09_k_att_curve (Fin w) (Fin av) (Fin a) (Fin s) (Fin x0) (Fin g) = Fin (Rmax 0 (av * Rmax 0 ((base + bump) * tilt) / 4.05))
             /\ sbl18_k_att_curve (Fin w) (Fin av) (Fin a) (Fin s) (Fin x0) (Fin g) = Fin (Rmax 0 (av * Rmax 0 (base * tilt + bump) / 4.05))).
Proof.
  exists c00, (fun w => l02 (1 / w)). 
  assert (D : forall w a x0 g, 0 < w -> g <> 0 -> drude w x0 g a = a * (w * g) ^ 2 / ((w ^ 2 - x0 ^ 2) ^ 2 + (w * g) ^ 2)).
  { intros w a x0 g Hw Hg. unfold drude, Rdiv. rewrite Rpow_mult_distr. ring. }
  split; [intros w Hw; unfold c00; destruct (Rlt_dec w 0.63); [|lra]; unfold c00a, Rdiv; rewrite !Rmult_1_l, !pow_inv; ring|].
  split; [intros w Hw; unfold c00; destruct (Rlt_dec w 0.63); [lra|]; unfold c00b, Rdiv; rewrite !Rmult_1_l; ring|].
  split; [intros w Hw; unfold l02, Rdiv; rewrite !Rmult_1_l, !pow_inv; lra|].
  split; [intros w Hw; split; [apply calzetti_fin|apply leitherer_fin]; lra|].
  split; [intros w av Hw; unfold calzetti00_att_curve, leitherer02_att_curve; rewrite calzetti_fin, leitherer_fin, !att_fin by lra; unfold att; auto|].
  intros w a s x0 g Hw Hg base tilt bump. unfold base, tilt, bump.
  assert (N : noll09_k_lambda (Fin w) (Fin a) (Fin s) (Fin x0) (Fin g) = Fin (Rmax 0 (((if Rlt_dec 0.15 w then c00 w else l02 (1 / w)) + a * (w * g) ^ 2 / ((w ^ 2 - x0 ^ 2) ^ 2 + (w * g) ^ 2)) * Rpower (w / 0.55) s))).
  { rewrite noll_fin by auto. unfold noll. rewrite D by auto. reflexivity. }
  assert (S : sbl18_k_lambda (Fin w) (Fin a) (Fin s) (Fin x0) (Fin g) = Fin (Rmax 0 ((if Rlt_dec 0.15 w then c00 w else l02 (1 / w)) * Rpower (w / 0.55) s + a * (w * g) ^ 2 / ((w ^ 2 - x0 ^ 2) ^ 2 + (w * g) ^ 2)))).
  { rewrite sbl_fin by auto. unfold sbl. rewrite D by auto. reflexivity. }
  split; [exact N|]. split; [exact S|]. intros av. unfold noll09_k_att_curve, sbl18_k_att_curve. rewrite N, S, !att_fin. unfold att. auto.
Qed.
Lemma base_pos w : 0 < w <= 3.1 -> 0 < l02c00 w.
Proof.
  intros Hw. unfold l02c00. destruct (Rlt_dec 0.15 w).
  - destruct C44_lemma as (k & E & _ & _ & _ & P). pose proof (E w ltac:(lra)) as E1. rewrite calzetti_fin in E1 by lra. injection E1 as ->. apply P; lra.
  - assert (Y : 0 < 1 / w) by (apply Rdiv_lt_0_compat; lra). set (y := 1 / w) in *. unfold l02.
    assert (0 < y * (0.671 - 0.009218 * y + 0.002620 * y ^ 2)). { apply Rmult_lt_0_compat; auto. pose proof (pow2_ge_0 (y - 1.76)). lra. } nra.
Qed.
(** the default bump: what raising its amplitude from [0] to [a] adds *)
Lemma C137_bump_lemma : exists bump : R -> R,
  (forall w, bump w = (0.0350 * w) ^ 2 / ((w ^ 2 - 0.2175 ^ 2) ^ 2 + (0.0350 * w) ^ 2))
  /\ bump 0.2175 = 1 /\ (forall w, 0 < w -> w <> 0.2175 -> 0 < bump w < 1)
  /\ (forall w, 0 < w -> bump w = 1 / 2 <-> w ^ 2 - 0.2175 ^ 2 = 0.0350 * w \/ 0.2175 ^ 2 - w ^ 2 = 0.0350 * w)
  /\ forall w a s, 0 < w <= 3.1 -> 0 <= a -> exists n n0 b b0,
       noll09_k_lambda (Fin w) (Fin a) (Fin s) UV_BUMP_W0 UV_BUMP_DW = Fin n /\ noll09_k_lambda (Fin w) (Fin 0) (Fin s) UV_BUMP_W0 UV_BUMP_DW = Fin n0
       /\ sbl18_k_lambda (Fin w) (Fin a) (Fin s) UV_BUMP_W0 UV_BUMP_DW = Fin b /\ sbl18_k_lambda (Fin w) (Fin 0) (Fin s) UV_BUMP_W0 UV_BUMP_DW = Fin b0
       /\ n0 = b0 /\ 0 < b0 /\ b - b0 = a * bump w /\ n - n0 = a * bump w * Rpower (w / 0.55) s.
Proof.
  exists (fun w => (0.0350 * w) ^ 2 / ((w ^ 2 - 0.2175 ^ 2) ^ 2 + (0.0350 * w) ^ 2)).
  assert (DP : forall w, 0 < w -> 0 < (w ^ 2 - 0.2175 ^ 2) ^ 2 + (0.0350 * w) ^ 2).
  { intros w Hw. pose proof (pow2_ge_0 (w ^ 2 - 0.2175 ^ 2)). assert (0 < (0.0350 * w) ^ 2) by (apply pow_lt; lra). lra. }
  split; [auto|]. split; [|split; [|split]].
  - replace (0.2175 ^ 2 - 0.2175 ^ 2) with 0 by ring. replace (0 ^ 2) with 0 by ring. rewrite Rplus_0_l. apply Rinv_r. apply pow_nonzero. lra.
  - intros w Hw N. pose proof (DP w Hw) as P. assert (Q : 0 < (0.0350 * w) ^ 2) by (apply pow_lt; lra). split; [apply Rdiv_lt_0_compat; auto|].
    assert (w ^ 2 - 0.2175 ^ 2 <> 0). { intros Z. assert (Z' : (w - 0.2175) * (w + 0.2175) = 0) by (rewrite <- Z; ring). apply Rmult_integral in Z'. destruct Z'; lra. }
    pose proof (pow2_gt_0 _ H) as G. apply Rmult_lt_reg_r with ((w ^ 2 - 0.2175 ^ 2) ^ 2 + (0.0350 * w) ^ 2); auto. unfold Rdiv. rewrite Rmult_assoc, Rinv_l by lra. lra.
  - intros w Hw. pose proof (DP w Hw) as P. set (p := w ^ 2 - 0.2175 ^ 2) in *. set (q := 0.0350 * w) in *. split.
    + intros E. assert (E2 : q ^ 2 = p ^ 2). { assert (E3 : q ^ 2 / (p ^ 2 + q ^ 2) * (p ^ 2 + q ^ 2) = 1 / 2 * (p ^ 2 + q ^ 2)) by now rewrite E. unfold Rdiv in E3 at 1. rewrite Rmult_assoc, Rinv_l in E3 by lra. lra. }
      assert (Z : (p - q) * (p + q) = 0) by (ring_simplify; rewrite E2; ring). apply Rmult_integral in Z. unfold p in *. destruct Z; [left|right]; lra.
    + intros H. assert (E2 : p ^ 2 = q ^ 2). { destruct H as [H|H]; [now rewrite H|]. replace q with (- p) by (unfold p in *; lra). ring. } rewrite E2 in *. apply Rmult_eq_reg_r with (q ^ 2 + q ^ 2); [|lra]. unfold Rdiv. rewrite Rmult_assoc, Rinv_l by lra. lra.
  - intros w a s Hw Ha. pose proof (base_pos w Hw) as BP. unfold UV_BUMP_W0, UV_BUMP_DW. unlit.
    exists (noll w a s 0.2175 0.0350), (noll w 0 s 0.2175 0.0350), (sbl w a s 0.2175 0.0350), (sbl w 0 s 0.2175 0.0350).
    rewrite !noll_fin, !sbl_fin by lra. split; auto. split; auto. split; auto. split; auto.
    assert (V : 0 < vband w s) by apply exp_pos. assert (D : forall a, drude w 0.2175 0.0350 a = a * ((0.0350 * w) ^ 2 / ((w ^ 2 - 0.2175 ^ 2) ^ 2 + (0.0350 * w) ^ 2))).
    { intros b. unfold drude. rewrite Rpow_mult_distr. rewrite (Rmult_comm (0.0350 ^ 2)). reflexivity. }
    assert (PB : 0 < (0.0350 * w) ^ 2 / ((w ^ 2 - 0.2175 ^ 2) ^ 2 + (0.0350 * w) ^ 2)) by (apply Rdiv_lt_0_compat; [apply pow_lt; lra|apply DP; lra]).
    unfold noll, sbl. rewrite !D. change (Rpower (w / 0.55) s) with (vband w s). set (bp := (0.0350 * w) ^ 2 / _) in *. set (k := l02c00 w) in *. set (v := vband w s) in *. clearbody bp k v.
    assert (0 < k * v) by now apply Rmult_lt_0_compat. assert (0 <= a * bp) by (apply Rmult_le_pos; lra). assert (0 <= a * bp * v) by (apply Rmult_le_pos; lra).
    rewrite !Rmax_right by nra. split; [ring|]. split; [lra|]. split; ring.
Qed.
