(** * Dependence of the cosmological quantities on the cosmological parameters (property C149) *)
From Coq Require Import Reals List Arith Lra Lia.
From Coquelicot Require Import Coquelicot.
From Flocq Require Import Core.Raux.
From Verif Require Import Num Arr MUtils MCosmo Spec SpecPar RList LUtils LKern LKern2 LCosmo.
Import ListNotations.
Open Scope R_scope.

Lemma trapezoid_lt xs : forall ys zs, length xs = length ys -> length xs = length zs -> (2 <= length xs)%nat ->
  increasing xs -> (forall i, (i < length xs)%nat -> ent ys i <= ent zs i) ->
  ent ys (length xs - 1) < ent zs (length xs - 1) -> trapezoid xs ys < trapezoid xs zs.
Proof.
  induction xs as [|x xs IH]; intros [|y ys] [|z zs] H1 H2 L I H HL; try (simpl in *; lia).
  destruct xs as [|x1 xs], ys as [|y1 ys], zs as [|z1 zs]; try (simpl in *; lia).
  rewrite !trapezoid_cons2.
  pose proof (I 0%nat 1%nat ltac:(simpl; lia)) as I0. unfold ent in I0; simpl in I0.
  pose proof (H 0%nat ltac:(simpl; lia)) as Z0. pose proof (H 1%nat ltac:(simpl; lia)) as Z1.
  unfold ent in Z0, Z1; simpl in Z0, Z1.
  destruct xs as [|x2 xs].
  - destruct ys; [|discriminate]. destruct zs; [|discriminate]. unfold ent in HL; simpl in HL. simpl. nra.
  - assert (trapezoid (x1 :: x2 :: xs) (y1 :: ys) < trapezoid (x1 :: x2 :: xs) (z1 :: zs)); [|nra].
    apply IH; [simpl in *; lia|simpl in *; lia|simpl; lia|eapply increasing_tl; eauto| |].
    + intros i Hi. specialize (H (S i) ltac:(simpl in *; lia)). now rewrite !ent_cons_S in H.
    + replace (length (x :: x1 :: x2 :: xs) - 1)%nat with (S (length (x1 :: x2 :: xs) - 1)) in HL by (simpl; lia).
      now rewrite !ent_cons_S in HL.
Qed.
Lemma quad_lt n f g z : (2 <= n)%nat -> 0 < z -> f 0 <= g 0 -> (forall x, 0 < x <= z -> f x < g x) ->
  quad n f z < quad n g z.
Proof.
  intros Hn Hz H0 H. unfold quad.
  apply trapezoid_lt; try (now rewrite map_length); try (now rewrite grid_length); [now apply grid_increasing| |].
  - intros i Hi. rewrite !ent_map by auto. rewrite grid_length in Hi.
    pose proof (grid_range n z i Hn Hi ltac:(lra)) as [Ra Rb]. destruct Ra as [Ra|Ra].
    + left. apply H; lra.
    + now rewrite <- Ra.
  - rewrite grid_length, !ent_map by (rewrite grid_length; lia). rewrite grid_last by auto. apply H; lra.
Qed.

(** ** dark energy *)
Lemma ln_ge z : 0 < z -> z / (1 + z) < ln (1 + z).
Proof.
  intros H. assert (E : ln (1 + z) = - ln (1 / (1 + z))).
  { unfold Rdiv. rewrite Rmult_1_l, ln_Rinv by lra. ring. }
  rewrite E. assert (X : ln (1 / (1 + z)) < 1 / (1 + z) - 1).
  { assert (P : 0 < 1 / (1 + z)) by (apply Rdiv_lt_0_compat; lra).
    assert (NE : ln (1 / (1 + z)) <> 0).
    { rewrite <- ln_1. intros K. apply ln_inv in K; try lra. apply (Rmult_eq_compat_r (1 + z)) in K.
      unfold Rdiv in K. rewrite Rmult_assoc, Rinv_l in K; lra. }
    pose proof (exp_ineq1 _ NE) as X. rewrite exp_ln in X by auto. lra. }
  assert (z / (1 + z) = 1 - 1 / (1 + z)) by (field; lra). lra.
Qed.
Lemma de_exp w a z : -1 < z ->
  dark_energy w a z = exp (3 * (1 + w) * ln (1 + z) + 3 * a * (ln (1 + z) - z / (1 + z))).
Proof.
  intros H. unfold dark_energy, Rpower. rewrite <- exp_plus. f_equal. field. lra.
Qed.
Lemma de_lt w a w' a' z : 0 < z -> w <= w' -> a <= a' -> (w <> w' \/ a <> a') -> dark_energy w a z < dark_energy w' a' z.
Proof.
  intros H Hw Ha NE. rewrite !de_exp by lra. apply exp_increasing. pose proof (ln_ge z H) as L.
  assert (Q : 0 < z / (1 + z)) by (apply Rdiv_lt_0_compat; lra).
  set (q := z / (1 + z)) in *. set (l := ln (1 + z)) in *. clearbody q l.
  assert (A1 : 0 <= (w' - w) * l) by (apply Rmult_le_pos; lra).
  assert (A2 : 0 <= (a' - a) * (l - q)) by (apply Rmult_le_pos; lra).
  assert (0 < (w' - w) * l \/ 0 < (a' - a) * (l - q)); [|lra].
  destruct NE as [NE|NE]; [left|right]; apply Rmult_lt_0_compat; lra.
Qed.
Lemma de_le w a w' a' z : 0 <= z -> w <= w' -> a <= a' -> dark_energy w a z <= dark_energy w' a' z.
Proof.
  intros [H|<-] Hw Ha.
  - destruct (Req_dec w w') as [->|N1]; [destruct (Req_dec a a') as [->|N2]; [lra|]|]; left; apply de_lt; auto.
  - rewrite !de_exp by lra. rewrite Rplus_0_r, ln_1. right. f_equal. lra.
Qed.
Lemma cube_exp z : -1 < z -> (1 + z) ^ 3 = exp (3 * ln (1 + z)).
Proof.
  intros H. replace (3 * ln (1 + z)) with (ln (1 + z) + ln (1 + z) + ln (1 + z)) by ring.
  rewrite !exp_plus, exp_ln by lra. ring.
Qed.
Lemma de_lt_matter w a z : 0 < z -> w < 0 -> w + a <= 0 -> dark_energy w a z < (1 + z) ^ 3.
Proof.
  intros H Hw Ha. rewrite de_exp, cube_exp by lra. apply exp_increasing. pose proof (ln_ge z H) as L.
  assert (Q : 0 < z / (1 + z)) by (apply Rdiv_lt_0_compat; lra).
  set (q := z / (1 + z)) in *. set (l := ln (1 + z)) in *. clearbody q l.
  assert (0 <= - (w + a) * (l - q)) by (apply Rmult_le_pos; lra).
  assert (0 < - w * q) by (apply Rmult_lt_0_compat; lra). lra.
Qed.
Lemma de_gt_matter w a z : 0 < z -> 0 < w -> 0 <= w + a -> (1 + z) ^ 3 < dark_energy w a z.
Proof.
  intros H Hw Ha. rewrite de_exp, cube_exp by lra. apply exp_increasing. pose proof (ln_ge z H) as L.
  assert (Q : 0 < z / (1 + z)) by (apply Rdiv_lt_0_compat; lra).
  set (q := z / (1 + z)) in *. set (l := ln (1 + z)) in *. clearbody q l.
  assert (0 <= (w + a) * (l - q)) by (apply Rmult_le_pos; lra).
  assert (0 < w * q) by (apply Rmult_lt_0_compat; lra). lra.
Qed.

(** ** expansion rate *)
Definition faster Om w a Om' w' a' : Prop :=
  0 < Om <= 1 /\ 0 < Om' <= 1 /\ forall z, 0 < z -> expansion Om w a z < expansion Om' w' a' z.
Lemma heavier_faster Om w a Om' w' a' : heavier (Om, w, a) (Om', w', a') -> faster Om w a Om' w' a'.
Proof.
  intros (HO & HO1 & HOO & Hw & Ha & NE & HM). split; [lra|]. split; [lra|]. intros z Hz.
  assert (C : 0 < (1 + z) ^ 3) by (apply pow_lt; lra).
  unfold expansion. apply sqrt_lt_1; [|pose proof (E2_pos Om' w' a' z ltac:(lra) ltac:(lra)); lra|].
  { pose proof (E2_pos Om w a z ltac:(lra) ltac:(lra)); lra. }
  pose proof (de_le w a w' a' z ltac:(lra) Hw Ha) as D.
  set (c := (1 + z) ^ 3) in *. set (d := dark_energy w a z) in *. set (d' := dark_energy w' a' z) in *.
  assert (A1 : 0 <= (1 - Om) * (d' - d)) by (apply Rmult_le_pos; lra).
  destruct HOO as [HOO|HOO].
  - destruct (HM HOO) as [M1 M2]. pose proof (de_lt_matter w' a' z Hz M1 M2) as M. fold c d' in M.
    assert (0 < (Om' - Om) * (c - d')) by (apply Rmult_lt_0_compat; lra). lra.
  - subst Om'. assert (DD : d < d').
    { apply de_lt; auto. destruct (Req_dec w w') as [->|]; auto. destruct (Req_dec a a') as [->|]; auto; congruence. }
    assert (0 < (1 - Om) * (d' - d)) by (apply Rmult_lt_0_compat; lra). lra.
Qed.
Section Faster.
  Context (Om w a Om' w' a' : R) (F : faster Om w a Om' w' a').
  Let HO : 0 < Om <= 1. Proof. apply F. Qed.
  Let HO' : 0 < Om' <= 1. Proof. apply F. Qed.
  Let HE z (H : 0 < z) : expansion Om w a z < expansion Om' w' a' z. Proof. now apply F. Qed.
  Lemma faster_f1 z : 0 < z -> f1 Om' w' a' z < f1 Om w a z.
  Proof.
    intros H. unfold f1, Rdiv. rewrite !Rmult_1_l. apply Rinv_lt_contravar; [|auto].
    apply Rmult_lt_0_compat; apply E_pos; auto; lra.
  Qed.
  Lemma faster_f2 z : 0 < z -> f2 Om' w' a' z < f2 Om w a z.
  Proof.
    intros H. unfold f2. unfold Rdiv at 1 3. apply Rmult_lt_compat_r; [apply Rinv_0_lt_compat; lra|]. now apply faster_f1.
  Qed.
  Lemma faster_dc h z : 0 < h -> 0 < z -> 0 < dc Om' w' a' h z < dc Om w a h z.
  Proof.
    intros Hh Hz. unfold dc. pose proof (hubble_dist_pos h Hh). split.
    - apply Rmult_lt_0_compat; auto. apply quad_pos; [apply n256|auto|]. intros x Hx. apply f1_pos; auto; lra.
    - apply Rmult_lt_compat_l; auto. apply quad_lt; [apply n256|auto| |].
      + rewrite !f1_0. lra.
      + intros x Hx. apply faster_f1. lra.
  Qed.
  Lemma faster_look h z : 0 < h -> 0 < z -> look Om' w' a' h z < look Om w a h z.
  Proof.
    intros Hh Hz. unfold look. pose proof (tH_pos h Hh). apply Rmult_lt_compat_l; auto. apply quad_lt; [apply n512|auto| |].
    - rewrite !f2_0. lra.
    - intros x Hx. apply faster_f2. lra.
  Qed.
  Lemma agrid_increasing : increasing agrid.
  Proof.
    apply increasing_step. intros i Hi. unfold agrid in *. rewrite map_length, grid_length in Hi.
    rewrite !ent_map by (rewrite grid_length; lia).
    pose proof (grid_increasing 512 3 n512 ltac:(lra) i (S i) ltac:(rewrite grid_length; lia)) as G.
    pose proof (pow10_lt _ _ G). lra.
  Qed.
  Lemma agrid_len : length agrid = 512%nat.
  Proof. unfold agrid. now rewrite map_length, grid_length. Qed.
  Lemma agrid_last : ent agrid (512 - 1) = 999.
  Proof.
    unfold agrid. rewrite ent_map by (rewrite grid_length; lia). rewrite (grid_last 512 3 n512).
    replace (pow10 3) with 1000; [lra|]. unfold pow10. replace 3 with (INR 3) by (simpl; lra).
    rewrite Rpower_pow by lra. lra.
  Qed.
  Lemma faster_age h : 0 < h -> age0 Om' w' a' h < age0 Om w a h.
  Proof.
    intros Hh. unfold age0, aint. pose proof (tH_pos h Hh). apply Rmult_lt_compat_l; auto.
    apply trapezoid_lt; try (now rewrite map_length); [rewrite agrid_len; apply n512|apply agrid_increasing| |].
    - intros i Hi. rewrite !ent_map by auto. pose proof (agrid_In _ (ent_In agrid i Hi)) as G.
      destruct (Req_dec (ent agrid i) 0) as [E|E]; [rewrite E, !f2_0; lra|]. left. apply faster_f2. lra.
    - rewrite agrid_len. rewrite !ent_map by (rewrite agrid_len; lia). rewrite agrid_last. apply faster_f2. lra.
  Qed.
End Faster.
