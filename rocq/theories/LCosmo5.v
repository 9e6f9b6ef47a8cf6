(** * Comoving distances at high redshift (C151) *)
From Coq Require Import Reals List Arith Lra Lia Bool.
From Coquelicot Require Import Coquelicot.
From Flocq Require Import Core.Raux.
From Verif Require Import Num Arr MUtils MCosmo Spec RList LUtils LCalc LKern LKern2 LBurst LCosmo LCosmo2 LCosmo3 LCosmo4.
Import ListNotations.
Open Scope R_scope.

Lemma eds_upper O w a x : 0 < O <= 1 -> -1 < x -> f1 O w a x <= 1 / (sqrt O * (1 + x) * sqrt (1 + x)).
Proof.
  intros HO Hx. unfold f1, expansion. pose proof (de_pos w a x) as D.
  assert (S1 : 0 < sqrt O) by (apply sqrt_lt_R0; lra). assert (S2 : 0 < sqrt (1 + x)) by (apply sqrt_lt_R0; lra).
  assert (E : sqrt O * (1 + x) * sqrt (1 + x) = sqrt (O * (1 + x) ^ 3)).
  { replace (O * (1 + x) ^ 3) with (O * (1 + x) ^ 2 * (1 + x)) by ring.
    rewrite sqrt_mult by (try (apply Rmult_le_pos; [|apply pow_le]); lra).
    rewrite sqrt_mult by (try apply pow_le; lra). rewrite sqrt_pow2 by lra. reflexivity. }
  assert (C : 0 < O * (1 + x) ^ 3) by (apply Rmult_lt_0_compat; [lra|apply pow_lt; lra]).
  assert (0 <= (1 - O) * dark_energy w a x) by (apply Rmult_le_pos; lra).
  rewrite E. unfold Rdiv. rewrite !Rmult_1_l. apply Rinv_le_contravar; [now apply sqrt_lt_R0|]. apply sqrt_le_1_alt. lra.
Qed.
Lemma eds_int O x y : 0 < O -> -1 < x -> x <= y ->
  is_RInt (fun t => 1 / (sqrt O * (1 + t) * sqrt (1 + t))) x y (2 / sqrt O * (1 / sqrt (1 + x) - 1 / sqrt (1 + y))).
Proof.
  intros HO Hx Hy. assert (S1 : 0 < sqrt O) by (apply sqrt_lt_R0; lra).
  replace (2 / sqrt O * (1 / sqrt (1 + x) - 1 / sqrt (1 + y)))
    with (minus (- (2 / sqrt O) / sqrt (1 + y)) (- (2 / sqrt O) / sqrt (1 + x))).
  2:{ unfold minus, plus, opp; simpl. assert (0 < sqrt (1 + x)) by (apply sqrt_lt_R0; lra).
      assert (0 < sqrt (1 + y)) by (apply sqrt_lt_R0; lra). field. lra. }
  apply (is_RInt_derive (V := R_CompleteNormedModule) (fun t => - (2 / sqrt O) / sqrt (1 + t))).
  - intros t Ht. rewrite Rmin_left, Rmax_right in Ht by lra.
    assert (S2 : 0 < sqrt (1 + t)) by (apply sqrt_lt_R0; lra).
    auto_derive; [repeat split; lra|].
    assert (E : sqrt (1 + t) * sqrt (1 + t) = 1 + t) by (apply sqrt_sqrt; lra).
    rewrite <- E at 4. set (v := sqrt (1 + t)) in *. clearbody v.
    field. lra.
  - intros t Ht. rewrite Rmin_left, Rmax_right in Ht by lra.
    assert (S2 : 0 < sqrt (1 + t)) by (apply sqrt_lt_R0; lra).
    apply (ex_derive_continuous (K := R_AbsRing) (V := R_NormedModule)). auto_derive.
    repeat split; try lra. apply Rgt_not_eq. repeat apply Rmult_lt_0_compat; lra.
Qed.
Lemma f1_int_upper O w a x y : 0 < O <= 1 -> -1 < x -> x <= y ->
  RInt (f1 O w a) x y <= 2 / sqrt O * (1 / sqrt (1 + x) - 1 / sqrt (1 + y)).
Proof.
  intros HO Hx Hy. pose proof (eds_int O x y ltac:(lra) Hx Hy) as I.
  rewrite <- (is_RInt_unique _ _ _ _ I). apply RInt_le; [lra|now apply f1_int|eexists; apply I|].
  intros t Ht. apply eds_upper; lra.
Qed.
Lemma C151_horizon_lemma : forall Om0 w0 wa h z, 0 < Om0 <= 1 -> 0 < h -> 0 < z ->
  hubble_dist h * RInt (fun x => 1 / expansion Om0 w0 wa x) 0 z < hubble_dist h * (2 / sqrt Om0).
Proof.
  intros O w a h z HO Hh Hz. apply Rmult_lt_compat_l; [now apply hubble_dist_pos|].
  change (RInt (fun x => 1 / expansion O w a x) 0 z) with (RInt (f1 O w a) 0 z).
  pose proof (f1_int_upper O w a 0 z HO ltac:(lra) ltac:(lra)) as U.
  rewrite Rplus_0_r, sqrt_1 in U. assert (S1 : 0 < sqrt O) by (apply sqrt_lt_R0; lra).
  assert (S2 : 0 < 1 / sqrt (1 + z)) by (apply Rdiv_lt_0_compat; [|apply sqrt_lt_R0]; lra).
  assert (P : 0 < 2 / sqrt O) by (apply Rdiv_lt_0_compat; lra).
  assert (0 < 2 / sqrt O * (1 / sqrt (1 + z))) by (now apply Rmult_lt_0_compat). lra.
Qed.
Lemma C151_refuted_lemma : forall Om0 w0 wa h z, 0 < Om0 <= 1 -> 0 < h -> 1020 / sqrt Om0 <= z -> exists D,
  comoving_distance_to_z (Fin z) (Fin Om0) (Fin w0) (Fin wa) (Fin h) = Fin D
  /\ hubble_dist h * (2 / sqrt Om0) <= D.
Proof.
  intros O w a h z HO Hh Hz. assert (S1 : 0 < sqrt O) by (apply sqrt_lt_R0; lra).
  assert (P : 0 < 1020 / sqrt O) by (apply Rdiv_lt_0_compat; lra).
  eexists. split; [apply dc_fin; auto; lra|]. unfold dc.
  apply Rmult_le_compat_l; [apply Rlt_le; now apply hubble_dist_pos|].
  pose proof (quad_first 256 (f1 O w a) z n256 ltac:(lra) ltac:(intros; apply Rlt_le, f1_pos; auto; lra)) as Q.
  assert (N : INR (256 - 1) = 255) by (rewrite INR_IZR_INZ; simpl Z.of_nat; lra).
  rewrite N, f1_0 in Q. assert (2 / sqrt O = 1020 / sqrt O / 510) by (field; lra). lra.
Qed.

(** ** Planck 2015 at last scattering *)
Lemma trapezoid_convex_low xs : forall (F f df : R -> R), xs <> [] -> increasing xs ->
  (forall x, ent xs 0 <= x <= ent xs (length xs - 1) -> is_derive F x (f x)) ->
  (forall x, ent xs 0 <= x <= ent xs (length xs - 1) -> is_derive f x (df x)) ->
  (forall x y, ent xs 0 <= x -> x <= y -> y <= ent xs (length xs - 1) -> df x <= df y) ->
  F (ent xs (length xs - 1)) - F (ent xs 0) <= trapezoid xs (map f xs).
Proof.
  induction xs as [|x xs IH]; [congruence|]. intros F f df _ I DF Df M.
  destruct xs as [|x1 xs].
  { unfold ent; simpl. lra. }
  specialize (IH F f df ltac:(discriminate) (increasing_tl _ _ I)).
  change (map f (x :: x1 :: xs)) with (f x :: f x1 :: map f xs). rewrite trapezoid_cons2.
  change (f x1 :: map f xs) with (map f (x1 :: xs)).
  replace (length (x :: x1 :: xs) - 1)%nat with (S (length (x1 :: xs) - 1)) in * by (simpl; lia).
  rewrite ent_cons_S in *. rewrite (ent_0 x) in *. rewrite (ent_0 x1) in *.
  set (b := ent (x1 :: xs) (length (x1 :: xs) - 1)) in *.
  assert (X01 : x < x1). { pose proof (I 0%nat 1%nat ltac:(simpl; lia)) as I0. exact I0. }
  assert (X1b : x1 <= b).
  { unfold b. pose proof (increasing_le (x1 :: xs) 0 (length (x1 :: xs) - 1) (increasing_tl _ _ I)) as H.
    rewrite ent_0 in H. apply H; simpl; lia. }
  specialize (IH ltac:(intros; apply DF; lra) ltac:(intros; apply Df; lra) ltac:(intros; apply M; lra)).
  pose proof (cell_lower F f df x x1 X01 ltac:(intros; apply DF; lra) ltac:(intros; apply Df; lra) ltac:(intros; apply M; lra)).
  lra.
Qed.
Lemma df1_mono O x y : 0.2 <= O <= 1 -> 2 <= 1 + x -> x <= y -> df1 O x <= df1 O y.
Proof.
  intros HO Hx Hy. apply (mono_deriv (df1 O) (ddf1 O)); [lra| |].
  - intros t Ht. apply df1_deriv; lra.
  - intros t Ht. unfold ddf1. pose proof (qq_pos O (1 + t) ltac:(lra) ltac:(lra)) as Q.
    assert (QE : qq O (1 + t) = O * (1 + t) ^ 3 + (1 - O)) by reflexivity.
    assert (S1 : 0 < sqrt (qq O (1 + t))) by (now apply sqrt_lt_R0).
    assert (C : 8 <= (1 + t) ^ 3) by (apply Rle_trans with (2 ^ 3); [lra|apply pow_incr; lra]).
    assert (O * 8 <= O * (1 + t) ^ 3) by (apply Rmult_le_compat_l; lra).
    assert (U1 : 0 <= 27 / 4 * O ^ 2 * (1 + t) ^ 4 - 3 * O * (1 + t) * qq O (1 + t)).
    { replace (27 / 4 * O ^ 2 * (1 + t) ^ 4 - 3 * O * (1 + t) * qq O (1 + t))
        with (O * (1 + t) * (27 / 4 * (O * (1 + t) ^ 3) - 3 * qq O (1 + t))) by ring.
      apply Rmult_le_pos; [apply Rmult_le_pos|]; lra. }
    assert (U2 : 0 < qq O (1 + t) ^ 2 * sqrt (qq O (1 + t))) by (apply Rmult_lt_0_compat; auto; now apply pow_lt).
    now apply Rdiv_le_0_compat.
Qed.
Lemma dist_excess O z : 0.2 <= O <= 1 -> 255 <= z ->
  RInt (f1 O (-1) 0) 0 z + (z / 255 * (1 + f1 O (-1) 0 (z / 255)) / 2 - RInt (f1 O (-1) 0) 0 (z / 255)) <= quad 256 (f1 O (-1) 0) z.
Proof.
  intros HO Hz. unfold quad.
  assert (N : INR (256 - 1) = 255) by (rewrite INR_IZR_INZ; simpl Z.of_nat; lra).
  pose proof (grid_0 256 z n256) as G0. pose proof (grid_last 256 z n256) as G1.
  pose proof (grid_step 256 z 0 n256 ltac:(lia)) as G2. rewrite N, G0 in G2.
  pose proof (grid_increasing 256 z n256 ltac:(lra)) as I. pose proof (grid_length 256 z) as GL.
  destruct (grid 256 z) as [|x0 [|x1 xs]]; try discriminate.
  change (map (f1 O (-1) 0) (x0 :: x1 :: xs)) with (f1 O (-1) 0 x0 :: f1 O (-1) 0 x1 :: map (f1 O (-1) 0) xs).
  rewrite trapezoid_cons2. change (f1 O (-1) 0 x1 :: map (f1 O (-1) 0) xs) with (map (f1 O (-1) 0) (x1 :: xs)).
  rewrite ent_0 in G0. subst x0. change (ent (0 :: x1 :: xs) 1) with x1 in G2.
  assert (X1 : x1 = z / 255) by lra. rewrite f1_0.
  assert (Len : length (x1 :: xs) = 255%nat) by (simpl in *; lia).
  assert (EL : ent (x1 :: xs) (length (x1 :: xs) - 1) = z).
  { rewrite Len. rewrite <- G1. change (256 - 1)%nat with (S (255 - 1)). now rewrite ent_cons_S. }
  pose proof (trapezoid_convex_low (x1 :: xs) (fun x => RInt (f1 O (-1) 0) 0 x) (f1 O (-1) 0) (df1 O)) as T.
  rewrite EL, (ent_0 x1) in T.
  specialize (T ltac:(discriminate) (increasing_tl _ _ I) ltac:(intros; apply F1_deriv; lra) ltac:(intros; apply f1_deriv; lra) ltac:(intros; apply df1_mono; lra)).
  rewrite X1 in *. lra.
Qed.
Lemma sqrt_ub x r : 0 <= r -> x <= r ^ 2 -> sqrt x <= r.
Proof. intros H1 H2. rewrite <- (sqrt_pow2 r) by auto. now apply sqrt_le_1_alt. Qed.
Lemma sqrt_lb x r : 0 <= r -> r ^ 2 <= x -> r <= sqrt x.
Proof. intros H1 H2. rewrite <- (sqrt_pow2 r) by auto. now apply sqrt_le_1_alt. Qed.
Lemma C151_cmb_lemma : exists D,
  comoving_distance_to_z (Fin 1100) (cp_Om0 PLANCK15) (cp_w0 PLANCK15) (cp_wa PLANCK15) (cp_h PLANCK15) = Fin D
  /\ 1.15 * (hubble_dist 0.6774 * RInt (fun x => 1 / expansion 0.3075 (-1) 0 x) 0 1100) < D.
Proof.
  eexists. split.
  { change (cp_Om0 PLANCK15) with (Fin 0.3075). change (cp_w0 PLANCK15) with (Fin (-1)). change (cp_wa PLANCK15) with (Fin 0).
    change (cp_h PLANCK15) with (Fin 0.6774). apply dc_fin; lra. }
  change (RInt (fun x => 1 / expansion 0.3075 (-1) 0 x) 0 1100) with (RInt (f1 0.3075 (-1) 0) 0 1100).
  unfold dc. pose proof (hubble_dist_pos 0.6774 ltac:(lra)) as HD.
  assert (1.15 * RInt (f1 0.3075 (-1) 0) 0 1100 < quad 256 (f1 0.3075 (-1) 0) 1100).
  2:{ replace (1.15 * (hubble_dist 0.6774 * RInt (f1 0.3075 (-1) 0) 0 1100)) with (hubble_dist 0.6774 * (1.15 * RInt (f1 0.3075 (-1) 0) 0 1100)) by ring.
      now apply Rmult_lt_compat_l. }
  pose proof (dist_excess 0.3075 1100 ltac:(lra) ltac:(lra)) as X.
  assert (SO : 0.5545 <= sqrt 0.3075) by (apply sqrt_lb; lra).
  assert (B : forall y, 0.5 <= y -> RInt (f1 0.3075 (-1) 0) 0 y <= 0.5 + 3.6069 * (0.81651 - 1 / sqrt (1 + y))).
  { intros y Hy. rewrite <- (RInt_Chasles (V := R_CompleteNormedModule) (f1 0.3075 (-1) 0) 0 0.5 y) by (apply f1_int; lra).
    unfold plus; simpl. apply Rplus_le_compat.
    - apply Rle_trans with (RInt (fun _ => 1) 0 0.5).
      + apply RInt_le; [lra|apply f1_int; lra|apply ex_RInt_const|]. intros x Hx.
        apply Rle_trans with (f1 0.3075 (-1) 0 0); [apply f1_lcdm_le; lra|rewrite f1_0; lra].
      + rewrite RInt_const. unfold scal; simpl; unfold mult; simpl. lra.
    - apply Rle_trans with (1 := f1_int_upper 0.3075 (-1) 0 0.5 y ltac:(lra) ltac:(lra) Hy).
      assert (S2 : 1.22474 <= sqrt (1 + 0.5)) by (apply sqrt_lb; lra).
      assert (S3 : sqrt (1 + 0.5) <= sqrt (1 + y)) by (apply sqrt_le_1_alt; lra).
      assert (I1 : 1 / sqrt (1 + 0.5) <= 0.81651).
      { unfold Rdiv. rewrite Rmult_1_l. apply Rle_trans with (/ 1.22474); [apply Rinv_le_contravar; lra|lra]. }
      assert (I2 : 0 <= 1 / sqrt (1 + 0.5) - 1 / sqrt (1 + y)).
      { unfold Rdiv. rewrite !Rmult_1_l. apply Rle_0_minus, Rinv_le_contravar; lra. }
      assert (I3 : 2 / sqrt 0.3075 <= 3.6069).
      { unfold Rdiv. apply Rle_trans with (2 * / 0.5545); [|lra]. apply Rmult_le_compat_l; [lra|]. apply Rinv_le_contravar; lra. }
      apply Rle_trans with (3.6069 * (1 / sqrt (1 + 0.5) - 1 / sqrt (1 + y))); [apply Rmult_le_compat_r; lra|].
      apply Rmult_le_compat_l; lra. }
  pose proof (B 1100 ltac:(lra)) as B1. pose proof (B (1100 / 255) ltac:(lra)) as B2.
  assert (J1 : 0.0301 <= 1 / sqrt (1 + 1100)).
  { assert (sqrt (1 + 1100) <= 33.19) by (apply sqrt_ub; lra). assert (0 < sqrt (1 + 1100)) by (apply sqrt_lt_R0; lra).
    unfold Rdiv. rewrite Rmult_1_l. apply Rle_trans with (/ 33.19); [lra|apply Rinv_le_contravar; lra]. }
  assert (J2 : 0.4337 <= 1 / sqrt (1 + 1100 / 255)).
  { assert (sqrt (1 + 1100 / 255) <= 2.3053) by (apply sqrt_ub; lra). assert (0 < sqrt (1 + 1100 / 255)) by (apply sqrt_lt_R0; lra).
    unfold Rdiv at 1. rewrite Rmult_1_l. apply Rle_trans with (/ 2.3053); [lra|apply Rinv_le_contravar; lra]. }
  assert (J3 : 0.1459 <= f1 0.3075 (-1) 0 (1100 / 255)).
  { rewrite f1_qq. unfold qq.
    assert (sqrt (0.3075 * (1 + 1100 / 255) ^ 3 + (1 - 0.3075)) <= 6.85) by (apply sqrt_ub; lra).
    assert (0 < sqrt (0.3075 * (1 + 1100 / 255) ^ 3 + (1 - 0.3075))) by (apply sqrt_lt_R0; lra).
    unfold Rdiv at 1. rewrite Rmult_1_l. apply Rle_trans with (/ 6.85); [lra|apply Rinv_le_contravar; lra]. }
  lra.
Qed.
