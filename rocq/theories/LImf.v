(** * IMF fits (dsps/imf) *)
From Coq Require Import Reals List Arith Lra Lia Bool.
From Coquelicot Require Import Coquelicot.
From Flocq Require Import Core.Raux.
From Verif Require Import Num Arr MUtils MImf Spec RList LCalc LKern LKern2.
Import ListNotations.
Open Scope R_scope.

(** ** numerical bounds on exp *)
Lemma exp_ge_1 x : 1 + x <= exp x.
Proof. pose proof (exp_ineq1_le x). lra. Qed.
Lemma exp_ge_2 x : 0 <= x -> 1 + x + x ^ 2 / 2 <= exp x.
Proof.
  intros H. assert (H0 : (fun x => exp x - (1 + x + x ^ 2 / 2)) 0 <= (fun x => exp x - (1 + x + x ^ 2 / 2)) x).
  { apply (nondecreasing_of_derive (fun x => exp x - (1 + x + x ^ 2 / 2)) (fun x => exp x - (1 + x)) 0 x); auto.
    - intros c _. auto_derive; auto. lra.
    - intros c _. pose proof (exp_ge_1 c). lra. }
  cbv beta in H0. rewrite exp_0 in H0. lra.
Qed.
Lemma exp_ge_3 x : 0 <= x -> 1 + x + x ^ 2 / 2 + x ^ 3 / 6 <= exp x.
Proof.
  intros H. assert (H0 : (fun x => exp x - (1 + x + x ^ 2 / 2 + x ^ 3 / 6)) 0
     <= (fun x => exp x - (1 + x + x ^ 2 / 2 + x ^ 3 / 6)) x).
  { apply (nondecreasing_of_derive (fun x => exp x - (1 + x + x ^ 2 / 2 + x ^ 3 / 6)) (fun x => exp x - (1 + x + x ^ 2 / 2)) 0 x); auto.
    - intros c _. auto_derive; auto. lra.
    - intros c Hc. pose proof (exp_ge_2 c ltac:(lra)). lra. }
  cbv beta in H0. rewrite exp_0 in H0. lra.
Qed.
Lemma exp_half : 1.6458 <= exp (1/2).
Proof. pose proof (exp_ge_3 (1/2) ltac:(lra)). lra. Qed.
Lemma exp_mult_nat x n : exp (INR n * x) = exp x ^ n.
Proof.
  induction n; [simpl; rewrite Rmult_0_l; apply exp_0|].
  rewrite S_INR. replace ((INR n + 1) * x) with (x + INR n * x) by lra. rewrite exp_plus, IHn. reflexivity.
Qed.
Lemma exp_lb_half n : 1.6458 ^ n <= exp (INR n / 2).
Proof.
  replace (INR n / 2) with (INR n * (1/2)) by lra. rewrite exp_mult_nat. apply pow_incr.
  pose proof exp_half. lra.
Qed.
Lemma exp_2 : 7 <= exp 2.
Proof. pose proof (exp_lb_half 4) as H. simpl INR in H. replace ((1+1+1+1)/2) with 2 in H by lra. lra. Qed.
Lemma exp_15 : 4.4 <= exp 1.5.
Proof. pose proof (exp_lb_half 3) as H. simpl INR in H. replace ((1+1+1)/2) with 1.5 in H by lra. lra. Qed.
Lemma exp_3 : 19 <= exp 3.
Proof. replace 3 with (1.5 + 1.5) by lra. rewrite exp_plus. pose proof exp_15. nra. Qed.
Lemma exp_75 : 1700 <= exp 7.5.
Proof.
  pose proof (exp_lb_half 15) as H. replace (INR 15 / 2) with 7.5 in H by (simpl; lra). lra.
Qed.
(** tangents *)
Lemma exp_tan c e y : 0 <= e -> e <= exp c -> e * (1 + (y - c)) <= exp y.
Proof.
  intros H0 He. destruct (Rle_or_lt 0 (1 + (y - c))) as [Hy|Hy].
  - replace y with (c + (y - c)) at 2 by lra. rewrite exp_plus.
    pose proof (exp_ge_1 (y - c)). apply Rmult_le_compat; lra.
  - pose proof (exp_pos y). nra.
Qed.

(** powers of ten in the calibrations *)
Lemma pow10_neg_half : 0.316 <= pow10 (-0.5) <= 0.3163.
Proof.
  assert (H : pow10 (-0.5) * pow10 (-0.5) = 1/10).
  { rewrite <- pow10_plus. replace (-0.5 + -0.5) with (-(1)) by lra. unfold pow10.
    rewrite Rpower_Ropp, Rpower_1 by lra. lra. }
  pose proof (pow10_pos (-0.5)). split; nra.
Qed.
Lemma pow10_07 : 5 <= pow10 0.7 <= 5.1.
Proof.
  assert (H : pow10 0.7 ^ 10 = 10 ^ 7).
  { unfold pow10. rewrite <- Rpower_pow by apply exp_pos. rewrite Rpower_mult, <- (Rpower_pow 7 10) by lra.
    f_equal. simpl. lra. }
  pose proof (pow10_pos 0.7). split.
  - destruct (Rle_or_lt 5 (pow10 0.7)) as [|L]; auto. exfalso.
    assert (pow10 0.7 ^ 10 <= 5 ^ 10) by (apply pow_incr; lra). rewrite H in *. lra.
  - destruct (Rle_or_lt (pow10 0.7) 5.1) as [|L]; auto. exfalso.
    assert (5.1 ^ 10 <= pow10 0.7 ^ 10) by (apply pow_incr; lra). rewrite H in *. lra.
Qed.

Lemma sig_slope_fin x xtp ytp x0 k lo hi :
  sig_slope (Fin x) (Fin xtp) (Fin ytp) (Fin x0) (Fin k) (Fin lo) (Fin hi) =
  Fin (ytp + (lo + (hi - lo) * logistic (k * (x - x0))) * (x - xtp)).
Proof. unfold sig_slope. now rewrite sigmoid_fin, nsub_fin, nmul_fin, nadd_fin. Qed.

(** ** surviving mass *)
Definition ret_z (a d x : R) : R := a + (d + (0.08 - d) * logistic (pow10 (-0.5) * (x - 8))) * (x - 8).
Definition ret (a d x : R) : R := 0.005 + (ret_z a d x - 0.005) * logistic (pow10 0.7 * (x - 6.5)).

Lemma surviving_fin a d x : surviving_mstar (Fin x) (surviving_params_of a d) = Fin (1 - ret a d x).
Proof.
  unfold surviving_mstar, returned_mass, surviving_params_of.
  cbn [sur_a sur_b sur_lgk1 sur_d sur_e sur_f sur_lgk2 sur_h].
  repeat match goal with |- context [lit ?x] => change (lit x) with (Fin x) end.
  rewrite !npow10_fin, sig_slope_fin, sigmoid_fin, nsub_fin. reflexivity.
Qed.

(** slope between d and 0.08 *)
Lemma logistic_neg x : x <= 0 -> logistic x <= 1/2.
Proof. intros H. rewrite <- logistic_0. now apply logistic_le. Qed.
Lemma logistic_nonneg x : 0 <= x -> 1/2 <= logistic x.
Proof. intros H. rewrite <- logistic_0. now apply logistic_le. Qed.

Definition calibration (a d : R) : Prop :=
  (a = 0.225 /\ d = 0.145) \/ (a = 0.13 /\ d = 0.055) \/ (a = 0.211 /\ d = 0.13) \/ (a = 0.238 /\ d = 0.156).

Lemma logistic_m095 : 0.27 <= logistic (-0.95).
Proof.
  unfold logistic. replace (- -0.95) with 0.95 by lra.
  assert (exp 0.95 <= 2.7).
  { pose proof (exp_ge_3 0.05 ltac:(lra)) as H5. pose proof exp_le_3.
    assert (E : exp 1 = exp 0.95 * exp 0.05) by (rewrite <- exp_plus; f_equal; lra).
    (* exp 1 <= 2.83 from exp (-1) >= ... *)
    assert (H1 : exp (-1) * exp 1 = 1) by (rewrite <- exp_plus; replace (-1 + 1) with 0 by lra; apply exp_0).
    assert (H2 : 0.355 <= exp (-1)).
    { replace (-1) with (INR 20 * (-0.05)) by (simpl; lra). rewrite exp_mult_nat.
      pose proof (exp_ge_1 (-0.05)). apply Rle_trans with (0.95 ^ 20); [lra|]. apply pow_incr. lra. }
    pose proof (exp_pos 0.95). nra. }
  pose proof (exp_pos 0.95). apply le_div_iff; lra.
Qed.

Lemma ret_pos a d x : calibration a d -> 0 < ret a d x.
Proof.
  intros C. unfold ret, ret_z.
  set (s := logistic (pow10 (-0.5) * (x - 8))). set (L := logistic (pow10 0.7 * (x - 6.5))).
  pose proof (logistic_bounds (pow10 (-0.5) * (x - 8))) as Hs. fold s in Hs.
  pose proof (logistic_bounds (pow10 0.7 * (x - 6.5))) as HL. fold L in HL.
  pose proof pow10_neg_half as K1. pose proof pow10_07 as K2.
  set (sl := d + (0.08 - d) * s).
  assert (Hsl : 0.055 <= sl <= 0.156) by (unfold sl; destruct C as [[-> ->]|[[-> ->]|[[-> ->]|[-> ->]]]]; nra).
  destruct (Rle_or_lt 0 (a + sl * (x - 8))) as [Hz|Hz]; [nra|].
  (* x < 8, z < 0 : h exp(-k2 (x-6.5)) > -z *)
  assert (Hx : x < 8).
  { destruct (Rlt_or_le x 8); auto. exfalso. assert (0 <= sl * (x - 8)) by nra.
    destruct C as [[-> _]|[[-> _]|[[-> _]|[-> _]]]]; lra. }
  set (u := 6.5 - x).
  assert (Hod : 1 / L - 1 = exp (pow10 0.7 * u)).
  { unfold L. rewrite logistic_odds. f_equal. unfold u. lra. }
  assert (Hu : -1.5 < u) by (unfold u; lra).
  assert (Hu0 : 0 < u).
  { (* z < 0 forces x below 6.5 *)
    unfold u. destruct (Rlt_or_le x 6.5); [lra|]. exfalso.
    assert (s <= 1/2) by (apply logistic_neg; nra).
    assert (0.27 <= s).
    { apply Rle_trans with (1 := logistic_m095). apply logistic_le. nra. }
    unfold sl in Hz. destruct C as [[-> ->]|[[-> ->]|[[-> ->]|[-> ->]]]]; nra. }
  assert (Hexp : exp (5 * u) <= exp (pow10 0.7 * u)).
  { destruct (Req_dec (5 * u) (pow10 0.7 * u)) as [->|]; [lra|]. left. apply exp_increasing. nra. }
  pose proof (exp_tan 1.5 4.4 (5 * u) ltac:(lra) exp_15) as T1.
  pose proof (exp_tan 3 19 (5 * u) ltac:(lra) exp_3) as T2.
  assert (Key : - (a + sl * (x - 8)) < 0.005 * exp (5 * u)).
  { replace (x - 8) with (- (1.5 + u)) by (unfold u; lra).
    destruct (Rle_or_lt u 0.9).
    - assert (s <= 1/2) by (apply logistic_neg; nra).
      assert (0.27 <= s).
      { apply Rle_trans with (1 := logistic_m095). apply logistic_le. unfold u in *. nra. }
      assert (B : sl <= 0.1355 /\ (d = 0.145 -> sl <= 0.1275) /\ (d = 0.055 -> sl <= 0.0675)
              /\ (d = 0.13 -> sl <= 0.1165)).
      { unfold sl. destruct C as [[-> ->]|[[-> ->]|[[-> ->]|[-> ->]]]]; repeat split; intros; try lra; nra. }
      destruct B as (B0 & B1 & B2 & B3).
      destruct C as [[-> Ed]|[[-> Ed]|[[-> Ed]|[-> Ed]]]].
      + specialize (B1 Ed). nra.
      + specialize (B2 Ed). nra.
      + specialize (B3 Ed). nra.
      + nra.
    - assert (B2 : d = 0.055 -> sl <= 0.08) by (intros ->; unfold sl; nra).
      destruct C as [[-> Ed]|[[-> Ed]|[[-> Ed]|[-> Ed]]]]; try specialize (B2 Ed); nra. }
  assert (0.005 * exp (5 * u) <= 0.005 * (1 / L - 1)) by (rewrite Hod; lra).
  assert (E : (1 / L - 1) * L = 1 - L) by (field; lra).
  assert (Q : - (a + sl * (x - 8)) * L < 0.005 * (1 - L)).
  { replace (0.005 * (1 - L)) with (0.005 * (1 / L - 1) * L) by (rewrite Rmult_assoc, E; lra).
    apply Rmult_lt_compat_r; lra. }
  lra.
Qed.

Lemma ret_lt a d x : calibration a d -> x <= 10.5 -> ret a d x < 0.6.
Proof.
  intros C Hx. unfold ret, ret_z.
  set (s := logistic (pow10 (-0.5) * (x - 8))). set (L := logistic (pow10 0.7 * (x - 6.5))).
  pose proof (logistic_bounds (pow10 (-0.5) * (x - 8))) as Hs. fold s in Hs.
  pose proof (logistic_bounds (pow10 0.7 * (x - 6.5))) as HL. fold L in HL.
  pose proof pow10_neg_half as K1.
  set (sl := d + (0.08 - d) * s).
  assert (Hsl : 0.055 <= sl <= 0.156) by (unfold sl; destruct C as [[-> ->]|[[-> ->]|[[-> ->]|[-> ->]]]]; nra).
  assert (Hz : a + sl * (x - 8) < 0.59).
  { destruct (Rle_or_lt x 8).
    - assert (sl * (x - 8) <= 0) by nra. destruct C as [[-> _]|[[-> _]|[[-> _]|[-> _]]]]; lra.
    - assert (1/2 <= s) by (apply logistic_nonneg; nra).
      assert (sl <= 0.118) by (unfold sl; destruct C as [[-> ->]|[[-> ->]|[[-> ->]|[-> ->]]]]; nra).
      destruct C as [[-> _]|[[-> _]|[[-> _]|[-> _]]]]; nra. }
  nra.
Qed.

Lemma C37_lemma : forall p, In p [SUR_CHABRIER; SUR_SALPETER; SUR_KROUPA; SUR_VAN_DOKKUM] ->
  exists f : R -> R,
    (forall lg_age, surviving_mstar (Fin lg_age) p = Fin (f lg_age))
    /\ (forall lg_age, f lg_age < 1)
    /\ (forall lg_age, lg_age <= 10.5 -> 0.4 < f lg_age).
Proof.
  intros p Hp.
  assert (G : forall a d, calibration a d -> p = surviving_params_of a d -> exists f : R -> R,
    (forall lg_age, surviving_mstar (Fin lg_age) p = Fin (f lg_age))
    /\ (forall lg_age, f lg_age < 1)
    /\ (forall lg_age, lg_age <= 10.5 -> 0.4 < f lg_age)).
  { intros a d C ->. exists (fun x => 1 - ret a d x). split; [intros; apply surviving_fin|]. split.
    - intros x. pose proof (ret_pos a d x C). lra.
    - intros x Hx. pose proof (ret_lt a d x C Hx). lra. }
  destruct Hp as [<-|[<-|[<-|[<-|[]]]]]; eapply G; try reflexivity; unfold calibration; lra.
Qed.

Lemma C38_lemma : exists s5 s59,
  surviving_mstar (Fin 5) SUR_CHABRIER = Fin s5 /\ surviving_mstar (Fin 5.9) SUR_CHABRIER = Fin s59
  /\ s5 < s59.
Proof.
  do 2 eexists. split; [apply surviving_fin|]. split; [apply surviving_fin|].
  enough (ret 0.225 0.145 5.9 < ret 0.225 0.145 5) by lra.
  unfold ret, ret_z.
  pose proof pow10_neg_half as K1. pose proof pow10_07 as K2.
  set (s := logistic (pow10 (-0.5) * (5 - 8))). set (s' := logistic (pow10 (-0.5) * (5.9 - 8))).
  pose proof (logistic_bounds (pow10 (-0.5) * (5 - 8))) as Hs. fold s in Hs.
  assert (Hs' : s' <= 1/2) by (apply logistic_neg; nra).
  set (L := logistic (pow10 0.7 * (5 - 6.5))). set (L' := logistic (pow10 0.7 * (5.9 - 6.5))).
  assert (HL : 0 < L <= 1 / 1701).
  { split; [apply logistic_bounds|]. unfold L, logistic.
    assert (exp 7.5 <= exp (- (pow10 0.7 * (5 - 6.5)))).
    { destruct (Req_dec 7.5 (- (pow10 0.7 * (5 - 6.5)))) as [<-|]; [lra|]. left. apply exp_increasing. nra. }
    pose proof exp_75. apply Rmult_le_compat_l; [lra|]. apply Rinv_le_contravar; lra. }
  assert (HL' : 1 / 82 <= L').
  { unfold L', logistic.
    assert (exp (- (pow10 0.7 * (5.9 - 6.5))) <= exp 4).
    { left. apply exp_increasing. nra. }
    assert (exp 4 <= 81).
    { replace 4 with (INR 4 * 1) by (simpl; lra). rewrite exp_mult_nat. replace 81 with (3 ^ 4) by lra.
      apply pow_incr. pose proof exp_le_3. pose proof (exp_pos 1). lra. }
    pose proof (exp_pos (- (pow10 0.7 * (5.9 - 6.5)))).
    apply Rmult_le_compat_l; [lra|]. apply Rinv_le_contravar; lra. }
  assert (Z5 : -0.21 <= 0.225 + (0.145 + (0.08 - 0.145) * s) * (5 - 8)) by nra.
  assert (Z59 : 0.225 + (0.145 + (0.08 - 0.145) * s') * (5.9 - 8) <= -0.01125) by nra.
  set (z := 0.225 + (0.145 + (0.08 - 0.145) * s) * (5 - 8)) in *.
  set (z' := 0.225 + (0.145 + (0.08 - 0.145) * s') * (5.9 - 8)) in *.
  assert ((z' - 0.005) * L' <= -0.01625 * (1 / 82)) by nra.
  assert (-0.215 * (1 / 1701) <= (z - 0.005) * L) by nra.
  lra.
Qed.

(** ** remnant mass *)
Definition remf (a x : R) : R := a + (1.3 + (0.2 - 1.3) * logistic (10 * (x - 7))) * (x - 7).
Lemma remnant_fin a x : remnant_mass (Fin x) (remnant_params_of a) = Fin (pow10 (remf a x)).
Proof.
  unfold remnant_mass, remnant_params_of. cbn [rem_a rem_b rem_lgk1 rem_d rem_e].
  repeat match goal with |- context [lit ?x] => change (lit x) with (Fin x) end.
  rewrite npow10_fin, sig_slope_fin, npow10_fin. unfold remf.
  replace (pow10 1) with 10 by (unfold pow10; rewrite Rpower_1; lra). reflexivity.
Qed.
Lemma logistic_derive x : is_derive logistic x (logistic x * (1 - logistic x)).
Proof.
  unfold logistic. pose proof (exp_pos (- x)). auto_derive; [lra|]. field. lra.
Qed.
Lemma swish_bound y : logistic y + y * (logistic y * (1 - logistic y)) < 1.18.
Proof.
  unfold logistic. set (E := exp (- y)). pose proof (exp_pos (- y)) as HE. fold E in HE.
  replace (1 / (1 + E) + y * (1 / (1 + E) * (1 - 1 / (1 + E)))) with ((1 + E + y * E) / ((1 + E) ^ 2))
    by (field; lra).
  apply div_lt_iff; [nra|].
  assert ((y - 1) * E <= 1 / 7).
  { assert (Ey : E * exp y = 1) by (unfold E; rewrite <- exp_plus, Rplus_opp_l; apply exp_0).
    assert (exp y = exp 2 * exp (y - 2)) by (rewrite <- exp_plus; f_equal; lra).
    pose proof (exp_ge_1 (y - 2)). pose proof exp_2. pose proof (exp_pos (y - 2)).
    assert (XE : 0 < exp (y - 2) * E) by (apply Rmult_lt_0_compat; lra).
    assert (exp 2 * (exp (y - 2) * E) = 1) by (rewrite <- Ey, H; ring).
    apply Rle_trans with (exp (y - 2) * E); [apply Rmult_le_compat_r; lra|]. nra. }
  nra.
Qed.
Lemma remf_derive a x : is_derive (remf a) x
  (1.3 - 1.1 * (logistic (10 * (x - 7)) + 10 * (x - 7) * (logistic (10 * (x - 7)) * (1 - logistic (10 * (x - 7)))))).
Proof.
  pose proof (exp_pos (- (10 * (x - 7)))) as HE.
  assert (HL : is_derive (fun x => logistic (10 * (x - 7))) x
     (10 * (logistic (10 * (x - 7)) * (1 - logistic (10 * (x - 7)))))).
  { apply (is_derive_comp logistic (fun x => 10 * (x - 7)) x _ 10); [apply logistic_derive|]. auto_derive; auto. lra. }
  unfold remf. set (L := fun x => logistic (10 * (x - 7))) in *.
  change (is_derive (fun x => a + (1.3 + (0.2 - 1.3) * L x) * (x - 7)) x
    (1.3 - 1.1 * (L x + 10 * (x - 7) * (L x * (1 - L x))))).
  change (is_derive L x (10 * (L x * (1 - L x)))) in HL.
  pose proof (is_derive_unique _ _ _ HL) as HU.
  auto_derive; [exists (10 * (L x * (1 - L x))); exact HL|].
  replace (Derive (fun x0 : R => L x0) x) with (Derive L x) by reflexivity.
  rewrite HU. match goal with |- ?u = ?v => change (@eq R u v) end. lra.
Qed.
Lemma remf_increasing a x y : x < y -> remf a x < remf a y.
Proof.
  intros H. eapply increasing_of_derive; [auto|intros c _; apply remf_derive|].
  intros c _. cbv beta. pose proof (swish_bound (10 * (c - 7))). lra.
Qed.
Lemma remf_13 a : a <= -1.4 -> remf a 13 < 0.
Proof.
  intros Ha. unfold remf. assert (61 / 62 <= logistic (10 * (13 - 7))).
  { unfold logistic. replace (- (10 * (13 - 7))) with (-60) by lra.
    assert (exp (-60) * exp 60 = 1) by (rewrite <- exp_plus; replace (-60 + 60) with 0 by lra; apply exp_0).
    pose proof (exp_ge_1 60). pose proof (exp_pos (-60)). apply le_div_iff; nra. }
  nra.
Qed.

Lemma C39_lemma : forall p, In p [REM_CHABRIER; REM_SALPETER; REM_KROUPA; REM_VAN_DOKKUM] ->
  exists (a : R) (f : R -> R),
    rem_a p = Fin a
    /\ (forall lg_age, remnant_mass (Fin lg_age) p = Fin (f lg_age))
    /\ (forall lg_age, 0 < f lg_age) /\ f 7 = pow10 a
    /\ (forall x y, x < y -> f x < f y)
    /\ (forall lg_age, lg_age <= 13 -> f lg_age < 1).
Proof.
  intros p Hp.
  assert (G : forall a, a <= -1.4 -> p = remnant_params_of a -> exists (a : R) (f : R -> R),
    rem_a p = Fin a
    /\ (forall lg_age, remnant_mass (Fin lg_age) p = Fin (f lg_age))
    /\ (forall lg_age, 0 < f lg_age) /\ f 7 = pow10 a
    /\ (forall x y, x < y -> f x < f y)
    /\ (forall lg_age, lg_age <= 13 -> f lg_age < 1)).
  { intros a Ha ->. exists a, (fun x => pow10 (remf a x)). split; [reflexivity|].
    split; [intros; apply remnant_fin|]. split; [intros; apply pow10_pos|].
    split; [f_equal; unfold remf; lra|].
    split; [intros; now apply pow10_lt, remf_increasing|].
    intros x Hx. rewrite <- pow10_0. apply pow10_lt. apply Rle_lt_trans with (remf a 13); [|now apply remf_13].
    destruct Hx as [Hx| ->]; [left; now apply remf_increasing|lra]. }
  destruct Hp as [<-|[<-|[<-|[<-|[]]]]]; eapply G; try reflexivity; lra.
Qed.
