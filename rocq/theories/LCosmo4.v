(** * Comoving distances: second-order accuracy (C150) and the behaviour at high redshift (C151) *)
From Coq Require Import Reals List Arith Lra Lia Bool.
From Coquelicot Require Import Coquelicot.
From Flocq Require Import Core.Raux.
From Verif Require Import Num Arr MUtils MCosmo Spec RList LUtils LCalc LKern LKern2 LBurst LCosmo LCosmo2 LCosmo3 LCosmoPar LCosmoPar2 LRound1.
Import ListNotations.
Open Scope R_scope.

(** ** the integrand in any cosmology *)
Lemma f1_cont O w a z : 0 < O <= 1 -> -1 < z -> continuous (f1 O w a) z.
Proof.
  intros HO Hz.
  assert (L : locally z (fun x => 1 / sqrt (O * (1 + x) ^ 3 + (1 - O) * exp (3 * (1 + w) * ln (1 + x) + 3 * a * (ln (1 + x) - x / (1 + x)))) = f1 O w a x)).
  { exists (mkposreal (1 + z) ltac:(lra)). intros y Hy. unfold ball in Hy. simpl in Hy. unfold AbsRing_ball, abs, minus, plus, opp in Hy. simpl in Hy.
    apply Rabs_def2 in Hy. unfold f1, expansion. rewrite de_exp by lra. reflexivity. }
  apply (continuous_ext_loc _ _ _ L).
  pose proof (E2_pos O w a z HO Hz) as E. rewrite de_exp in E by auto.
  pose proof (sqrt_lt_R0 _ E) as SE.
  apply (ex_derive_continuous (K := R_AbsRing) (V := R_NormedModule)).
  auto_derive.
  change (z * / (1 + z)) with (z / (1 + z)). change (ln (1 + z) + - (z / (1 + z))) with (ln (1 + z) - z / (1 + z)).
  change ((1 + z) * ((1 + z) * ((1 + z) * 1))) with ((1 + z) ^ 3). repeat split; try lra; auto.
Qed.
Lemma f1_int O w a x y : 0 < O <= 1 -> -1 < x -> x <= y -> ex_RInt (f1 O w a) x y.
Proof.
  intros HO Hx Hy. apply (ex_RInt_continuous (V := R_CompleteNormedModule)). intros t Ht.
  rewrite Rmin_left, Rmax_right in Ht by lra. apply f1_cont; auto. lra.
Qed.
Lemma F1_deriv O w a z : 0 < O <= 1 -> -1 < z -> is_derive (fun x => RInt (f1 O w a) 0 x) z (f1 O w a z).
Proof.
  intros HO Hz. apply (is_derive_RInt (V := R_NormedModule) (f1 O w a) _ 0).
  - exists (mkposreal (1 + z) ltac:(lra)). intros y Hy. unfold ball in Hy. simpl in Hy. unfold AbsRing_ball, abs, minus, plus, opp in Hy. simpl in Hy.
    apply Rabs_def2 in Hy. apply (RInt_correct (V := R_CompleteNormedModule)).
    apply (ex_RInt_continuous (V := R_CompleteNormedModule)). intros t Ht. apply f1_cont; auto.
    unfold Rmin, Rmax in Ht. destruct (Rle_dec 0 y); lra.
  - now apply f1_cont.
Qed.

(** ** second-order accuracy *)
Lemma quad_second O z : 0 < O <= 1 -> 0 < z ->
  Rabs (quad 256 (f1 O (-1) 0) z - RInt (f1 O (-1) 0) 0 z) <= 5 / 16 * (z / 255) ^ 2 * (1 + z / 255) * (z / (1 + z)).
Proof.
  intros HO Hz.
  assert (N : INR (256 - 1) = 255) by (rewrite INR_IZR_INZ; simpl Z.of_nat; lra).
  set (k := z / 255). assert (K : 0 < k) by (unfold k; lra).
  pose proof (grid_0 256 z n256) as G0. pose proof (grid_last 256 z n256) as G1.
  pose proof (trapezoid_second (grid 256 z) (fun x => RInt (f1 O (-1) 0) 0 x) (f1 O (-1) 0) (df1 O) (ddf1 O)
    (fun x => 5 / 16 * k ^ 2 * (1 + k) * (1 / (1 + x))) (fun x => 15 / 4 / (1 + x) ^ 2)) as T.
  rewrite grid_length, G0, G1 in T.
  specialize (T (grid_ne 256 z n256) (grid_increasing 256 z n256 Hz)).
  specialize (T ltac:(intros; apply F1_deriv; auto; lra) ltac:(intros; apply f1_deriv; auto; lra) ltac:(intros; apply df1_deriv; auto; lra)
    ltac:(intros; apply ddf1_bound; auto; lra)).
  match type of T with ?P -> _ => assert (H : P) end.
  { intros i Hi. pose proof (grid_step 256 z i n256 Hi) as ST. rewrite N in ST. fold k in ST.
    pose proof (grid_range 256 z i n256 ltac:(lia) ltac:(lra)) as GR.
    replace (ent (grid 256 z) (S i)) with (ent (grid 256 z) i + k) by lra.
    set (x := ent (grid 256 z) i) in *. clearbody x. replace (x + k - x) with k by ring.
    assert (SX : 1 <= 1 + x) by lra. replace (1 + (x + k)) with (1 + x + k) by ring. set (s := 1 + x) in *. clearbody s.
    apply Rminus_le_0.
    replace (5 / 16 * k ^ 2 * (1 + k) * (1 / s) - 5 / 16 * k ^ 2 * (1 + k) * (1 / (s + k)) - 15 / 4 / s ^ 2 * k ^ 3 / 12)
      with (5 / 16 * k ^ 3 * (k * (s - 1)) / (s ^ 2 * (s + k))) by (field; lra).
    assert (U1 : 0 <= 5 / 16 * k ^ 3 * (k * (s - 1))).
    { apply Rmult_le_pos; [apply Rmult_le_pos; [lra|apply pow_le; lra]|apply Rmult_le_pos; lra]. }
    assert (U2 : 0 < s ^ 2 * (s + k)) by (apply Rmult_lt_0_compat; [apply pow_lt|]; lra).
    now apply Rdiv_le_0_compat. }
  specialize (T H). clear H.
  rewrite (RInt_point (V := R_CompleteNormedModule)) in T. unfold zero in T; simpl in T. rewrite Rminus_0_r in T.
  unfold quad. apply Rle_trans with (1 := T). right. field. lra.
Qed.
Lemma C150_lemma : forall Om0 h z, 0 < Om0 <= 1 -> 0 < h -> 0 < z -> exists D,
  comoving_distance_to_z (Fin z) (Fin Om0) (Fin (-1)) (Fin 0) (Fin h) = Fin D
  /\ Rabs (D - hubble_dist h * RInt (fun x => 1 / expansion Om0 (-1) 0 x) 0 z)
     <= hubble_dist h * (5 / 16 * (z / 255) ^ 2 * (1 + z / 255) * (z / (1 + z))).
Proof.
  intros Om0 h z HO Hh Hz. eexists. split; [apply dc_fin; auto; lra|].
  pose proof (hubble_dist_pos h Hh) as HD. unfold dc.
  change (RInt (fun x => 1 / expansion Om0 (-1) 0 x) 0 z) with (RInt (f1 Om0 (-1) 0) 0 z).
  rewrite <- Rmult_minus_distr_l, Rabs_mult, (Rabs_right (hubble_dist h)) by lra.
  apply Rmult_le_compat_l; [lra|]. now apply quad_second.
Qed.
Lemma ln_close x y e : 0 < x -> 0 < y -> 0 <= e < 1 -> Rabs (x - y) <= e * y -> Rabs (ln x - ln y) <= e / (1 - e).
Proof.
  intros Hx Hy He H. apply Rabs_le_inv in H.
  assert (E1 : ln x - ln y = ln (x / y)) by (unfold Rdiv; rewrite ln_mult, ln_Rinv by (auto; now apply Rinv_0_lt_compat); ring).
  assert (E2 : ln y - ln x = ln (y / x)) by (unfold Rdiv; rewrite ln_mult, ln_Rinv by (auto; now apply Rinv_0_lt_compat); ring).
  assert (XL : (1 - e) * y <= x) by lra.
  apply Rabs_le. split.
  - assert (P : 0 < y / x) by (now apply Rdiv_lt_0_compat). pose proof (ln_le_sub1 _ P) as L. rewrite <- E2 in L.
    assert (y / x <= 1 / (1 - e)).
    { apply (Rmult_le_reg_r (x * (1 - e))); [apply Rmult_lt_0_compat; lra|].
      replace (y / x * (x * (1 - e))) with ((1 - e) * y) by (field; lra).
      replace (1 / (1 - e) * (x * (1 - e))) with x by (field; lra). lra. }
    assert (1 / (1 - e) - 1 = e / (1 - e)) by (field; lra). lra.
  - assert (P : 0 < x / y) by (now apply Rdiv_lt_0_compat). pose proof (ln_le_sub1 _ P) as L. rewrite <- E1 in L.
    assert (x / y <= 1 + e).
    { apply (Rmult_le_reg_r y); [auto|]. replace (x / y * y) with x by (field; lra). lra. }
    assert (0 <= e / (1 - e) - e).
    { replace (e / (1 - e) - e) with (e * e / (1 - e)) by (field; lra). apply Rdiv_le_0_compat; [apply Rmult_le_pos|]; lra. }
    lra.
Qed.
Lemma E_lcdm_root Om0 z s r : 0 < Om0 <= 1 -> 0 <= z -> 1 + z <= s -> 0 <= r -> s <= r ^ 2 -> expansion Om0 (-1) 0 z <= r * (1 + z).
Proof.
  intros HO Hz Hs Hr Hsr. rewrite E_lcdm.
  rewrite <- (sqrt_pow2 (r * (1 + z))) by (apply Rmult_le_pos; lra).
  apply sqrt_le_1_alt.
  assert (C : 1 <= (1 + z) ^ 3) by (apply pow_R1_Rle; lra).
  assert (0 <= (1 - Om0) * ((1 + z) ^ 3 - 1)) by (apply Rmult_le_pos; lra).
  assert (0 <= (r ^ 2 - (1 + z)) * (1 + z) ^ 2) by (apply Rmult_le_pos; [lra|apply pow_le; lra]).
  replace ((r * (1 + z)) ^ 2) with (r ^ 2 * (1 + z) ^ 2) by ring.
  replace ((1 + z) ^ 3) with ((1 + z) * (1 + z) ^ 2) in * by ring. lra.
Qed.
Lemma true_lower Om0 z : 0 < Om0 <= 1 -> 0 < z -> z / expansion Om0 (-1) 0 z <= RInt (f1 Om0 (-1) 0) 0 z.
Proof.
  intros HO Hz. pose proof (RInt_const (V := R_CompleteNormedModule) 0 z (f1 Om0 (-1) 0 z)) as C.
  unfold scal in C; simpl in C; unfold mult in C; simpl in C.
  apply Rle_trans with (RInt (fun _ => f1 Om0 (-1) 0 z) 0 z).
  - rewrite C. right. unfold f1. pose proof (E_pos Om0 (-1) 0 z HO ltac:(lra)). field. lra.
  - apply RInt_le; [lra|apply ex_RInt_const|apply f1_int; auto; lra|]. intros x Hx. apply f1_lcdm_le; auto; lra.
Qed.
Lemma C150_modulus_lemma : forall Om0 h z, 0 < Om0 <= 1 -> 0 < h -> 0 < z <= 5 -> exists mu,
  distance_modulus_to_z (Fin z) (Fin Om0) (Fin (-1)) (Fin 0) (Fin h) = Fin mu
  /\ Rabs (mu - 5 * log10 ((1 + z) * (hubble_dist h * RInt (fun x => 1 / expansion Om0 (-1) 0 x) 0 z) * 10 ^ 6 / 10)) <= 0.001.
Proof.
  intros O h z HO Hh Hz. eexists. split; [apply mu_fin; auto; lra|].
  pose proof (hubble_dist_pos h Hh) as HD.
  change (RInt (fun x => 1 / expansion O (-1) 0 x) 0 z) with (RInt (f1 O (-1) 0) 0 z).
  pose proof (quad_second O z HO ltac:(lra)) as Q. pose proof (true_lower O z HO ltac:(lra)) as TL.
  pose proof (E_pos O (-1) 0 z HO ltac:(lra)) as EP.
  pose proof (E_lcdm_root O z 6 2.45 HO ltac:(lra) ltac:(lra) ltac:(lra) ltac:(lra)) as EU.
  unfold dc. set (q := quad 256 (f1 O (-1) 0) z) in *. set (t := RInt (f1 O (-1) 0) 0 z) in *.
  set (E := expansion O (-1) 0 z) in *. clearbody E.
  assert (T0 : 0 < t) by (apply Rlt_le_trans with (2 := TL); apply Rdiv_lt_0_compat; lra).
  assert (TE : z / (1 + z) <= 2.45 * t).
  { apply Rle_trans with (2.45 * (z / E)); [|apply Rmult_le_compat_l; lra].
    apply (Rmult_le_reg_r ((1 + z) * E)); [apply Rmult_lt_0_compat; lra|].
    replace (z / (1 + z) * ((1 + z) * E)) with (z * E) by (field; lra).
    replace (2.45 * (z / E) * ((1 + z) * E)) with (z * (2.45 * (1 + z))) by (field; lra).
    apply Rmult_le_compat_l; lra. }
  assert (K : (z / 255) ^ 2 <= 0.000385).
  { assert (z / 255 <= 0.01961) by lra. assert (0 <= z / 255) by lra.
    apply Rle_trans with (0.01961 ^ 2); [apply pow_incr; lra|lra]. }
  assert (K0 : 0 <= (z / 255) ^ 2) by apply pow2_ge_0.
  assert (QB : Rabs (q - t) <= 0.000301 * t).
  { apply Rle_trans with (1 := Q).
    apply Rle_trans with (5 / 16 * 0.000385 * 1.0197 * (2.45 * t)); [|lra].
    apply Rmult_le_compat; [|apply Rdiv_le_0_compat; lra| |auto].
    - apply Rmult_le_pos; lra.
    - apply Rmult_le_compat; lra. }
  assert (Q0 : 0 < q) by (apply Rabs_le_inv in QB; lra).
  pose proof (ln_close q t 0.000301 Q0 T0 ltac:(lra) QB) as LC.
  unfold log10. set (c := hubble_dist h * (1 + z) * 10 ^ 6 / 10).
  assert (C0 : 0 < c) by (unfold c; assert (0 < hubble_dist h * (1 + z)) by (apply Rmult_lt_0_compat; lra); lra).
  replace (hubble_dist h * q * (1 + z) * 10 ^ 6 / 10) with (c * q) by (unfold c; field).
  replace ((1 + z) * (hubble_dist h * t) * 10 ^ 6 / 10) with (c * t) by (unfold c; field).
  rewrite !ln_mult by auto. pose proof ln10_ge as L10.
  replace (5 * ((ln c + ln q) / ln 10) - 5 * ((ln c + ln t) / ln 10)) with ((ln q - ln t) * (5 / ln 10)) by (field; lra).
  rewrite Rabs_mult, (Rabs_right (5 / ln 10)) by (apply Rle_ge, Rdiv_le_0_compat; lra).
  apply Rle_trans with (0.000302 * (5 / 2)); [|lra].
  apply Rmult_le_compat; [apply Rabs_pos|apply Rdiv_le_0_compat; lra|lra|].
  unfold Rdiv. apply Rmult_le_compat_l; [lra|]. apply Rinv_le_contravar; lra.
Qed.
