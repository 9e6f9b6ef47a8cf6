(** * Age of the universe: the textbook formula and the two quadratures of flat_wcdm.py *)
From Coq Require Import Reals List Arith Lra Lia Bool.
From Coquelicot Require Import Coquelicot.
From Flocq Require Import Core.Raux.
From Verif Require Import Num Arr MUtils MCosmo Spec SpecApi RList LUtils LCalc LKern LKern2 LBurst LDust LImf LBlack2 LCosmo.
Import ListNotations.
Open Scope R_scope.

Lemma mono_deriv (G dG : R -> R) a b : a <= b -> (forall x, a <= x <= b -> is_derive G x (dG x)) ->
  (forall x, a <= x <= b -> 0 <= dG x) -> G a <= G b.
Proof.
  intros [Hab| ->] D P; [|lra]. destruct (MVT_cor2 G dG a b Hab) as (c & E & Hc).
  { intros c Hc. apply is_derive_Reals. now apply D. }
  assert (0 <= dG c * (b - a)) by (apply Rmult_le_pos; [apply P|]; lra). lra.
Qed.

(** one cell of the trapezoid rule on a convex function *)
Section Cell.
  Variables (F f df : R -> R) (a b : R).
  Hypothesis Hab : a < b.
  Hypothesis DF : forall x, a <= x <= b -> is_derive F x (f x).
  Hypothesis Df : forall x, a <= x <= b -> is_derive f x (df x).
  Hypothesis M : forall x y, a <= x -> x <= y -> y <= b -> df x <= df y.
  Lemma cell_slope x y : a <= x -> x < y -> y <= b -> df x * (y - x) <= f y - f x <= df y * (y - x).
  Proof.
    intros Hx Hxy Hy. destruct (MVT_cor2 f df x y Hxy) as (c & E & Hc).
    { intros c Hc. apply is_derive_Reals. apply Df. lra. }
    rewrite E. pose proof (M x c ltac:(lra) ltac:(lra) ltac:(lra)). pose proof (M c y ltac:(lra) ltac:(lra) ltac:(lra)). split; apply Rmult_le_compat_r; lra.
  Qed.
  Lemma cell_lower : F b - F a <= (b - a) * (f a + f b) / 2.
  Proof.
    pose (G := fun x => (x - a) * (f a + f x) / 2 - (F x - F a)).
    pose (dG := fun x => ((x - a) * df x - (f x - f a)) / 2).
    assert (G a <= G b).
    { apply (mono_deriv G dG); [lra| |].
      - intros x Hx. unfold G, dG. pose proof (DF x Hx) as D1. pose proof (Df x Hx) as D2.
        auto_derive; [repeat split; [exists (df x)|exists (f x)]; assumption|].
        replace (Derive (fun x0 : R => f x0) x) with (df x) by (symmetry; apply (is_derive_unique f x _ D2)).
        replace (Derive (fun x0 : R => F x0) x) with (f x) by (symmetry; apply (is_derive_unique F x _ D1)). field.
      - intros x Hx. unfold dG. destruct (Req_dec x a) as [-> |N]; [lra|].
        pose proof (cell_slope a x ltac:(lra) ltac:(lra) ltac:(lra)). lra. }
    unfold G in H. replace (a - a) with 0 in H by ring. lra.
  Qed.
  Lemma cell_upper : (b - a) * (f a + f b) / 2 <= F b - F a + (b - a) ^ 2 / 8 * (df b - df a).
  Proof.
    set (m := (a + b) / 2).
    assert (Hm : a < m < b) by (unfold m; lra).
    pose (G := fun x => F x - F a - f a * (x - a) - df a * (x - a) ^ 2 / 2).
    pose (dG := fun x => f x - f a - df a * (x - a)).
    assert (G1 : G a <= G m).
    { apply (mono_deriv G dG); [lra| |].
      - intros x Hx. unfold G, dG. pose proof (DF x ltac:(lra)) as D1.
        auto_derive; [exists (f x); assumption|].
        replace (Derive (fun x0 : R => F x0) x) with (f x) by (symmetry; apply (is_derive_unique F x _ D1)). field.
      - intros x Hx. unfold dG. destruct (Req_dec x a) as [-> |N]; [lra|].
        pose proof (cell_slope a x ltac:(lra) ltac:(lra) ltac:(lra)). lra. }
    pose (K := fun x => - (F b - F x - f b * (b - x) + df b * (b - x) ^ 2 / 2)).
    pose (dK := fun x => f x - f b + df b * (b - x)).
    assert (G2 : K m <= K b).
    { apply (mono_deriv K dK); [lra| |].
      - intros x Hx. unfold K, dK. pose proof (DF x ltac:(lra)) as D1.
        auto_derive; [exists (f x); assumption|].
        replace (Derive (fun x0 : R => F x0) x) with (f x) by (symmetry; apply (is_derive_unique F x _ D1)). field.
      - intros x Hx. unfold dK. destruct (Req_dec x b) as [-> |N]; [lra|].
        pose proof (cell_slope x b ltac:(lra) ltac:(lra) ltac:(lra)). lra. }
    unfold G in G1. unfold K in G2. replace (a - a) with 0 in G1 by ring. replace (b - b) with 0 in G2 by ring.
    replace (m - a) with ((b - a) / 2) in G1 by (unfold m; field). replace (b - m) with ((b - a) / 2) in G2 by (unfold m; field).
    nra.
  Qed.
End Cell.

(** the trapezoid rule on a table, given a bound for the error of each cell *)
Lemma trapezoid_convex xs : forall (F f df u : R -> R) c, xs <> [] -> increasing xs ->
  (forall x, ent xs 0 <= x <= ent xs (length xs - 1) -> is_derive F x (f x)) ->
  (forall x, ent xs 0 <= x <= ent xs (length xs - 1) -> is_derive f x (df x)) ->
  (forall x y, ent xs 0 <= x -> x <= y -> y <= ent xs (length xs - 1) -> df x <= df y) ->
  (forall i, (S i < length xs)%nat ->
     (ent xs (S i) - ent xs i) ^ 2 / 8 * (df (ent xs (S i)) - df (ent xs i))
       <= u (ent xs i) - u (ent xs (S i)) + c * (F (ent xs (S i)) - F (ent xs i))) ->
  F (ent xs (length xs - 1)) - F (ent xs 0) <= trapezoid xs (map f xs)
    <= (1 + c) * (F (ent xs (length xs - 1)) - F (ent xs 0)) + u (ent xs 0) - u (ent xs (length xs - 1)).
Proof.
  induction xs as [|x xs IH]; [congruence|]. intros F f df u c _ I DF Df M E.
  destruct xs as [|x1 xs].
  { unfold ent; simpl. lra. }
  specialize (IH F f df u c ltac:(discriminate) (increasing_tl _ _ I)).
  change (map f (x :: x1 :: xs)) with (f x :: f x1 :: map f xs). rewrite trapezoid_cons2.
  change (f x1 :: map f xs) with (map f (x1 :: xs)).
  replace (length (x :: x1 :: xs) - 1)%nat with (S (length (x1 :: xs) - 1)) in * by (simpl; lia).
  rewrite ent_cons_S in *. rewrite (ent_0 x) in *. rewrite (ent_0 x1) in *.
  set (b := ent (x1 :: xs) (length (x1 :: xs) - 1)) in *.
  assert (X01 : x < x1). { pose proof (I 0%nat 1%nat ltac:(simpl; lia)) as I0. exact I0. }
  assert (X1b : x1 <= b).
  { unfold b. pose proof (increasing_le (x1 :: xs) 0 (length (x1 :: xs) - 1) (increasing_tl _ _ I)) as H.
    rewrite ent_0 in H. apply H; simpl; lia. }
  specialize (IH ltac:(intros; apply DF; lra) ltac:(intros; apply Df; lra) ltac:(intros; apply M; lra)).
  assert (IH' := IH ltac:(intros i Hi; apply (E (S i)); simpl in *; lia)). clear IH.
  pose proof (E 0%nat ltac:(simpl; lia)) as E0. unfold ent in E0 at 1 2 3 4 5 6 7 8. cbn [nth] in E0.
  pose proof (cell_lower F f df x x1 X01 ltac:(intros; apply DF; lra) ltac:(intros; apply Df; lra) ltac:(intros; apply M; lra)).
  pose proof (cell_upper F f df x x1 X01 ltac:(intros; apply DF; lra) ltac:(intros; apply Df; lra) ltac:(intros; apply M; lra)).
  lra.
Qed.

(** ** the Lambda-CDM integrand *)
Definition qq (O s : R) : R := O * s ^ 3 + (1 - O).
Lemma qq_pos O s : 0 < O <= 1 -> 0 < s -> 0 < qq O s.
Proof. intros HO Hs. unfold qq. pose proof (pow_lt s 3 Hs). nra. Qed.
Lemma f2_qq O z : f2 O (-1) 0 z = 1 / sqrt (qq O (1 + z)) / (1 + z).
Proof. unfold f2. now rewrite E_lcdm. Qed.
Definition df2 (O z : R) : R := - ((5 * O * (1 + z) ^ 3 + 2 * (1 - O)) / (2 * (1 + z) ^ 2 * qq O (1 + z) * sqrt (qq O (1 + z)))).
Definition ddf2 (O z : R) : R :=
  (35 * O ^ 2 * (1 + z) ^ 6 + 16 * O * (1 - O) * (1 + z) ^ 3 + 8 * (1 - O) ^ 2)
  / (4 * (1 + z) ^ 3 * qq O (1 + z) ^ 2 * sqrt (qq O (1 + z))).

Lemma f2_deriv O z : 0 < O <= 1 -> -1 < z -> is_derive (f2 O (-1) 0) z (df2 O z).
Proof.
  intros HO Hz. apply (is_derive_ext (fun z => 1 / sqrt (qq O (1 + z)) / (1 + z))); [intros; symmetry; apply f2_qq|].
  pose proof (qq_pos O (1 + z) HO ltac:(lra)) as Q. unfold df2, qq in *.
  auto_derive; [repeat split; try lra; apply Rgt_not_eq, sqrt_lt_R0; lra|].
  replace (1 + - O) with (1 - O) by ring.
  set (s := 1 + z) in *. assert (Hs : 0 < s) by (unfold s; lra).
  set (w := sqrt (O * s ^ 3 + (1 - O))).
  assert (Hw : 0 < w) by (apply sqrt_lt_R0; lra).
  assert (W : w * w = O * s ^ 3 + (1 - O)) by (apply sqrt_sqrt; lra).
  rewrite <- W. replace (5 * O * s ^ 3 + 2 * (1 - O)) with (3 * O * s ^ 3 + 2 * (w * w)) by (rewrite W; ring).
  replace (O * (s * (s * (s * 1))) + (1 - O)) with (w * w) by (rewrite W; ring).
  replace (sqrt (w * w)) with w by (symmetry; apply sqrt_square; lra).
  field. split; lra.
Qed.
Lemma df2_deriv O z : 0 < O <= 1 -> -1 < z -> is_derive (df2 O) z (ddf2 O z).
Proof.
  intros HO Hz. pose proof (qq_pos O (1 + z) HO ltac:(lra)) as Q. unfold ddf2, df2, qq in *.
  set (s := 1 + z) in *. assert (Hs : 0 < s) by (unfold s; lra).
  set (w := sqrt (O * s ^ 3 + (1 - O))).
  assert (Hw : 0 < w) by (apply sqrt_lt_R0; lra).
  assert (W : w * w = O * s ^ 3 + (1 - O)) by (apply sqrt_sqrt; lra).
  auto_derive.
  - change (1 + z) with s. replace (O * (s * (s * (s * 1))) + (1 - O)) with (w * w) by (rewrite W; ring).
    replace (sqrt (w * w)) with w by (symmetry; apply sqrt_square; lra).
    assert (Hww : 0 < w * w) by (rewrite W; lra).
    repeat split; try lra. apply Rgt_not_eq. repeat apply Rmult_lt_0_compat; lra.
  - change (1 + z) with s. replace (O * (s * (s * (s * 1))) + (1 - O)) with (w * w) by (rewrite W; ring).
    replace (sqrt (w * w)) with w by (symmetry; apply sqrt_square; lra).
    rewrite <- W. replace (1 + - O) with (w * w - O * s ^ 3) by (rewrite W; ring).
    replace (1 - O) with (w * w - O * s ^ 3) by (rewrite W; ring).
    field. split; lra.
Qed.
Lemma df2_mono O x y : 0 < O <= 1 -> -1 < x -> x <= y -> df2 O x <= df2 O y.
Proof.
  intros HO Hx Hxy. apply (mono_deriv (df2 O) (ddf2 O)); auto.
  - intros z Hz. apply df2_deriv; auto. lra.
  - intros z Hz. pose proof (qq_pos O (1 + z) HO ltac:(lra)) as Q. unfold ddf2.
    pose proof (pow_lt (1 + z) 3 ltac:(lra)). pose proof (pow_lt (1 + z) 6 ltac:(lra)). pose proof (pow_lt (qq O (1 + z)) 2 Q).
    assert (0 < sqrt (qq O (1 + z))) by now apply sqrt_lt_R0.
    apply Rmult_le_pos.
    + assert (0 <= O ^ 2 * (1 + z) ^ 6) by nra. assert (0 <= O * (1 - O)) by nra. assert (0 <= O * (1 - O) * (1 + z) ^ 3) by nra. nra.
    + apply Rlt_le, Rinv_0_lt_compat. repeat apply Rmult_lt_0_compat; auto; lra.
Qed.

(** ** the textbook age *)
Lemma lcdm_age_alt O z : 0 < O < 1 -> -1 < z ->
  lcdm_age O z = 2 / (3 * sqrt (1 - O)) * (ln (sqrt (1 - O) + sqrt (qq O (1 + z))) - ln O / 2 - 3 / 2 * ln (1 + z)).
Proof.
  intros HO Hz. unfold lcdm_age. destruct (Rlt_dec O 1); [|lra]. fold (qq O (1 + z)).
  pose proof (qq_pos O (1 + z) ltac:(lra) ltac:(lra)) as Q.
  assert (B : 0 < sqrt (1 - O)) by (apply sqrt_lt_R0; lra). assert (0 < sqrt (qq O (1 + z))) by now apply sqrt_lt_R0.
  assert (P : 0 < O * (1 + z) ^ 3) by (apply Rmult_lt_0_compat; [lra|apply pow_lt; lra]).
  assert (0 < sqrt (O * (1 + z) ^ 3)) by now apply sqrt_lt_R0.
  rewrite ln_div by lra. f_equal.
  assert (L : 2 * ln (sqrt (O * (1 + z) ^ 3)) = ln O + 3 * ln (1 + z)).
  { transitivity (ln (sqrt (O * (1 + z) ^ 3) * sqrt (O * (1 + z) ^ 3))); [rewrite ln_mult by auto; ring|].
    rewrite sqrt_sqrt by lra. rewrite ln_mult by (try apply pow_lt; lra). rewrite ln_pow by lra. simpl. lra. }
  lra.
Qed.
Lemma lcdm_age_deriv O z : 0 < O <= 1 -> -1 < z -> is_derive (lcdm_age O) z (- f2 O (-1) 0 z).
Proof.
  intros HO Hz. rewrite f2_qq. pose proof (qq_pos O (1 + z) HO ltac:(lra)) as Q.
  destruct (Rlt_dec O 1) as [L|L].
  - apply (is_derive_ext_loc (fun z => 2 / (3 * sqrt (1 - O)) * (ln (sqrt (1 - O) + sqrt (qq O (1 + z))) - ln O / 2 - 3 / 2 * ln (1 + z)))).
    { exists (mkposreal (z + 1) ltac:(lra)). intros y Hy. symmetry. apply lcdm_age_alt; [lra|].
      unfold ball in Hy; simpl in Hy; unfold AbsRing_ball, abs, minus, plus, opp in Hy; simpl in Hy.
      apply Rabs_lt_between in Hy. lra. }
    unfold qq in *. assert (B : 0 < sqrt (1 - O)) by (apply sqrt_lt_R0; lra).
    set (b := sqrt (1 - O)) in *. assert (EB : b * b = 1 - O) by (apply sqrt_sqrt; lra).
    assert (Sq : 0 < sqrt (O * (1 + z) ^ 3 + (1 - O))) by now apply sqrt_lt_R0.
    auto_derive; [repeat split; try lra|].
    + replace (1 + - O) with (1 - O) by ring. apply Rplus_lt_0_compat; auto.
    + set (s := 1 + z) in *. assert (Hs : 0 < s) by (unfold s; lra).
      set (w := sqrt (O * s ^ 3 + (1 - O))) in *.
      assert (W : w * w = O * s ^ 3 + (1 - O)) by (apply sqrt_sqrt; lra).
      replace (O * (s * (s * (s * 1))) + (1 - O)) with (w * w) by (rewrite W; ring).
      replace (sqrt (w * w)) with w by (symmetry; apply sqrt_square; lra).
      assert (EO : O = (w * w - b * b) / s ^ 3) by (rewrite W, EB; field; lra). rewrite EO.
      field. repeat split; lra.
  - assert (O = 1) by lra. subst O. apply (is_derive_ext_loc (fun z => 2 / 3 / sqrt ((1 + z) ^ 3))).
    { exists (mkposreal 1 Rlt_0_1). intros y Hy. unfold lcdm_age. destruct (Rlt_dec 1 1); lra. }
    unfold qq in *. replace (1 * (1 + z) ^ 3 + (1 - 1)) with ((1 + z) ^ 3) in * by ring.
    assert (Sq : 0 < sqrt ((1 + z) ^ 3)) by now apply sqrt_lt_R0.
    auto_derive; [repeat split; try (apply Rgt_not_eq; exact Sq); try lra|].
    set (s := 1 + z) in *. assert (Hs : 0 < s) by (unfold s; lra).
    set (w := sqrt (s ^ 3)) in *. assert (W : w * w = s ^ 3) by (apply sqrt_sqrt; lra).
    replace (s * (s * (s * 1))) with (w * w) by (rewrite W; ring).
    replace (sqrt (w * w)) with w by (symmetry; apply sqrt_square; lra).
    apply Rmult_eq_reg_r with (w * w * w * s); [|apply Rgt_not_eq; repeat apply Rmult_lt_0_compat; lra].
    transitivity (- (s ^ 3)); [field; lra|rewrite <- W; field; lra].
Qed.

Lemma sinh_ge y : 0 <= y -> 2 * y <= exp y - exp (- y).
Proof.
  intros Hy. pose (G := fun y => exp y - exp (- y) - 2 * y).
  assert (H : G 0 <= G y).
  { apply (mono_deriv G (fun y => exp y + exp (- y) - 2)); auto.
    - intros x _. unfold G. auto_derive; auto. ring.
    - intros x _. pose proof (exp_ge_1 x). pose proof (exp_ge_1 (- x)). lra. }
  unfold G in H. rewrite Ropp_0, exp_0 in H. lra.
Qed.
(** the age lies between 2/(3 E(z)) and its matter-dominated value *)
Lemma lcdm_age_range O z : 0 < O <= 1 -> -1 < z ->
  2 / 3 / sqrt (qq O (1 + z)) <= lcdm_age O z <= 2 / 3 / sqrt (O * (1 + z) ^ 3).
Proof.
  intros HO Hz. pose proof (qq_pos O (1 + z) HO ltac:(lra)) as Q.
  set (s := 1 + z) in *. assert (Hs : 0 < s) by (unfold s; lra). pose proof (pow_lt s 3 Hs) as S3.
  assert (OS : 0 < O * s ^ 3) by (apply Rmult_lt_0_compat; lra).
  unfold lcdm_age. destruct (Rlt_dec O 1) as [L|L].
  2:{ assert (O = 1) by lra. subst O. unfold qq in *. fold s. replace (1 * s ^ 3 + (1 - 1)) with (s ^ 3) in * by ring. rewrite Rmult_1_l. lra. }
  fold s. fold (qq O s).
  assert (B : 0 < sqrt (1 - O)) by (apply sqrt_lt_R0; lra). assert (W : 0 < sqrt (qq O s)) by now apply sqrt_lt_R0.
  assert (D : 0 < sqrt (O * s ^ 3)) by now apply sqrt_lt_R0.
  pose proof (sqrt_sqrt (1 - O) ltac:(lra)) as EB. pose proof (sqrt_sqrt (qq O s) ltac:(lra)) as EW. pose proof (sqrt_sqrt (O * s ^ 3) ltac:(lra)) as ED.
  assert (EWD : sqrt (qq O s) * sqrt (qq O s) = sqrt (O * s ^ 3) * sqrt (O * s ^ 3) + sqrt (1 - O) * sqrt (1 - O)).
  { rewrite EW, ED, EB. reflexivity. }
  set (b := sqrt (1 - O)) in *. set (w := sqrt (qq O s)) in *. set (d := sqrt (O * s ^ 3)) in *.
  clearbody b w d. clear - B W D EWD.
  assert (bw : b < w) by nra. assert (dw : d < w) by nra.
  set (t := ln ((b + w) / d)). assert (P : 0 < (b + w) / d) by (apply Rdiv_lt_0_compat; lra).
  assert (Et : exp t = (b + w) / d) by (apply exp_ln; auto).
  assert (Em : exp (- t) = (w - b) / d).
  { rewrite exp_Ropp, Et. field_simplify_eq; [|split; lra]. nra. }
  assert (Ht : 0 <= t).
  { unfold t. rewrite <- ln_1. apply ln_le; [lra|]. apply Rmult_le_reg_r with d; auto. unfold Rdiv. rewrite Rmult_assoc, Rinv_l by lra. lra. }
  split.
  - (* t >= tanh t = b / w *)
    assert (G : b / w <= t).
    { pose (G := fun t => t * (exp t + exp (- t)) - (exp t - exp (- t))).
      assert (H : G 0 <= G t).
      { apply (mono_deriv G (fun t => t * (exp t - exp (- t)))); auto.
        - intros x _. unfold G. auto_derive; auto. ring.
        - intros x Hx. pose proof (sinh_ge x ltac:(lra)). apply Rmult_le_pos; lra. }
      unfold G in H. rewrite Ropp_0, exp_0, Et, Em in H.
      apply Rmult_le_reg_r with (2 * w / d); [apply Rdiv_lt_0_compat; lra|].
      replace (b / w * (2 * w / d)) with ((b + w) / d - (w - b) / d) by (field; lra).
      replace (t * (2 * w / d)) with (t * ((b + w) / d + (w - b) / d)) by (field; lra). lra. }
    replace (2 / 3 / w) with (2 / (3 * b) * (b / w)) by (field; lra). apply Rmult_le_compat_l; auto.
    apply Rlt_le, Rdiv_lt_0_compat; lra.
  - assert (G : t <= b / d).
    { pose proof (sinh_ge t Ht) as G. rewrite Et, Em in G. replace ((b + w) / d - (w - b) / d) with (2 * (b / d)) in G by (field; lra). lra. }
    replace (2 / 3 / d) with (2 / (3 * b) * (b / d)) by (field; lra). apply Rmult_le_compat_l; auto.
    apply Rlt_le, Rdiv_lt_0_compat; lra.
Qed.
Lemma age_diff_deriv O z : 0 < O <= 1 -> -1 < z -> is_derive (fun z => - lcdm_age O z) z (f2 O (-1) 0 z).
Proof.
  intros HO Hz. pose proof (lcdm_age_deriv O z HO Hz) as D.
  replace (f2 O (-1) 0 z) with (- - f2 O (-1) 0 z) by ring. now apply (is_derive_opp (lcdm_age O)).
Qed.

(** lookback: the quadrature never underestimates, and by at most (z/511)^2/8 (1 + 3/2 Om0) *)
Lemma look_quad O z : 0 < O <= 1 -> 0 < z ->
  lcdm_age O 0 - lcdm_age O z <= quad 512 (f2 O (-1) 0) z
    <= lcdm_age O 0 - lcdm_age O z + (z / 511) ^ 2 / 8 * (1 + 3 / 2 * O).
Proof.
  intros HO Hz.
  assert (N : INR (512 - 1) = 511) by (rewrite INR_IZR_INZ; simpl Z.of_nat; lra).
  pose proof (grid_0 512 z n512) as G0. pose proof (grid_last 512 z n512) as G1.
  pose proof (trapezoid_convex (grid 512 z) (fun z => - lcdm_age O z) (f2 O (-1) 0) (df2 O)
    (fun x => - ((z / 511) ^ 2 / 8 * df2 O x)) 0) as T.
  rewrite grid_length, G0, G1 in T.
  specialize (T (grid_ne 512 z n512) (grid_increasing 512 z n512 Hz)).
  specialize (T ltac:(intros; apply age_diff_deriv; auto; lra) ltac:(intros; apply f2_deriv; auto; lra) ltac:(intros; apply df2_mono; auto; lra)).
  assert (H : forall i : nat, (S i < 512)%nat ->
     (ent (grid 512 z) (S i) - ent (grid 512 z) i) ^ 2 / 8 * (df2 O (ent (grid 512 z) (S i)) - df2 O (ent (grid 512 z) i)) <=
     - ((z / 511) ^ 2 / 8 * df2 O (ent (grid 512 z) i)) - - ((z / 511) ^ 2 / 8 * df2 O (ent (grid 512 z) (S i))) +
     0 * (- lcdm_age O (ent (grid 512 z) (S i)) - - lcdm_age O (ent (grid 512 z) i))).
  { intros i Hi. rewrite (grid_step 512 z i n512 Hi), N. lra. }
  specialize (T H). clear H. unfold quad in *.
  assert (D0 : df2 O 0 = - (1 + 3 / 2 * O)).
  { unfold df2, qq. rewrite Rplus_0_r, !pow1. replace (O * 1 + (1 - O)) with 1 by ring. rewrite sqrt_1. field. }
  assert (Dz : df2 O z <= 0).
  { unfold df2. pose proof (qq_pos O (1 + z) HO ltac:(lra)) as Q. pose proof (pow_lt (1 + z) 3 ltac:(lra)). pose proof (pow_lt (1 + z) 2 ltac:(lra)).
    assert (0 < sqrt (qq O (1 + z))) by now apply sqrt_lt_R0.
    assert (0 < O * (1 + z) ^ 3) by nra.
    assert (0 < (5 * O * (1 + z) ^ 3 + 2 * (1 - O)) / (2 * (1 + z) ^ 2 * qq O (1 + z) * sqrt (qq O (1 + z)))).
    { apply Rdiv_lt_0_compat; [lra|]. repeat apply Rmult_lt_0_compat; auto; lra. } lra. }
  rewrite D0 in T. pose proof (pow2_ge_0 (z / 511)). nra.
Qed.

Lemma df2_neg O z : 0 < O <= 1 -> -1 < z -> df2 O z < 0.
Proof.
  intros HO Hz. unfold df2. pose proof (qq_pos O (1 + z) HO ltac:(lra)) as Q. pose proof (pow_lt (1 + z) 3 ltac:(lra)). pose proof (pow_lt (1 + z) 2 ltac:(lra)).
  assert (0 < sqrt (qq O (1 + z))) by now apply sqrt_lt_R0.
  assert (0 < O * (1 + z) ^ 3) by nra.
  assert (0 < (5 * O * (1 + z) ^ 3 + 2 * (1 - O)) / (2 * (1 + z) ^ 2 * qq O (1 + z) * sqrt (qq O (1 + z)))).
  { apply Rdiv_lt_0_compat; [lra|]. repeat apply Rmult_lt_0_compat; auto; lra. } lra.
Qed.
Lemma df2_0 O : df2 O 0 = - (1 + 3 / 2 * O).
Proof. unfold df2, qq. rewrite Rplus_0_r, !pow1. replace (O * 1 + (1 - O)) with 1 by ring. rewrite sqrt_1. field. Qed.
(** logarithmic slope between -5/2 and -1 *)
Lemma df2_le O z : 0 < O <= 1 -> -1 < z -> (1 + z) * - df2 O z <= 5 / 2 * f2 O (-1) 0 z.
Proof.
  intros HO Hz. rewrite f2_qq. unfold df2. set (s := 1 + z). assert (Hs : 0 < s) by (unfold s; lra).
  pose proof (qq_pos O s HO Hs) as Q. assert (Hw : 0 < sqrt (qq O s)) by now apply sqrt_lt_R0.
  replace (s * - - ((5 * O * s ^ 3 + 2 * (1 - O)) / (2 * s ^ 2 * qq O s * sqrt (qq O s))))
    with ((5 / 2 - 3 / 2 * ((1 - O) / qq O s)) * (1 / sqrt (qq O s) / s)).
  - apply Rmult_le_compat_r.
    + apply Rlt_le, Rdiv_lt_0_compat; auto. apply Rdiv_lt_0_compat; lra.
    + assert (0 <= (1 - O) / qq O s) by (apply Rmult_le_pos; [lra|apply Rlt_le, Rinv_0_lt_compat; auto]). lra.
  - set (w := sqrt (qq O s)) in *. replace (5 * O * s ^ 3 + 2 * (1 - O)) with (5 * qq O s - 3 * (1 - O)) by (unfold qq; ring).
    field. repeat split; lra.
Qed.
Lemma agrid_length : length agrid = 512%nat.
Proof. unfold agrid. now rewrite map_length, grid_length. Qed.
Lemma agrid_step i : (S i < 512)%nat -> 1 + ent agrid (S i) = pow10 (3 / 511) * (1 + ent agrid i).
Proof.
  intros Hi. unfold agrid. rewrite !ent_map by (rewrite grid_length; lia).
  replace (ent (grid 512 3) (S i)) with (ent (grid 512 3) i + 3 / 511).
  - rewrite pow10_plus. ring.
  - pose proof (grid_step 512 3 i n512 Hi) as S. rewrite INR_IZR_INZ in S. simpl Z.of_nat in S. lra.
Qed.
Lemma agrid_inc : increasing agrid.
Proof.
  unfold agrid. apply increasing_map; [apply grid_increasing; [apply n512|lra]|].
  intros x y _ _ Hxy. pose proof (pow10_lt x y Hxy). lra.
Qed.
Lemma agrid_0 : ent agrid 0 = 0.
Proof. unfold agrid. rewrite ent_map by (rewrite grid_length; lia). rewrite grid_0 by apply n512. rewrite pow10_0. lra. Qed.
Lemma agrid_last : ent agrid (512 - 1) = 999.
Proof.
  unfold agrid. rewrite ent_map by (rewrite grid_length; lia). rewrite grid_last by apply n512.
  unfold pow10. replace 3 with (INR 3) by (simpl; lra). rewrite Rpower_pow by lra. lra.
Qed.

Lemma age_quad O : 0 < O <= 1 ->
  lcdm_age O 0 - lcdm_age O 999 <= aint O (-1) 0
    <= 1.00013 * (lcdm_age O 0 - lcdm_age O 999) + 7 / 10 ^ 5.
Proof.
  intros HO. set (r := pow10 (3 / 511)).
  assert (Hr : 1 < r <= 1.014).
  { split; [|apply q_bound]. unfold r. rewrite <- pow10_0. apply pow10_lt. lra. }
  set (c0 := (r - 1) ^ 2 / 8).
  assert (Hc0 : 0 <= c0 <= 0.0000245).
  { unfold c0. split; [|nra]. pose proof (pow2_ge_0 (r - 1)). lra. }
  pose proof agrid_length as AL.
  pose proof (trapezoid_convex agrid (fun z => - lcdm_age O z) (f2 O (-1) 0) (df2 O)
    (fun x => c0 * (- (1 + x) ^ 2 * df2 O x)) (5 * c0)) as T.
  rewrite AL, agrid_0, agrid_last in T.
  assert (NE : agrid <> []) by (intros E; rewrite E in AL; discriminate).
  specialize (T NE agrid_inc).
  specialize (T ltac:(intros; apply age_diff_deriv; auto; lra) ltac:(intros; apply f2_deriv; auto; lra) ltac:(intros; apply df2_mono; auto; lra)).
  match type of T with ?P -> _ => assert (H : P) end.
  { intros i Hi. pose proof (agrid_step i Hi) as St. fold r in St.
    assert (R1 : 0 <= ent agrid i) by (apply agrid_In, ent_In; lia).
    set (x := ent agrid i) in *. set (y := ent agrid (S i)) in *.
    assert (Ey : y = r * (1 + x) - 1) by lra.
    assert (Hxy : x < y) by (rewrite Ey; nra).
    assert (FI : (y - x) * f2 O (-1) 0 y <= - lcdm_age O y - - lcdm_age O x).
    { destruct (MVT_cor2 (fun z => - lcdm_age O z) (f2 O (-1) 0) x y Hxy) as (c & E & Hc).
      { intros c Hc. apply is_derive_Reals, age_diff_deriv; auto; lra. }
      rewrite E, Rmult_comm. apply Rmult_le_compat_r; [lra|]. apply f2_lcdm_le; auto; lra. }
    assert (Dy : (1 + y) * - df2 O y <= 5 / 2 * f2 O (-1) 0 y) by (apply df2_le; auto; lra).
    replace ((y - x) ^ 2 / 8) with (c0 * (1 + x) ^ 2) by (unfold c0; rewrite Ey; field).
    set (D := - df2 O y) in *. assert (HD : 0 <= D) by (pose proof (df2_neg O y HO ltac:(lra)); unfold D; lra).
    replace (df2 O y) with (- D) by (unfold D; ring).
    apply Rle_trans with (c0 * (- (1 + x) ^ 2 * df2 O x) - c0 * (- (1 + y) ^ 2 * - D) + 5 * c0 * ((y - x) * f2 O (-1) 0 y)).
    2:{ assert (0 <= 5 * c0) by lra. pose proof (Rmult_le_compat_l (5 * c0) _ _ H FI). lra. }
    replace (1 + y) with (r * (1 + x)) in * by lra. replace (y - x) with ((r - 1) * (1 + x)) by (rewrite Ey; ring).
    assert (K : (1 + x) ^ 2 * D * (r ^ 2 - 1) <= 5 * ((r - 1) * (1 + x) * f2 O (-1) 0 y)).
    { assert (K1 : 2 * (r * (1 + x) * D) <= 5 * f2 O (-1) 0 y) by lra.
      assert (K2 : (1 + x) * D * (r + 1) <= 2 * (r * (1 + x) * D)).
      { assert (0 <= (1 + x) * D) by (apply Rmult_le_pos; lra). nra. }
      assert (K3 : (1 + x) * D * (r + 1) <= 5 * f2 O (-1) 0 y) by lra.
      replace ((1 + x) ^ 2 * D * (r ^ 2 - 1)) with ((r - 1) * (1 + x) * ((1 + x) * D * (r + 1))) by ring.
      replace (5 * ((r - 1) * (1 + x) * f2 O (-1) 0 y)) with ((r - 1) * (1 + x) * (5 * f2 O (-1) 0 y)) by ring.
      apply Rmult_le_compat_l; auto. apply Rmult_le_pos; lra. }
    pose proof (Rmult_le_compat_l c0 _ _ (proj1 Hc0) K) as K'.
    replace ((r * (1 + x)) ^ 2) with (r ^ 2 * (1 + x) ^ 2) by ring. lra. }
  specialize (T H). clear H. unfold aint. cbv beta in T. rewrite df2_0 in T.
  pose proof (df2_neg O 999 HO ltac:(lra)) as D9.
  assert (M0 : 0 <= lcdm_age O 0 - lcdm_age O 999).
  { assert (M : - lcdm_age O 0 <= - lcdm_age O 999); [|lra].
    apply (mono_deriv (fun z => - lcdm_age O z) (f2 O (-1) 0)); [lra| |].
    - intros; apply age_diff_deriv; auto; lra.
    - intros. apply Rlt_le, f2_pos; auto; lra. }
  split; [lra|]. destruct T as [_ T]. apply Rle_trans with (1 := T).
  set (I := lcdm_age O 0 - lcdm_age O 999) in *. replace (- lcdm_age O 999 - - lcdm_age O 0) with I by (unfold I; ring).
  assert (U9 : 0 <= c0 * (- (1 + 999) ^ 2 * df2 O 999)) by (apply Rmult_le_pos; lra).
  assert (U0 : c0 * (- (1 + 0) ^ 2 * - (1 + 3 / 2 * O)) <= 0.0000245 * (5 / 2)).
  { replace (- (1 + 0) ^ 2 * - (1 + 3 / 2 * O)) with (1 + 3 / 2 * O) by ring. apply Rmult_le_compat; lra. }
  assert (C : 5 * c0 * I <= 0.0001225 * I) by (apply Rmult_le_compat_r; lra).
  lra.
Qed.

Lemma tail_999 O : 0 < O <= 1 -> lcdm_age O 999 <= 2.2 / 10 ^ 5 / sqrt O.
Proof.
  intros HO. destruct (lcdm_age_range O 999 HO ltac:(lra)) as [_ U]. apply Rle_trans with (1 := U).
  assert (Sq : 0 < sqrt O) by (apply sqrt_lt_R0; lra).
  rewrite sqrt_mult by (try apply pow_le; lra).
  assert (S3 : 31000 <= sqrt ((1 + 999) ^ 3)).
  { rewrite <- (sqrt_square 31000) by lra. apply sqrt_le_1; lra. }
  replace (2 / 3 / (sqrt O * sqrt ((1 + 999) ^ 3))) with (2 / 3 / sqrt ((1 + 999) ^ 3) / sqrt O) by (field; lra).
  apply Rmult_le_compat_r; [apply Rlt_le, Rinv_0_lt_compat; auto|].
  apply Rmult_le_reg_r with (sqrt ((1 + 999) ^ 3)); [lra|]. unfold Rdiv at 1. rewrite Rmult_assoc, Rinv_l by lra. lra.
Qed.

(** ** C112 *)
Lemma C112_textbook_lemma : forall Om0 z, 0 < Om0 <= 1 -> -1 < z ->
  is_derive (lcdm_age Om0) z (- (1 / expansion Om0 (-1) 0 z / (1 + z)))
  /\ 2 / 3 / expansion Om0 (-1) 0 z <= lcdm_age Om0 z <= 2 / 3 / sqrt (Om0 * (1 + z) ^ 3).
Proof.
  intros O z HO Hz. split; [exact (lcdm_age_deriv O z HO Hz)|]. rewrite E_lcdm. exact (lcdm_age_range O z HO Hz).
Qed.
Lemma C112_age_lemma : forall Om0 h, 0 < Om0 <= 1 -> 0 < h -> exists t0 tH,
  age_at_z0 (Fin Om0) (Fin (-1)) (Fin 0) (Fin h) = Fin t0
  /\ hubble_time (Fin 0) (Fin Om0) (Fin (-1)) (Fin 0) (Fin h) = Fin tH
  /\ 9.778 / h <= tH <= 9.7782 / h
  /\ tH * (lcdm_age Om0 0 - 2.2 / 10 ^ 5 / sqrt Om0) <= t0 <= tH * (1.00013 * lcdm_age Om0 0 + 7 / 10 ^ 5).
Proof.
  intros O h HO Hh. exists (age0 O (-1) 0 h), (tH h). pose proof (tH_pos h Hh) as HT.
  split; [apply age0_fin; auto; lra|].
  split; [rewrite hubble_time_fin, E_0 by (auto; lra); f_equal; lra|].
  split.
  { unfold tH. split; apply Rmult_le_compat_r; try lra; apply Rlt_le, Rinv_0_lt_compat; auto. }
  unfold age0. destruct (age_quad O HO) as [L U]. pose proof (tail_999 O HO) as T9.
  destruct (lcdm_age_range O 999 HO ltac:(lra)) as [P9 _].
  assert (0 < 2 / 3 / sqrt (qq O (1 + 999))).
  { apply Rdiv_lt_0_compat; [lra|]. apply sqrt_lt_R0, qq_pos; auto; lra. }
  split; apply Rmult_le_compat_l; lra.
Qed.

Lemma ln_bounds x l u n : 0 < x -> 0 <= l <= INR n -> 0 <= u <= INR n -> (0 < n)%nat ->
  / x <= (1 - l / INR n + (l / INR n) ^ 2 / 2 - (l / INR n) ^ 3 / 6) ^ n ->
  1 <= / x * (1 + u / INR n + (u / INR n) ^ 2 / 2 + (u / INR n) ^ 3 / 6) ^ n ->
  l <= ln x <= u.
Proof.
  intros Hx Hl Hu Hn A B. pose proof (expm_lower l n Hl Hn _ A) as A'. pose proof (expm_upper u n ltac:(lra) Hn _ B) as B'.
  assert (P : 0 < / x) by (now apply Rinv_0_lt_compat).
  split.
  - apply ln_le in A'; [|auto]. rewrite ln_exp, ln_Rinv in A' by auto. lra.
  - apply ln_le in B'; [|apply exp_pos]. rewrite ln_exp, ln_Rinv in B' by auto. lra.
Qed.

Lemma planck15_age : 0.9571 <= lcdm_age 0.3075 0 <= 0.9578.
Proof.
  unfold lcdm_age. destruct (Rlt_dec 0.3075 1); [|lra]. rewrite Rplus_0_r, pow1, Rmult_1_r.
  replace (0.3075 + (1 - 0.3075)) with 1 by lra. rewrite sqrt_1.
  assert (B : 0.832165 <= sqrt (1 - 0.3075) <= 0.832167).
  { split; [rewrite <- (sqrt_square 0.832165) by lra|rewrite <- (sqrt_square 0.832167) by lra]; apply sqrt_le_1; lra. }
  assert (D : 0.554526 <= sqrt 0.3075 <= 0.554528).
  { split; [rewrite <- (sqrt_square 0.554526) by lra|rewrite <- (sqrt_square 0.554528) by lra]; apply sqrt_le_1; lra. }
  set (b := sqrt (1 - 0.3075)) in *. set (d := sqrt 0.3075) in *.
  assert (R1 : 3.3039 <= (b + 1) / d <= 3.3042).
  { split; [apply le_div_iff; lra|apply div_le_iff; lra]. }
  assert (E32 : INR 32 = 32) by (simpl; lra).
  assert (L : 1.1949 <= ln ((b + 1) / d) <= 1.1954).
  { apply ln_bounds with 32%nat; rewrite ?E32; try lra; try lia.
    - apply Rle_trans with (/ 3.3039); [apply Rinv_le_contravar; lra|]. lra.
    - apply Rle_trans with (/ 3.3042 * (1 + 1.1954 / 32 + (1.1954 / 32) ^ 2 / 2 + (1.1954 / 32) ^ 3 / 6) ^ 32); [lra|].
      apply Rmult_le_compat_r; [lra|]. apply Rinv_le_contravar; lra. }
  assert (C : 0.80111 <= 2 / (3 * b) <= 0.80113) by (split; [apply le_div_iff; lra|apply div_le_iff; lra]).
  set (t := ln ((b + 1) / d)) in *. clearbody t. set (c := 2 / (3 * b)) in *. clearbody c. nra.
Qed.

Lemma C112_today_lemma : exists t0, TODAY = Fin t0 /\ 13.81 < t0 < 13.83.
Proof.
  destruct (C112_age_lemma 0.3075 0.6774 ltac:(lra) ltac:(lra)) as (t0 & tH0 & E & _ & H & T).
  exists t0. split.
  - rewrite <- E. reflexivity.
  - pose proof planck15_age as A. set (a := lcdm_age 0.3075 0) in *. clearbody a.
    assert (D : 0.55 <= sqrt 0.3075) by (rewrite <- (sqrt_square 0.55) by lra; apply sqrt_le_1; lra).
    assert (T9 : 2.2 / 10 ^ 5 / sqrt 0.3075 <= 4 / 10 ^ 5) by (apply div_le_iff; lra).
    set (e := 2.2 / 10 ^ 5 / sqrt 0.3075) in *. clearbody e.
    assert (14.4346 <= tH0 <= 14.4350) by lra.
    assert (14.4346 * 0.95706 <= tH0 * (a - e)) by (apply Rmult_le_compat; lra).
    assert (tH0 * (1.00013 * a + 7 / 10 ^ 5) <= 14.4350 * 0.958) by (apply Rmult_le_compat; lra).
    lra.
Qed.

(** ** C113 *)
Lemma C113_lemma : forall Om0 h z, 0 < Om0 <= 1 -> 0 < h -> 0 < z -> exists age tH,
  age_at_z (Scalar (Fin z)) (Fin Om0) (Fin (-1)) (Fin 0) (Fin h) = [Fin age]
  /\ hubble_time (Fin 0) (Fin Om0) (Fin (-1)) (Fin 0) (Fin h) = Fin tH
  /\ tH * (lcdm_age Om0 z - (2.2 / 10 ^ 5 / sqrt Om0 + (z / 511) ^ 2 / 8 * (1 + 3 / 2 * Om0))) <= age
     <= tH * (lcdm_age Om0 z + (1.3 / 10 ^ 4 * lcdm_age Om0 0 + 7 / 10 ^ 5)).
Proof.
  intros O h z HO Hh Hz. exists (age0 O (-1) 0 h - look O (-1) 0 h z), (tH h). pose proof (tH_pos h Hh) as HT.
  split; [unfold age_at_z, atleast_1d; cbn [map]; now rewrite agekern_fin by (auto; lra)|].
  split; [rewrite hubble_time_fin, E_0 by (auto; lra); f_equal; lra|].
  unfold age0, look. rewrite <- Rmult_minus_distr_l.
  destruct (age_quad O HO) as [L U]. pose proof (tail_999 O HO) as T9. destruct (look_quad O z HO Hz) as [L2 U2].
  destruct (lcdm_age_range O 999 HO ltac:(lra)) as [P9 _].
  assert (0 < 2 / 3 / sqrt (qq O (1 + 999))).
  { apply Rdiv_lt_0_compat; [lra|]. apply sqrt_lt_R0, qq_pos; auto; lra. }
  split; apply Rmult_le_compat_l; lra.
Qed.
Lemma C113_positive_lemma : forall Om0 h z, 0.01 <= Om0 <= 1 -> 0 < h -> 0 <= z <= 30 -> exists age,
  age_at_z (Scalar (Fin z)) (Fin Om0) (Fin (-1)) (Fin 0) (Fin h) = [Fin age] /\ 0 < age.
Proof.
  intros O h z HO Hh [[Hz|<-] Hz30].
  2:{ destruct (C57_lemma O (-1) 0 h ltac:(lra) Hh) as (t0 & lk & ag & _ & _ & E & _ & P & _ & E0 & _).
      exists (ag 0). split; [apply E; lra|lra]. }
  destruct (C113_lemma O h z ltac:(lra) Hh Hz) as (a & tH0 & E & ET & L & _). exists a. split; auto.
  apply Rlt_le_trans with (2 := L). 
  assert (HT : 0 < tH0).
  { rewrite hubble_time_fin, E_0 in ET by lra. injection ET as <-. pose proof (tH_pos h Hh). lra. }
  apply Rmult_lt_0_compat; auto.
  assert (Sq : 0 < sqrt O) by (apply sqrt_lt_R0; lra). pose proof (sqrt_sqrt O ltac:(lra)) as SS.
  assert (S1 : sqrt O <= 1) by (rewrite <- sqrt_1; apply sqrt_le_1; lra).
  destruct (lcdm_age_range O z ltac:(lra) ltac:(lra)) as [A _].
  assert (Q : sqrt (qq O (1 + z)) <= 173 * sqrt O).
  { rewrite <- (sqrt_square (173 * sqrt O)) by lra. replace (173 * sqrt O * (173 * sqrt O)) with (29929 * O) by (rewrite <- SS at 1; ring).
    apply sqrt_le_1; try lra. 
    - apply Rlt_le, qq_pos; lra.
    - unfold qq. assert ((1 + z) ^ 3 <= 31 ^ 3) by (apply pow_incr; lra). nra. }
  assert (Qp : 0 < sqrt (qq O (1 + z))) by (apply sqrt_lt_R0, qq_pos; lra).
  assert (A1 : 0.00385 / sqrt O <= 2 / 3 / sqrt (qq O (1 + z))).
  { apply le_div_iff; auto. apply Rle_trans with (0.00385 / sqrt O * (173 * sqrt O)).
    - apply Rmult_le_compat_l; auto. apply Rlt_le, Rdiv_lt_0_compat; lra.
    - replace (0.00385 / sqrt O * (173 * sqrt O)) with (0.00385 * 173) by (field; lra). lra. }
  assert (V : (z / 511) ^ 2 <= (30 / 511) ^ 2) by (apply pow_incr; lra).
  assert (V2 : (z / 511) ^ 2 / 8 * (1 + 3 / 2 * O) <= 0.0011).
  { apply Rle_trans with ((30 / 511) ^ 2 / 8 * (5 / 2)); [|lra]. apply Rmult_le_compat; try lra. pose proof (pow2_ge_0 (z / 511)); lra. }
  assert (I1 : 1 <= / sqrt O) by (rewrite <- Rinv_1; apply Rinv_le_contravar; lra).
  unfold Rdiv in *. lra.
Qed.

(** ** C58: negative ages from redshift 200 on *)
Definition first_excess (O x : R) : R := x * (1 + f2 O (-1) 0 x) / 2 - (lcdm_age O 0 - lcdm_age O x).
Lemma first_excess_mono O x y : 0 < O <= 1 -> 0 <= x <= y -> first_excess O x <= first_excess O y.
Proof.
  intros HO Hxy. apply (mono_deriv (first_excess O) (fun x => (1 - f2 O (-1) 0 x + x * df2 O x) / 2)); [lra| |].
  - intros t Ht. unfold first_excess. pose proof (f2_deriv O t HO ltac:(lra)) as D1. pose proof (lcdm_age_deriv O t HO ltac:(lra)) as D2.
    auto_derive; [repeat split; [exists (df2 O t)|exists (- f2 O (-1) 0 t)]; assumption|].
    replace (Derive (fun x0 : R => f2 O (-1) 0 x0) t) with (df2 O t) by (symmetry; apply (is_derive_unique (f2 O (-1) 0) t _ D1)).
    replace (Derive (fun x0 : R => lcdm_age O x0) t) with (- f2 O (-1) 0 t) by (symmetry; apply (is_derive_unique (lcdm_age O) t _ D2)).
    field.
  - intros t Ht. destruct (Req_dec t 0) as [-> |N]; [rewrite f2_0; lra|].
    pose proof (cell_slope (f2 O (-1) 0) (df2 O) 0 t ltac:(intros; apply f2_deriv; auto; lra) ltac:(intros; apply df2_mono; auto; lra) 0 t ltac:(lra) ltac:(lra) ltac:(lra)) as [_ S].
    rewrite f2_0 in S. lra.
Qed.
Lemma first_excess_lb O x : 0 < O <= 1 -> 0 < x ->
  x / 4 * (1 + f2 O (-1) 0 x - 2 * f2 O (-1) 0 (x / 2)) <= first_excess O x.
Proof.
  intros HO Hx. unfold first_excess.
  pose proof (cell_lower (fun z => - lcdm_age O z) (f2 O (-1) 0) (df2 O) 0 (x / 2) ltac:(lra) ltac:(intros; apply age_diff_deriv; auto; lra) ltac:(intros; apply f2_deriv; auto; lra) ltac:(intros; apply df2_mono; auto; lra)) as A.
  pose proof (cell_lower (fun z => - lcdm_age O z) (f2 O (-1) 0) (df2 O) (x / 2) x ltac:(lra) ltac:(intros; apply age_diff_deriv; auto; lra) ltac:(intros; apply f2_deriv; auto; lra) ltac:(intros; apply df2_mono; auto; lra)) as B.
  cbv beta in A, B. rewrite f2_0 in A. lra.
Qed.
Lemma look_excess O z : 0 < O <= 1 -> 0 < z ->
  lcdm_age O 0 - lcdm_age O z + first_excess O (z / 511) <= quad 512 (f2 O (-1) 0) z.
Proof.
  intros HO Hz. unfold quad, first_excess.
  assert (N : INR (512 - 1) = 511) by (rewrite INR_IZR_INZ; simpl Z.of_nat; lra).
  pose proof (grid_0 512 z n512) as G0. pose proof (grid_last 512 z n512) as G1.
  pose proof (grid_step 512 z 0 n512 ltac:(lia)) as G2. rewrite N, G0 in G2.
  pose proof (grid_increasing 512 z n512 Hz) as I. pose proof (grid_length 512 z) as GL.
  destruct (grid 512 z) as [|x0 [|x1 xs]]; try discriminate.
  change (map (f2 O (-1) 0) (x0 :: x1 :: xs)) with (f2 O (-1) 0 x0 :: map (f2 O (-1) 0) (x1 :: xs)).
  cbn [map]. rewrite trapezoid_cons2. change (f2 O (-1) 0 x1 :: map (f2 O (-1) 0) xs) with (map (f2 O (-1) 0) (x1 :: xs)).
  rewrite ent_0 in G0. subst x0. change (ent (0 :: x1 :: xs) 1) with x1 in G2.
  assert (X1 : x1 = z / 511) by lra. rewrite f2_0.
  assert (Len : length (x1 :: xs) = 511%nat) by (simpl in *; lia).
  assert (T : lcdm_age O x1 - lcdm_age O z <= trapezoid (x1 :: xs) (map (f2 O (-1) 0) (x1 :: xs))).
  { pose proof (trapezoid_convex (x1 :: xs) (fun z => - lcdm_age O z) (f2 O (-1) 0) (df2 O)) as T.
    assert (EL : ent (x1 :: xs) (length (x1 :: xs) - 1) = z).
    { rewrite Len. rewrite <- G1. change (512 - 1)%nat with (S (511 - 1)). now rewrite ent_cons_S. }
    rewrite EL, (ent_0 x1) in T.
    assert (X1p : 0 < x1) by (rewrite X1; lra).
    specialize (T (fun x => - ((z) ^ 2 / 8 * df2 O x)) 0 ltac:(discriminate) (increasing_tl _ _ I) ltac:(intros; apply age_diff_deriv; auto; lra) ltac:(intros; apply f2_deriv; auto; lra) ltac:(intros; apply df2_mono; auto; lra)).
    match type of T with ?P -> _ => assert (H : P) end.
    { intros i Hi. 
      assert (R1 : 0 < ent (x1 :: xs) i /\ ent (x1 :: xs) i < ent (x1 :: xs) (S i) /\ ent (x1 :: xs) (S i) <= z).
      { pose proof (I 0%nat (S i) ltac:(simpl in *; lia)) as I0. rewrite ent_0, ent_cons_S in I0.
        pose proof (I (S i) (S (S i)) ltac:(simpl in *; lia)) as I1. rewrite !ent_cons_S in I1.
        pose proof (increasing_le (x1 :: xs) (S i) (length (x1 :: xs) - 1) (increasing_tl _ _ I) ltac:(lia)) as I2.
        rewrite EL in I2. auto. }
      destruct R1 as (R1 & R2 & R3). set (p := ent (x1 :: xs) i) in *. set (q := ent (x1 :: xs) (S i)) in *.
      assert (M : df2 O p <= df2 O q) by (apply df2_mono; auto; lra).
      assert (V : (q - p) ^ 2 <= z ^ 2) by (apply pow_incr; lra).
      assert ((q - p) ^ 2 / 8 * (df2 O q - df2 O p) <= z ^ 2 / 8 * (df2 O q - df2 O p)) by (apply Rmult_le_compat_r; lra).
      lra. }
    specialize (T H). lra. }
  rewrite X1 in *. lra.
Qed.
Lemma isqrt_upper x : 0 <= x <= 1 -> 1 / sqrt (1 + x) <= 1 / (1 + x / 2 - x ^ 2 / 8).
Proof.
  intros Hx. assert (S : 1 + x / 2 - x ^ 2 / 8 <= sqrt (1 + x)).
  { rewrite <- (sqrt_square (1 + x / 2 - x ^ 2 / 8)) by nra. apply sqrt_le_1; nra. }
  apply Rmult_le_compat_l; [lra|]. apply Rinv_le_contravar; auto. nra.
Qed.
Lemma isqrt_lower x : 0 <= x -> 1 / (1 + x / 2) <= 1 / sqrt (1 + x).
Proof.
  intros Hx. assert (S : sqrt (1 + x) <= 1 + x / 2).
  { rewrite <- (sqrt_square (1 + x / 2)) by lra. apply sqrt_le_1; nra. }
  apply Rmult_le_compat_l; [lra|]. apply Rinv_le_contravar; auto. apply sqrt_lt_R0. lra.
Qed.
Lemma excess_200 O : 0 < O <= 1 -> 0.002 <= first_excess O (200 / 511).
Proof.
  intros HO. eapply Rle_trans; [|apply first_excess_lb; auto; lra].
  assert (L : 0.718 / (1 + 0.848 * O) <= f2 O (-1) 0 (200 / 511)).
  { rewrite f2_qq. unfold qq. set (x := O * ((1 + 200 / 511) ^ 3 - 1)).
    replace (O * (1 + 200 / 511) ^ 3 + (1 - O)) with (1 + x) by (unfold x; ring).
    assert (X : 0 <= x <= 1.696 * O) by (unfold x; nra).
    pose proof (isqrt_lower x ltac:(lra)) as S. apply Rle_trans with (1 / (1 + x / 2) / (1 + 200 / 511)).
    - replace (1 / (1 + x / 2) / (1 + 200 / 511)) with (511 / 711 / (1 + x / 2)) by (field; lra).
      apply Rmult_le_compat; [lra|apply Rlt_le, Rinv_0_lt_compat; lra|lra|apply Rinv_le_contravar; lra].
    - apply Rmult_le_compat_r; [lra|auto]. }
  assert (U : f2 O (-1) 0 (200 / 511 / 2) <= 0.8364 / (1 + 0.354 * O - 0.0632 * O ^ 2)).
  { rewrite f2_qq. unfold qq. set (x := O * ((1 + 200 / 511 / 2) ^ 3 - 1)).
    replace (O * (1 + 200 / 511 / 2) ^ 3 + (1 - O)) with (1 + x) by (unfold x; ring).
    assert (X : 0.708 * O <= x <= 0.711 * O) by (unfold x; nra).
    pose proof (isqrt_upper x ltac:(lra)) as S. apply Rle_trans with (1 / (1 + x / 2 - x ^ 2 / 8) / (1 + 200 / 511 / 2)).
    - apply Rmult_le_compat_r; [lra|auto].
    - replace (1 / (1 + x / 2 - x ^ 2 / 8) / (1 + 200 / 511 / 2)) with (511 / 611 / (1 + x / 2 - x ^ 2 / 8)) by (field; nra).
      apply Rmult_le_compat; [lra|apply Rlt_le, Rinv_0_lt_compat; nra|lra|apply Rinv_le_contravar; nra]. }
  assert (K : 0.0206 <= 1 + 0.718 / (1 + 0.848 * O) - 2 * (0.8364 / (1 + 0.354 * O - 0.0632 * O ^ 2))).
  { set (p := 1 + 0.848 * O). set (q := 1 + 0.354 * O - 0.0632 * O ^ 2).
    assert (P : 0 < p) by (unfold p; lra). assert (Q : 0 < q) by (unfold q; nra).
    apply Rmult_le_reg_r with (p * q); [nra|].
    replace ((1 + 0.718 / p - 2 * (0.8364 / q)) * (p * q)) with (p * q + 0.718 * q - 2 * 0.8364 * p) by (field; lra).
    unfold p, q. assert (0 <= O ^ 2) by nra. assert (O ^ 3 <= O ^ 2) by nra. nra. }
  lra.
Qed.
Lemma C58_lemma2 : forall Om0 h z, 0.05 <= Om0 <= 1 -> 0 < h -> 200 <= z -> exists age,
  age_at_z (Scalar (Fin z)) (Fin Om0) (Fin (-1)) (Fin 0) (Fin h) = [Fin age] /\ age < 0.
Proof.
  intros O h z HO Hh Hz. exists (age0 O (-1) 0 h - look O (-1) 0 h z). pose proof (tH_pos h Hh) as HT.
  split; [unfold age_at_z, atleast_1d; cbn [map]; now rewrite agekern_fin by lra|].
  unfold age0, look. rewrite <- Rmult_minus_distr_l.
  assert (HO' : 0 < O <= 1) by lra.
  destruct (age_quad O HO') as [_ U]. pose proof (look_excess O z HO' ltac:(lra)) as L.
  pose proof (first_excess_mono O (200 / 511) (z / 511) HO' ltac:(lra)) as M. pose proof (excess_200 O HO') as X.
  destruct (lcdm_age_range O 0 HO' ltac:(lra)) as [_ A0]. destruct (lcdm_age_range O z HO' ltac:(lra)) as [_ Az].
  destruct (lcdm_age_range O 999 HO' ltac:(lra)) as [P9 _].
  assert (0 < 2 / 3 / sqrt (qq O (1 + 999))).
  { apply Rdiv_lt_0_compat; [lra|]. apply sqrt_lt_R0, qq_pos; auto; lra. }
  assert (S0 : 0.22 <= sqrt (O * (1 + 0) ^ 3)) by (rewrite <- (sqrt_square 0.22) by lra; apply sqrt_le_1; lra).
  assert (Sz : 630 <= sqrt (O * (1 + z) ^ 3)).
  { rewrite <- (sqrt_square 630) by lra. assert (201 ^ 3 <= (1 + z) ^ 3) by (apply pow_incr; lra). apply sqrt_le_1; nra. }
  assert (A0' : 2 / 3 / sqrt (O * (1 + 0) ^ 3) <= 3.04) by (apply div_le_iff; lra).
  assert (Az' : 2 / 3 / sqrt (O * (1 + z) ^ 3) <= 0.0011) by (apply div_le_iff; lra).
  assert (G : aint O (-1) 0 - quad 512 (f2 O (-1) 0) z < 0) by lra.
  nra.
Qed.
