(** * Second-order accuracy of the comoving distance (property C150) *)
From Coq Require Import Reals List Arith Lra Lia Bool.
From Coquelicot Require Import Coquelicot.
From Flocq Require Import Core.Raux.
From Verif Require Import Num Arr MUtils MCosmo Spec RList LUtils LCalc LKern LKern2 LBurst LCosmo LCosmo2.
Import ListNotations.
Open Scope R_scope.

(** one cell of the trapezoid rule, bounded second derivative *)
Section Cell2.
  Variables (F f df ddf : R -> R) (a b m : R).
  Hypothesis Hab : a < b.
  Hypothesis DF : forall x, a <= x <= b -> is_derive F x (f x).
  Hypothesis Df : forall x, a <= x <= b -> is_derive f x (df x).
  Hypothesis Ddf : forall x, a <= x <= b -> is_derive df x (ddf x).
  Hypothesis B : forall x, a <= x <= b -> - m <= ddf x <= m.
  Let H1 (x : R) := (x - a) * df x - (f x - f a).
  Lemma cell_d1 x : a <= x <= b -> is_derive H1 x ((x - a) * ddf x).
  Proof.
    intros Hx. unfold H1. pose proof (Df x Hx) as D1. pose proof (Ddf x Hx) as D2.
    auto_derive; [repeat split; [exists (ddf x)|exists (df x)]; assumption|].
    replace (Derive (fun x0 : R => f x0) x) with (df x) by (symmetry; apply (is_derive_unique f x _ D1)).
    replace (Derive (fun x0 : R => df x0) x) with (ddf x) by (symmetry; apply (is_derive_unique df x _ D2)). ring.
  Qed.
  Lemma cell_b1 x : a <= x <= b -> - (m * (x - a) ^ 2 / 2) <= H1 x <= m * (x - a) ^ 2 / 2.
  Proof.
    intros Hx.
    assert (E1 : H1 a = 0) by (unfold H1; ring).
    assert (P : forall y, a <= y <= x -> 0 <= (y - a) * (m - ddf y) /\ 0 <= (y - a) * (m + ddf y)).
    { intros y Hy. pose proof (B y ltac:(lra)). split; apply Rmult_le_pos; lra. }
    split.
    - pose proof (mono_deriv (fun y => H1 y + m * (y - a) ^ 2 / 2) (fun y => (y - a) * ddf y + m * (y - a)) a x) as M.
      cbv beta in M. rewrite E1 in M. replace (a - a) with 0 in M by ring.
      assert (0 + m * 0 ^ 2 / 2 <= H1 x + m * (x - a) ^ 2 / 2); [|lra]. apply M; [lra| |].
      + intros y Hy. apply (is_derive_plus H1 (fun y => m * (y - a) ^ 2 / 2)); [apply cell_d1; lra|].
        auto_derive; auto. field.
      + intros y Hy. pose proof (P y Hy). lra.
    - pose proof (mono_deriv (fun y => m * (y - a) ^ 2 / 2 - H1 y) (fun y => m * (y - a) - (y - a) * ddf y) a x) as M.
      cbv beta in M. rewrite E1 in M. replace (a - a) with 0 in M by ring.
      assert (m * 0 ^ 2 / 2 - 0 <= m * (x - a) ^ 2 / 2 - H1 x); [|lra]. apply M; [lra| |].
      + intros y Hy. apply (is_derive_minus (fun y => m * (y - a) ^ 2 / 2) H1); [|apply cell_d1; lra].
        auto_derive; auto. field.
      + intros y Hy. pose proof (P y Hy). lra.
  Qed.
  Let G (x : R) := (x - a) * (f a + f x) / 2 - (F x - F a).
  Lemma cell_d2 x : a <= x <= b -> is_derive G x (H1 x / 2).
  Proof.
    intros Hx. unfold G, H1. pose proof (DF x Hx) as D1. pose proof (Df x Hx) as D2.
    auto_derive; [repeat split; [exists (df x)|exists (f x)]; assumption|].
    replace (Derive (fun x0 : R => f x0) x) with (df x) by (symmetry; apply (is_derive_unique f x _ D2)).
    replace (Derive (fun x0 : R => F x0) x) with (f x) by (symmetry; apply (is_derive_unique F x _ D1)). field.
  Qed.
  Lemma cell2 : Rabs ((b - a) * (f a + f b) / 2 - (F b - F a)) <= m * (b - a) ^ 3 / 12.
  Proof.
    change (Rabs (G b) <= m * (b - a) ^ 3 / 12).
    assert (E1 : G a = 0) by (unfold G; lra).
    apply Rabs_le. split.
    - pose proof (mono_deriv (fun y => G y + m * (y - a) ^ 3 / 12) (fun y => H1 y / 2 + m * (y - a) ^ 2 / 4) a b) as M.
      cbv beta in M. rewrite E1 in M. replace (a - a) with 0 in M by ring.
      assert (0 + m * 0 ^ 3 / 12 <= G b + m * (b - a) ^ 3 / 12); [|lra]. apply M; [lra| |].
      + intros y Hy. apply (is_derive_plus G (fun y => m * (y - a) ^ 3 / 12)); [apply cell_d2; lra|].
        auto_derive; auto. field.
      + intros y Hy. pose proof (cell_b1 y Hy). lra.
    - pose proof (mono_deriv (fun y => m * (y - a) ^ 3 / 12 - G y) (fun y => m * (y - a) ^ 2 / 4 - H1 y / 2) a b) as M.
      cbv beta in M. rewrite E1 in M. replace (a - a) with 0 in M by ring.
      assert (m * 0 ^ 3 / 12 - 0 <= m * (b - a) ^ 3 / 12 - G b); [|lra]. apply M; [lra| |].
      + intros y Hy. apply (is_derive_minus (fun y => m * (y - a) ^ 3 / 12) G); [|apply cell_d2; lra].
        auto_derive; auto. field.
      + intros y Hy. pose proof (cell_b1 y Hy). lra.
  Qed.
End Cell2.

Lemma trapezoid_second xs : forall (F f df ddf u m : R -> R), xs <> [] -> increasing xs ->
  (forall x, ent xs 0 <= x <= ent xs (length xs - 1) -> is_derive F x (f x)) ->
  (forall x, ent xs 0 <= x <= ent xs (length xs - 1) -> is_derive f x (df x)) ->
  (forall x, ent xs 0 <= x <= ent xs (length xs - 1) -> is_derive df x (ddf x)) ->
  (forall x y, ent xs 0 <= x -> x <= y -> y <= ent xs (length xs - 1) -> - m x <= ddf y <= m x) ->
  (forall i, (S i < length xs)%nat ->
     m (ent xs i) * (ent xs (S i) - ent xs i) ^ 3 / 12 <= u (ent xs i) - u (ent xs (S i))) ->
  Rabs (trapezoid xs (map f xs) - (F (ent xs (length xs - 1)) - F (ent xs 0)))
    <= u (ent xs 0) - u (ent xs (length xs - 1)).
Proof.
  induction xs as [|x xs IH]; [congruence|]. intros F f df ddf u m _ I DF Df Ddf M E.
  destruct xs as [|x1 xs].
  { unfold ent; simpl. replace (0 - (F x - F x)) with 0 by ring. rewrite Rabs_R0. lra. }
  specialize (IH F f df ddf u m ltac:(discriminate) (increasing_tl _ _ I)).
  change (map f (x :: x1 :: xs)) with (f x :: f x1 :: map f xs). rewrite trapezoid_cons2.
  change (f x1 :: map f xs) with (map f (x1 :: xs)).
  replace (length (x :: x1 :: xs) - 1)%nat with (S (length (x1 :: xs) - 1)) in * by (simpl; lia).
  rewrite ent_cons_S in *. rewrite (ent_0 x) in *. rewrite (ent_0 x1) in *.
  set (b := ent (x1 :: xs) (length (x1 :: xs) - 1)) in *.
  assert (X01 : x < x1). { pose proof (I 0%nat 1%nat ltac:(simpl; lia)) as I0. exact I0. }
  assert (X1b : x1 <= b).
  { unfold b. pose proof (increasing_le (x1 :: xs) 0 (length (x1 :: xs) - 1) (increasing_tl _ _ I)) as H.
    rewrite ent_0 in H. apply H; simpl; lia. }
  specialize (IH ltac:(intros; apply DF; lra) ltac:(intros; apply Df; lra) ltac:(intros; apply Ddf; lra) ltac:(intros; apply M; lra)).
  assert (IH' := IH ltac:(intros i Hi; apply (E (S i)); simpl in *; lia)). clear IH.
  pose proof (E 0%nat ltac:(simpl; lia)) as E0. rewrite ent_cons_S, !ent_0 in E0.
  pose proof (cell2 F f df ddf x x1 (m x) X01 ltac:(intros; apply DF; lra) ltac:(intros; apply Df; lra)
    ltac:(intros; apply Ddf; lra) ltac:(intros; apply M; lra)) as C.
  apply Rabs_le_inv in C. apply Rabs_le_inv in IH'. apply Rabs_le. lra.
Qed.

(** ** the Lambda-CDM integrand *)
Lemma f1_qq O z : f1 O (-1) 0 z = 1 / sqrt (qq O (1 + z)).
Proof. unfold f1. now rewrite E_lcdm. Qed.
Definition df1 (O z : R) : R := - (3 * O * (1 + z) ^ 2 / (2 * qq O (1 + z) * sqrt (qq O (1 + z)))).
Definition ddf1 (O z : R) : R :=
  (27 / 4 * O ^ 2 * (1 + z) ^ 4 - 3 * O * (1 + z) * qq O (1 + z)) / (qq O (1 + z) ^ 2 * sqrt (qq O (1 + z))).
Lemma f1_deriv O z : 0 < O <= 1 -> -1 < z -> is_derive (f1 O (-1) 0) z (df1 O z).
Proof.
  intros HO Hz. apply (is_derive_ext (fun z => 1 / sqrt (qq O (1 + z)))); [intros; symmetry; apply f1_qq|].
  pose proof (qq_pos O (1 + z) HO ltac:(lra)) as Q. unfold df1, qq in *.
  auto_derive; [repeat split; try lra; apply Rgt_not_eq, sqrt_lt_R0; lra|].
  replace (1 + - O) with (1 - O) by ring.
  set (s := 1 + z) in *. assert (Hs : 0 < s) by (unfold s; lra).
  set (w := sqrt (O * s ^ 3 + (1 - O))).
  assert (Hw : 0 < w) by (apply sqrt_lt_R0; lra).
  assert (W : w * w = O * s ^ 3 + (1 - O)) by (apply sqrt_sqrt; lra).
  rewrite <- W.
  replace (O * (s * (s * (s * 1))) + (1 - O)) with (w * w) by (rewrite W; ring).
  replace (sqrt (w * w)) with w by (symmetry; apply sqrt_square; lra).
  field. lra.
Qed.
Lemma df1_deriv O z : 0 < O <= 1 -> -1 < z -> is_derive (df1 O) z (ddf1 O z).
Proof.
  intros HO Hz. pose proof (qq_pos O (1 + z) HO ltac:(lra)) as Q. unfold ddf1, df1, qq in *.
  set (s := 1 + z) in *. assert (Hs : 0 < s) by (unfold s; lra).
  set (w := sqrt (O * s ^ 3 + (1 - O))).
  assert (Hw : 0 < w) by (apply sqrt_lt_R0; lra).
  assert (W : w * w = O * s ^ 3 + (1 - O)) by (apply sqrt_sqrt; lra).
  auto_derive.
  - change (1 + z) with s. replace (O * (s * (s * (s * 1))) + (1 - O)) with (w * w) by (rewrite W; ring).
    replace (sqrt (w * w)) with w by (symmetry; apply sqrt_square; lra).
    assert (Hww : 0 < w * w) by (rewrite W; lra).
    repeat split; try lra. apply Rgt_not_eq. repeat apply Rmult_lt_0_compat; lra.
  - change (1 + z) with s. replace (O * (s * (s * (s * 1))) + (1 - O)) with (w * w) by (rewrite W; ring).
    replace (sqrt (w * w)) with w by (symmetry; apply sqrt_square; lra).
    rewrite <- W. field. lra.
Qed.
Lemma ddf1_bound O x y : 0 < O <= 1 -> 0 <= x <= y -> - (15 / 4 / (1 + x) ^ 2) <= ddf1 O y <= 15 / 4 / (1 + x) ^ 2.
Proof.
  intros HO Hx. pose proof (qq_pos O (1 + y) HO ltac:(lra)) as Q.
  assert (S1 : 1 <= 1 + x) by lra. assert (S2 : 1 + x <= 1 + y) by lra. unfold ddf1.
  set (s := 1 + y) in *. set (r := 1 + x) in *. clearbody s r.
  assert (Hs3 : 1 <= s ^ 3) by (apply pow_R1_Rle; lra).
  assert (QE : qq O s = O * s ^ 3 + (1 - O)) by reflexivity.
  assert (Q1 : 1 <= qq O s).
  { rewrite QE. assert (0 <= O * (s ^ 3 - 1)) by (apply Rmult_le_pos; lra). lra. }
  set (q := qq O s) in *. clearbody q.
  assert (SQ : 1 <= sqrt q) by (rewrite <- sqrt_1; apply sqrt_le_1; lra).
  set (w := sqrt q) in *. clearbody w.
  assert (D : 0 < q ^ 2 * w) by (apply Rmult_lt_0_compat; [apply pow_lt|]; lra).
  assert (R2 : 0 < r ^ 2) by (apply pow_lt; lra).
  assert (RS : r ^ 2 <= s ^ 2) by (apply pow_incr; lra).
  set (p := O * s ^ 3) in *.
  assert (P : 0 <= p <= q) by (unfold p in *; split; [apply Rmult_le_pos; lra|lra]).
  (* multiply by s^2: numerator is 27/4 p^2 - 3 p q *)
  assert (N : s ^ 2 * (27 / 4 * O ^ 2 * s ^ 4 - 3 * O * s * q) = 27 / 4 * p ^ 2 - 3 * p * q) by (unfold p; ring).
  assert (NB : - (15 / 4 * q ^ 2) <= 27 / 4 * p ^ 2 - 3 * p * q <= 15 / 4 * q ^ 2) by nra.
  set (n := 27 / 4 * O ^ 2 * s ^ 4 - 3 * O * s * q) in *. clearbody n.
  assert (S0 : 0 < s ^ 2) by lra.
  assert (Q2 : 0 < q ^ 2) by (apply pow_lt; lra).
  assert (K : q ^ 2 <= q ^ 2 * w) by (assert (0 <= q ^ 2 * (w - 1)) by (apply Rmult_le_pos; lra); lra).
  assert (U : - (15 / 4 * (q ^ 2 * w)) <= r ^ 2 * n <= 15 / 4 * (q ^ 2 * w)).
  { destruct (Rle_dec 0 n) as [Hn|Hn].
    - assert (0 <= r ^ 2 * n) by (apply Rmult_le_pos; lra).
      assert (r ^ 2 * n <= s ^ 2 * n) by (apply Rmult_le_compat_r; lra). lra.
    - assert (0 <= r ^ 2 * - n) by (apply Rmult_le_pos; lra).
      assert (r ^ 2 * - n <= s ^ 2 * - n) by (apply Rmult_le_compat_r; lra). lra. }
  assert (E1 : n / (q ^ 2 * w) = r ^ 2 * n / (q ^ 2 * w) / r ^ 2) by (field; split; [|split]; lra).
  rewrite E1.
  assert (J : 0 < / (q ^ 2 * w)) by (now apply Rinv_0_lt_compat).
  assert (J1 : q ^ 2 * w * / (q ^ 2 * w) = 1) by (apply Rinv_r; lra).
  assert (V : - (15 / 4) <= r ^ 2 * n / (q ^ 2 * w) <= 15 / 4).
  { unfold Rdiv at 2 3. destruct U as [U1 U2].
    apply (Rmult_le_compat_r _ _ _ (Rlt_le _ _ J)) in U1. apply (Rmult_le_compat_r _ _ _ (Rlt_le _ _ J)) in U2.
    set (d := q ^ 2 * w) in *. set (e := r ^ 2 * n * / d) in *.
    replace (15 / 4 * d * / d) with (15 / 4 * (d * / d)) in U2 by ring.
    replace (- (15 / 4 * d) * / d) with (- (15 / 4 * (d * / d))) in U1 by ring. rewrite J1 in *. lra. }
  assert (I : 0 < / r ^ 2) by (now apply Rinv_0_lt_compat).
  set (v := r ^ 2 * n / (q ^ 2 * w)) in *. clearbody v.
  change (15 / 4 / r ^ 2) with (15 / 4 * / r ^ 2). change (v / r ^ 2) with (v * / r ^ 2).
  destruct V as [V1 V2]. apply (Rmult_le_compat_r _ _ _ (Rlt_le _ _ I)) in V1. apply (Rmult_le_compat_r _ _ _ (Rlt_le _ _ I)) in V2.
  set (t := / r ^ 2) in *. clearbody t. lra.
Qed.
