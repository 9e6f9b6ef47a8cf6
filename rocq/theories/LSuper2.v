(** * C147: the refutation of exact superposition *)
From Coq Require Import Reals List Arith Lra Lia.
From Coquelicot Require Import Coquelicot.
From Verif Require Import Num Arr MUtils MSed Spec SpecStab RList LUtils LCalc LAge LMet LJoint Demo Demo2 LSuper.
Import ListNotations.
Open Scope R_scope.

Definition sp_t : list R := [1; 4].
Definition sp_a : list R := [1; 0.1].
Definition sp_b : list R := [0.1; 9].
Definition ones (n k w : nat) : list (list (list R)) := repeat (repeat (repeat 1 w) k) n.
Lemma ones_cube n k w : is_cube n k w (ones n k w).
Proof.
  unfold is_cube, ones. split; [apply repeat_length|]. apply Forall_forall. intros x Hx. apply repeat_spec in Hx. subst.
  split; [apply repeat_length|]. apply Forall_forall. intros y Hy. apply repeat_spec in Hy. subst. apply repeat_length.
Qed.
Lemma nth_rep {A} (x d : A) n i : (i < n)%nat -> nth i (repeat x n) d = x.
Proof. revert i. induction n; intros [|i] H; simpl; try lia; auto. apply IHn. lia. Qed.
Lemma ones_ent n k w i j l : (i < n)%nat -> (j < k)%nat -> (l < w)%nat -> ent3 (ones n k w) i j l = 1.
Proof. intros. unfold ent3, ent2, ent, ones. rewrite (nth_rep _ _ n) by auto. rewrite (nth_rep _ _ k) by auto. now rewrite (nth_rep _ _ w) by auto. Qed.

Lemma sp_inc : increasing (0.001 :: sp_t). Proof. unfold sp_t. solve_increasing. Qed.
Lemma sp_grids q : length q = 2%nat -> good_grids sp_t q (1/5) demo_lgmet demo_ages 2.
Proof.
  intros Lq. unfold good_grids. split; [now rewrite Lq|]. split; [discriminate|]. split; [apply sp_inc|].
  repeat (split; [solve [auto using demo_lgmet3, demo_met_edges with demo|lra]|]).
  apply (edge_mass_neq sp_t q demo_ages 2 (1 / 10 ^ 14)).
  - now rewrite Lq.
  - apply sp_inc.
  - simpl; lia.
  - lra.
  - rewrite demo_e0, demo_e3. lra.
  - rewrite demo_e0. unfold sp_t, ent. simpl. pose proof (pow10_lt (-3/2) 0 ltac:(lra)). rewrite pow10_0 in *. lra.
  - rewrite demo_e3. unfold sp_t, ent. simpl. pose proof (pow10_pos (3/2)). lra.
Qed.
(** 2 is half way between 1 and 4 in log time *)
Lemma sp_mid x y : 0 < x -> 0 < y ->
  let p := pow10 (pwlin [(log10 1, log10 x); (log10 4, log10 y)] (log10 2)) in 0 < p /\ p * p = x * y.
Proof.
  intros Hx Hy p. split; [apply pow10_pos|]. unfold p.
  assert (l1 : log10 1 = 0) by (unfold log10; rewrite ln_1; lra).
  assert (l2 : 0 < log10 2) by (rewrite <- l1; unfold log10; apply Rmult_lt_compat_r; [apply Rinv_0_lt_compat; rewrite <- ln_1; apply ln_increasing; lra|apply ln_increasing; lra]).
  assert (l4 : log10 4 = 2 * log10 2) by (unfold log10; replace 4 with (2 * 2) by lra; rewrite ln_mult by lra; lra).
  cbn [pwlin]. rewrite l1, l4. destruct (Rle_dec (log10 2) 0) as [|_]; [lra|]. destruct (Rlt_dec (log10 2) (2 * log10 2)) as [_|]; [|lra].
  replace (log10 x + (log10 2 - 0) / (2 * log10 2 - 0) * (log10 y - log10 x)) with ((log10 x + log10 y) / 2) by (field; lra).
  rewrite <- pow10_plus. replace ((log10 x + log10 y) / 2 + (log10 x + log10 y) / 2) with (log10 x + log10 y) by field.
  rewrite pow10_plus, !pow10_log10 by auto. reflexivity.
Qed.
Lemma sp_mass a b : 0 < a -> 0 < b ->
  let x := 0.999 * (1 / 10 ^ 14 + a) / 2 in
  let p := mass_formed_by sp_t [a; b] 2 in 0 < p /\ p * p = 10 ^ 9 * x * (10 ^ 9 * (x + 3 * (a + b) / 2)).
Proof.
  intros Ha Hb x p.
  assert (X0 : 0 < x) by (unfold x; lra).
  assert (E : p = pow10 (pwlin [(log10 1, log10 (10 ^ 9 * x)); (log10 4, log10 (10 ^ 9 * (x + 3 * (a + b) / 2)))] (log10 2))).
  { unfold p, mass_formed_by. unfold cumulative_mass, sp_t. cbn [length seq map firstn trapezoid combine].
    replace (10 ^ 9 * ((1 - 0.001) * (1 / 10 ^ 14 + a) / 2 + 0)) with (10 ^ 9 * x) by (unfold x; lra).
    replace (10 ^ 9 * ((1 - 0.001) * (1 / 10 ^ 14 + a) / 2 + ((4 - 1) * (a + b) / 2 + 0))) with (10 ^ 9 * (x + 3 * (a + b) / 2)) by (unfold x; lra).
    reflexivity. }
  rewrite E. apply sp_mid; apply Rmult_lt_0_compat; lra.
Qed.

Lemma sq_lt p B : 0 < p -> 0 < B -> p * p < B * B -> p < B.
Proof. intros Hp HB H. destruct (Rlt_le_dec p B) as [|C]; auto. pose proof (Rmult_le_compat B p B p ltac:(lra) ltac:(lra) C C). lra. Qed.
Lemma C147_refuted_lemma : exists ts s s' lgmet scatter ssp_lgmet ages flux t_obs sfr_min r r' r2 m m' m2,
  good_grids ts s scatter ssp_lgmet ages t_obs /\ good_grids ts s' scatter ssp_lgmet ages t_obs
  /\ good_grids ts (map2 Rplus s s') scatter ssp_lgmet ages t_obs /\ 0 < t_obs < ent ts (length ts - 1) /\ 0 < sfr_min
  /\ List.Forall (fun x => sfr_min <= x) s /\ List.Forall (fun x => sfr_min <= x) s'
  /\ is_cube (length ssp_lgmet) (length ages) 1 flux
  /\ calc_rest_sed_sfh_table_lognormal_mdf (fins ts) (fins s) (Fin lgmet) (Fin scatter) (fins ssp_lgmet) (fins ages) (fins3 flux) (Fin t_obs) (Fin sfr_min) = Ok r
  /\ calc_rest_sed_sfh_table_lognormal_mdf (fins ts) (fins s') (Fin lgmet) (Fin scatter) (fins ssp_lgmet) (fins ages) (fins3 flux) (Fin t_obs) (Fin sfr_min) = Ok r'
  /\ calc_rest_sed_sfh_table_lognormal_mdf (fins ts) (fins (map2 Rplus s s')) (Fin lgmet) (Fin scatter) (fins ssp_lgmet) (fins ages) (fins3 flux) (Fin t_obs) (Fin sfr_min) = Ok r2
  /\ rest_sed r = [Fin m] /\ rest_sed r' = [Fin m'] /\ rest_sed r2 = [Fin m2]
  /\ 1.5 * (m + m') < m2.
Proof.
  assert (Gs : good_grids sp_t sp_a (1/5) demo_lgmet demo_ages 2) by (apply sp_grids; reflexivity).
  assert (Gs' : good_grids sp_t sp_b (1/5) demo_lgmet demo_ages 2) by (apply sp_grids; reflexivity).
  assert (G2 : good_grids sp_t (map2 Rplus sp_a sp_b) (1/5) demo_lgmet demo_ages 2) by (apply sp_grids; reflexivity).
  set (fl := ones (length demo_lgmet) (length demo_ages) 1).
  assert (Hm : 0 < 1 / 10 ^ 14) by lra.
  pose proof (ones_cube (length demo_lgmet) (length demo_ages) 1) as HC. fold fl in HC.
  assert (MASS : forall a b, 1 / 10 ^ 14 <= a -> 1 / 10 ^ 14 <= b -> exists r,
     calc_rest_sed_sfh_table_lognormal_mdf (fins sp_t) (fins [a; b]) (Fin (-2)) (Fin (1/5)) (fins demo_lgmet) (fins demo_ages) (fins3 fl) (Fin 2) (Fin (1 / 10 ^ 14)) = Ok r
     /\ rest_sed r = [Fin (mass_formed_by sp_t [a; b] 2)]).
  { intros a b Ha Hb. destruct (sed_lognormal_fins sp_t [a; b] (-2) (1/5) demo_lgmet demo_ages fl 1 2 (1 / 10 ^ 14)) as (W & mw & aw & _ & SW & HS & Hp & E);
      [now apply sp_grids|lra|lra|exact HC|].
    eexists. split; [exact E|]. cbn [rest_sed seq map fins].
    assert (B : 1 <= template_mix (length demo_lgmet) (length demo_ages) W fl 0 <= 1).
    { apply template_mix_bounds; auto. intros. unfold fl. rewrite ones_ent by (auto; lia). lra. }
    replace (template_mix _ _ _ _ _) with 1 by lra. unfold floored. cbn [map]. rewrite !Rmax_right by lra. unfold fins. cbn [map]. do 2 f_equal. lra. }
  destruct (MASS 1 0.1 ltac:(lra) ltac:(lra)) as (r & E & R). destruct (MASS 0.1 9 ltac:(lra) ltac:(lra)) as (r' & E' & R').
  destruct (MASS (1 + 0.1) (0.1 + 9) ltac:(lra) ltac:(lra)) as (r2 & E2 & R2).
  exists sp_t, sp_a, sp_b, (-2), (1/5), demo_lgmet, demo_ages, fl, 2, (1 / 10 ^ 14), r, r', r2.
  eexists. eexists. eexists.
  do 3 (split; [assumption|]). split; [unfold sp_t, ent; simpl; lra|]. split; [lra|].
  split; [unfold sp_a; repeat constructor; lra|]. split; [unfold sp_b; repeat constructor; lra|]. split; [exact HC|].
  split; [exact E|]. split; [exact E'|]. split; [exact E2|]. split; [exact R|]. split; [exact R'|]. split; [exact R2|].
  destruct (sp_mass 1 0.1 ltac:(lra) ltac:(lra)) as [P Q]. destruct (sp_mass 0.1 9 ltac:(lra) ltac:(lra)) as [P' Q'].
  destruct (sp_mass (1 + 0.1) (0.1 + 9) ltac:(lra) ltac:(lra)) as [P2 Q2].
  set (m := mass_formed_by sp_t [1; 0.1] 2) in *. set (m' := mass_formed_by sp_t [0.1; 9] 2) in *. set (m2 := mass_formed_by sp_t [1 + 0.1; 0.1 + 9] 2) in *.
  assert (m < 1.04 * 10 ^ 9) by (apply sq_lt; lra). assert (m' < 0.83 * 10 ^ 9) by (apply sq_lt; lra).
  assert (2.9 * 10 ^ 9 < m2) by (apply sq_lt; lra). lra.
Qed.
