(** * Two star-formation floors that differ by a rounding *)
From Coq Require Import Reals List Arith Lra Lia ZArith Bool.
From Coquelicot Require Import Rcomplements.
From Flocq Require Import Core.Raux.
From Verif Require Import Num Arr MUtils MSed Float Spec SpecFloat RList LUtils LAge LKern2 LDust LPhot LRound1 LRound3.
Import ListNotations.
Open Scope R_scope.

Lemma pwlin_shift xs : forall ys c x, length ys = length xs -> xs <> [] ->
  pwlin (combine xs ys) x + c = pwlin (combine xs (map (fun y => y + c) ys)) x.
Proof.
  induction xs as [|x0 xs IH]; intros [|y0 ys] c x L N; try discriminate; try congruence. destruct xs as [|x1 xs], ys as [|y1 ys]; try discriminate; [reflexivity|].
  cbn [map]. rewrite !pwlin_cons2. destruct (Rle_dec x x0); [reflexivity|]. destruct (Rlt_dec x x1); [lra|].
  apply (IH (y1 :: ys) c x); [simpl in *; lia|discriminate].
Qed.
Lemma Rmax_close s s0 d x : 0 < s0 -> 0 <= d <= 1/100 -> Rabs (s - s0) <= d * s0 -> (1 - d) * Rmax s0 x <= Rmax s x <= (1 + d) * Rmax s0 x.
Proof.
  intros S D A. apply Rabs_le_inv in A. unfold Rmax. destruct (Rle_dec s0 x), (Rle_dec s x); split; nra.
Qed.
Lemma cum_floor ts ss s s0 d i : length ts = length ss -> increasing (0.001 :: ts) -> 0 < s0 -> 0 <= d <= 1/100 -> Rabs (s - s0) <= d * s0 -> (i < length ts)%nat ->
  (1 - d) * ent (cumulative_mass ts (floored s0 ss)) i <= ent (cumulative_mass ts (floored s ss)) i <= (1 + d) * ent (cumulative_mass ts (floored s0 ss)) i.
Proof.
  intros L I S0 D A Hi. rewrite !cumulative_mass_ent by auto.
  set (xs := 0.001 :: firstn (S i) ts). set (ys := 1 / 10 ^ 14 :: firstn (S i) (floored s ss)). set (zs := 1 / 10 ^ 14 :: firstn (S i) (floored s0 ss)).
  assert (Lf : forall s, length (floored s ss) = length ss) by (intros; unfold floored; apply map_length).
  assert (Ly : length xs = length ys) by (unfold xs, ys; cbn [length]; rewrite !firstn_length, Lf; lia).
  assert (Lz : length xs = length zs) by (unfold xs, zs; cbn [length]; rewrite !firstn_length, Lf; lia).
  assert (ND : nondecreasing xs). { apply increasing_nondecreasing. change xs with (firstn (S (S i)) (0.001 :: ts)). apply LCalc.increasing_firstn. exact I. }
  assert (E14 : 0 < 1 / 10 ^ 14) by (apply Rdiv_lt_0_compat; [lra|apply pow_lt; lra]).
  assert (B : forall j, (j < length xs)%nat -> (1 - d) * ent zs j <= ent ys j <= (1 + d) * ent zs j).
  { intros [|j] Hj; unfold ys, zs; [rewrite !ent_0; split; nra|]. rewrite !ent_cons_S. unfold xs in Hj. cbn [length] in Hj. rewrite firstn_length in Hj.
    rewrite !ent_firstn by lia. unfold floored. rewrite !ent_map by lia. now apply Rmax_close. }
  assert (T1 : trapezoid xs (map (Rmult (1 - d)) zs) <= trapezoid xs ys).
  { apply trapezoid_mono; auto; [now rewrite map_length|]. intros j Hj. rewrite ent_map by lia. apply B. auto. }
  assert (T2 : trapezoid xs ys <= trapezoid xs (map (Rmult (1 + d)) zs)).
  { apply trapezoid_mono; auto; [now rewrite map_length|]. intros j Hj. rewrite ent_map by lia. apply B. auto. }
  rewrite trapezoid_scal in T1, T2 by auto. assert (0 < 10 ^ 9) by (apply pow_lt; lra). set (P := 10 ^ 9) in *. clearbody P.
  split; nra.
Qed.
Lemma log_floor ts ss s s0 d i : length ts = length ss -> increasing (0.001 :: ts) -> 0 < s0 -> 0 <= d <= 1/100 -> Rabs (s - s0) <= d * s0 -> (i < length ts)%nat ->
  0 < ent (cumulative_mass ts (floored s0 ss)) i ->
  Rabs (log10 (ent (cumulative_mass ts (floored s ss)) i) - log10 (ent (cumulative_mass ts (floored s0 ss)) i)) <= 0.6 * d.
Proof.
  intros L I S0 D A Hi P. destruct (cum_floor ts ss s s0 d i L I S0 D A Hi) as [B1 B2]. set (x := ent _ i) in *. set (y := ent (cumulative_mass ts (floored s ss)) i) in *.
  eapply Rle_trans; [apply (log10_lip (0.99 * x)); nra|]. assert (Rabs (y - x) <= d * x) by (apply Rabs_le; lra).
  apply Rmult_le_reg_r with (2 * (0.99 * x)); [lra|]. unfold Rdiv. rewrite Rmult_assoc, Rinv_l by lra. nra.
Qed.
Lemma mass_floor ts ss s s0 d b : length ts = length ss -> increasing (0.001 :: ts) -> 0 < s0 -> 0 <= d <= 1/100 -> Rabs (s - s0) <= d * s0 -> ts <> [] ->
  (forall i, (i < length ts)%nat -> 0 < ent (cumulative_mass ts (floored s0 ss)) i) ->
  Rabs (mass_formed_by ts (floored s ss) b - mass_formed_by ts (floored s0 ss) b) <= 1.8 * d * mass_formed_by ts (floored s0 ss) b.
Proof.
  intros L I S0 D A N P. unfold mass_formed_by. replace (1.8 * d) with (3 * (0.6 * d)) by lra. apply pow10_close; [|lra].
  apply increasing_cons in I. destruct I as [I0 I].
  assert (IL : increasing (map log10 ts)). { apply log10_increasing; auto. intros t Ht. specialize (I0 t Ht). lra. }
  assert (Q : forall x, pwlin (combine (map log10 ts) (map log10 (cumulative_mass ts (floored s0 ss)))) x - 0.6 * d <= pwlin (combine (map log10 ts) (map log10 (cumulative_mass ts (floored s ss)))) x
     <= pwlin (combine (map log10 ts) (map log10 (cumulative_mass ts (floored s0 ss)))) x + 0.6 * d).
  { intros x.
    assert (SH : forall c ys, length ys = length ts -> pwlin (combine (map log10 ts) ys) x + c = pwlin (combine (map log10 ts) (map (fun y => y + c) ys)) x).
    { intros c ys Ly. apply pwlin_shift; [now rewrite map_length|now apply map_neq_nil]. }
    unfold Rminus. rewrite !SH by (rewrite map_length, cumulative_mass_length; auto).
    split; apply pwlin_le; auto; rewrite ?map_length, ?cumulative_mass_length; auto; intros i Hi; rewrite !ent_map by (rewrite ?map_length, ?cumulative_mass_length; auto);
      pose proof (log_floor ts ss s s0 d i L ltac:(apply increasing_cons; auto) S0 D A Hi (P i Hi)) as F; apply Rabs_le_inv in F; lra. }
  specialize (Q (log10 b)). apply Rabs_le. lra.
Qed.
Lemma slope_floor {AR : Arith} ts ss s s0 d K : length ts = length ss -> times_ok ts -> increasing (0.001 :: ts) -> 0 < s0 -> 0 <= d <= / 2 ^ 20 -> Rabs (s - s0) <= d * s0 ->
  (forall i, (i < length ts)%nat -> 0 < ent (cumulative_mass ts (floored s0 ss)) i) ->
  slope_ok K ts (floored s0 ss) -> slope_ok (K + 1) ts (floored s ss).
Proof.
  intros L TO I S0 D A P [K0 SK]. split; [lra|]. intros i Hi.
  assert (D1 : 0 <= d <= 1/100) by (simpl in D; lra).
  pose proof (log_floor ts ss s s0 d i L I S0 D1 A ltac:(lia) (P i ltac:(lia))) as F0. pose proof (log_floor ts ss s s0 d (S i) L I S0 D1 A ltac:(lia) (P (S i) ltac:(lia))) as F1.
  apply Rabs_le_inv in F0, F1. specialize (SK i Hi). destruct (times_range ts TO) as [_ R]. destruct TO as (_ & _ & _ & GR). specialize (GR i Hi). specialize (R i ltac:(lia)).
  pose proof (log10_ratio (ent ts i) (ent ts (S i)) ltac:(lra) GR). lra.
Qed.
