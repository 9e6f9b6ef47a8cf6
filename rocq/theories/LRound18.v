(** * Redshifted spectra in rounded arithmetic; the photometry functions *)
From Coq Require Import Reals List Arith Lra Lia ZArith Bool.
From Coquelicot Require Import Rcomplements.
From Flocq Require Import Core.Raux.
From Verif Require Import Num Arr MUtils MCosmo MPhot Float Spec SpecFloat SpecFloat2 RList LUtils LKern2 LBurst LPhot LFloat LFloat2 LFloat3 LFloat4 LFloat5 LFloat10 LRound1 LRound2 LRound3 LRound4 LRound7 LRound14 LRound15 LRound16 LRound17.
Import ListNotations.
Open Scope R_scope.

(** a piecewise-linear function whose knots move by a relative [eps] *)
Lemma pwlin_rel xs xs' ys eps Res B x : length xs = length xs' -> length xs = length ys -> increasing xs -> increasing xs' -> xs <> [] ->
  (forall i, (i < length xs)%nat -> 0 < ent xs i /\ Rabs (ent xs' i - ent xs i) <= eps * ent xs i /\ 0 <= ent ys i <= B) ->
  (forall i, (S i < length xs)%nat -> ent xs (S i) <= Res * (ent xs (S i) - ent xs i)) -> 1 <= Res -> 0 <= eps -> Res * eps <= 1/100 ->
  ent xs 0 <= x <= ent xs (length xs - 1) -> ent xs' 0 <= x <= ent xs' (length xs - 1) ->
  Rabs (pwlin (combine xs' ys) x - pwlin (combine xs ys) x) <= 2.1 * (Res * eps * B).
Proof.
  intros L L' I I' N V GP R1 E0 RE HX HX'. assert (N0 : (0 < length xs)%nat) by (destruct xs; [congruence|simpl; lia]).
  assert (B0 : 0 <= B) by (destruct (V 0%nat N0) as (_ & _ & Q); lra).
  set (W := Res * eps * B). assert (W0 : 0 <= W) by (unfold W; apply Rmult_le_pos; [apply Rmult_le_pos; lra|lra]).
  assert (D : forall i j, (i < length xs)%nat -> (j < length xs)%nat -> Rabs (ent ys j - ent ys i) <= B).
  { intros i j Hi Hj. destruct (V i Hi) as (_ & _ & Q). destruct (V j Hj) as (_ & _ & Q'). apply Rabs_le. lra. }
  destruct (le_lt_dec 2 (length xs)) as [L2|L2].
  2:{ destruct xs as [|a [|]]; simpl in L2; try lia; try congruence. destruct xs' as [|a' [|]]; try discriminate. destruct ys as [|y [|]]; try discriminate. cbn [combine pwlin]. unfold Rminus. rewrite Rplus_opp_r, Rabs_R0. lra. }
  assert (BR : exists i, (S i < length xs)%nat /\ ent xs i <= x <= ent xs (S i)).
  { destruct (bracket xs x I N) as [Q|[Q|Q]]; auto.
    - exists 0%nat. split; [lia|]. assert (ent xs 0 < ent xs 1) by (apply I; lia). lra.
    - exists (length xs - 2)%nat. split; [lia|]. assert (ent xs (length xs - 2) < ent xs (S (length xs - 2))) by (apply I; lia). replace (S (length xs - 2)) with (length xs - 1)%nat in * by lia. lra. }
  destruct BR as (i & Hi & Bi). rewrite (pwlin_at xs ys x i) by auto.
  (* perturbed gaps *)
  assert (GP' : forall j, (S j < length xs)%nat -> 0 < ent xs' (S j) - ent xs' j /\ ent xs (S j) <= 1.03 * Res * (ent xs' (S j) - ent xs' j)).
  { intros j Hj. destruct (V j ltac:(lia)) as (P0 & Q0 & _). destruct (V (S j) Hj) as (P1 & Q1 & _). specialize (GP j Hj). apply Rabs_le_inv in Q0, Q1. assert (ent xs j < ent xs (S j)) by (apply I; lia). assert (ent xs' j < ent xs' (S j)) by (apply I'; lia). split; [lra|].
    set (g := ent xs (S j) - ent xs j) in *. set (g' := ent xs' (S j) - ent xs' j).
    assert (eps * ent xs j <= eps * ent xs (S j)) by (apply Rmult_le_compat_l; lra).
    assert (GG : g - 2 * (eps * ent xs (S j)) <= g') by (unfold g, g'; lra).
    assert (ent xs (S j) - 2 * (Res * eps) * ent xs (S j) <= Res * g').
    { apply Rle_trans with (Res * (g - 2 * (eps * ent xs (S j)))); [|apply Rmult_le_compat_l; lra]. replace (Res * (g - 2 * (eps * ent xs (S j)))) with (Res * g - 2 * (Res * eps) * ent xs (S j)) by ring. lra. }
    assert ((Res * eps) * ent xs (S j) <= 1/100 * ent xs (S j)) by (apply Rmult_le_compat_r; lra). lra. }
  destruct (V i ltac:(lia)) as (Pi & Qi & Yi). destruct (V (S i) Hi) as (Pi1 & Qi1 & Yi1). pose proof (GP i Hi) as Gi. apply Rabs_le_inv in Qi, Qi1.
  assert (LT : ent xs i < ent xs (S i)) by (apply I; lia). set (a := ent xs i) in *. set (b := ent xs (S i)) in *. set (r := (x - a) / (b - a)).
  assert (Er : x - a = r * (b - a)) by (unfold r; field; lra). assert (Hr : 0 <= r <= 1) by (unfold r; split; [apply Rdiv_le_0_compat'; lra|apply Rdiv_le_1'; lra]).
  assert (EB : 0 <= eps * b) by (apply Rmult_le_pos; lra). assert (EA : 0 <= eps * a <= eps * b) by (split; [apply Rmult_le_pos; lra|apply Rmult_le_compat_l; lra]).
  assert (FR : forall d g c, 0 <= d <= c * (eps * b) -> 0 < g -> b <= 1.03 * Res * g -> 0 <= c -> 0 <= d / g <= 1.03 * c * (Res * eps)).
  { intros d g c Hd Hg Hbg Hc. split; [apply Rdiv_le_0_compat'; lra|]. apply Rmult_le_reg_r with g; [lra|]. unfold Rdiv. rewrite Rmult_assoc, Rinv_l, Rmult_1_r by lra. eapply Rle_trans; [apply Hd|].
    replace (1.03 * c * (Res * eps) * g) with ((c * eps) * (1.03 * Res * g)) by ring. replace (c * (eps * b)) with ((c * eps) * b) by ring. apply Rmult_le_compat_l; [apply Rmult_le_pos; lra|lra]. }
  assert (SC : forall q d, 0 <= q <= 1.03 * (Res * eps) -> Rabs d <= B -> Rabs (q * d) <= 1.03 * W).
  { intros q d Hq Hd. rewrite Rabs_mult, (Rabs_right q) by lra. unfold W. replace (1.03 * (Res * eps * B)) with ((1.03 * (Res * eps)) * B) by ring. apply Rmult_le_compat; try lra. apply Rabs_pos. }
  destruct (Rlt_le_dec (ent xs' (S i)) x) as [Q1|Q1]; [|destruct (Rlt_le_dec x (ent xs' i)) as [Q2|Q2]].
  - (* beyond the moved knot *)
    destruct (Nat.eq_dec (S i) (length xs - 1)) as [e|e]; [rewrite <- e in HX'; lra|].
    destruct (GP' (S i) ltac:(lia)) as (G0 & G1). destruct (V (S (S i)) ltac:(lia)) as (Pi2 & Qi2 & _). apply Rabs_le_inv in Qi2.
    assert (LT2 : b < ent xs (S (S i))) by (apply I; lia). set (c := ent xs (S (S i))) in *. set (g := ent xs' (S (S i)) - ent xs' (S i)) in *.
    assert (DG : eps * b <= g). { assert (b <= 1.03 * Res * g) by lra. assert (eps * b <= eps * (1.03 * Res * g)) by (apply Rmult_le_compat_l; lra). assert ((Res * eps) * g <= 1/100 * g) by (apply Rmult_le_compat_r; lra). replace (eps * (1.03 * Res * g)) with (1.03 * ((Res * eps) * g)) in * by ring. lra. }
    rewrite (pwlin_at xs' ys x (S i)) by (auto; try lia; try lra; unfold g in DG; lra). fold g.
    set (q := (x - ent xs' (S i)) / g). assert (Hq : 0 <= q <= 1.03 * (Res * eps)). { unfold q. pose proof (FR (x - ent xs' (S i)) g 1 ltac:(lra) G0 ltac:(lra) ltac:(lra)). lra. }
    assert (Hr1 : 0 <= 1 - r <= 1.03 * (Res * eps)).
    { pose proof (FR (b - x) (b - a) 1 ltac:(lra) ltac:(lra)) as Z. assert (b <= 1.03 * Res * (b - a)). { assert (0 <= Res * (b - a)) by (apply Rmult_le_pos; lra). lra. } specialize (Z ltac:(lra) ltac:(lra)). replace (1 - r) with ((b - x) / (b - a)) by (unfold r; field; lra). lra. }
    replace (ent ys (S i) + q * (ent ys (S (S i)) - ent ys (S i)) - (ent ys i + r * (ent ys (S i) - ent ys i))) with (q * (ent ys (S (S i)) - ent ys (S i)) + (1 - r) * (ent ys (S i) - ent ys i)) by ring.
    eapply Rle_trans; [apply Rabs_triang|]. pose proof (SC q _ Hq (D (S i) (S (S i)) ltac:(lia) ltac:(lia))). pose proof (SC (1 - r) _ Hr1 (D i (S i) ltac:(lia) ltac:(lia))). lra.
  - destruct i as [|i]; [lra|]. destruct (GP' i ltac:(lia)) as (G0 & G1). destruct (V i ltac:(lia)) as (Pi0 & Qi0 & _). apply Rabs_le_inv in Qi0.
    fold a in G1. set (g := ent xs' (S i) - ent xs' i) in *.
    assert (DG : eps * a <= g). { assert (eps * a <= eps * (1.03 * Res * g)) by (apply Rmult_le_compat_l; lra). assert ((Res * eps) * g <= 1/100 * g) by (apply Rmult_le_compat_r; lra). replace (eps * (1.03 * Res * g)) with (1.03 * ((Res * eps) * g)) in * by ring. lra. }
    rewrite (pwlin_at xs' ys x i) by (auto; try lia; try lra; unfold g in DG; lra). fold g.
    set (q := (x - ent xs' i) / g). assert (Hq : 0 <= 1 - q <= 1.03 * (Res * eps)).
    { replace (1 - q) with ((ent xs' (S i) - x) / g) by (unfold q, g; field; unfold g in G0; lra). split; [apply Rdiv_le_0_compat'; lra|]. apply Rmult_le_reg_r with g; [lra|]. unfold Rdiv. rewrite Rmult_assoc, Rinv_l, Rmult_1_r by lra.
      apply Rle_trans with (eps * a); [lra|]. replace (1.03 * (Res * eps) * g) with (eps * (1.03 * Res * g)) by ring. apply Rmult_le_compat_l; lra. }
    assert (Hr1 : 0 <= r <= 1.03 * (Res * eps)).
    { split; [lra|]. unfold r. assert (b <= 1.03 * Res * (b - a)). { assert (0 <= Res * (b - a)) by (apply Rmult_le_pos; lra). lra. } pose proof (FR (x - a) (b - a) 1 ltac:(lra) ltac:(lra) ltac:(lra) ltac:(lra)). lra. }
    replace (ent ys i + q * (ent ys (S i) - ent ys i) - (ent ys (S i) + r * (ent ys (S (S i)) - ent ys (S i)))) with (- ((1 - q) * (ent ys (S i) - ent ys i)) + - (r * (ent ys (S (S i)) - ent ys (S i)))) by ring.
    eapply Rle_trans; [apply Rabs_triang|]. rewrite !Rabs_Ropp. pose proof (SC (1 - q) _ Hq (D i (S i) ltac:(lia) ltac:(lia))). pose proof (SC r _ Hr1 (D (S i) (S (S i)) ltac:(lia) ltac:(lia))). lra.
  - rewrite (pwlin_at xs' ys x i) by (auto; try lia; lra). destruct (GP' i Hi) as (G0 & G1). fold b in G1. set (a' := ent xs' i) in *. set (b' := ent xs' (S i)) in *. set (q := (x - a') / (b' - a')).
    assert (QR : Rabs (q - r) <= 1.03 * (Res * eps)).
    { assert (EQ : (q - r) * (b' - a') = (a - a') * (1 - r) + r * (b - b')) by (unfold q; replace x with (a + r * (b - a)) by lra; field; lra).
      assert (Z : Rabs ((q - r) * (b' - a')) <= eps * b).
      { rewrite EQ. eapply Rle_trans; [apply Rabs_triang|]. rewrite !Rabs_mult, (Rabs_right (1 - r)), (Rabs_right r) by lra.
        assert (Rabs (a - a') * (1 - r) <= (eps * b) * (1 - r)) by (apply Rmult_le_compat_r; [lra|apply Rabs_le; lra]). assert (r * Rabs (b - b') <= r * (eps * b)) by (apply Rmult_le_compat_l; [lra|apply Rabs_le; lra]). lra. }
      rewrite Rabs_mult, (Rabs_right (b' - a')) in Z by lra. apply Rmult_le_reg_r with (b' - a'); [lra|]. eapply Rle_trans; [exact Z|]. replace (1.03 * (Res * eps) * (b' - a')) with (eps * (1.03 * Res * (b' - a'))) by ring. apply Rmult_le_compat_l; lra. }
    replace (ent ys i + q * (ent ys (S i) - ent ys i) - (ent ys i + r * (ent ys (S i) - ent ys i))) with ((q - r) * (ent ys (S i) - ent ys i)) by ring. rewrite Rabs_mult.
    apply Rle_trans with (1.03 * (Res * eps) * B); [apply Rmult_le_compat; try apply Rabs_pos; [exact QR|apply D; lia]|]. unfold W in *. lra.
Qed.
