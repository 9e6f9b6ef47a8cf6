(** * Sensitivity of age weights, SEDs to the star formation history *)
From Coq Require Import Reals List Arith Lra Lia.
From Coquelicot Require Import Coquelicot.
From Verif Require Import Num MUtils MSed Spec SpecStab RList LUtils LAge LJoint LPhot LRound1 LRoundF LStab1.
Import ListNotations.
Open Scope R_scope.

Definition sfr_follows (c L : R) (S S' : list R) : Prop :=
  length S = length S' /\ (forall i, (i < length S)%nat -> c * ent S i <= ent S' i * L /\ ent S' i <= c * L * ent S i)
  /\ c * (1 / 10 ^ 14 + ent S 0) <= (1 / 10 ^ 14 + ent S' 0) * L /\ 1 / 10 ^ 14 + ent S' 0 <= c * L * (1 / 10 ^ 14 + ent S 0).
Lemma sfr_follows_sym c L S S' : 0 < c -> sfr_follows c L S S' -> sfr_follows (/ c) L S' S.
Proof.
  intros Hc (E & A & B1 & B2).
  assert (K : forall x y, c * x <= y * L -> y <= c * L * x -> / c * y <= x * L /\ x <= / c * L * y).
  { intros x y P Q. split; apply Rmult_le_reg_l with c; auto.
    - rewrite <- Rmult_assoc, Rinv_r by lra. lra.
    - replace (c * (/ c * L * y)) with (y * L) by (field; lra). lra. }
  split; [auto|]. split; [|now apply K]. intros i Hi. rewrite <- E in Hi. destruct (A i Hi). now apply K.
Qed.
Lemma cum_follows ts S S' c L : length ts = length S -> ts <> [] -> increasing (0.001 :: ts) -> sfr_follows c L S S' ->
  follows c L (cumulative_mass ts S) (cumulative_mass ts S').
Proof.
  intros Hl Hn Hi (E & A & B1 & B2). pose proof Hi as Hi'. apply increasing_cons in Hi' as [H0 Hi1].
  split; [now rewrite !cumulative_mass_length|].
  assert (K : forall d a a' : R, 0 <= d -> c * a <= a' * L -> a' <= c * L * a ->
    c * (10 ^ 9 * (d * a / 2)) <= 10 ^ 9 * (d * a' / 2) * L /\ 10 ^ 9 * (d * a' / 2) <= c * L * (10 ^ 9 * (d * a / 2))).
  { intros d a a' Hd P Q. apply (Rmult_le_compat_l (10 ^ 9 / 2 * d)) in P; [|simpl; lra]. apply (Rmult_le_compat_l (10 ^ 9 / 2 * d)) in Q; [|simpl; lra].
    split; lra. }
  assert (Z : c * ent (cumulative_mass ts S) 0 <= ent (cumulative_mass ts S') 0 * L /\ ent (cumulative_mass ts S') 0 <= c * L * ent (cumulative_mass ts S) 0).
  { destruct ts as [|t ts]; [congruence|]. destruct S as [|s S]; [discriminate|]. destruct S' as [|s' S']; [discriminate|].
    rewrite !cumulative_mass_0. unfold ent in B1, B2. cbn [nth] in B1, B2. assert (0.001 < t) by (apply H0; simpl; auto).
    apply K; lra. }
  destruct Z as [Z1 Z2]. split; [auto|]. split; [auto|]. rewrite cumulative_mass_length. intros i Hlt.
  rewrite !cumulative_mass_step by (auto; lia). assert (ent ts i < ent ts (Datatypes.S i)) by (apply Hi1; lia).
  destruct (A i ltac:(lia)) as [P1 P2]. destruct (A (Datatypes.S i) ltac:(lia)) as [Q1 Q2]. apply K; lra.
Qed.

Lemma follows_level c L : forall ms ms' i, follows c L ms ms' -> (i < length ms)%nat ->
  c * ent ms i <= ent ms' i * L /\ ent ms' i <= c * L * ent ms i.
Proof.
  intros ms ms' i (E & A & B & St). induction i as [|i IH]; intros Hi; [auto|].
  destruct (St i Hi) as [P Q]. destruct (IH ltac:(lia)) as [P' Q']. split; lra.
Qed.

Section Core.
  Variables (ts S S' : list R) (c L : R).
  Hypotheses (Hl : length ts = length S) (Hn : ts <> []) (Hi : increasing (0.001 :: ts)) (Hc : 0 < c) (HL : 1 <= L)
    (F : sfr_follows c L S S') (PS : List.Forall (fun s => 0 < s) S) (PS' : List.Forall (fun s => 0 < s) S').
  Lemma core_len : length ts = length S'. Proof. destruct F as (E & _). congruence. Qed.
  Lemma core_incr t1 t2 : 0 < t1 -> t1 <= t2 ->
    mass_formed_by ts S' t2 - mass_formed_by ts S' t1 <= c * L ^ 5 * (mass_formed_by ts S t2 - mass_formed_by ts S t1).
  Proof.
    intros H1 H2. pose proof core_len as Hl'.
    destruct (cumulative_mass_increasing ts S Hl Hi PS) as [I P]. destruct (cumulative_mass_increasing ts S' Hl' Hi PS') as [I' P'].
    apply (hist_increment (map log10 ts)); auto.
    - apply log10_increasing; [apply times_pos; auto|now apply increasing_tl in Hi].
    - now rewrite map_length, cumulative_mass_length.
    - now apply cum_follows.
    - now apply log10_le.
  Qed.
  Lemma core_level t : mass_formed_by ts S' t <= c * L * mass_formed_by ts S t.
  Proof.
    pose proof core_len as Hl'. assert (CL : 0 < c * L) by nra.
    destruct (cumulative_mass_increasing ts S Hl Hi PS) as [I P]. destruct (cumulative_mass_increasing ts S' Hl' Hi PS') as [I' P'].
    unfold mass_formed_by. rewrite <- (pow10_log10 (c * L)) at 1 by auto. rewrite <- pow10_plus. apply pow10_le. rewrite Rplus_comm.
    rewrite pwlin_shift by (rewrite ?map_length, ?cumulative_mass_length; auto; intro Q; apply map_eq_nil in Q; congruence).
    apply pwlin_le.
    - now rewrite !map_length, cumulative_mass_length.
    - now rewrite !map_length, cumulative_mass_length.
    - apply log10_increasing; [apply times_pos; auto|now apply increasing_tl in Hi].
    - intros i Hlt. rewrite map_length in Hlt. rewrite !ent_map by (rewrite ?map_length, ?cumulative_mass_length; auto).
      rewrite Forall_ent in P, P'. rewrite cumulative_mass_length in P, P'. rewrite Rplus_comm, <- log10_mult by auto. apply log10_le; auto.
      apply (follows_level c L); [now apply cum_follows|now rewrite cumulative_mass_length].
  Qed.
End Core.

Lemma floored_follows m L s s' : 0 < m -> 1 <= L -> tables_within L s s' -> s <> [] -> sfr_follows 1 L (floored m s) (floored m s').
Proof.
  intros Hm HL (E & H) Hn. assert (K : forall i, (i < length s)%nat -> 1 * ent (floored m s) i <= ent (floored m s') i * L /\ ent (floored m s') i <= 1 * L * ent (floored m s) i).
  { intros i Hi. rewrite !floored_ent by lia. destruct (H i Hi) as [A B].
    assert (M : forall x y, y <= L * x -> Rmax m y <= L * Rmax m x).
    { intros x y Hxy. pose proof (Rmax_l m x). pose proof (Rmax_r m x). apply Rmax_lub; nra. }
    pose proof (M _ _ A). pose proof (M _ _ B). split; lra. }
  split; [now rewrite !floored_length|]. split; [intros i Hi; rewrite floored_length in Hi; auto|].
  destruct (K 0%nat) as [A B]; [destruct s; [congruence|simpl; lia]|]. split; lra.
Qed.
