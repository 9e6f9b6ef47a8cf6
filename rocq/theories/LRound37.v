(** * Attenuation curves in rounded arithmetic: the Drude bump *)
From Coq Require Import Reals List Arith Lra Lia ZArith Bool.
From Coquelicot Require Import Coquelicot.
From Flocq Require Import Core.Raux.
From Verif Require Import Num Arr MUtils MSed MDust Float Spec SpecFloat RList LUtils LFloat LFloat2 LFloat10 LRound1 LRound2 LRound3 LRound6 LRound14 LRound15 LRound21 LRound22 LRound23 LRound24 LRound35 LRound36 LDust.
Import ListNotations.
Open Scope R_scope.

Section F.
Context {AR : Arith} (u : R) (H : rel_err AR u).
Notation G := (re_good _ _ H).
Notation lre := (lre u).
Notation npos := (npos (AR := AR) u).
Notation near := (near (AR := AR) u).

Lemma sq_npos x : rnd x = Fin x -> 0.001 <= x <= 10 -> npos 1.02 ((Fin x) ^i 2)%num (x ^ 2) /\ 0.000001 <= x ^ 2 <= 100.
Proof.
  intros R B. assert (S : 0.000001 <= x ^ 2 <= 100) by (simpl; split; nra). split; auto. unfold ipow. cbn [ipow_acc]. replace (x ^ 2) with (x * x) in * by ring.
  apply (npos_weaken u H (0 + 0 + 1.02)); [|lra]. apply (npos_mul u H); [apply npos_machine; auto; lra|apply npos_machine; auto; lra|lra|num].
Qed.

Section B.
Variables x x0 g : R.
Hypothesis Rx : rnd x = Fin x. Hypothesis Rx0 : rnd x0 = Fin x0. Hypothesis Rg : rnd g = Fin g.
Hypothesis Bx : 0.09 <= x <= 10. Hypothesis Bx0 : 0.01 <= x0 <= 10. Hypothesis Bg : 0.001 <= g <= 10.
Let A := (x ^ 2 + x0 ^ 2) / (x * g).
Hypothesis BA : A <= 1000.
Let s := x ^ 2 + x0 ^ 2.
Let d := x ^ 2 - x0 ^ 2.
Let D := d ^ 2 + x ^ 2 * g ^ 2.

Lemma xg : 0.00009 <= x * g <= 100.
Proof. split; [replace 0.00009 with (0.09 * 0.001) by lra|replace 100 with (10 * 10) by lra]; apply Rmult_le_compat; lra. Qed.
Lemma s_range : 0.0081 <= s <= 200 /\ Rabs d <= s.
Proof. unfold s, d. simpl. split; [split; nra|]. apply Rabs_le. split; nra. Qed.
Lemma sA : s = A * (x * g). Proof. unfold A, s. pose proof xg. field. split; lra. Qed.
Lemma A_pos : 0 < A. Proof. unfold A. pose proof xg. pose proof s_range. unfold s in *. apply Rdiv_lt_0_compat; lra. Qed.
Lemma d_err : exists d', (Fin x ^i 2 - Fin x0 ^i 2)%num = Fin d' /\ rnd d' = Fin d' /\ Rabs (d' - d) <= 2.2 * s * u.
Proof.
  destruct (sq_npos x Rx ltac:(lra)) as [(a & Ea & Ra & La) SA]. destruct (sq_npos x0 Rx0 ltac:(lra)) as [(b & Eb & Rb & Lb) SB].
  pose proof (u_le u H) as U. pose proof (tiny_u u H) as T. destruct s_range as [SR DR]. simpl (10 ^ 6) in U.
  pose proof (lre_diff u H _ _ _ La ltac:(lra) ltac:(lra)) as Da. pose proof (lre_diff u H _ _ _ Lb ltac:(lra) ltac:(lra)) as Db.
  rewrite Ea, Eb. cbn [nsub nopp nadd].
  assert (E1 : Rabs (a - b - d) <= 1.0221 * u * s). { replace (a - b - d) with ((a - x ^ 2) - (b - x0 ^ 2)) by (unfold d; ring). unfold Rminus at 1. eapply Rle_trans; [apply Rabs_triang|]. rewrite Rabs_Ropp.
    unfold s. assert (0 <= u * x ^ 2) by (apply Rmult_le_pos; lra). assert (0 <= u * x0 ^ 2) by (apply Rmult_le_pos; lra). lra. }
  assert (E2 : Rabs (a - b) <= 1.001 * s). { replace (a - b) with ((a - b - d) + d) by ring. eapply Rle_trans; [apply Rabs_triang|]. assert (1.0221 * u * s <= 0.001 * s) by (apply Rmult_le_compat_r; lra). lra. }
  assert (RG : exists d', rnd (a - b) = Fin d') by (apply (rnd_range _ G); simpl; lra). destruct RG as (d' & Ed).
  exists d'. replace (a + - b) with (a - b) by ring. split; [exact Ed|]. split; [eapply (rnd_idem _ G); eauto|].
  pose proof (re_any _ _ H _ _ Ed) as AE. replace (d' - d) with ((d' - (a - b)) + (a - b - d)) by ring. eapply Rle_trans; [apply Rabs_triang|].
  assert (u * Rabs (a - b) <= u * (1.001 * s)) by (apply Rmult_le_compat_l; lra). assert (u * / 10 ^ 27 <= u * (0.001 * s)) by (apply Rmult_le_compat_l; [lra|]; simpl; lra). lra.
Qed.
Lemma D_pos : 0 < D /\ (x * g) * (x * g) <= D /\ 2 * Rabs d * (x * g) <= D.
Proof.
  pose proof xg as X. assert (P : 0 < (x * g) * (x * g)) by (apply Rmult_lt_0_compat; lra).
  assert (E : D = Rabs d * Rabs d + (x * g) * (x * g)) by (rewrite <- Rabs_mult, (Rabs_right (d * d)) by (apply Rle_ge, Rle_0_sqr); unfold D; ring).
  pose proof (Rle_0_sqr (Rabs d - x * g)) as Q. unfold Rsqr in Q. pose proof (Rle_0_sqr (Rabs d)) as Q2. unfold Rsqr in Q2. split; [|split]; lra.
Qed.
Lemma d2_err d' : Rabs (d' - d) <= 2.2 * s * u -> Rabs (d' * d' - d * d) <= 2.21 * A * u * D.
Proof.
  intros E. pose proof (u_le u H) as U. simpl (10 ^ 6) in U. destruct D_pos as (DP & D1 & D2). pose proof xg as X. pose proof A_pos as AP. destruct s_range as [SR _].
  set (e := Rabs (d' - d)) in *. replace (d' * d' - d * d) with ((d' - d) * (d' - d) + 2 * d * (d' - d)) by ring. eapply Rle_trans; [apply Rabs_triang|].
  rewrite !Rabs_mult, (Rabs_right 2) by lra. fold e. assert (e0 : 0 <= e) by apply Rabs_pos.
  assert (Ee : e <= 2.2 * A * u * (x * g)) by (rewrite sA in E; lra).
  assert (AU : A * u <= 0.00025) by (apply Rle_trans with (1000 * 0.00000025); [apply Rmult_le_compat; lra|lra]).
  assert (Q1 : e * e <= (2.2 * A * u) * 0.00055 * D).
  { apply Rle_trans with ((2.2 * A * u * (x * g)) * (2.2 * A * u * (x * g))); [apply Rmult_le_compat; auto|].
    replace (2.2 * A * u * (x * g) * (2.2 * A * u * (x * g))) with ((2.2 * A * u) * (2.2 * (A * u)) * (x * g * (x * g))) by ring.
    apply Rmult_le_compat; auto; [| |]. - apply Rmult_le_pos; apply Rmult_le_pos; try lra; apply Rmult_le_pos; lra. - apply Rmult_le_pos; lra.
    - apply Rmult_le_compat_l; [apply Rmult_le_pos; [lra|lra]|lra]. }
  assert (Q2 : 2 * Rabs d * e <= (2.2 * A * u) * D).
  { apply Rle_trans with (2 * Rabs d * (2.2 * A * u * (x * g))); [apply Rmult_le_compat_l; [pose proof (Rabs_pos d); lra|auto]|].
    replace (2 * Rabs d * (2.2 * A * u * (x * g))) with ((2.2 * A * u) * (2 * Rabs d * (x * g))) by ring. apply Rmult_le_compat_l; auto. apply Rmult_le_pos; [apply Rmult_le_pos; lra|lra]. }
  assert (0 <= A * u * D) by (apply Rmult_le_pos; [apply Rmult_le_pos; lra|lra]). lra.
Qed.
Lemma den_err : npos (2.25 * A + 6) ((Fin x ^i 2 - Fin x0 ^i 2) ^i 2 + Fin x ^i 2 * Fin g ^i 2)%num D.
Proof.
  destruct d_err as (d' & Ed & Rd & Dd). rewrite Ed. pose proof (d2_err d' Dd) as Q. destruct D_pos as (DP & D1 & D2). pose proof xg as X. pose proof A_pos as AP. destruct s_range as [SR SD].
  pose proof (u_le u H) as U. pose proof (tiny_u u H) as T. simpl (10 ^ 6) in U.
  assert (Dlo : 0.000000008 <= D). { eapply Rle_trans; [|exact D1]. apply Rle_trans with (0.00009 * 0.00009); [lra|apply Rmult_le_compat; lra]. }
  assert (Dhi : D <= 50000). { unfold D. replace (d ^ 2) with (Rabs d * Rabs d) by (rewrite <- Rabs_mult, Rabs_right; [ring|apply Rle_ge, Rle_0_sqr]). replace (x ^ 2 * g ^ 2) with (x * g * (x * g)) by ring.
    assert (Rabs d * Rabs d <= 200 * 200) by (apply Rmult_le_compat; try apply Rabs_pos; lra). assert (x * g * (x * g) <= 100 * 100) by (apply Rmult_le_compat; lra). lra. }
  assert (AU : A * u <= 0.00025) by (apply Rle_trans with (1000 * 0.00000025); [apply Rmult_le_compat; lra|lra]).
  assert (AUD : 0 <= A * u * D) by (apply Rmult_le_pos; [apply Rmult_le_pos; lra|lra]).
  assert (UD : 0 <= u * D) by (apply Rmult_le_pos; lra).
  (* the square *)
  unfold ipow at 1. cbn [ipow_acc nmul].
  assert (B1 : 0 <= d' * d' <= 1.001 * D). { split; [apply Rle_0_sqr|]. apply Rabs_le_inv in Q. assert (2.21 * A * u * D <= 0.001 * D) by (apply Rmult_le_compat_r; lra). assert (d * d <= D) by (unfold D; pose proof (pow2_ge_0 (x * g)); simpl in *; lra). lra. }
  destruct (rnd_range _ G (d' * d')) as (p & Ep). { rewrite Rabs_right by lra. simpl; lra. }
  pose proof (re_any _ _ H _ _ Ep) as AEp. rewrite (Rabs_right (d' * d')) in AEp by lra. rewrite Ep.
  assert (TD : u * / 10 ^ 27 <= 0.001 * (u * D)). { replace (0.001 * (u * D)) with (u * (0.001 * D)) by ring. apply Rmult_le_compat_l; [lra|]. simpl. lra. }
  assert (u * (d' * d') <= u * (1.001 * D)) by (apply Rmult_le_compat_l; lra).
  assert (Pp : Rabs (p - d * d) <= 2.21 * A * u * D + 1.002 * (u * D)).
  { replace (p - d * d) with ((p - d' * d') + (d' * d' - d * d)) by ring. eapply Rle_trans; [apply Rabs_triang|]. lra. }
  (* the width term *)
  destruct (sq_npos x Rx ltac:(lra)) as [NX SX]. destruct (sq_npos g Rg ltac:(lra)) as [NG SG].
  assert (GX : x ^ 2 * g ^ 2 = x * g * (x * g)) by ring. assert (GR : 0.000000008 <= x ^ 2 * g ^ 2 <= 10000).
  { rewrite GX. split; [apply Rle_trans with (0.00009 * 0.00009); [lra|apply Rmult_le_compat; lra]|replace 10000 with (100 * 100) by lra; apply Rmult_le_compat; lra]. }
  pose proof (npos_mul u H _ _ _ _ _ _ NX NG ltac:(lra) ltac:(num)) as (q & Eq & Rq & Lq). rewrite Eq.
  pose proof (lre_diff u H _ _ _ Lq ltac:(lra) ltac:(lra)) as Dq.
  assert (Qq : Rabs (q - x ^ 2 * g ^ 2) <= 3.07 * (u * D)). { eapply Rle_trans; [exact Dq|]. replace (1.002 * (1.02 + 1.02 + 1.02) * u * (x ^ 2 * g ^ 2)) with (1.002 * (1.02 + 1.02 + 1.02) * (u * (x ^ 2 * g ^ 2))) by ring. assert (u * (x ^ 2 * g ^ 2) <= u * D) by (apply Rmult_le_compat_l; [lra|rewrite GX; lra]). lra. }
  (* the sum *)
  cbn [nadd]. apply (npos_weaken u H (1.002 * (2.21 * A + 4.2) + 1.02)); [|lra]. apply (npos_rnd u H); [|lra|num].
  apply (lre_abs u); auto; [|lra]. unfold D. replace (p + q - (d ^ 2 + x ^ 2 * g ^ 2)) with ((p - d * d) + (q - x ^ 2 * g ^ 2)) by ring. fold D. eapply Rle_trans; [apply Rabs_triang|]. lra.
Qed.
Lemma bump_err : npos (2.25 * A + 10.1) (Fin x ^i 2 * Fin g ^i 2 / ((Fin x ^i 2 - Fin x0 ^i 2) ^i 2 + Fin x ^i 2 * Fin g ^i 2))%num (x ^ 2 * g ^ 2 / D) /\ 0 < x ^ 2 * g ^ 2 / D <= 1.
Proof.
  pose proof den_err as N. destruct D_pos as (DP & D1 & D2). pose proof xg as X. pose proof A_pos as AP. destruct s_range as [SR SD].
  destruct (sq_npos x Rx ltac:(lra)) as [NX SX]. destruct (sq_npos g Rg ltac:(lra)) as [NG SG].
  assert (GX : x ^ 2 * g ^ 2 = x * g * (x * g)) by ring. assert (GR : 0.000000008 <= x ^ 2 * g ^ 2 <= 10000).
  { rewrite GX. split; [apply Rle_trans with (0.00009 * 0.00009); [lra|apply Rmult_le_compat; lra]|replace 10000 with (100 * 100) by lra; apply Rmult_le_compat; lra]. }
  assert (Dhi : D <= 50000). { unfold D. replace (d ^ 2) with (Rabs d * Rabs d) by (rewrite <- Rabs_mult, Rabs_right; [ring|apply Rle_ge, Rle_0_sqr]).
    assert (Rabs d * Rabs d <= 200 * 200) by (apply Rmult_le_compat; try apply Rabs_pos; lra). lra. }
  assert (LE : x ^ 2 * g ^ 2 / D <= 1). { apply Rmult_le_reg_r with D; auto. unfold Rdiv. rewrite Rmult_assoc, Rinv_l by lra. rewrite GX. lra. }
  assert (GE : 0.0000000000001 <= x ^ 2 * g ^ 2 / D). { apply Rmult_le_reg_r with D; auto. unfold Rdiv. rewrite Rmult_assoc, Rinv_l by lra. lra. }
  split; [|lra]. pose proof (npos_mul u H _ _ _ _ _ _ NX NG ltac:(lra) ltac:(num)) as NQ.
  apply (npos_weaken u H ((1.02 + 1.02 + 1.02) + (2.25 * A + 6) + 1.02)); [|lra]. apply (npos_div u H); auto; [lra|num].
Qed.
Lemma drude_err a : rnd a = Fin a -> Rabs a <= 10 ^ 6 -> near (drude_bump (Fin x) (Fin x0) (Fin g) (Fin a)) (drude x x0 g a) ((Rabs a + 1) * (2.3 * A + 12)) (Rabs a).
Proof.
  intros Ra Ba. destruct bump_err as ((b & Eb & Rb & Lb) & BB). pose proof A_pos as AP. pose proof (u_le u H) as U. simpl (10 ^ 6) in U. pose proof (Rabs_pos a) as PA.
  assert (AU : A * u <= 0.00025) by (apply Rle_trans with (1000 * 0.00000025); [apply Rmult_le_compat; lra|lra]).
  pose proof (lre_diff u H _ _ _ Lb ltac:(lra) ltac:(lra)) as Db.
  unfold drude_bump. cbv zeta. rewrite Eb. cbn [nmul]. unfold drude. fold d D. set (r := x ^ 2 * g ^ 2 / D) in *.
  assert (Db' : Rabs (b - r) <= 1.002 * (2.25 * A + 10.1) * u). { eapply Rle_trans; [exact Db|]. rewrite <- (Rmult_1_r (1.002 * (2.25 * A + 10.1) * u)) at 2. apply Rmult_le_compat_l; [apply Rmult_le_pos; lra|lra]. }
  apply (near_rnd u H) with (d := Rabs a * (1.002 * (2.25 * A + 10.1))) (B := Rabs a * 1.001 + 1).
  - replace (a * b - a * r) with (a * (b - r)) by ring. rewrite Rabs_mult. rewrite Rmult_assoc. apply Rmult_le_compat_l; lra.
  - rewrite Rabs_mult, (Rabs_right r) by lra. rewrite <- (Rmult_1_r (Rabs a)) at 2. apply Rmult_le_compat_l; lra.
  - apply Rmult_le_pos; lra.
  - assert (Rabs a * (1.002 * (2.25 * A + 10.1)) / (4 * 10 ^ 6) <= Rabs a * 0.001). { unfold Rdiv. rewrite Rmult_assoc. apply Rmult_le_compat_l; [lra|]. simpl; lra. } lra.
  - simpl (10 ^ 6) in Ba. simpl (10 ^ 35). lra.
  - assert (0 <= Rabs a * A) by (apply Rmult_le_pos; lra). lra.
Qed.
End B.
End F.
