(** * Rounding can make an age weight negative (double precision) *)
From Coq Require Import Reals List Arith Lra Lia ZArith Bool.
From Flocq Require Import Core.Raux Core.Zaux Core.Generic_fmt Core.FLX Core.FLT.
From Verif Require Import Num Arr MUtils MSed Float Spec RList LUtils LFloat LFloat2 LFloat5 LFloat7.
Import ListNotations.
Open Scope R_scope.
#[local] Existing Instance binary64.

Definition ce_s0 : R := -1 - U.
Definition ce_s1 : R := 7 + 12 * U.
Definition ce_s1' : R := 7 + 16 * U.

Lemma U_small : 0 < U < 1/1000000.
Proof. split; [apply Rinv_0_lt_compat, pow_lt; lra|]. apply Rmult_lt_reg_r with (2 ^ 52); [apply pow_lt; lra|]. rewrite Rinv_l by (apply pow_nonzero; lra). simpl. lra. Qed.
Lemma U_52 : U * 2 ^ 52 = 1. Proof. apply Rinv_l, pow_nonzero; lra. Qed.
Lemma U_50 : bpow radix2 (-50) = 4 * U. Proof. replace (-50)%Z with (2 + -52)%Z by lia. rewrite bpow_plus, U_bpow. reflexivity. Qed.
Lemma U_49 : bpow radix2 (-49) = 8 * U. Proof. replace (-49)%Z with (3 + -52)%Z by lia. rewrite bpow_plus, U_bpow. reflexivity. Qed.
Lemma U_50' : bpow radix2 (- (-50)) = 2 ^ 52 / 4. Proof. rewrite bpow_opp, U_50. field. Qed.
Lemma U_49' : bpow radix2 (- (-49)) = 2 ^ 52 / 8. Proof. rewrite bpow_opp, U_49. field. Qed.
Lemma U_52' : bpow radix2 (- (-52)) = 2 ^ 52. Proof. rewrite bpow_opp, U_bpow. field. Qed.
Lemma K52 : IZR (2 ^ 52) = 2 ^ 52. Proof. rewrite (pow_IZR 2 52). reflexivity. Qed.
Lemma K50 : IZR (2 ^ 50) = 2 ^ 50. Proof. rewrite (pow_IZR 2 50). reflexivity. Qed.
Lemma P52 : 2 ^ 52 = 4 * 2 ^ 50. Proof. simpl; ring. Qed.
Ltac ub := pose proof U_small; pose proof U_52.

Lemma rep_s0 : r64 ce_s0 = Fin ce_s0.
Proof.
  ub. unfold ce_s0. rewrite (near64 _ (- (2 ^ 52 + 1)) (-52)); [|lia| |].
  - f_equal. rewrite opp_IZR, plus_IZR, U_bpow. rewrite K52. lra.
  - change (bpow radix2 (-52 + 52)) with 1. change (bpow radix2 (-52 + 53)) with 2. rewrite Rabs_left by lra. lra.
  - rewrite opp_IZR, plus_IZR, U_52'. rewrite K52. apply Rabs_def1; lra.
Qed.
Lemma rep_7 n x : (0 <= n <= 100)%Z -> x = 7 + 4 * U * IZR n -> r64 x = Fin x.
Proof.
  intros Hn ->. ub. assert (0 <= IZR n <= 100) by (split; apply IZR_le; lia).
  rewrite (near64 _ (7 * 2 ^ 50 + n) (-50)); [|lia| |].
  - f_equal. rewrite plus_IZR, mult_IZR, U_50. rewrite K50. rewrite P52 in *. lra.
  - change (bpow radix2 (-50 + 52)) with 4. change (bpow radix2 (-50 + 53)) with 8. rewrite Rabs_right by nra. nra.
  - rewrite plus_IZR, mult_IZR, U_50'. rewrite K50. replace ((7 + 4 * U * IZR n) * (2 ^ 52 / 4) - (7 * 2 ^ 50 + IZR n)) with (IZR n * (U * 2 ^ 52 - 1)) by (simpl; field). rewrite U_52.
    replace (IZR n * (1 - 1)) with 0 by ring. rewrite Rabs_R0. lra.
Qed.
Lemma rep_s1 : r64 ce_s1 = Fin ce_s1. Proof. apply (rep_7 3); [lia|unfold ce_s1; lra]. Qed.
Lemma rep_s1' : r64 ce_s1' = Fin ce_s1'. Proof. apply (rep_7 4); [lia|unfold ce_s1'; lra]. Qed.
Lemma ce_df : r64 (ce_s1 + - ce_s0) = Fin (8 + 16 * U).
Proof.
  ub. unfold ce_s1, ce_s0. rewrite (near64 _ (2 ^ 52 + 2) (-49)); [|lia| |].
  - f_equal. rewrite plus_IZR, U_49. rewrite K52. lra.
  - change (bpow radix2 (-49 + 52)) with 8. change (bpow radix2 (-49 + 53)) with 16. rewrite Rabs_right by lra. lra.
  - rewrite plus_IZR, U_49'. rewrite K52. apply Rabs_def1; lra.
Qed.
Lemma rep_df : r64 (8 + 16 * U) = Fin (8 + 16 * U).
Proof. apply (rnd_idem _ G64 _ _ ce_df). Qed.
Lemma ce_f : r64 (ce_s0 + (8 + 16 * U)) = Fin ce_s1'.
Proof.
  ub. unfold ce_s1', ce_s0. rewrite (near64 _ (7 * 2 ^ 50 + 4) (-50)); [|lia| |].
  - f_equal. rewrite plus_IZR, mult_IZR, U_50. rewrite K50. rewrite P52 in *. lra.
  - change (bpow radix2 (-50 + 52)) with 4. change (bpow radix2 (-50 + 53)) with 8. rewrite Rabs_right by lra. lra.
  - rewrite plus_IZR, mult_IZR, U_50'. rewrite K50. rewrite P52 in *. apply Rabs_def1; lra.
Qed.
Ltac dy n k := apply (rnd_dy G64 n k); [lia|lia|simpl; lra].

Lemma r_int n : (Z.abs n <= 1000)%Z -> r64 (IZR n) = Fin (IZR n).
Proof. intros. apply (rnd_dy G64 n 0); [lia|lia|simpl; lra]. Qed.

(** sixteenths *)
Definition q (n : Z) : num := Fin (IZR n / 16).
Lemma q_rnd n : (Z.abs n <=? 1000)%Z = true -> r64 (IZR n / 16) = q n.
Proof. intros H. apply Z.leb_le in H. apply (rnd_dy G64 n 4); [lia|lia|simpl; lra]. Qed.
Lemma q_add a b : (Z.abs (a + b) <=? 1000)%Z = true -> nadd (q a) (q b) = q (a + b).
Proof. intros H. cbn [nadd q]. rewrite <- q_rnd by auto. f_equal. rewrite plus_IZR. lra. Qed.
Lemma q_opp a : nopp (q a) = q (- a).
Proof. cbn [nopp q]. unfold q. f_equal. rewrite opp_IZR. lra. Qed.
Lemma q_sub a b : (Z.abs (a - b) <=? 1000)%Z = true -> nsub (q a) (q b) = q (a - b).
Proof. intros H. unfold nsub. rewrite q_opp. now apply q_add. Qed.
Lemma q_half a b : (a = 2 * b)%Z -> (Z.abs b <=? 1000)%Z = true -> ndiv (q a) (Fin 2) = q b.
Proof. intros -> H. cbn [ndiv q]. rewrite Req_bool_false by lra. rewrite <- q_rnd by auto. f_equal. rewrite mult_IZR. lra. Qed.
Lemma q_mulhalf a b : (a = 2 * b)%Z -> (Z.abs b <=? 1000)%Z = true -> nmul (Fin (1/2)) (q a) = q b.
Proof. intros -> H. cbn [nmul q]. rewrite <- q_rnd by auto. f_equal. rewrite mult_IZR. lra. Qed.
Ltac qstep := repeat (first [rewrite q_opp | rewrite q_add by reflexivity | rewrite q_sub by reflexivity
  | match goal with |- context [ndiv (q ?a) (Fin 2)] => let b := eval vm_compute in (a / 2)%Z in rewrite (q_half a b) by reflexivity end
  | match goal with |- context [nmul (Fin (1/2)) (q ?a)] => let b := eval vm_compute in (a / 2)%Z in rewrite (q_mulhalf a b) by reflexivity end ]).
(** the bin edges of the ages -1/2, 1/2, 3/2 are -1, 0, 1, 2 *)
Lemma ce_edges : get_lg_age_bin_edges_k (fins [-1/2; 1/2; 3/2]) = fins [-1; 0; 1; 2].
Proof.
  replace (fins [-1/2; 1/2; 3/2]) with [q (-8); q 8; q 24] by (unfold q, fins; cbn [map]; repeat (apply f_equal2; [apply f_equal; lra|]); reflexivity).
  replace (fins [-1; 0; 1; 2]) with [q (-16); q 0; q 16; q 32] by (unfold q, fins; cbn [map]; repeat (apply f_equal2; [apply f_equal; lra|]); reflexivity).
  unfold get_lg_age_bin_edges_k, get_dt_array_k, tmids, diff, first, last_, at_. cbn [map map2 tl length app nth Nat.sub].
  qstep. reflexivity.
Qed.

(** birth times *)
Lemma ce_birth0 : exists x, get_lgt_birth (Fin 11) (Fin (-1)) = Fin x /\ 1 < x.
Proof.
  destruct (tbm G64) as (m & Em & Bm). unfold get_lgt_birth. rewrite npow10_rnd64, Em.
  assert (P : pow10 (-1) = 1/10). { unfold pow10. replace (-1) with (- (1)) by lra. rewrite Rpower_Ropp, Rpower_1 by lra. lra. }
  rewrite P. assert (R1 : r64 (1/16) = Fin (1/16)) by dy 1%Z 4%nat. assert (R2 : r64 (1/8) = Fin (1/8)) by dy 1%Z 3%nat.
  destruct (rnd_between G64 (1/16) (1/10) (1/8) R1 R2 ltac:(lra)) as (p & -> & Bp). unfold nsub. cbn [nopp nadd].
  assert (R3 : r64 10.5 = Fin 10.5) by dy 21%Z 1%nat.
  destruct (rnd_between G64 10.5 (11 + - p) 11 R3 (r_int 11 ltac:(lia)) ltac:(lra)) as (b & -> & Bb).
  unfold nwhere, nltb. rewrite Rlt_bool_false by lra. cbn [nlog10]. rewrite Rlt_bool_true by lra. lib64. fold (log10 b).
  assert (LB : 1 + 1/64 <= log10 b <= 2).
  { split.
    - apply Rle_trans with (log10 10.5); [|apply log10_le; lra]. replace (1 + 1/64) with (log10 (pow10 (1 + 1/64))) by apply log10_pow10.
      apply log10_le; [apply pow10_pos|]. rewrite pow10_plus. unfold pow10 at 1. rewrite Rpower_1 by lra.
      assert (W : pow10 (1/64) <= 1.05).
      { apply Rnot_lt_le. intros L. assert (V : 1.05 ^ 64 <= (pow10 (1/64)) ^ 64) by (apply pow_incr; lra).
        rewrite <- (Rpower_pow 64 (pow10 (1/64))) in V by apply pow10_pos. unfold pow10 in V. rewrite Rpower_mult in V.
        replace (1 / 64 * INR 64) with 1 in V by (simpl; lra). rewrite Rpower_1 in V by lra. revert V. simpl. lra. }
      lra.
    - apply Rle_trans with (log10 (pow10 2)); [apply log10_le; [lra|]|rewrite log10_pow10; lra]. unfold pow10. replace 2 with (INR 2) by (simpl; lra). rewrite Rpower_pow by lra. simpl. lra. }
  assert (R4 : r64 (1 + 1/64) = Fin (1 + 1/64)) by dy 65%Z 6%nat.
  destruct (rnd_between G64 (1 + 1/64) (log10 b) 2 R4 (r_int 2 ltac:(lia)) LB) as (x & -> & Bx). exists x. split; auto. lra.
Qed.
Lemma ce_birth1 : get_lgt_birth (Fin 11) (Fin 0) = Fin 1.
Proof.
  destruct (tbm G64) as (m & Em & Bm). unfold get_lgt_birth. rewrite npow10_rnd64, Em, pow10_0, (rnd1 G64). unfold nsub. cbn [nopp nadd].
  replace (11 + - (1)) with 10 by lra. rewrite (r_int 10) by lia. unfold nwhere, nltb. rewrite Rlt_bool_false by lra. cbn [nlog10]. rewrite Rlt_bool_true by lra. lib64.
  replace (ln 10 / ln 10) with 1 by (field; pose proof ln10_pos; lra). apply (rnd1 G64).
Qed.
Lemma ce_birth2 : get_lgt_birth (Fin 11) (Fin 1) = Fin 0.
Proof.
  destruct (tbm G64) as (m & Em & Bm). unfold get_lgt_birth. rewrite npow10_rnd64, Em. unfold pow10. rewrite Rpower_1 by lra. rewrite (r_int 10) by lia. unfold nsub. cbn [nopp nadd].
  replace (11 + - (10)) with 1 by lra. rewrite (rnd1 G64). unfold nwhere, nltb. rewrite Rlt_bool_false by lra. cbn [nlog10]. rewrite Rlt_bool_true by lra. lib64.
  rewrite ln_1. replace (0 / ln 10) with 0 by (field; pose proof ln10_pos; lra). apply (rnd0 G64).
Qed.
Lemma ce_birth3 : exists x, get_lgt_birth (Fin 11) (Fin 2) = Fin x /\ x < 0.
Proof.
  unfold get_lgt_birth. assert (Em : exists m, T_BIRTH_MIN = Fin m /\ 1/1024 <= m <= 1/512).
  { unfold T_BIRTH_MIN, lit. assert (R1 : r64 (1/1024) = Fin (1/1024)) by dy 1%Z 10%nat. assert (R2 : r64 (1/512) = Fin (1/512)) by dy 1%Z 9%nat.
    apply (rnd_between G64 (1/1024) 0.001 (1/512) R1 R2). lra. }
  destruct Em as (m & -> & Bm). rewrite npow10_rnd64.
  assert (pow10 2 = 100) as -> by (unfold pow10; replace 2 with (INR 2) by (simpl; lra); rewrite Rpower_pow by lra; simpl; lra).
  rewrite (r_int 100) by lia. unfold nsub. cbn [nopp nadd]. replace (11 + - (100)) with (-89) by lra. rewrite (r_int (-89)) by lia.
  unfold nwhere, nltb. rewrite Rlt_bool_true by lra. cbn [nlog10]. rewrite Rlt_bool_true by lra. lib64. fold (log10 m).
  assert (LB : -4 <= log10 m <= -1).
  { split; [apply Rle_trans with (log10 (1/1024)); [apply log10_1024|apply log10_le; lra]|].
    replace (-1) with (log10 (pow10 (-1))) by apply log10_pow10. apply log10_le; [lra|]. unfold pow10. replace (-1) with (- (1)) by lra. rewrite Rpower_Ropp, Rpower_1 by lra. lra. }
  destruct (rnd_between G64 (-4) (log10 m) (-1) (r_int (-4) ltac:(lia)) (r_int (-1) ltac:(lia)) LB) as (x & -> & Bx). exists x. split; auto. lra.
Qed.

Notation ce_interp x := (interp x (fins [0; 1]) (fins [ce_s0; ce_s1])).
Lemma ce_int_hi x : 1 < x -> ce_interp (Fin x) = Fin ce_s1.
Proof. intros H. unfold interp, interp_lr, first, last_, at_, nwhere, ngtb, nltb. cbn [fins map length nth Nat.sub]. now rewrite Rlt_bool_true by lra. Qed.
Lemma ce_int_lo x : x < 0 -> ce_interp (Fin x) = Fin ce_s0.
Proof. intros H. unfold interp, interp_lr, first, last_, at_, nwhere, ngtb, nltb. cbn [fins map length nth Nat.sub]. rewrite Rlt_bool_false by lra. now rewrite Rlt_bool_true by lra. Qed.
Lemma ce_core x : 0 <= x <= 1 -> r64 x = Fin x -> ce_interp (Fin x) = nadd (Fin ce_s0) (nmul (Fin x) (Fin (8 + 16 * U))).
Proof.
  intros H Rx. unfold interp, interp_lr, interp_core, first, last_, nwhere, ngtb, nltb.
  change (length (fins [0; 1])) with 2%nat. change (length (fins [ce_s0; ce_s1])) with 2%nat.
  assert (clip_index (searchsorted_right (fins [0; 1]) (Fin x)) 2 = 1%nat) as ->.
  { unfold clip_index. lia. }
  unfold at_. cbn [fins map nth Nat.sub]. rewrite !Rlt_bool_false by lra. unfold nsub. cbn [nopp nadd]. rewrite ce_df.
  replace (1 + - 0) with 1 by lra. rewrite (rnd1 G64). replace (x + - 0) with x by lra. rewrite Rx.
  cbn [nabs]. rewrite Rabs_R1.
  assert (nleb (Fin 1) (Fin (@interp_eps binary64)) = false) as ->.
  { unfold nleb, nltb. cbn [interp_eps binary64]. rewrite Rlt_bool_true; [reflexivity|]. change 1 with (bpow radix2 0). apply bpow_lt. lia. }
  cbn [ndiv]. rewrite Req_bool_false by lra. replace (x / 1) with x by lra. rewrite Rx. reflexivity.
Qed.
Lemma ce_int_1 : ce_interp (Fin 1) = Fin ce_s1'.
Proof. rewrite ce_core by (lra || apply (rnd1 G64)). cbn [nmul]. rewrite Rmult_1_l, rep_df. cbn [nadd]. apply ce_f. Qed.
Lemma ce_int_0 : ce_interp (Fin 0) = Fin ce_s0.
Proof. rewrite ce_core by (lra || apply (rnd0 G64)). cbn [nmul]. rewrite Rmult_0_l, (rnd0 G64). cbn [nadd]. rewrite Rplus_0_r. apply rep_s0. Qed.

(** masses *)
Lemma ce_masses : exists m0 m1 m2, npow10 (Fin ce_s1) = Fin m0 /\ npow10 (Fin ce_s1') = Fin m1 /\ npow10 (Fin ce_s0) = Fin m2
  /\ m0 + / 2 ^ 27 <= m1 <= m0 + 4000000 /\ 2 ^ 23 <= m0 /\ m1 <= 2 ^ 24 /\ 0 <= m2 <= 1 /\ r64 m0 = Fin m0.
Proof.
  rewrite !npow10_rnd64. ub.
  assert (P7 : pow10 7 = 10 ^ 7) by (unfold pow10; replace 7 with (INR 7) by (simpl; lra); apply Rpower_pow; lra).
  assert (PU : forall k, 0 <= k <= 16 -> 1 <= pow10 (k * U) <= 1 + 3/10 /\ 1 + 2 * (k * U) <= pow10 (k * U)).
  { intros k Hk. unfold pow10, Rpower.
    assert (L10 : 2 <= ln 10 <= 1000).
    { split.
      - replace 2 with (ln (exp 2)) by apply ln_exp. apply Rlt_le, ln_increasing; [apply exp_pos|]. pose proof exp_le_3. replace 2 with (1 + 1) by lra. rewrite exp_plus. pose proof (exp_pos 1). nra.
      - pose proof (exp_ineq1 10 ltac:(lra)). apply Rle_trans with (ln (exp 10)); [apply Rlt_le, ln_increasing; lra|rewrite ln_exp; lra]. }
    assert (V : 0 <= k * U * ln 10 <= 1/5) by (split; [apply Rmult_le_pos; nra|]; apply Rle_trans with (16 * (1/1000000) * 1000); [apply Rmult_le_compat; nra|lra]).
    assert (LB : 1 + k * U * ln 10 <= exp (k * U * ln 10)).
    { destruct (Req_dec (k * U * ln 10) 0) as [->|N]; [rewrite exp_0; lra|]. pose proof (exp_ineq1 (k * U * ln 10) N). lra. }
    split; [split; [lra|]|].
    - (* exp v <= 1/(1-v) *)
      assert (E : exp (k * U * ln 10) * exp (- (k * U * ln 10)) = 1) by (rewrite <- exp_plus; replace (k * U * ln 10 + - (k * U * ln 10)) with 0 by lra; apply exp_0).
      assert (LB' : 1 - k * U * ln 10 <= exp (- (k * U * ln 10))).
      { destruct (Req_dec (k * U * ln 10) 0) as [->|N]; [rewrite Ropp_0, exp_0; lra|]. pose proof (exp_ineq1 (- (k * U * ln 10)) ltac:(lra)). lra. }
      pose proof (exp_pos (k * U * ln 10)). nra.
    - assert (2 * (k * U) <= k * U * ln 10) by nra. lra. }
  assert (S1 : pow10 ce_s1 = 10 ^ 7 * pow10 (12 * U)) by (unfold ce_s1; rewrite pow10_plus, P7; reflexivity).
  assert (S2 : pow10 ce_s1' = 10 ^ 7 * pow10 (12 * U) * pow10 (4 * U)).
  { unfold ce_s1'. replace (7 + 16 * U) with (7 + 12 * U + 4 * U) by lra. rewrite !pow10_plus, P7. reflexivity. }
  destruct (PU 12 ltac:(lra)) as [[A1 A2] _]. destruct (PU 4 ltac:(lra)) as [[B1 B2] B3]. destruct (PU 16 ltac:(lra)) as [[C1 C2] _].
  assert (S3 : pow10 ce_s1' = 10 ^ 7 * pow10 (16 * U)) by (unfold ce_s1'; rewrite pow10_plus, P7; reflexivity).
  assert (T7 : 10 ^ 7 = 10000000) by (simpl; lra). rewrite T7 in *.
  assert (R1 : bpow radix2 (-29 + 52) <= Rabs (pow10 ce_s1) < bpow radix2 (-29 + 53)).
  { change (bpow radix2 (-29 + 52)) with 8388608. change (bpow radix2 (-29 + 53)) with 16777216. rewrite S1, Rabs_right by lra. lra. }
  assert (R2 : bpow radix2 (-29 + 52) <= Rabs (pow10 ce_s1') < bpow radix2 (-29 + 53)).
  { change (bpow radix2 (-29 + 52)) with 8388608. change (bpow radix2 (-29 + 53)) with 16777216. rewrite S3, Rabs_right by lra. lra. }
  destruct (err64 _ (-29) ltac:(lia) R1) as (m0 & E0 & D0). destruct (err64 _ (-29) ltac:(lia) R2) as (m1 & E1 & D1).
  assert (S0 : 0 <= pow10 ce_s0 <= 1). { split; [apply Rlt_le, pow10_pos|]. rewrite <- pow10_0. apply pow10_le. unfold ce_s0. lra. }
  destruct (rnd_between G64 0 (pow10 ce_s0) 1 (rnd0 G64) (rnd1 G64) S0) as (m2 & E2 & D2).
  exists m0, m1, m2. split; auto. split; auto. split; auto.
  assert (BP : bpow radix2 (-29 - 1) = 2 ^ 22 * U) by (change (-29 - 1)%Z with (22 + -52)%Z; rewrite bpow_plus, U_bpow; simpl; lra).
  rewrite BP in D0, D1. apply Rabs_le_inv in D0, D1.
  assert (I27 : / 2 ^ 27 = 2 ^ 25 * U) by (replace (2 ^ 52) with (2 ^ 25 * 2 ^ 27) by (simpl; ring); field).
  assert (GAP : 10000000 * (8 * U) <= pow10 ce_s1' - pow10 ce_s1).
  { rewrite S2, S1. replace (10000000 * pow10 (12 * U) * pow10 (4 * U) - 10000000 * pow10 (12 * U)) with (10000000 * (pow10 (12 * U) * (pow10 (4 * U) - 1))) by ring.
    apply Rmult_le_compat_l; [lra|]. nra. }
  assert (GAP2 : pow10 ce_s1' - pow10 ce_s1 <= 3900000).
  { rewrite S2, S1. replace (10000000 * pow10 (12 * U) * pow10 (4 * U) - 10000000 * pow10 (12 * U)) with (10000000 * (pow10 (12 * U) * (pow10 (4 * U) - 1))) by ring. nra. }
  rewrite I27.
  assert (P25 : 2 ^ 25 = 33554432) by (simpl; lra). assert (P22 : 2 ^ 22 = 4194304) by (simpl; lra). rewrite P25, P22 in *.
  split; [lra|]. split; [|split; [|split; [lra|]]].
  - apply (rnd_ge_rep G64 (pow10 ce_s1) m0 (2 ^ 23)); [rewrite S1; replace (2 ^ 23) with 8388608 by (simpl; lra); lra| |exact E0]. apply (rnd_dy G64 8388608 0); [lia|lia|simpl; lra].
  - apply (rnd_le_rep G64 (pow10 ce_s1') m1 (2 ^ 24)); [rewrite S3; replace (2 ^ 24) with 16777216 by (simpl; lra); lra| |exact E1]. apply (rnd_dy G64 16777216 0); [lia|lia|simpl; lra].
  - apply (rnd_idem _ G64 _ _ E0).
Qed.

Lemma negative_weight : exists w0 w1 w2,
  snd (calc_age_weights_from_logsm_table_k (fins [0; 1]) (fins [ce_s0; ce_s1]) (fins [-1/2; 1/2; 3/2]) (Fin 11)) = [Fin w0; w1; w2] /\ w0 < 0.
Proof.
  unfold calc_age_weights_from_logsm_table_k. cbn [snd]. rewrite ce_edges. cbn [fins map].
  destruct ce_birth0 as (x0 & -> & X0). destruct ce_birth3 as (x3 & -> & X3). rewrite ce_birth1, ce_birth2.
  change (map Fin [0; 1]) with (fins [0; 1]). change [Fin 0; Fin 1] with (fins [0; 1]). change [Fin ce_s0; Fin ce_s1] with (fins [ce_s0; ce_s1]).
  rewrite (ce_int_hi x0 X0), (ce_int_lo x3 X3), ce_int_1, ce_int_0.
  destruct ce_masses as (m0 & m1 & m2 & -> & -> & -> & GAP & B0 & B1 & B2 & _).
  assert (I27 : 0 < / 2 ^ 27) by (apply Rinv_0_lt_compat, pow_lt; lra).
  assert (P23 : 2 ^ 23 = 8388608) by (simpl; lra). assert (P24 : 2 ^ 24 = 16777216) by (simpl; lra).
  unfold diff, nsub. cbn [map map2 tl nopp nadd].
  assert (RI : forall n, (Z.abs n <= 2 ^ 24)%Z -> r64 (IZR n) = Fin (IZR n)) by (intros n Hn; apply (rnd_dy G64 n 0); [lia|lia|simpl; lra]).
  assert (R27 : r64 (/ 2 ^ 27) = Fin (/ 2 ^ 27)) by (apply (rnd_dy G64 1 27); [lia|lia|lra]).
  destruct (rnd_between G64 (/ 2 ^ 27) (m1 + - m0) 4000000 R27 (RI 4000000%Z ltac:(lia)) ltac:(lra)) as (a & Ea & Ba). rewrite Ea. cbn [nopp].
  destruct (rnd_between G64 (-16777216) (m2 + - m1) (-8000000) (RI (-16777216)%Z ltac:(lia)) (RI (-8000000)%Z ltac:(lia)) ltac:(lra)) as (b & Eb & Bb). rewrite Eb. cbn [nopp].
  replace (m2 + - m2) with 0 by lra. rewrite (rnd0 G64). cbn [nopp].
  assert (Ra : r64 (- a) = Fin (- a)) by (rewrite (rnd_opp _ G64), (rnd_idem _ G64 _ _ Ea); reflexivity).
  cbn [vsum reduce binary64 double_precision left_to_right fold_left nadd].
  destruct (rnd_between G64 4000000 (- a + - b) 16777216 (RI 4000000%Z ltac:(lia)) (RI 16777216%Z ltac:(lia)) ltac:(lra)) as (t & Et & Bt). rewrite Et. cbn [nadd].
  replace (t + - 0) with t by lra. rewrite (rnd_idem _ G64 _ _ Et). cbn [ndiv]. rewrite !Req_bool_false by lra.
  assert (R60 : r64 (- / 2 ^ 60) = Fin (- / 2 ^ 60)) by (apply (rnd_dy G64 (-1) 60); [lia|lia|lra]).
  assert (W : - 4000000 <= - a / t <= - / 2 ^ 60).
  { assert (0 < / t) by (apply Rinv_0_lt_compat; lra). assert (T1 : / t <= 1) by (rewrite <- Rinv_1; apply Rinv_le; lra).
    assert (T2 : / 2 ^ 24 <= / t) by (apply Rinv_le; lra). unfold Rdiv. split; [nra|].
    assert (/ 2 ^ 60 <= a * / t); [|lra]. apply Rle_trans with (/ 2 ^ 27 * / 2 ^ 24).
    - rewrite <- Rinv_mult. apply Rinv_le; [|rewrite <- pow_add; apply Rle_pow; [lra|lia]]. apply Rmult_lt_0_compat; apply pow_lt; lra.
    - apply Rmult_le_compat; try lra. }
  destruct (rnd_between G64 (-4000000) (- a / t) (- / 2 ^ 60) (RI (-4000000)%Z ltac:(lia)) R60 W) as (w & -> & Bw).
  exists w. do 2 eexists. split; [reflexivity|]. assert (0 < / 2 ^ 60) by (apply Rinv_0_lt_compat, pow_lt; lra). lra.
Qed.
