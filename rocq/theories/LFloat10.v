(** * Sums in rounded arithmetic: forward error of summation and of normalisation *)
From Coq Require Import Reals List Arith Lra Lia ZArith Bool.
From Flocq Require Import Core.Raux Core.Zaux Core.Generic_fmt Core.FLX Core.FLT Core.Round_NE Core.Defs.
From Flocq Require Import Relative Plus_error.
From Coq Require Import Permutation.
From Verif Require Import Num Arr MUtils MSed Float Spec SpecFloat LOrder RList LUtils LFloat LFloat2 LFloat3 LFloat4 LFloat5.
Import ListNotations.
Open Scope R_scope.

Record rel_err (AR : Arith) (u : R) : Prop := {
  re_good : good_rounding AR;
  re_add : forall x y z, rnd x = Fin x -> rnd y = Fin y -> rnd (x + y) = Fin z -> safe_sum x y -> Rabs (z - (x + y)) <= u * Rabs (x + y);
  re_any : forall x z, rnd x = Fin z -> Rabs (z - x) <= u * Rabs x + (u * / 2 ^ 102);
  re_u : 0 < u <= / 2 ^ 22;
  re_tiny : (u * / 2 ^ 102) <= u * u;
  re_tiny2 : (u * / 2 ^ 102) <= u * / 2 ^ 90;
  re_low : / 2 ^ 60 <= u;
  re_lib : accurate_library AR u
}.

Lemma bpow_inv k : bpow radix2 (- Z.of_nat k) = / 2 ^ k.
Proof. rewrite bpow_opp, (pow_IZR_bpow k). reflexivity. Qed.
(** rounding to nearest with gradual underflow *)
Lemma ieee_add prec emin emax eps red lib k : (24 <= prec)%Z -> (emin <= - prec)%Z -> (emin <= -149)%Z -> (prec < emax)%Z -> (128 <= emax)%Z -> prec = Z.of_nat k ->
  let AR := {| rnd := round_ieee prec emin emax; interp_eps := eps; reduce := red; elem := lib |} in
  forall x y z, rnd x = Fin x -> rnd y = Fin y -> rnd (x + y) = Fin z -> Rabs (z - (x + y)) <= / 2 ^ k * Rabs (x + y).
Proof.
  intros H1 H2 H3 H4 H5 Hk AR. assert (P : Prec_gt_0 prec) by (unfold Prec_gt_0; lia).
  assert (U : / 2 * bpow radix2 (- prec + 1) = / 2 ^ k).
  { rewrite bpow_plus, Hk, bpow_inv. change (bpow radix2 1) with 2. field. apply pow_nonzero. lra. }
  cbn [rnd AR]. intros x y z Hx Hy Hz. apply ri_rep in Hx, Hy; auto; try lia. apply ri_inv in Hz; try lia. destruct Hz as [-> _].
  destruct (FLT_plus_error_N_ex radix2 emin prec (fun x => negb (Z.even x)) x y (proj1 Hx) (proj1 Hy)) as (e & He & E).
  rewrite E. replace ((x + y) * (1 + e) - (x + y)) with (e * (x + y)) by ring. rewrite Rabs_mult.
  apply Rmult_le_compat_r; [apply Rabs_pos|]. eapply Rle_trans; [exact He|]. eapply Rle_trans; [apply u_rod1pu_ro_le_u_ro|]. unfold u_ro. lra.
Qed.
Lemma ieee_any prec emin emax eps red lib k : (24 <= prec)%Z -> (emin <= - prec)%Z -> (emin <= -149)%Z -> (prec < emax)%Z -> (128 <= emax)%Z -> prec = Z.of_nat k -> (emin + prec <= -125)%Z ->
  let AR := {| rnd := round_ieee prec emin emax; interp_eps := eps; reduce := red; elem := lib |} in
  forall x z, rnd x = Fin z -> Rabs (z - x) <= / 2 ^ k * Rabs x + / 2 ^ k * / 2 ^ 102.
Proof.
  intros H1 H2 H3 H4 H5 Hk Hn AR. assert (P : Prec_gt_0 prec) by (unfold Prec_gt_0; lia).
  assert (U : / 2 * bpow radix2 (- prec + 1) = / 2 ^ k).
  { rewrite bpow_plus, Hk, bpow_inv. change (bpow radix2 1) with 2. field. apply pow_nonzero. lra. }
  cbn [rnd AR]. intros x z Hz. apply ri_inv in Hz; try lia. destruct Hz as [-> _].
  destruct (error_N_FLT radix2 emin prec P (fun x => negb (Z.even x)) x) as (e & t & He & Ht & _ & E).
  rewrite E. replace (x * (1 + e) + t - x) with (e * x + t) by ring. eapply Rle_trans; [apply Rabs_triang|]. rewrite Rabs_mult. apply Rplus_le_compat.
  - apply Rmult_le_compat_r; [apply Rabs_pos|]. lra.
  - eapply Rle_trans; [exact Ht|]. rewrite <- (bpow_inv k), <- (bpow_inv 102), <- bpow_plus. change (/ 2) with (bpow radix2 (-1)). rewrite <- bpow_plus. apply bpow_le. lia.
Qed.
(** the constants of an arithmetic of precision [k] *)
Lemma rel_err_build AR u k : (k <= 60)%nat -> good_rounding AR -> / 2 ^ k <= u <= / 2 ^ 22 -> accurate_library AR u ->
  (forall x y z, rnd x = Fin x -> rnd y = Fin y -> rnd (x + y) = Fin z -> safe_sum x y -> Rabs (z - (x + y)) <= / 2 ^ k * Rabs (x + y)) ->
  (forall x z, rnd x = Fin z -> Rabs (z - x) <= / 2 ^ k * Rabs x + / 2 ^ k * / 2 ^ 102) -> rel_err AR u.
Proof.
  intros Hk G Hu LIB AD AN. assert (Up : 0 < / 2 ^ k) by (apply Rinv_0_lt_compat, pow_lt; lra).
  assert (UM : forall v, 0 <= v -> / 2 ^ k * v <= u * v) by (intros v Hv; apply Rmult_le_compat_r; lra).
  assert (K : / 2 ^ 60 <= / 2 ^ k) by (apply half_pow_le; lia). assert (L : / 2 ^ 102 <= / 2 ^ 60) by (apply half_pow_le; lia). assert (L2 : / 2 ^ 102 <= / 2 ^ 90) by (apply half_pow_le; lia).
  constructor; auto.
  - intros x y z Hx Hy Hz S. eapply Rle_trans; [now apply AD|]. apply UM, Rabs_pos.
  - intros x z Hz. eapply Rle_trans; [now apply AN|]. apply Rplus_le_compat; apply UM; [apply Rabs_pos|]. left. apply Rinv_0_lt_compat, pow_lt; lra.
  - split; lra.
  - apply Rmult_le_compat_l; lra.
  - apply Rmult_le_compat_l; lra.
  - lra.
Qed.
Lemma rel_err_unit AR u : accurate_to AR u -> rel_err AR u.
Proof.
  intros ((red & lib & OR & [[[-> | ->] Hu]|[[-> | ->] Hu]]) & LIB).
  - apply (rel_err_build _ _ 53); try lia; auto.
    + apply good_double; auto. eapply accurate_weaken; [exact LIB|]. apply Rle_trans with (/ 2 ^ 22); [lra|apply half_pow_le; lia].
    + intros x y z Hx Hy Hz _. revert x y z Hx Hy Hz. apply (ieee_add 53 (-1074) 1024 _ _ _ 53); lia.
    + apply (ieee_any 53 (-1074) 1024 _ _ _ 53); lia.
  - apply (rel_err_build _ _ 53); try lia; auto.
    + apply good_double_flushed; auto. eapply accurate_weaken; [exact LIB|]. apply Rle_trans with (/ 2 ^ 22); [lra|apply half_pow_le; lia].
    + refine (add_flush good_binary64 (bpow radix2 (-1022)) (bpow_gt_0 _ _) normal64 small64 apart64 _ red lib _ _). apply (ieee_add 53 (-1074) 1024 _ _ _ 53); lia.
    + refine (any_flush good_binary64 (bpow radix2 (-1022)) (bpow_gt_0 _ _) normal64 _ red lib _ _ _ _).
      * left. apply Rinv_0_lt_compat, pow_lt; lra.
      * apply (ieee_any 53 (-1074) 1024 _ _ _ 53); lia.
      * rewrite <- !bpow_inv, <- bpow_plus. apply bpow_le. lia.
  - apply (rel_err_build _ _ 24); try lia; auto.
    + apply good_single; auto. eapply accurate_weaken; [exact LIB|]. apply Rle_trans with (/ 2 ^ 22); [lra|apply half_pow_le; lia].
    + intros x y z Hx Hy Hz _. revert x y z Hx Hy Hz. apply (ieee_add 24 (-149) 128 _ _ _ 24); lia.
    + apply (ieee_any 24 (-149) 128 _ _ _ 24); lia.
  - apply (rel_err_build _ _ 24); try lia; auto.
    + apply good_single_flushed; auto. eapply accurate_weaken; [exact LIB|]. apply Rle_trans with (/ 2 ^ 22); [lra|apply half_pow_le; lia].
    + refine (add_flush good_binary32 (bpow radix2 (-126)) (bpow_gt_0 _ _) normal32 small32 apart32 _ red lib _ _). apply (ieee_add 24 (-149) 128 _ _ _ 24); lia.
    + refine (any_flush good_binary32 (bpow radix2 (-126)) (bpow_gt_0 _ _) normal32 _ red lib _ _ _ _).
      * left. apply Rinv_0_lt_compat, pow_lt; lra.
      * apply (ieee_any 24 (-149) 128 _ _ _ 24); lia.
      * rewrite <- !bpow_inv, <- bpow_plus. apply bpow_le. lia.
Qed.
(** when a sum cannot be subnormal *)
Lemma safe_nonneg x y : 0 <= x -> 0 <= y -> safe_sum x y. Proof. intros X Y. left. auto. Qed.
Lemma safe_l x y : / 2 ^ 74 <= Rabs x -> safe_sum x y. Proof. intros B. right. left. exact B. Qed.
Lemma safe_r x y : / 2 ^ 74 <= Rabs y -> safe_sum x y. Proof. intros B. right. right. left. exact B. Qed.
Lemma safe_total x y : / 2 ^ 100 <= Rabs (x + y) -> safe_sum x y. Proof. intros B. right. right. right. exact B. Qed.
Lemma tiny74 v : / 10 ^ 22 <= v -> / 2 ^ 74 <= v.
Proof. intros B. eapply Rle_trans; [|exact B]. apply Rinv_le; [apply pow_lt; lra|]. rewrite (pow_IZR 10 22), (pow_IZR 2 74). apply IZR_le. vm_compute. discriminate. Qed.
Lemma tiny100 v : / 10 ^ 30 <= v -> / 2 ^ 100 <= v.
Proof. intros B. eapply Rle_trans; [|exact B]. apply Rinv_le; [apply pow_lt; lra|]. rewrite (pow_IZR 10 30), (pow_IZR 2 100). apply IZR_le. vm_compute. discriminate. Qed.
Lemma safe_big_l x y : / 10 ^ 22 <= Rabs x -> safe_sum x y. Proof. intros B. now apply safe_l, tiny74. Qed.
Lemma safe_big_r x y : / 10 ^ 22 <= Rabs y -> safe_sum x y. Proof. intros B. now apply safe_r, tiny74. Qed.

(** powers of 1 +- u *)
Lemma pow_1mu u n : 0 <= u <= 1 -> 1 - INR n * u <= (1 - u) ^ n.
Proof.
  intros H. induction n as [|n IH]; [simpl; lra|]. rewrite S_INR. cbn [pow].
  destruct (Rle_lt_dec 0 (1 - INR n * u)) as [Q|Q].
  - apply Rle_trans with ((1 - u) * (1 - INR n * u)); [|apply Rmult_le_compat_l; lra].
    assert (0 <= INR n * u * u) by (apply Rmult_le_pos; [apply Rmult_le_pos; [apply pos_INR|lra]|lra]). lra.
  - assert (0 <= (1 - u) * (1 - u) ^ n) by (apply Rmult_le_pos; [lra|apply pow_le; lra]). lra.
Qed.
Lemma pow_1pu u n : 0 <= u -> INR n * u <= / 16 -> (1 + u) ^ n <= 1 + 16 / 15 * (INR n * u) /\ 1 <= (1 + u) ^ n.
Proof.
  intros H B. split; [|apply pow_R1_Rle; lra].
  assert (N : 0 <= INR n * u) by (apply Rmult_le_pos; [apply pos_INR|lra]).
  destruct n as [|n]; [simpl; lra|]. assert (U1 : u <= 1) by (assert (1 <= INR (S n)) by (rewrite S_INR; pose proof (pos_INR n); lra); nra).
  assert (P : (1 + u) ^ S n * (1 - u) ^ S n <= 1).
  { rewrite <- Rpow_mult_distr. apply Rle_trans with (1 ^ S n); [|rewrite pow1; lra]. apply pow_incr. assert (0 <= u * u) by (apply Rmult_le_pos; lra).
    assert (u * u <= 1 * 1) by (apply Rmult_le_compat; lra). split; nra. }
  pose proof (pow_1mu u (S n) ltac:(lra)) as Q. set (a := INR (S n) * u) in *. set (b := (1 + u) ^ S n) in *.
  assert (0 < b) by (apply pow_lt; lra).
  assert (b * (1 - a) <= 1) by (eapply Rle_trans; [|exact P]; apply Rmult_le_compat_l; lra).
  apply Rmult_le_reg_r with (1 - a); [lra|]. eapply Rle_trans; [exact H1|]. nra.
Qed.

Section Sum.
Context {AR : Arith} {u : R} (H : rel_err AR u).
Let G := re_good _ _ H.

Definition nonneg_machine (x : R) : Prop := 0 <= x /\ rnd x = Fin x.
(** any two partial sums *)
Lemma pow_parts a b : (0 < b)%nat -> (1 + u) ^ a * (1 + u) <= (1 + u) ^ (a + b) /\ (1 - u) ^ (a + b) <= (1 - u) ^ a * (1 - u).
Proof.
  intros B. pose proof (re_u _ _ H) as Hu. assert (U1 : u <= 1). { assert (/ 2 ^ 22 <= 1) by (rewrite <- Rinv_1; apply Rinv_le; [lra|apply pow_R1_Rle; lra]). lra. }
  destruct b as [|b]; [lia|]. replace (a + S b)%nat with (a + 1 + b)%nat by lia. rewrite !(pow_add _ (a + 1) b), !(pow_add _ a 1), !pow_1.
  assert (P : 0 <= (1 + u) ^ a * (1 + u)) by (apply Rmult_le_pos; [apply pow_le|]; lra). assert (Q : 0 <= (1 - u) ^ a * (1 - u)) by (apply Rmult_le_pos; [apply pow_le|]; lra).
  assert (P1 : 1 <= (1 + u) ^ b) by (apply pow_R1_Rle; lra). assert (Q1 : 0 <= (1 - u) ^ b <= 1) by (split; [apply pow_le; lra|]; apply Rle_trans with (1 ^ b); [apply pow_incr; lra|rewrite pow1; lra]).
  split; nra.
Qed.
Lemma sum_error l : Forall nonneg_machine l -> Rsum l * (1 + u) ^ length l <= 10 ^ 38 ->
  exists T, vsum (fins l) = Fin T /\ nonneg_machine T
    /\ (1 - u) ^ length l * Rsum l <= T <= (1 + u) ^ length l * Rsum l.
Proof.
  pose proof (re_u _ _ H) as Hu. assert (U1 : u <= 1). { assert (/ 2 ^ 22 <= 1) by (rewrite <- Rinv_1; apply Rinv_le; [lra|apply pow_R1_Rle; lra]). lra. }
  destruct l as [|x0 l0]. { intros _ _. exists 0. split; [reflexivity|]. split; [split; [lra|apply (rnd0 G)]|simpl; lra]. }
  assert (C : combines nadd (fins (x0 :: l0)) (vsum (fins (x0 :: l0)))) by (apply vsum_comb; [exact (sum_order _ G)|discriminate]).
  revert C. generalize (x0 :: l0), (vsum (fins (x0 :: l0))).
  apply (combines_fins_ind nadd (fun l v => Forall nonneg_machine l -> Rsum l * (1 + u) ^ length l <= 10 ^ 38 ->
    exists T, v = Fin T /\ nonneg_machine T /\ (1 - u) ^ length l * Rsum l <= T <= (1 + u) ^ length l * Rsum l)).
  - intros x F _. apply Forall_cons_iff in F. destruct F as [F _]. exists x. split; auto. split; auto. destruct F as [F _]. cbn [length pow Rsum]. split; nra.
  - intros l a b va vb P La Lb IA IB F B.
    assert (F' : Forall nonneg_machine (a ++ b)) by (apply Forall_forall; intros y Hy; rewrite Forall_forall in F; apply F; apply Permutation_sym in P; eapply Permutation_in; eauto).
    apply Forall_app in F'. destruct F' as [Fa Fb]. rewrite (Permutation_length P), (Rsum_perm _ _ P), app_length, Rsum_app' in *.
    assert (A0 : 0 <= Rsum a) by (apply Rsum_nonneg; eapply Forall_impl; [|exact Fa]; intros z Hz; apply Hz). assert (B0 : 0 <= Rsum b) by (apply Rsum_nonneg; eapply Forall_impl; [|exact Fb]; intros z Hz; apply Hz).
    destruct (pow_parts (length a) (length b) Lb) as [PA MA]. destruct (pow_parts (length b) (length a) La) as [PB MB]. rewrite (Nat.add_comm (length b)) in PB, MB.
    set (p := (1 + u) ^ (length a + length b)) in *. set (m := (1 - u) ^ (length a + length b)) in *.
    assert (pa1 : 1 <= (1 + u) ^ length a) by (apply pow_R1_Rle; lra). assert (pb1 : 1 <= (1 + u) ^ length b) by (apply pow_R1_Rle; lra).
    assert (ma0 : 0 <= (1 - u) ^ length a) by (apply pow_le; lra). assert (mb0 : 0 <= (1 - u) ^ length b) by (apply pow_le; lra).
    set (pa := (1 + u) ^ length a) in *. set (pb := (1 + u) ^ length b) in *. set (ma := (1 - u) ^ length a) in *. set (mb := (1 - u) ^ length b) in *.
    assert (Ga : Rsum a * pa * (1 + u) <= Rsum a * p) by (rewrite Rmult_assoc; apply Rmult_le_compat_l; lra). assert (Gb : Rsum b * pb * (1 + u) <= Rsum b * p) by (rewrite Rmult_assoc; apply Rmult_le_compat_l; lra).
    assert (a0 : 0 <= Rsum a * pa) by (apply Rmult_le_pos; lra). assert (b0 : 0 <= Rsum b * pb) by (apply Rmult_le_pos; lra).
    assert (Q : (Rsum a * pa + Rsum b * pb) * (1 + u) <= 10 ^ 38) by lra.
    assert (ua : 0 <= u * (Rsum a * pa)) by (apply Rmult_le_pos; lra). assert (ub : 0 <= u * (Rsum b * pb)) by (apply Rmult_le_pos; lra).
    destruct (IA Fa ltac:(lra)) as (x & -> & [X0 Rx] & BX). destruct (IB Fb ltac:(lra)) as (y & -> & [Y0 Ry] & BY).
    cbn [nadd]. destruct (rnd_range _ G (x + y)) as (t & Et); [rewrite Rabs_right by lra; lra|].
    pose proof (re_add _ _ H x y t Rx Ry Et (safe_nonneg x y X0 Y0)) as E. rewrite (Rabs_right (x + y)) in E by lra. apply Rabs_le_inv in E.
    exists t. split; auto. split.
    { split; [|eapply (rnd_idem _ G); eauto]. pose proof (rnd_nonneg G (x + y) ltac:(lra)) as N. rewrite Et, nle_fin in N. exact N. }
    assert (Ha : m * Rsum a <= ma * (1 - u) * Rsum a) by (apply Rmult_le_compat_r; lra). assert (Hb : m * Rsum b <= mb * (1 - u) * Rsum b) by (apply Rmult_le_compat_r; lra).
    split.
    + apply Rle_trans with ((1 - u) * (x + y)); [|lra]. apply Rle_trans with ((1 - u) * (ma * Rsum a + mb * Rsum b)); [lra|apply Rmult_le_compat_l; lra].
    + apply Rle_trans with ((1 + u) * (x + y)); [lra|]. apply Rle_trans with ((1 + u) * (pa * Rsum a + pb * Rsum b)); [apply Rmult_le_compat_l; lra|lra].
Qed.

(** sum of an array: relative error at most n u (1 + 1/15) *)
Lemma vsum_error l : Forall nonneg_machine l -> INR (length l) * u <= / 16 -> Rsum l <= 10 ^ 37 ->
  exists T, vsum (fins l) = Fin T /\ nonneg_machine T
    /\ (1 - INR (length l) * u) * Rsum l <= T <= (1 + 16 / 15 * (INR (length l) * u)) * Rsum l.
Proof.
  intros F N B. pose proof (re_u _ _ H) as Hu. assert (U1 : u <= 1). { assert (/ 2 ^ 22 <= 1) by (rewrite <- Rinv_1; apply Rinv_le; [lra|apply pow_R1_Rle; lra]). lra. }
  assert (Rl : 0 <= Rsum l) by (apply Rsum_nonneg; eapply Forall_impl; [|exact F]; intros z Hz; apply Hz).
  destruct (pow_1pu u (length l) ltac:(lra) N) as [P1 P2]. pose proof (pow_1mu u (length l) ltac:(lra)) as P3.
  assert (10 ^ 38 = 10 * 10 ^ 37) by reflexivity. assert (0 < 10 ^ 37) by (apply pow_lt; lra).
  assert (NU : 0 <= INR (length l) * u) by (apply Rmult_le_pos; [apply pos_INR|lra]).
  destruct (sum_error l) as (T & E & HT & BT); auto.
  { apply Rle_trans with (10 ^ 37 * 2); [|lra]. apply Rmult_le_compat; lra. }
  exists T. split; [exact E|]. split; auto. split.
  - eapply Rle_trans; [|apply BT]. apply Rmult_le_compat_r; lra.
  - eapply Rle_trans; [apply BT|]. apply Rmult_le_compat_r; lra.
Qed.

(** dividing every entry by the rounded sum *)
Definition fval (v : num) : R := match v with Fin x => x | _ => 0 end.
Lemma normalised_error l : Forall nonneg_machine l -> INR (length l) * u <= / 16 -> Rsum l <= 10 ^ 37 ->
  (Rsum l = 0 /\ all_nan (map (fun d => ndiv d (vsum (fins l))) (fins l)))
  \/ (0 < Rsum l
      /\ Rabs (Rsum (map (fun d => fval (ndiv (Fin d) (vsum (fins l)))) l) - 1) <= 2 * (INR (length l) + 1) * u
      /\ forall d, In d l -> exists x, ndiv (Fin d) (vsum (fins l)) = Fin x /\ 0 <= x <= 1 /\ rnd x = Fin x
           /\ Rabs (x - d / Rsum l) <= 2 * (INR (length l) + 1) * u * (d / Rsum l) + (u * / 2 ^ 102)).
Proof.
  intros F N B. destruct (vsum_error l F N B) as (T & ET & [T0 RT] & BT). rewrite ET.
  pose proof (re_u _ _ H) as Hu. pose proof (re_tiny _ _ H) as Ht.
  set (n := INR (length l)) in *. assert (N0 : 0 <= n) by apply pos_INR. assert (NU : 0 <= n * u) by (apply Rmult_le_pos; lra).
  assert (Rl : 0 <= Rsum l) by (apply Rsum_nonneg; eapply Forall_impl; [|exact F]; intros z Hz; apply Hz).
  destruct Rl as [Rl|Rl].
  2:{ left. split; auto. symmetry in Rl. rewrite Rl in BT. assert (T = 0) as -> by lra. unfold all_nan, fins. rewrite map_map. apply Forall_map.
      assert (Z : Forall (fun x => x = 0) l) by (apply Rsum_nonneg_zero; auto; eapply Forall_impl; [|exact F]; intros z Hz; apply Hz).
      eapply Forall_impl; [|exact Z]. intros a ->. cbn [ndiv]. rewrite Req_bool_true by lra. now rewrite Rlt_bool_false by lra. }
  right. split; auto. assert (Tp : 0 < T) by (eapply Rlt_le_trans; [|apply BT]; apply Rmult_lt_0_compat; lra).
  set (S := Rsum l) in *.
  (* S / T *)
  assert (ST1 : S / T <= 1 + 16 / 15 * (n * u)).
  { apply Rmult_le_reg_r with T; [lra|]. unfold Rdiv. rewrite Rmult_assoc, Rinv_l, Rmult_1_r by lra.
    apply Rle_trans with ((1 + 16 / 15 * (n * u)) * ((1 - n * u) * S)); [|apply Rmult_le_compat_l; lra].
    rewrite <- Rmult_assoc. rewrite <- (Rmult_1_l S) at 1. apply Rmult_le_compat_r; [lra|]. nra. }
  assert (ST2 : 1 - 16 / 15 * (n * u) <= S / T).
  { apply Rmult_le_reg_r with T; [lra|]. unfold Rdiv. rewrite (Rmult_assoc S), Rinv_l, Rmult_1_r by lra.
    apply Rle_trans with ((1 - 16 / 15 * (n * u)) * ((1 + 16 / 15 * (n * u)) * S)); [apply Rmult_le_compat_l; lra|].
    rewrite <- Rmult_assoc. rewrite <- (Rmult_1_l S) at 2. apply Rmult_le_compat_r; [lra|]. nra. }
  assert (K : forall d, In d l -> exists w, ndiv (Fin d) (Fin T) = Fin w /\ (0 <= w <= 1 /\ rnd w = Fin w) /\ Rabs (w - d / T) <= u * (d / T) + (u * / 2 ^ 102)).
  { intros d Hd. rewrite Forall_forall in F. destruct (F d Hd) as [D0 Rd]. cbn [ndiv]. rewrite Req_bool_false by lra.
    assert (DT : d <= T).
    { destruct (vsum_nonneg G (fins l)) as (_ & C).
      - unfold fins. apply Forall_map, Forall_forall. intros z Hz. destruct (F z Hz). exists z. auto.
      - rewrite ET in C. rewrite Forall_forall in C. apply nle_fin. apply C. unfold fins. now apply in_map. }
    destruct (rnd_between G 0 (d / T) 1 (rnd0 G) (rnd1 G)) as (w & Ew & Bw).
    { split; [apply Rdiv_le_0_compat'; lra|apply Rdiv_le_1'; lra]. }
    exists w. split; auto. split; [split; auto; eapply (rnd_idem _ G); eauto|]. pose proof (re_any _ _ H _ _ Ew) as E. rewrite (Rabs_right (d / T)) in E; auto.
    apply Rle_ge, Rdiv_le_0_compat'; lra. }
  assert (KK : forall d, In d l -> let x := fval (ndiv (Fin d) (Fin T)) in (0 <= x <= 1 /\ rnd x = Fin x) /\ Rabs (x - d / T) <= u * (d / T) + (u * / 2 ^ 102)).
  { intros d Hd. destruct (K d Hd) as (x & -> & HH). exact HH. }
  set (w := map (fun d => fval (ndiv (Fin d) (Fin T))) l). split.
  - assert (E : Rabs (Rsum w - S / T) <= u * (S / T) + n * (u * / 2 ^ 102)).
    { unfold w, n, S. clear - KK. induction l as [|d l IH]; [cbn; rewrite Rminus_0_l; unfold Rdiv; rewrite !Rmult_0_l, Rabs_Ropp, Rabs_R0; lra|].
      cbn [map Rsum length]. rewrite S_INR.
      assert (E1 := proj2 (KK d (or_introl eq_refl))). assert (E2 := IH (fun x Hx => KK x (or_intror Hx))).
      cbv zeta in E1. set (a := fval _) in *. set (b := Rsum (map _ _)) in *.
      replace (a + b - (d + Rsum l) / T) with ((a - d / T) + (b - Rsum l / T)) by (unfold Rdiv; ring).
      eapply Rle_trans; [apply Rabs_triang|]. replace ((d + Rsum l) / T) with (d / T + Rsum l / T) by (unfold Rdiv; ring). lra. }
    assert (0 <= S / T) by (apply Rdiv_le_0_compat'; lra).
    assert (TN : n * (u * / 2 ^ 102) <= / 16 * u).
    { apply Rle_trans with (n * (u * u)); [apply Rmult_le_compat_l; auto|]. rewrite <- Rmult_assoc. apply Rmult_le_compat_r; lra. }
    apply Rabs_le_inv in E. apply Rabs_le. assert (u * (S / T) <= u * (16 / 15)) by (apply Rmult_le_compat_l; lra). split; lra.
  - intros d Hd. destruct (K d Hd) as (x & Ex & (Bx & Rx) & E). exists x. split; auto. split; auto. split; auto.
    assert (D0 : 0 <= d / S). { rewrite Forall_forall in F. apply Rdiv_le_0_compat'; [|lra]. apply (F _ Hd). }
    replace (d / T) with (d / S * (S / T)) in E by (field; lra). set (q := d / S) in *.
    assert (Y : Rabs (q * (S / T) - q) <= q * (16 / 15 * (n * u))).
    { replace (q * (S / T) - q) with (q * (S / T - 1)) by ring. rewrite Rabs_mult, (Rabs_right q) by lra. apply Rmult_le_compat_l; auto. apply Rabs_le. lra. }
    assert (Z : u * (q * (S / T)) <= u * (q * (16 / 15))) by (apply Rmult_le_compat_l; [lra|]; apply Rmult_le_compat_l; lra).
    replace (x - q) with ((x - q * (S / T)) + (q * (S / T) - q)) by ring. eapply Rle_trans; [apply Rabs_triang|].
    assert (0 <= u * q) by (apply Rmult_le_pos; lra). assert (0 <= n * u * q) by (apply Rmult_le_pos; lra).
    eapply Rle_trans; [apply Rplus_le_compat; [exact E|exact Y]|]. nra.
Qed.
End Sum.
