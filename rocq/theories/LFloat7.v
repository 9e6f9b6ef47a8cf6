(** * Counterexamples in double precision *)
From Coq Require Import Reals List Arith Lra Lia ZArith Bool.
From Flocq Require Import Core.Raux Core.Zaux Core.Generic_fmt Core.FLX Core.FLT Core.Round_NE Core.Round_pred Core.Ulp Core.Defs Core.Float_prop.
From Verif Require Import Num Arr MUtils MSed Float Spec RList LFloat LFloat2 LFloat5.
Import ListNotations.
Open Scope R_scope.

Notation r64 := (@rnd binary64).
Notation G64 := good_binary64.
(** binary64 has a correctly rounded library *)
Lemma e64 f : @elem binary64 f = @rnd binary64 (elem_value f). Proof. reflexivity. Qed.
Ltac lib64 := rewrite ?e64; cbn [elem_value].
Lemma npow10_rnd64 e : @npow10 binary64 (Fin e) = @rnd binary64 (pow10 e).
Proof.
  unfold npow10, npow. destruct (Req_bool_spec e 0) as [->|N].
  - rewrite pow10_0. symmetry. apply (rnd1 G64).
  - rewrite Rlt_bool_true by lra. reflexivity.
Qed.

(** rounding a number of known binade *)
Lemma near64 x n e : (-1074 <= e <= 900)%Z -> bpow radix2 (e + 52) <= Rabs x < bpow radix2 (e + 53) ->
  Rabs (x * bpow radix2 (- e) - IZR n) < 1/2 -> r64 x = Fin (IZR n * bpow radix2 e).
Proof.
  intros He B N. cbn [rnd binary64 double_precision].
  assert (Ec : cexp radix2 (FLT_exp (-1074) 53) x = e).
  { unfold cexp. rewrite (mag_unique radix2 x (e + 53)). - unfold FLT_exp. lia. - replace (e + 53 - 1)%Z with (e + 52)%Z by lia. exact B. }
  assert (R : round radix2 (FLT_exp (-1074) 53) ZnearestE x = IZR n * bpow radix2 e).
  { unfold round, F2R, scaled_mantissa. cbn [Fnum Fexp]. rewrite Ec. f_equal. f_equal. apply Znearest_imp. lra. }
  unfold round_ieee. cbv zeta. rewrite R. rewrite Rlt_bool_true; auto.
  assert (D : Rabs (IZR n) < bpow radix2 53 + 1).
  { assert (Rabs (x * bpow radix2 (- e)) < bpow radix2 53).
    { rewrite Rabs_mult, (Rabs_right (bpow radix2 (- e))) by (apply Rle_ge, bpow_ge_0).
      apply Rlt_le_trans with (bpow radix2 (e + 53) * bpow radix2 (- e)); [apply Rmult_lt_compat_r; [apply bpow_gt_0|lra]|].
      rewrite <- bpow_plus. apply Req_le. f_equal. lia. }
    replace (IZR n) with (- (x * bpow radix2 (- e) - IZR n) + x * bpow radix2 (- e)) by lra.
    eapply Rle_lt_trans; [apply Rabs_triang|]. rewrite Rabs_Ropp. lra. }
  rewrite Rabs_mult, (Rabs_right (bpow radix2 e)) by (apply Rle_ge, bpow_ge_0).
  apply Rlt_le_trans with ((bpow radix2 53 + 1) * bpow radix2 e); [apply Rmult_lt_compat_r; [apply bpow_gt_0|lra]|].
  apply Rle_trans with (bpow radix2 54 * bpow radix2 e); [apply Rmult_le_compat_r; [apply bpow_ge_0|]|rewrite <- bpow_plus; apply bpow_le; lia].
  change (bpow radix2 53) with (IZR (2 ^ 53)). change (bpow radix2 54) with (IZR (2 ^ 54)). rewrite <- plus_IZR. apply IZR_le. vm_compute. discriminate.
Qed.
(** relative error *)
Lemma err64 x e : (-1074 <= e <= 40)%Z -> bpow radix2 (e + 52) <= Rabs x < bpow radix2 (e + 53) ->
  exists y, r64 x = Fin y /\ Rabs (y - x) <= bpow radix2 (e - 1).
Proof.
  intros He B. cbn [rnd binary64 double_precision].
  set (rd := round radix2 (FLT_exp (-1074) 53) ZnearestE).
  assert (VF : Valid_exp (FLT_exp (-1074) 53)) by (apply FLT_exp_valid; now unfold Prec_gt_0).
  assert (E : Rabs (rd x - x) <= bpow radix2 (e - 1)).
  { unfold rd. eapply Rle_trans; [apply error_le_half_ulp; exact VF|].
    rewrite ulp_neq_0.
    - unfold cexp. rewrite (mag_unique radix2 x (e + 53)).
      + unfold FLT_exp. replace (Z.max (e + 53 - 53) (-1074))%Z with e by lia. unfold Zminus. rewrite bpow_plus. change (bpow radix2 (- (1))) with (/2). lra.
      + replace (e + 53 - 1)%Z with (e + 52)%Z by lia. exact B.
    - intros Z. rewrite Z, Rabs_R0 in B. pose proof (bpow_gt_0 radix2 (e + 52)). lra. }
  exists (rd x). split; auto. unfold round_ieee. cbv zeta. fold (rd x). rewrite Rlt_bool_true; auto.
  replace (rd x) with ((rd x - x) + x) by lra. eapply Rle_lt_trans; [apply Rabs_triang|].
  apply Rlt_trans with (bpow radix2 (e + 53) + bpow radix2 (e + 53)).
  - assert (bpow radix2 (e - 1) <= bpow radix2 (e + 53)) by (apply bpow_le; lia). lra.
  - replace (bpow radix2 (e + 53) + bpow radix2 (e + 53)) with (bpow radix2 (e + 54)); [apply bpow_lt; lia|].
    replace (e + 54)%Z with (1 + (e + 53))%Z by lia. rewrite bpow_plus. change (bpow radix2 1) with 2. lra.
Qed.

Notation U := (/ 2 ^ 52).
Lemma U_bpow : bpow radix2 (-52) = U. Proof. rewrite pow_IZR_bpow, <- bpow_opp. reflexivity. Qed.

(** ** The sigmoid can exceed its upper bound *)
Lemma sigmoid_exceeds : @sigmoid binary64 (Fin 1024) (Fin 0) (Fin 1) (Fin (-1)) (Fin (3/4 * U)) = Fin U
  /\ r64 (3/4 * U) = Fin (3/4 * U) /\ 3/4 * U < U.
Proof.
  assert (U0 : 0 < U) by (apply Rinv_0_lt_compat, pow_lt; lra).
  assert (R34 : r64 (3/4 * U) = Fin (3/4 * U)). { apply (rnd_dy G64 3 54); [lia|lia|]. replace (2 ^ 54) with (4 * 2 ^ 52) by ring. field. }
  split; [|split; [exact R34|lra]].
  unfold sigmoid, nsub, nlogistic. cbn [nopp nadd].
  replace (1024 + - 0) with 1024 by lra.
  rewrite (rnd_dy G64 1024 0 1024) by (lia || (simpl; lra)). cbn [nmul]. replace (1 * 1024) with 1024 by lra.
  rewrite (rnd_dy G64 1024 0 1024) by (lia || (simpl; lra)). cbn [nopp nexp]. lib64.
  (* exp (-1024) *)
  assert (EX : 0 <= exp (- (1024)) <= / 2 ^ 60).
  { split; [apply Rlt_le, exp_pos|]. rewrite exp_Ropp. apply Rinv_le; [apply pow_lt; lra|].
    assert (DB : forall x, exp (2 * x) = exp x * exp x) by (intros x; rewrite <- exp_plus; f_equal; lra).
    assert (e16 : 16 <= exp 16) by (pose proof (exp_ineq1 16 ltac:(lra)); lra).
    assert (e32 : 256 <= exp 32) by (replace 32 with (2 * 16) by lra; rewrite DB; nra).
    assert (e64 : 256 * 256 <= exp 64) by (replace 64 with (2 * 32) by lra; rewrite DB; nra).
    assert (e128 : 65536 * 65536 <= exp 128) by (replace 128 with (2 * 64) by lra; rewrite DB; nra).
    assert (e256 : 4294967296 * 4294967296 <= exp 256) by (replace 256 with (2 * 128) by lra; rewrite DB; nra).
    apply Rle_trans with (exp 256); [|apply Rlt_le, exp_increasing; lra]. eapply Rle_trans; [|exact e256]. simpl. lra. }
  assert (R60 : r64 (/ 2 ^ 60) = Fin (/ 2 ^ 60)) by (apply (rnd_dy G64 1 60); [lia|lia|lra]).
  destruct (rnd_between G64 0 (exp (- (1024))) (/ 2 ^ 60) (rnd0 G64) R60 EX) as (e & -> & Be). cbn [nadd].
  assert (S60 : / 2 ^ 60 = U / 256) by (replace (2 ^ 60) with (2 ^ 52 * 256) by (simpl; ring); field).
  assert (UV : bpow radix2 (- (-52)) = 2 ^ 52) by (rewrite pow_IZR_bpow; reflexivity).
  assert (UU : U * 2 ^ 52 = 1) by (apply Rinv_l, pow_nonzero; lra).
  assert (K52 : 2 ^ 52 = IZR (2 ^ 52)) by (rewrite (pow_IZR 2 52); reflexivity).
  assert (Usm : U < 1/4) by (rewrite <- Rmult_1_r, <- UU; simpl; lra).
  rewrite (near64 (1 + e) (2 ^ 52) (-52)); [|lia| |].
  2:{ change (bpow radix2 (-52 + 52)) with 1. change (bpow radix2 (-52 + 53)) with 2. rewrite Rabs_right by lra. lra. }
  2:{ rewrite UV, <- K52. replace ((1 + e) * 2 ^ 52 - 2 ^ 52) with (e * 2 ^ 52) by ring.
      assert (0 <= e * 2 ^ 52) by (apply Rmult_le_pos; [lra|apply pow_le; lra]). rewrite Rabs_right by lra.
      apply Rle_lt_trans with (U / 256 * 2 ^ 52); [apply Rmult_le_compat_r; [apply pow_le; lra|lra]|]. replace (U / 256 * 2 ^ 52) with (U * 2 ^ 52 / 256) by lra. rewrite UU. lra. }
  rewrite U_bpow, <- K52. rewrite (Rmult_comm (2 ^ 52)), UU. cbn [ndiv]. rewrite Req_bool_false by lra. replace (1 / 1) with 1 by lra. rewrite (rnd1 G64).
  (* the height *)
  replace (3 / 4 * U + - -1) with (1 + 3/4 * U) by lra.
  rewrite (near64 (1 + 3/4 * U) (2 ^ 52 + 1) (-52)); [|lia| |].
  2:{ change (bpow radix2 (-52 + 52)) with 1. change (bpow radix2 (-52 + 53)) with 2. rewrite Rabs_right by lra. lra. }
  2:{ rewrite UV, plus_IZR, <- K52. replace ((1 + 3 / 4 * U) * 2 ^ 52 - (2 ^ 52 + 1)) with (3/4 * (U * 2 ^ 52) - 1) by ring. rewrite UU. apply Rabs_def1; lra. }
  rewrite U_bpow, plus_IZR, <- K52. replace ((2 ^ 52 + 1) * U) with (U * 2 ^ 52 + U) by ring. rewrite UU. cbn [nmul]. rewrite Rmult_1_r.
  assert (R1U : r64 (1 + U) = Fin (1 + U)).
  { rewrite (near64 (1 + U) (2 ^ 52 + 1) (-52)); [|lia| |].
    - rewrite U_bpow, plus_IZR, <- K52. f_equal. replace ((2 ^ 52 + 1) * U) with (U * 2 ^ 52 + U) by ring. rewrite UU. reflexivity.
    - change (bpow radix2 (-52 + 52)) with 1. change (bpow radix2 (-52 + 53)) with 2. rewrite Rabs_right by lra. lra.
    - rewrite UV, plus_IZR, <- K52. replace ((1 + U) * 2 ^ 52 - (2 ^ 52 + 1)) with ((U * 2 ^ 52) - 1) by ring. rewrite UU. apply Rabs_def1; lra. }
  rewrite R1U. cbn [nadd]. replace (-1 + (1 + U)) with U by lra. apply (rnd_dy G64 1 52); [lia|lia|lra].
Qed.
