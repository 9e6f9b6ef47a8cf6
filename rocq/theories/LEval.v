(** * Evaluating the model on concrete machine numbers: rational numbers, rounded by integer arithmetic *)
From Coq Require Import Reals List Arith Lra Lia ZArith Bool.
From Flocq Require Import Core.Raux Core.Zaux Core.Generic_fmt Core.FLX Core.FLT Core.Round_NE Core.Round_pred Core.Ulp Core.Defs Core.Float_prop.
From Verif Require Import Num Arr MUtils MSed Float Spec RList LFloat.
Import ListNotations.
Open Scope R_scope.

Record fmt := { fp : Z; femin : Z; femax : Z; far : Arith;
  f_ok : (2 <= fp /\ femin <= -149 /\ fp + 2 <= femax)%Z;
  f_rnd : forall x, rnd (Arith := far) x = round_ieee fp femin femax x;
  f_red : reduce (Arith := far) = left_to_right }.
Definition f64 : fmt. refine {| fp := 53; femin := -1074; femax := 1024; far := binary64 |}; [lia|reflexivity|reflexivity]. Defined.
Definition f32 : fmt. refine {| fp := 24; femin := -149; femax := 128; far := binary32 |}; [lia|reflexivity|reflexivity]. Defined.

Definition rat (q : Z * positive) : R := IZR (fst q) / IZR (Zpos (snd q)).
Definition dn (v : num) (q : Z * positive) : Prop := v = Fin (rat q).

(** number of fractional bits of the rounding of a/b, and the rounded significand *)
Definition fbits (p a : Z) (b : positive) : Z :=
  let k := (p - 1 - (Z.log2 (Z.abs a) - Z.log2 (Zpos b)))%Z in
  if (2 ^ (p - 1) * Zpos b <=? Z.abs a * 2 ^ k)%Z then k else (k + 1)%Z.
Definition sig (p a : Z) (b : positive) : Z :=
  let k := fbits p a b in ((2 * a * 2 ^ k + Zpos b) / (2 * Zpos b))%Z.
Definition rq (p : Z) (q : Z * positive) : Z * positive :=
  let (a, b) := q in if (a =? 0)%Z then (0%Z, 1%positive) else
  match (2 ^ fbits p a b)%Z with Zpos d => (sig p a b, d) | _ => (sig p a b, 1%positive) end.
Definition rqok (p : Z) (q : Z * positive) : bool :=
  let (a, b) := q in if (a =? 0)%Z then true else
  let k := fbits p a b in let n := sig p a b in
  ((0 <=? k) && (k <=? 149) && (2 ^ (p - 1) * Zpos b <=? Z.abs a * 2 ^ k) && (Z.abs a * 2 ^ k <? 2 ^ p * Zpos b)
   && (2 * Z.abs (a * 2 ^ k - n * Zpos b) <? Zpos b))%Z%bool.

Lemma IZR_pow2 k : (0 <= k)%Z -> IZR (2 ^ k) = bpow radix2 k.
Proof. intros K. destruct k as [|k|k]; [reflexivity|reflexivity|lia]. Qed.

Lemma rnd_rat (F : fmt) q : rqok (fp F) q = true -> rnd (Arith := far F) (rat q) = Fin (rat (rq (fp F) q)).
Proof.
  destruct (f_ok F) as (P & E & EM). assert (PG : Prec_gt_0 (fp F)) by (unfold Prec_gt_0; lia). assert (VE : Valid_exp (FLT_exp (femin F) (fp F))) by (apply FLT_exp_valid; exact PG).
  destruct q as [a b]. unfold rqok, rq. destruct (Z.eqb_spec a 0) as [->|A].
  - intros _. unfold rat. cbn [fst snd]. rewrite (f_rnd F). unfold round_ieee. cbv zeta.
    replace (0 / IZR (Z.pos b)) with 0 by (unfold Rdiv; ring).
    rewrite round_0 by typeclasses eauto. rewrite Rabs_R0, Rlt_bool_true by apply bpow_gt_0. f_equal. lra.
  - set (k := fbits (fp F) a b). set (n := sig (fp F) a b). rewrite !andb_true_iff, !Z.leb_le, !Z.ltb_lt.
    intros [[[[K0 K1] L] H] N].
    assert (B : 0 < IZR (Zpos b)) by (apply IZR_lt; lia).
    assert (D : exists d, (2 ^ k = Zpos d)%Z). { pose proof (Z.pow_pos_nonneg 2 k ltac:(lia) K0). destruct (2 ^ k)%Z eqn:?; try lia. eauto. }
    destruct D as [d D]. rewrite D. unfold rat. cbn [fst snd]. set (x := IZR a / IZR (Z.pos b)).
    assert (Ax : Rabs x = IZR (Z.abs a) / IZR (Zpos b)). { unfold x, Rdiv. rewrite Rabs_mult, Rabs_Zabs, Rabs_right; auto. apply Rle_ge, Rlt_le, Rinv_0_lt_compat, B. }
    assert (Bk : IZR (2 ^ k) = bpow radix2 k) by (apply IZR_pow2; auto).
    assert (Bpos : 0 < bpow radix2 k) by apply bpow_gt_0.
    assert (M : bpow radix2 (fp F - k - 1) <= Rabs x < bpow radix2 (fp F - k)).
    { apply IZR_le in L. apply IZR_lt in H. rewrite !mult_IZR, Bk, IZR_pow2 in L, H by lia.
      assert (X : Rabs x * bpow radix2 k * IZR (Zpos b) = IZR (Z.abs a) * bpow radix2 k) by (rewrite Ax; field; lra).
      rewrite <- X in L, H. apply Rmult_le_reg_r in L; auto. apply Rmult_lt_reg_r in H; auto.
      split.
      - apply Rmult_le_reg_r with (bpow radix2 k); auto. rewrite <- bpow_plus. replace (fp F - k - 1 + k)%Z with (fp F - 1)%Z by lia. exact L.
      - apply Rmult_lt_reg_r with (bpow radix2 k); auto. rewrite <- bpow_plus. replace (fp F - k + k)%Z with (fp F) by lia. exact H. }
    assert (Ec : cexp radix2 (FLT_exp (femin F) (fp F)) x = (- k)%Z).
    { unfold cexp. rewrite (mag_unique radix2 x (fp F - k)) by exact M. unfold FLT_exp. lia. }
    assert (Rn : round radix2 (FLT_exp (femin F) (fp F)) ZnearestE x = IZR n / IZR (Zpos d)).
    { unfold round, F2R, scaled_mantissa. cbn [Fnum Fexp]. rewrite Ec, Z.opp_involutive.
      rewrite (Znearest_imp _ _ n).
      - rewrite bpow_opp, <- Bk, D. reflexivity.
      - apply IZR_lt in N. rewrite mult_IZR, abs_IZR, minus_IZR, !mult_IZR, Bk in N.
        replace (x * bpow radix2 k - IZR n) with ((IZR a * bpow radix2 k - IZR n * IZR (Zpos b)) / IZR (Zpos b)) by (unfold x; field; lra).
        unfold Rdiv. rewrite Rabs_mult, (Rabs_right (/ _)) by (apply Rle_ge, Rlt_le, Rinv_0_lt_compat, B).
        apply Rmult_lt_reg_r with (IZR (Zpos b)); auto. rewrite Rmult_assoc, Rinv_l by lra. lra. }
    rewrite (f_rnd F). unfold round_ieee. cbv zeta. rewrite Rn. rewrite Rlt_bool_true; auto.
    rewrite <- Rn. eapply Rle_lt_trans; [apply abs_round_le_generic with (y := bpow radix2 (fp F - k))|].
    + typeclasses eauto. + typeclasses eauto.
    + apply generic_format_bpow. unfold FLT_exp. lia.
    + destruct M as [_ M]. now apply Rlt_le. + apply bpow_lt. lia.
Qed.

Section Ev.
  Variable F : fmt.
  Local Existing Instance far.
  Notation AF := (far F).

  Definition qadd (q r : Z * positive) : Z * positive := ((fst q * Zpos (snd r) + fst r * Zpos (snd q))%Z, (snd q * snd r)%positive).
  Definition qsub (q r : Z * positive) : Z * positive := ((fst q * Zpos (snd r) - fst r * Zpos (snd q))%Z, (snd q * snd r)%positive).
  Definition qmul (q r : Z * positive) : Z * positive := ((fst q * fst r)%Z, (snd q * snd r)%positive).
  Definition qdiv (q r : Z * positive) : Z * positive :=
    match fst r with Z0 => (0%Z, 1%positive) | Zpos c => ((fst q * Zpos (snd r))%Z, (snd q * c)%positive) | Zneg c => ((- fst q * Zpos (snd r))%Z, (snd q * c)%positive) end.
  Definition qlt (q r : Z * positive) : bool := (fst q * Zpos (snd r) <? fst r * Zpos (snd q))%Z.
  Definition qeq (q r : Z * positive) : bool := (fst q * Zpos (snd r) =? fst r * Zpos (snd q))%Z.

  Lemma rat_add q r : rat q + rat r = rat (qadd q r).
  Proof. unfold rat, qadd. cbn [fst snd]. rewrite Pos2Z.inj_mul, plus_IZR, !mult_IZR. field. split; apply not_0_IZR; lia. Qed.
  Lemma rat_sub q r : rat q - rat r = rat (qsub q r).
  Proof. unfold rat, qsub. cbn [fst snd]. rewrite Pos2Z.inj_mul, minus_IZR, !mult_IZR. field. split; apply not_0_IZR; lia. Qed.
  Lemma rat_mul q r : rat q * rat r = rat (qmul q r).
  Proof. unfold rat, qmul. cbn [fst snd]. rewrite Pos2Z.inj_mul, !mult_IZR. field. split; apply not_0_IZR; lia. Qed.
  Lemma rat_div q r : (fst r <> 0)%Z -> rat q / rat r = rat (qdiv q r).
  Proof.
    intros N. unfold rat, qdiv. destruct r as [[|c|c] d]; cbn [fst snd] in *; [congruence| |].
    - rewrite Pos2Z.inj_mul, !mult_IZR. field. repeat split; apply not_0_IZR; lia.
    - rewrite Pos2Z.inj_mul, !mult_IZR, opp_IZR. change (Z.neg c) with (- Z.pos c)%Z. rewrite opp_IZR. field. repeat split; try (apply not_0_IZR; lia).
  Qed.
  Lemma rat_lt q r : Rlt_bool (rat q) (rat r) = qlt q r.
  Proof.
    unfold rat, qlt. assert (0 < IZR (Zpos (snd q))) by (apply IZR_lt; lia). assert (0 < IZR (Zpos (snd r))) by (apply IZR_lt; lia).
    destruct (Z.ltb_spec (fst q * Zpos (snd r)) (fst r * Zpos (snd q))) as [L|L].
    - apply Rlt_bool_true. apply IZR_lt in L. rewrite !mult_IZR in L. apply Rmult_lt_reg_r with (IZR (Zpos (snd q)) * IZR (Zpos (snd r))); [now apply Rmult_lt_0_compat|].
      replace (IZR (fst q) / IZR (Z.pos (snd q)) * (IZR (Z.pos (snd q)) * IZR (Z.pos (snd r)))) with (IZR (fst q) * IZR (Z.pos (snd r))) by (field; lra).
      replace (IZR (fst r) / IZR (Z.pos (snd r)) * (IZR (Z.pos (snd q)) * IZR (Z.pos (snd r)))) with (IZR (fst r) * IZR (Z.pos (snd q))) by (field; lra). exact L.
    - apply Rlt_bool_false. apply IZR_le in L. rewrite !mult_IZR in L. apply Rmult_le_reg_r with (IZR (Zpos (snd q)) * IZR (Zpos (snd r))); [now apply Rmult_lt_0_compat|].
      replace (IZR (fst q) / IZR (Z.pos (snd q)) * (IZR (Z.pos (snd q)) * IZR (Z.pos (snd r)))) with (IZR (fst q) * IZR (Z.pos (snd r))) by (field; lra).
      replace (IZR (fst r) / IZR (Z.pos (snd r)) * (IZR (Z.pos (snd q)) * IZR (Z.pos (snd r)))) with (IZR (fst r) * IZR (Z.pos (snd q))) by (field; lra). exact L.
  Qed.

  Lemma dn_fin x q : x = rat q -> dn (Fin x) q. Proof. intros ->. reflexivity. Qed.
  Lemma dn_rnd x q r : x = rat q -> rqok (fp F) q = true -> rq (fp F) q = r -> dn (rnd (Arith := AF) x) r.
  Proof. intros -> O <-. unfold dn. now apply rnd_rat. Qed.
  Lemma dn_add v w q r s : dn v q -> dn w r -> rqok (fp F) (qadd q r) = true -> rq (fp F) (qadd q r) = s -> dn (nadd (AR := AF) v w) s.
  Proof. intros -> -> O E. apply dn_rnd with (qadd q r); auto. apply rat_add. Qed.
  Lemma dn_sub v w q r s : dn v q -> dn w r -> rqok (fp F) (qsub q r) = true -> rq (fp F) (qsub q r) = s -> dn (nsub (AR := AF) v w) s.
  Proof. intros -> -> O E. apply dn_rnd with (qsub q r); auto. rewrite <- rat_sub. reflexivity. Qed.
  Lemma dn_mul v w q r s : dn v q -> dn w r -> rqok (fp F) (qmul q r) = true -> rq (fp F) (qmul q r) = s -> dn (nmul (AR := AF) v w) s.
  Proof. intros -> -> O E. apply dn_rnd with (qmul q r); auto. apply rat_mul. Qed.
  Lemma dn_div v w q r s : dn v q -> dn w r -> (fst r =? 0)%Z = false -> rqok (fp F) (qdiv q r) = true -> rq (fp F) (qdiv q r) = s -> dn (ndiv (AR := AF) v w) s.
  Proof.
    intros -> -> Z O E. apply Z.eqb_neq in Z. unfold ndiv. rewrite Req_bool_false.
    - apply dn_rnd with (qdiv q r); auto. now apply rat_div.
    - unfold rat, Rdiv. apply Rmult_integral_contrapositive. split; [now apply not_0_IZR|]. apply Rinv_neq_0_compat, not_0_IZR. lia.
  Qed.
  Lemma dn_ltb v w q r : dn v q -> dn w r -> nltb v w = qlt q r.
  Proof. intros -> ->. cbn. apply rat_lt. Qed.
End Ev.
