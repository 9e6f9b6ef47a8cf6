(** * Positive double-precision numbers measured by their logarithm (the whole normal range) *)
From Coq Require Import Reals List Arith Lra Lia ZArith Bool.
From Flocq Require Import Core.Raux Core.Zaux Core.Generic_fmt Core.FLT Core.Round_NE Core.Defs Core.FLX.
From Flocq Require Import Relative.
From Verif Require LFloat9.
From Verif Require Import Num Arr Float Spec SpecFloat LFloat LFloat2 LFloat10 LRound1 LRound2 LRound6 LRound21.
Import ListNotations.
Open Scope R_scope.

Definition u64 : R := / 2 ^ 53.
Lemma u64_unit : accurate_to binary64 u64. Proof. exact LFloat9.unit64. Qed.
Lemma H64 : rel_err binary64 u64. Proof. exact (rel_err_unit _ _ u64_unit). Qed.
Lemma u64_pos : 0 < u64 <= / 10 ^ 15.
Proof. unfold u64. split; [apply Rinv_0_lt_compat, pow_lt; lra|]. apply Rinv_le_contravar; [apply pow_lt; lra|simpl; lra]. Qed.

(** ** natural logarithms from powers of two *)
Lemma ln2_b : 0.69 <= ln 2 <= 0.7.
Proof.
  split.
  - assert (E : exp 0.69 <= 2).
    { assert (A : / 2 <= exp (Ropp 0.69)). { replace (Ropp 0.69) with (INR 100 * (- 0.0069)) by (simpl; lra).
      assert (P : forall n x, exp (INR n * x) = exp x ^ n). { induction n as [|n IH]; intros x; [simpl; rewrite Rmult_0_l; apply exp_0|]. rewrite S_INR, Rmult_plus_distr_r, Rmult_1_l, exp_plus, IH. cbn [pow]. ring. }
      rewrite P. apply Rle_trans with ((1 - 0.0069) ^ 100); [lra|]. apply pow_incr. split; [lra|]. pose proof (exp_ge1 (- 0.0069)). lra. }
      rewrite exp_Ropp in A. pose proof (exp_pos 0.69). apply Rinv_le_contravar in A; [|lra]. rewrite !Rinv_inv in A. lra. }
    rewrite <- (ln_exp 0.69). destruct E as [E| ->]; [left; apply ln_increasing; [apply exp_pos|exact E]|right; reflexivity].
  - assert (E : 2 <= exp 0.7).
    { replace 0.7 with (INR 100 * 0.007) by (simpl; lra).
      assert (P : forall n x, exp (INR n * x) = exp x ^ n). { induction n as [|n IH]; intros x; [simpl; rewrite Rmult_0_l; apply exp_0|]. rewrite S_INR, Rmult_plus_distr_r, Rmult_1_l, exp_plus, IH. cbn [pow]. ring. }
      rewrite P. apply Rle_trans with ((1 + 0.007) ^ 100); [lra|]. apply pow_incr. split; [lra|]. apply exp_ge1. }
    rewrite <- (ln_exp 0.7). destruct E as [E|E]; [left; apply ln_increasing; [lra|exact E]|right; now rewrite E].
Qed.
Lemma ln_le_ x y : 0 < x -> x <= y -> ln x <= ln y.
Proof. intros X [L| ->]; [left; now apply ln_increasing|right; reflexivity]. Qed.
Lemma ln_quot x y : 0 < x -> 0 < y -> ln (x / y) = ln x - ln y.
Proof. intros X Y. unfold Rdiv. rewrite ln_mult, ln_Rinv; auto. now apply Rinv_0_lt_compat. Qed.
Lemma ln_pow2 n : ln (2 ^ n) = INR n * ln 2.
Proof. rewrite ln_pow by lra. reflexivity. Qed.
Lemma ln_ge2 n x : 2 ^ n <= x -> 0.69 * INR n <= ln x.
Proof. intros L. pose proof ln2_b. pose proof (pos_INR n). apply ln_le_ in L; [|apply pow_lt; lra]. rewrite ln_pow2 in L. assert (INR n * 0.69 <= INR n * ln 2) by (apply Rmult_le_compat_l; lra). lra. Qed.
Lemma ln_le2 n x : 0 < x -> x <= 2 ^ n -> ln x <= 0.7 * INR n.
Proof. intros X L. pose proof ln2_b. pose proof (pos_INR n). apply ln_le_ in L; [|lra]. rewrite ln_pow2 in L. assert (INR n * ln 2 <= INR n * 0.7) by (apply Rmult_le_compat_l; lra). lra. Qed.
Lemma ln_geI2 n x : / 2 ^ n <= x -> - (0.7 * INR n) <= ln x.
Proof. intros L. pose proof ln2_b. pose proof (pos_INR n). assert (0 < 2 ^ n) by (apply pow_lt; lra). apply ln_le_ in L; [|now apply Rinv_0_lt_compat]. rewrite ln_Rinv, ln_pow2 in L by auto. assert (INR n * ln 2 <= INR n * 0.7) by (apply Rmult_le_compat_l; lra). lra. Qed.
Lemma ln_leI2 n x : 0 < x -> x <= / 2 ^ n -> ln x <= - (0.69 * INR n).
Proof. intros X L. pose proof ln2_b. pose proof (pos_INR n). assert (0 < 2 ^ n) by (apply pow_lt; lra). apply ln_le_ in L; [|lra]. rewrite ln_Rinv, ln_pow2 in L by auto. assert (INR n * 0.69 <= INR n * ln 2) by (apply Rmult_le_compat_l; lra). lra. Qed.

(** ** rounding of a number in the normal range *)
Lemma range64 x : 0 < x -> Rabs (ln x) <= 700 -> bpow radix2 (-1022) <= x <= bpow radix2 1015.
Proof.
  intros X L. apply Rabs_le_inv in L. pose proof ln2_b as B. rewrite !bpow_exp. rewrite <- (exp_ln x X).
  change (IZR radix2) with 2. split; apply exp_mono.
  - assert (IZR (-1022) * ln 2 <= -1022 * 0.69) by (apply Rmult_le_compat_neg_l; lra). lra.
  - assert (1015 * 0.69 <= IZR 1015 * ln 2) by (apply Rmult_le_compat_l; lra). lra.
Qed.
Lemma rnd64_rel x : 0 < x -> Rabs (ln x) <= 700 -> exists y, rnd (Arith := binary64) x = Fin y /\ rnd (Arith := binary64) y = Fin y /\ Rabs (y - x) <= u64 * x.
Proof.
  intros X L. destruct (range64 x X L) as [A B].
  assert (P : Prec_gt_0 53) by (unfold Prec_gt_0; lia).
  set (r := round radix2 (FLT_exp (-1074) 53) ZnearestE x).
  assert (D : Rabs (r - x) <= u64 * x).
  { pose proof (relative_error_N_FLT radix2 (-1074) 53 P (fun x => negb (Z.even x)) x) as D. rewrite (Rabs_right x) in D by lra. specialize (D A).
    eapply Rle_trans; [exact D|]. apply Rmult_le_compat_r; [lra|]. assert (Q : bpow radix2 (- (53) + 1) = / 2 ^ 52) by exact (bpow_inv 52). rewrite Q. unfold u64. right. rewrite <- Rinv_mult. reflexivity. }
  exists r. assert (F : rnd (Arith := binary64) x = Fin r).
  { cbn [rnd binary64 double_precision]. unfold round_ieee. fold r. rewrite Rlt_bool_true; auto. pose proof u64_pos as U. apply Rabs_le_inv in D.
    assert (u64 * x <= x) by nra. apply Rle_lt_trans with (2 * x); [apply Rabs_le; nra|]. apply Rle_lt_trans with (2 * bpow radix2 1015); [lra|].
    change 2 with (bpow radix2 1). rewrite <- bpow_plus. now apply bpow_lt. }
  split; auto. split; auto. eapply (rnd_idem _ (re_good _ _ H64)); eauto.
Qed.
Lemma ln_1pe e x y : 0 < x -> 0 <= e <= / 1000 -> Rabs (y - x) <= e * x -> 0 < y /\ Rabs (ln y - ln x) <= 1.002 * e.
Proof.
  intros X E A. apply Rabs_le_inv in A. assert (0 <= e * x <= / 1000 * x) by (split; [apply Rmult_le_pos; lra|apply Rmult_le_compat_r; lra]). assert (Y : 0 < y) by lra. split; auto.
  rewrite <- ln_quot by auto. set (q := y / x). assert (Q : 1 - e <= q <= 1 + e).
  { unfold q. split; apply Rmult_le_reg_r with x; auto; unfold Rdiv; rewrite Rmult_assoc, Rinv_l, Rmult_1_r by lra; lra. }
  assert (Q0 : 0 < q) by lra. apply Rabs_le. split.
  - rewrite <- (ln_exp (- (1.002 * e))). apply ln_le_; [apply exp_pos|]. apply Rle_trans with (1 - e); [|lra].
    assert (M : 1 <= (1 - e) * exp (1.002 * e)). { apply Rle_trans with ((1 - e) * (1 + 1.002 * e)); [nra|]. apply Rmult_le_compat_l; [lra|]. apply exp_ge1. }
    rewrite exp_Ropp. apply Rmult_le_reg_r with (exp (1.002 * e)); [apply exp_pos|]. rewrite Rinv_l; [lra|]. apply Rgt_not_eq, exp_pos.
  - apply Rle_trans with e; [|lra]. rewrite <- (ln_exp e). apply ln_le_; auto. apply Rle_trans with (1 + e); [lra|apply exp_ge1].
Qed.

(** [v] is a positive machine number whose logarithm is within [k u] of [L] *)
Definition dlog (k : R) (v : num) (L : R) : Prop := exists x, v = Fin x /\ rnd (Arith := binary64) x = Fin x /\ 0 < x /\ Rabs (ln x - L) <= k * u64.
Lemma dlog_weaken k k' v L : dlog k v L -> k <= k' -> dlog k' v L.
Proof. intros (x & E & R & X & A) K. pose proof u64_pos. exists x. repeat split; auto. eapply Rle_trans; [exact A|]. apply Rmult_le_compat_r; lra. Qed.
Lemma dlog_machine x : rnd (Arith := binary64) x = Fin x -> 0 < x -> dlog 0 (Fin x) (ln x).
Proof. intros R X. exists x. repeat split; auto. rewrite Rminus_eq_0, Rabs_R0. lra. Qed.
Lemma dlog_rnd k x L : 0 < x -> Rabs (ln x - L) <= k * u64 -> k <= 10 ^ 15 -> Rabs L <= 699 -> dlog (k + 1.01) (rnd (Arith := binary64) x) L.
Proof.
  intros X A K B. pose proof u64_pos as U.
  assert (S : k * u64 <= 1). { apply Rle_trans with (10 ^ 15 * u64); [apply Rmult_le_compat_r; lra|]. apply Rle_trans with (10 ^ 15 * / 10 ^ 15); [apply Rmult_le_compat_l; [apply pow_le|]; lra|]. rewrite Rinv_r; [lra|apply pow_nonzero; lra]. }
  destruct (rnd64_rel x X) as (y & E & R & D). { replace (ln x) with ((ln x - L) + L) by lra. eapply Rle_trans; [apply Rabs_triang|]. lra. }
  destruct (ln_1pe u64 x y X) as [Y D']; auto. { split; [lra|]. eapply Rle_trans; [apply U|]. simpl. lra. }
  exists y. repeat split; auto. replace (ln y - L) with ((ln y - ln x) + (ln x - L)) by lra. eapply Rle_trans; [apply Rabs_triang|]. lra.
Qed.
Lemma dlog_lit x : 0 < x -> Rabs (ln x) <= 699 -> dlog 1.01 (lit (AR := binary64) x) (ln x).
Proof. intros X B. apply dlog_weaken with (0 + 1.01); [|lra]. apply dlog_rnd; auto; [|apply pow_le; lra]. rewrite Rminus_eq_0, Rabs_R0. lra. Qed.
Lemma dlog_mul j k v w A B : dlog j v A -> dlog k w B -> j + k <= 10 ^ 15 -> Rabs (A + B) <= 699 -> dlog (j + k + 1.01) (nmul (AR := binary64) v w) (A + B).
Proof.
  intros (x & -> & _ & X & Dx) (y & -> & _ & Y & Dy) K R. cbn [nmul]. apply dlog_rnd; auto; [now apply Rmult_lt_0_compat|]. rewrite ln_mult by auto.
  replace (ln x + ln y - (A + B)) with ((ln x - A) + (ln y - B)) by lra. eapply Rle_trans; [apply Rabs_triang|]. lra.
Qed.
Lemma dlog_div j k v w A B : dlog j v A -> dlog k w B -> j + k <= 10 ^ 15 -> Rabs (A - B) <= 699 -> dlog (j + k + 1.01) (ndiv (AR := binary64) v w) (A - B).
Proof.
  intros (x & -> & _ & X & Dx) (y & -> & _ & Y & Dy) K R. cbn [ndiv]. rewrite Req_bool_false by lra. apply dlog_rnd; auto; [now apply Rdiv_lt_0_compat|]. rewrite ln_quot by auto.
  replace (ln x - ln y - (A - B)) with ((ln x - A) + - (ln y - B)) by lra. eapply Rle_trans; [apply Rabs_triang|]. rewrite Rabs_Ropp. lra.
Qed.
(** exponential of a number known to an absolute error; logarithm to an absolute error *)
Lemma dlog_exp v x e M : near (AR := binary64) u64 v x e M -> e <= 10 ^ 15 -> M <= 699 -> dlog (e + 1.01) (nexp (AR := binary64) v) x.
Proof. intros (y & -> & _ & D & B) E HM. cbn [nexp]. change (elem (EXP y)) with (@rnd binary64 (exp y)). apply dlog_rnd; auto; [apply exp_pos|now rewrite ln_exp|lra]. Qed.
Lemma near_ln v L k B M : dlog k v L -> 0 <= k <= 1000 -> Rabs L <= M -> M + / 1000 <= B -> 1 <= B <= 10 ^ 35 -> near (AR := binary64) u64 (nln (AR := binary64) v) L (k + 1.001 * B) M.
Proof.
  intros (y & -> & _ & Y & D) K HB HM B1. cbn [nln]. rewrite Rlt_bool_true by auto. change (elem (LN y)) with (@rnd binary64 (ln y)). eapply (near_rnd u64 H64) with (d := k) (B := B); auto; try lra.
Qed.
(** back to a relative error *)
Lemma dlog_pub k v L X : dlog k v L -> 0 < X -> L = ln X -> 0 <= k <= 10 ^ 12 -> exists x, v = Fin x /\ 0 < x /\ Rabs (x - X) <= 1.002 * k * u64 * X.
Proof.
  intros (x & -> & _ & Px & D) PX -> K. exists x. split; auto. split; auto. pose proof u64_pos as U.
  apply (lre_diff u64 H64 k x X); [apply lre_ln|..]; try lra; auto.
  apply Rle_trans with (10 ^ 12 * / 10 ^ 15); [apply Rmult_le_compat; lra|simpl; lra].
Qed.
