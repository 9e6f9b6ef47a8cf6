(** * The blackbody in double precision *)
From Coq Require Import Reals List Arith Lra Lia ZArith Bool.
From Flocq Require Import Core.Raux.
From Verif Require Import Num Arr MBlackbody Float Spec SpecFloat SpecFloat6 LFloat LFloat2 LFloat10 LRound1 LRound2 LRound6 LRound21 LRound45.
Import ListNotations.
Open Scope R_scope.

Lemma r1_64 : rnd (Arith := binary64) 1 = Fin 1. Proof. exact (rnd1 (re_good _ _ H64)). Qed.
Lemma u64_b : u64 <= / (5 * 10 ^ 15). Proof. unfold u64. apply Rinv_le_contravar; [|simpl; lra]. apply Rmult_lt_0_compat; [lra|apply pow_lt; lra]. Qed.
Lemma dlog_1 : dlog 0 (Fin 1) 0.
Proof. exists 1. repeat split; [exact r1_64|lra|]. rewrite ln_1, Rminus_eq_0, Rabs_R0. lra. Qed.

(** ** exp x - 1 *)
Lemma exp_le_inv x : 0 < x -> 1 / (exp x - 1) <= 1 / x.
Proof. intros X. pose proof (exp_ge1 x). unfold Rdiv. rewrite !Rmult_1_l. apply Rinv_le_contravar; lra. Qed.
Lemma expm1_dlog k v x : dlog k v (ln x) -> 0 <= k <= 9 -> / 10 ^ 12 <= x <= 500 ->
  dlog (1.005 * (1.002 * k * x + 1.01) * (1 + 1 / x) + 1.01) (nsub (AR := binary64) (nexp (AR := binary64) v) (Fin 1)) (ln (exp x - 1)).
Proof.
  intros D K X. pose proof u64_pos as U. assert (P12 : 0 < / 10 ^ 12) by (apply Rinv_0_lt_compat, pow_lt; lra). assert (X0 : 0 < x) by lra.
  destruct (dlog_pub k v (ln x) x D) as (xh & -> & Xh & Dx); auto. { split; [lra|]. simpl. lra. }
  cbn [nexp]. change (elem (EXP xh)) with (@rnd binary64 (exp xh)). set (c := 1.002 * k * x + 1.01). assert (C : 1.01 <= c <= 5000). { unfold c. assert (0 <= k * x <= 9 * 500) by (split; [apply Rmult_le_pos; lra|apply Rmult_le_compat; lra]). lra. }
  destruct (dlog_rnd (1.002 * k * x) (exp xh) x) as (y & E & R & Y & Dy).
  { apply exp_pos. } { rewrite ln_exp. eapply Rle_trans; [exact Dx|]. right. ring. }
  { unfold c in C. simpl. lra. } { rewrite Rabs_right; lra. }
  fold c in Dy. rewrite E. unfold nsub. cbn [nopp nadd].
  assert (Cu : c * u64 <= / 1000). { apply Rle_trans with (5000 * / 10 ^ 15); [apply Rmult_le_compat; lra|simpl; lra]. }
  assert (Ay : Rabs (y - exp x) <= 1.002 * c * u64 * exp x). { apply (lre_diff u64 H64 c y (exp x)); [apply lre_ln|..]; try lra. split; auto. split; [apply exp_pos|]. now rewrite ln_exp. }
  assert (E1 : 0 < exp x - 1) by (pose proof (exp_ge1 x); lra). set (e1 := exp x - 1) in *. assert (Ee : exp x = e1 * (1 + 1 / e1)) by (unfold e1 in *; field; lra).
  assert (Ix : 1 / e1 <= 1 / x) by (apply exp_le_inv; auto). assert (I0 : 0 < 1 / e1) by (apply Rdiv_lt_0_compat; lra).
  assert (I1 : 0 < 1 / x <= 10 ^ 12). { split; [apply Rdiv_lt_0_compat; lra|]. unfold Rdiv. rewrite Rmult_1_l, <- (Rinv_inv (10 ^ 12)). apply Rinv_le_contravar; lra. }
  set (e := 1.002 * c * u64 * (1 + 1 / x)).
  assert (He : 0 <= e <= / 1000).
  { unfold e. assert (0 <= c * u64) by (apply Rmult_le_pos; lra). split; [apply Rmult_le_pos; lra|].
    assert (Q : c * (1 + 1 / x) <= 2 * 10 ^ 12).
    { assert (Kx : k * x * (1 / x) = k) by (field; lra). assert (k * x <= 9 * 500) by (apply Rmult_le_compat; lra). unfold c. replace ((1.002 * k * x + 1.01) * (1 + 1 / x)) with (1.002 * (k * x) + 1.01 + 1.002 * (k * x * (1 / x)) + 1.01 * (1 / x)) by lra. rewrite Kx. simpl in I1 |- *. lra. }
    pose proof u64_b. apply Rle_trans with (1.002 * (2 * 10 ^ 12) * / (5 * 10 ^ 15)); [|simpl; lra]. replace (1.002 * c * u64 * (1 + 1 / x)) with (1.002 * (c * (1 + 1 / x)) * u64) by ring.
    apply Rmult_le_compat; try lra. assert (0 <= c * (1 + 1 / x)) by (apply Rmult_le_pos; lra). lra. }
  destruct (ln_1pe e e1 (y - 1)) as [Y1 Dl]; auto.
  { replace (y - 1 - e1) with (y - exp x) by (unfold e1; ring). eapply Rle_trans; [exact Ay|]. unfold e. rewrite Ee. replace (1.002 * c * u64 * (e1 * (1 + 1 / e1))) with (1.002 * c * u64 * e1 * (1 + 1 / e1)) by ring.
    replace (1.002 * c * u64 * (1 + 1 / x) * e1) with (1.002 * c * u64 * e1 * (1 + 1 / x)) by ring. apply Rmult_le_compat_l; [|lra]. assert (0 <= c * u64) by (apply Rmult_le_pos; lra). apply Rmult_le_pos; lra. }
  change (y + - (1)) with (y - 1). apply dlog_rnd; auto.
  - eapply Rle_trans; [exact Dl|]. unfold e. replace (1.005 * c * (1 + 1 / x) * u64) with (1.005 * (c * u64 * (1 + 1 / x))) by ring. replace (1.002 * (1.002 * c * u64 * (1 + 1 / x))) with (1.002 * 1.002 * (c * u64 * (1 + 1 / x))) by ring.
    apply Rmult_le_compat_r; [|lra]. assert (0 <= c * u64) by (apply Rmult_le_pos; lra). apply Rmult_le_pos; lra.
  - assert (e <= / 1000) by lra. unfold e in H. assert (c * (1 + 1 / x) * u64 <= / 1000 / 1.002) by (apply Rmult_le_reg_l with 1.002; [lra|]; lra).
    destruct (Rle_or_lt (1.005 * c * (1 + 1 / x)) (10 ^ 15)) as [|N]; auto. exfalso.
    assert (10 ^ 14 * u64 < c * (1 + 1 / x) * u64). { apply Rmult_lt_compat_r; [lra|]. simpl in N |- *. lra. }
    assert (/ 1000 < 10 ^ 14 * u64). { unfold u64. apply Rmult_lt_reg_r with (2 ^ 53); [apply pow_lt; lra|]. rewrite Rmult_assoc, Rinv_l by (apply pow_nonzero; lra). simpl. lra. } lra.
  - apply Rabs_le. split.
    + apply Rle_trans with (ln x). { apply Rle_trans with (- (0.7 * INR 40)); [simpl; lra|]. apply ln_geI2. apply Rle_trans with (/ 10 ^ 12); [|lra]. apply Rinv_le_contravar; [apply pow_lt; lra|simpl; lra]. }
      apply ln_le_; auto. unfold e1. pose proof (exp_ge1 x). lra.
    + apply Rle_trans with (ln (exp x)); [apply ln_le_; auto; unfold e1; lra|]. rewrite ln_exp. lra.
Qed.
Lemma lnexpm1 x : / 10 ^ 12 <= x <= 500 -> 0 < exp x - 1 /\ -28 <= ln (exp x - 1) <= 500.
Proof.
  intros X. assert (P12 : 0 < / 10 ^ 12) by (apply Rinv_0_lt_compat, pow_lt; lra). assert (X0 : 0 < x) by lra. pose proof (exp_ge1 x). split; [lra|]. split.
  - apply Rle_trans with (ln x). { apply Rle_trans with (- (0.7 * INR 40)); [simpl; lra|]. apply ln_geI2. apply Rle_trans with (/ 10 ^ 12); [|lra]. apply Rinv_le_contravar; [apply pow_lt; lra|simpl; lra]. } apply ln_le_; lra.
  - apply Rle_trans with (ln (exp x)); [apply ln_le_; lra|]. rewrite ln_exp. lra.
Qed.
