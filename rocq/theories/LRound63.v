(** * C175: rounding error of the power-law density for a negative index *)
From Coq Require Import Reals List Arith Lra Lia ZArith Bool.
From Flocq Require Import Core.Raux.
From Verif Require Import Num Arr MUtils Float Spec SpecFloat SpecFloat8 RList LUtils LKern2 LFloat LFloat2 LFloat10 LRound1 LRound2 LRound6 LRound14 LRound21 LRound23 LRound24 LRound25 LRound35 LRound52 LRound56 LRound60 LRound61.
Import ListNotations.
Open Scope R_scope.

Lemma Rpower_gt_base a b g : g < 0 -> 0 < a -> a < b -> Rpower b g < Rpower a g.
Proof. intros Hg Ha Hb. unfold Rpower. apply exp_increasing. pose proof (ln_increasing a b Ha Hb). nra. Qed.
Section F.
Context {AR : Arith} (u : R) (H : rel_err AR u).
Notation npos := (npos (AR := AR) u).
Notation near := (near (AR := AR) u).
Notation mach x := (rnd x = Fin x).
Section P.
Variables a b g : R.
Hypothesis (Ma : mach a) (Mb : mach b) (Mg : mach g) (Ba : / 100 <= a) (Bab : a < b) (Bb : b <= 100) (Bg : -5 <= g <= -0.1).
Let A := Rpower a g. Let B := Rpower b g.
Lemma absg : / 10 <= Rabs g <= 5. Proof. rewrite Rabs_left by lra. lra. Qed.
Lemma pdf_err_neg x : mach x -> / 100 <= x <= 100 -> (A + B) <= 1000 * (A - B) ->
  npos (2.06 * ((A + B) / (A - B)) + 33.7) (powerlaw_pdf (Fin x) (Fin a) (Fin b) (Fin g)) (g * Rpower x (g - 1) / (B - A)).
Proof.
  intros Mx Bx K. pose proof (upos u H) as U. simpl (10 ^ 6) in U. pose proof (A_range a b g Ba Bab Bb absg) as RA. pose proof (B_range a b g Ba Bab Bb absg) as RB. fold A in RA. fold B in RB.
  assert (P10 : 0 < / 10 ^ 10) by (apply Rinv_0_lt_compat, pow_lt; lra).
  destruct (ends u H a b g Ma Mb Mg Ba Bab Bb absg) as (a' & b' & d & Ea & Eb & Ed & Ra & Rd & Aa & Ad). fold A B in Aa, Ad. unfold powerlaw_pdf. rewrite Ea, Eb, Ed.
  assert (D0 : 0 < A - B) by lra. set (q := (A + B) / (A - B)). assert (Q : A + B = q * (A - B)) by (unfold q; field; lra).
  assert (Q1 : 0 < q <= 1000). { unfold q. split; [apply Rdiv_lt_0_compat; lra|]. apply Rmult_le_reg_r with (A - B); [lra|]. unfold Rdiv. rewrite Rmult_assoc, Rinv_l by lra. lra. }
  assert (QU : q * u <= 1000 * 0.00000025) by (apply Rmult_le_compat; lra).
  assert (ND : lre u (1.002 * (2.05 * q)) (- d) (A - B)). { apply lre_abs; [exact D0| |lra]. replace (- d - (A - B)) with (- (d - (B - A))) by ring. rewrite Rabs_Ropp. rewrite Q in Ad. lra. }
  assert (NG : near (Fin g - Fin 1)%num (g - 1) 6.1 6). { cbn [nsub nopp nadd]. eapply (near_rnd u H) with (d := 0) (B := 6); [replace (g + - (1) - (g - 1)) with 0 by ring; rewrite Rabs_R0; lra|apply Rabs_le; lra|nm..]. }
  pose proof (ln_range 2 x ltac:(simpl; lra)) as LX. pose proof ln10_le as L10. pose proof ln10_ge as L10'. replace (INR 2) with 2 in LX by (simpl; lra).
  assert (R12 : / 10 ^ 12 <= Rpower x (g - 1) <= 10 ^ 12). { apply (exp_range 12). rewrite Rabs_mult. replace (INR 12 * ln 10) with (6 * (2 * ln 10)) by (simpl; lra). apply Rmult_le_compat; auto; try apply Rabs_pos. apply Rabs_le. lra. }
  assert (NX : npos 31.6 (npow (Fin x) (Fin g - Fin 1)%num) (Rpower x (g - 1))).
  { eapply npos_weaken; [exact H|apply (npow_npos u H) with (L := 5) (k := 0); [apply npos_machine; auto; lra|exact NG| |lra|lra|lra|simpl; lra]|simpl; lra]. simpl in *. lra. }
  destruct NX as (p & Ep & Rp & Lp). rewrite Ep. cbn [nmul].
  assert (P2 : Rpower x (g - 1) / 2 <= p <= 2 * Rpower x (g - 1)).
  { pose proof (lre_diff u H _ _ _ Lp ltac:(lra) ltac:(lra)) as D. apply Rabs_le_inv in D. assert (u * Rpower x (g - 1) <= 0.00000025 * Rpower x (g - 1)) by (apply Rmult_le_compat_r; simpl in *; lra).
    simpl in *. lra. }
  assert (G1 : / 10 ^ 14 <= - g * p <= 10 ^ 14).
  { split; [apply Rle_trans with (0.1 * (/ 10 ^ 12 / 2)); [simpl; lra|apply Rmult_le_compat; simpl in *; lra]|apply Rle_trans with (5 * (2 * 10 ^ 12)); [apply Rmult_le_compat; simpl in *; lra|simpl; lra]]. }
  assert (AG : Rabs (g * p) = - g * p) by (rewrite Rabs_left1; simpl in *; lra).
  destruct (any u H (g * p)) as (n & En & Rn & An). { rewrite AG. simpl in *. lra. }
  rewrite En. cbn [ndiv]. destruct (Req_bool_spec d 0) as [Z|_]; [exfalso; destruct ND; lra|].
  assert (Ln : lre u (1.002 * 1.001) (- n) (- g * p)).
  { apply lre_abs; [simpl in *; lra| |lra]. replace (- n - - g * p) with (- (n - g * p)) by ring. rewrite Rabs_Ropp. rewrite AG in An. assert (u * / 10 ^ 27 <= u * (0.001 * (- g * p))) by (apply Rmult_le_compat_l; simpl in *; lra). lra. }
  assert (Lg : lre u (0 + 31.6) (- g * p) (- g * Rpower x (g - 1))). { apply lre_mul; [|exact Lp]. split; [lra|]. split; [lra|]. replace (0 * u) with 0 by ring. rewrite exp_0. lra. }
  pose proof (lre_trans u _ _ _ _ _ Ln Lg) as LN.
  pose proof (lre_div u _ _ _ _ _ _ LN ND) as LQ.
  replace (n / d) with (- n / - d) by (field; destruct ND; lra).
  replace (g * Rpower x (g - 1) / (B - A)) with (- g * Rpower x (g - 1) / (A - B)) by (field; lra).
  eapply npos_weaken; [exact H|apply npos_rnd; [exact H|exact LQ|lra|]|lra].
  assert (PX : / 10 ^ 13 <= - g * Rpower x (g - 1) <= 10 ^ 13). { split; [apply Rle_trans with (0.1 * / 10 ^ 12); [simpl; lra|apply Rmult_le_compat; simpl in *; lra]|apply Rle_trans with (5 * 10 ^ 12); [apply Rmult_le_compat; simpl in *; lra|simpl; lra]]. }
  assert (DB : / 10 ^ 13 <= A - B <= 10 ^ 10) by (simpl in *; lra). assert (I13 : 0 < / (A - B)) by (apply Rinv_0_lt_compat; lra).
  assert (IL : / 10 ^ 10 <= / (A - B)) by (apply Rinv_le_contravar; lra). assert (IH : / (A - B) <= 10 ^ 13). { rewrite <- (Rinv_inv (10 ^ 13)). apply Rinv_le_contravar; [apply Rinv_0_lt_compat, pow_lt; lra|lra]. }
  unfold Rdiv. split; [apply Rle_trans with (/ 10 ^ 13 * / 10 ^ 10); [simpl; lra|apply Rmult_le_compat; simpl in *; lra]|apply Rle_trans with (10 ^ 13 * 10 ^ 13); [apply Rmult_le_compat; simpl in *; lra|simpl; lra]].
Qed.
End P.
End F.

Lemma C175_density_neg : forall AR u, accurate_to AR u -> forall x a b g, @machine_number AR x -> @machine_number AR a -> @machine_number AR b -> @machine_number AR g ->
  / 100 <= x <= 100 -> / 100 <= a -> a < b -> b <= 100 -> -5 <= g <= -0.1 ->
  let amp := (Rpower a g + Rpower b g) / (Rpower a g - Rpower b g) in amp <= 1000 ->
  relatively_close ((2.1 * amp + 34) * u) (@powerlaw_pdf AR (Fin x) (Fin a) (Fin b) (Fin g)) (@powerlaw_pdf exact (Fin x) (Fin a) (Fin b) (Fin g)).
Proof.
  intros AR u A x a b g Mx Ma Mb Mg Bx Ba Bab Bb Bg amp K. pose proof (rel_err_unit AR u A) as H. pose proof (Rpower_gt_base a b g ltac:(lra) ltac:(lra) Bab) as L. pose proof (Rpower_pos b g) as PA.
  assert (P : 0 < amp) by (apply Rdiv_lt_0_compat; lra).
  eapply (pub55 u H); [apply (pdf_err_neg u H a b g); auto|apply powerlaw_pdf_fin; lra|fold amp; lra|fold amp; lra].
  unfold amp in K. apply Rmult_le_compat_r with (r := Rpower a g - Rpower b g) in K; [|lra]. unfold Rdiv in K. rewrite Rmult_assoc, Rinv_l in K by lra. lra.
Qed.
