(** * The expansion rate in rounded arithmetic *)
From Coq Require Import Reals List Arith Lra Lia ZArith Bool.
From Coquelicot Require Import Coquelicot.
From Flocq Require Import Core.Raux.
From Verif Require Import Num Arr MUtils MSed MCosmo Float Spec SpecFloat RList LUtils LFloat LFloat2 LFloat10 LRound1 LRound2 LRound3 LRound6 LRound14 LRound15 LRound21 LRound22 LCosmo LImf.
Import ListNotations.
Open Scope R_scope.

Lemma ln21 x : 1 <= x <= 21 -> 0 <= ln x <= 3.06.
Proof.
  intros X. split; [rewrite <- ln_1; destruct (proj1 X) as [L| <-]; [apply Rlt_le, ln_increasing; lra|lra]|].
  pose proof (exp_lb_half 6) as E. replace (INR 6 / 2) with 3 in E by (simpl; lra). assert (E2 : 21 <= exp 3.06). { replace 3.06 with (3 + 0.06) by lra. rewrite exp_plus. pose proof (exp_ge1 0.06) as E3. apply Rle_trans with (1.6458 ^ 6 * 1.06); [simpl; lra|apply Rmult_le_compat; try lra; apply pow_le; lra]. }
  rewrite <- (ln_exp 3.06). destruct (Rle_lt_or_eq_dec x (exp 3.06) ltac:(lra)) as [L|L]; [apply Rlt_le, ln_increasing; lra|rewrite L; lra].
Qed.
Lemma e40 : exp 40 <= 10 ^ 20 /\ / 10 ^ 20 <= exp (- 40).
Proof.
  assert (E : exp 40 <= 10 ^ 20). { replace 40 with (INR 20 * 2) by (simpl; lra). rewrite exp_mult_nat. apply pow_incr. split; [apply Rlt_le, exp_pos|]. rewrite <- (exp_ln 10) by lra. apply exp_mono. apply ln10_ge. }
  split; auto. replace (exp (-40)) with (/ exp 40) by (rewrite <- exp_Ropp; f_equal; lra). apply Rinv_le_contravar; [apply exp_pos|auto].
Qed.
Lemma de_range w0 wa x : Rabs w0 <= 2 -> Rabs wa <= 1 -> 0 <= x <= 20 -> / 10 ^ 20 <= dark_energy w0 wa x <= 10 ^ 20.
Proof.
  intros W0 Wa X. unfold dark_energy, Rpower. rewrite <- exp_plus. pose proof (ln21 (1 + x) ltac:(lra)) as L. set (l := ln (1 + x)) in *. clearbody l. apply Rabs_le_inv in W0. apply Rabs_le_inv in Wa.
  assert (Q : 0 <= x / (1 + x) <= 1). { split; [apply Rmult_le_pos; [lra|apply Rlt_le, Rinv_0_lt_compat; lra]|]. apply Rmult_le_reg_r with (1 + x); [lra|]. unfold Rdiv. rewrite Rmult_assoc, Rinv_l by lra. lra. }
  set (q := x / (1 + x)) in *. clearbody q. assert (A : Rabs ((1 + w0 + wa) * l) <= 4 * 3.06) by (rewrite Rabs_mult; apply Rmult_le_compat; try apply Rabs_pos; apply Rabs_le; lra). assert (B : Rabs (wa * q) <= 1 * 1) by (rewrite Rabs_mult; apply Rmult_le_compat; try apply Rabs_pos; apply Rabs_le; lra).
  apply Rabs_le_inv in A. apply Rabs_le_inv in B. destruct e40 as [E1 E2]. split; [eapply Rle_trans; [exact E2|]|eapply Rle_trans; [|exact E1]]; apply exp_mono; lra.
Qed.
Lemma E2_range Om0 w0 wa x : / 1000 <= Om0 <= 999 / 1000 -> Rabs w0 <= 2 -> Rabs wa <= 1 -> 0 <= x <= 20 -> / 1000 <= Om0 * (1 + x) ^ 3 + (1 - Om0) * dark_energy w0 wa x <= 10 ^ 20.
Proof.
  intros HO W0 Wa X. pose proof (de_range w0 wa x W0 Wa X) as D. assert (P20 : 0 < / 10 ^ 20) by (apply Rinv_0_lt_compat, pow_lt; lra). assert (T : 1 <= (1 + x) ^ 3 <= 21 ^ 3) by (split; [apply pow_R1_Rle; lra|apply pow_incr; lra]).
  set (t := (1 + x) ^ 3) in *. clearbody t. set (dd := dark_energy w0 wa x) in *. clearbody dd. assert (A : / 1000 * 1 <= Om0 * t <= 1 * 21 ^ 3) by (split; apply Rmult_le_compat; lra). assert (B : 0 <= (1 - Om0) * dd <= 999/1000 * 10 ^ 20) by (split; [apply Rmult_le_pos; lra|apply Rmult_le_compat; lra]).
  split; [lra|]. simpl in *. lra.
Qed.
Lemma E_range Om0 w0 wa x : / 1000 <= Om0 <= 999 / 1000 -> Rabs w0 <= 2 -> Rabs wa <= 1 -> 0 <= x <= 20 -> / 100 <= expansion Om0 w0 wa x <= 10 ^ 10.
Proof.
  intros HO W0 Wa X. pose proof (E2_range Om0 w0 wa x HO W0 Wa X) as B. unfold expansion. split.
  - rewrite <- (sqrt_pow2 (/ 100)) by lra. apply sqrt_le_1_alt. lra.
  - rewrite <- (sqrt_pow2 (10 ^ 10)) by (apply pow_le; lra). apply sqrt_le_1_alt. rewrite <- pow_mult. apply B.
Qed.

Section F.
Context {AR : Arith} (u : R) (H : rel_err AR u).
Notation G := (re_good _ _ H).
Notation lre := (lre u).
Notation npos := (npos (AR := AR) u).
Notation near := (near (AR := AR) u).

Lemma npos_near k v X M : npos k v X -> 0 <= k <= 1000 -> X <= M -> near v X (1.002 * k * M) M.
Proof.
  intros (x & -> & R & L) K B. pose proof (upos u H) as U. assert (S : k * u <= / 900) by (apply Rle_trans with (1000 * / (4 * 10 ^ 6)); [apply Rmult_le_compat; lra|simpl; lra]). pose proof L as (_ & X0 & _).
  exists x. split; auto. split; auto. split; [|rewrite Rabs_right; lra]. pose proof (lre_diff u H _ _ _ L S ltac:(lra)) as D. eapply Rle_trans; [exact D|]. replace (1.002 * k * M * u) with (1.002 * k * u * M) by ring. apply Rmult_le_compat_l; [|auto]. apply Rmult_le_pos; [apply Rmult_le_pos; lra|lra].
Qed.
Lemma near_machine x M : rnd x = Fin x -> Rabs x <= M -> near (Fin x) x 0 M.
Proof. intros R B. exists x. split; auto. split; auto. rewrite Rminus_diag_eq, Rabs_R0 by auto. lra. Qed.
Lemma machine_int n : (Z.abs n <= 1000)%Z -> rnd (IZR n) = Fin (IZR n).
Proof. intros Hn. apply (rnd_dy G n 0); [lia|lia|simpl; lra]. Qed.
Lemma npow_npos k e L M v w A P : npos k v A -> near w P e M -> / 10 ^ 20 <= Rpower A P <= 10 ^ 20 -> Rabs (ln A) <= L -> 0 <= k <= 1000 -> 0 <= e <= 1000 -> (M + e / (4 * 10 ^ 6)) * k + e * L <= 10000 ->
  npos ((M + e / (4 * 10 ^ 6)) * k + e * L + 1.02) (npow v w) (Rpower A P).
Proof.
  intros (a & -> & Ra & La) (p & -> & Rp & Ep & Mp) B HL K E S. pose proof (upos u H) as U.
  assert (PM : Rabs p <= M + e / (4 * 10 ^ 6)). { replace p with ((p - P) + P) by ring. eapply Rle_trans; [apply Rabs_triang|]. assert (e * u <= e / (4 * 10 ^ 6)) by (apply Rmult_le_compat_l; lra). lra. }
  pose proof (lre_power u H k e L (M + e / (4 * 10 ^ 6)) a A p P La Ep HL PM) as LP. cbn [npow]. destruct (Req_bool_spec p 0) as [Z|_].
  - subst p. exists 1. split; auto. split; [apply (rnd1 G)|]. replace (Rpower a 0) with 1 in LP by (unfold Rpower; rewrite Rmult_0_l, exp_0; auto). apply (lre_weaken u H _ _ _ _ LP). lra.
  - rewrite Rlt_bool_true by (destruct La; auto). apply npos_elem; auto; [destruct La; auto|]. now apply small_range.
Qed.
Lemma de_err x x' w0 wa : rnd w0 = Fin w0 -> rnd wa = Fin wa -> Rabs w0 <= 2 -> Rabs wa <= 1 -> 0 <= x <= 20 -> rnd x' = Fin x' -> Rabs (x' - x) <= 2.05 * u * x ->
  npos 3.1 (Fin 1 + Fin x')%num (1 + x) /\ npos 184 (rho_de_z (Fin x') (Fin w0) (Fin wa)) (dark_energy w0 wa x).
Proof.
  intros R0 Ra W0 Wa X Rx Bx. pose proof (upos u H) as U. assert (T20 : 10 ^ 3 <= 10 ^ 20) by (apply Rle_pow; [lra|lia]). assert (P20 : / 10 ^ 20 <= / 10 ^ 3) by (apply Rinv_le_contravar; [apply pow_lt; lra|auto]). 
  assert (Z1 : npos 3.1 (Fin 1 + Fin x')%num (1 + x)).
  { cbn [nadd]. apply (npos_weaken u H) with (2.06 + 1.02); [|lra]. apply npos_rnd; [exact H| |lra|apply small_range; simpl in *; lra]. apply (lre_weaken u H) with (1.002 * 2.05); [|lra]. apply (lre_abs u); [lra| |simpl in U; lra].
    replace (1 + x' - (1 + x)) with (x' - x) by ring. eapply Rle_trans; [exact Bx|]. apply Rmult_le_compat_l; lra. }
  split; auto. rewrite <- de_eq by lra. unfold rho_de_z, de. assert (IX : / 21 <= 1 / (1 + x) <= 1). { unfold Rdiv. rewrite Rmult_1_l. split; [apply Rinv_le_contravar; lra|]. rewrite <- Rinv_1. apply Rinv_le_contravar; lra. }
  assert (A : npos 4.2 (Fin 1 / (Fin 1 + Fin x'))%num (1 / (1 + x))).
  { apply (npos_weaken u H) with (0 + 3.1 + 1.02); [|lra]. apply npos_div; auto; [apply npos_machine; [apply (rnd1 G)|lra]|lra|apply small_range; simpl in *; lra]. }
  set (va := (Fin 1 / (Fin 1 + Fin x'))%num) in *. clearbody va. cbv zeta.
  assert (N1 : near (Fin 1) 1 0 1) by (apply near_machine; [apply (rnd1 G)|rewrite Rabs_R1; lra]). assert (N3 : near (Fin (-3)) (-3) 0 3) by (apply near_machine; [apply (machine_int (-3)); lia|rewrite Rabs_left; lra]).
  assert (Nw : near (Fin w0) w0 0 2) by now apply near_machine. assert (Na : near (Fin wa) wa 0 1) by now apply near_machine.
  assert (Q1 : near (Fin 1 + Fin w0)%num (1 + w0) 3.1 3) by (apply (near_add u H _ _ 0 1 _ _ 0 2 3.05); auto; simpl; lra).
  assert (Q2 : near (Fin 1 + Fin w0 + Fin wa)%num (1 + w0 + wa) 7.3 4) by (apply (near_add u H _ _ 3.1 3 _ _ 0 1 4.05); auto; simpl; lra).
  assert (Q3 : near (Fin (-3) * (Fin 1 + Fin w0 + Fin wa))%num (-3 * (1 + w0 + wa)) 35 12) by (apply (near_mul u H _ _ 0 3 _ _ 7.3 4 12.1); auto; simpl; lra).
  assert (Q4 : near (Fin (-3) * Fin wa)%num (-3 * wa) 3.2 3) by (apply (near_mul u H _ _ 0 3 _ _ 0 1 3.1); auto; simpl; lra).
  pose proof (npos_near _ _ _ 1 A ltac:(lra) ltac:(lra)) as NA. assert (Q5 : near (Fin 1 - va)%num (1 - 1 / (1 + x)) 5.4 1).
  { destruct NA as (a & -> & Ra' & Da & _). cbn [nsub nopp nadd]. apply (near_rnd u H _ _ 4.25 1.1); try (simpl; lra).
    - replace (1 + - a - (1 - 1 / (1 + x))) with (- (a - 1 / (1 + x))) by ring. rewrite Rabs_Ropp. eapply Rle_trans; [exact Da|]. apply Rmult_le_compat_r; lra.
    - apply Rabs_le. lra. }
  assert (Q6 : near (Fin (-3) * Fin wa * (Fin 1 - va))%num (-3 * wa * (1 - 1 / (1 + x))) 23 3) by (apply (near_mul u H _ _ 3.2 3 _ _ 5.4 1 3.1); auto; simpl; lra).
  assert (LA : Rabs (ln (1 / (1 + x))) <= 3.06). { unfold Rdiv. rewrite Rmult_1_l, ln_Rinv by lra. rewrite Rabs_Ropp. pose proof (ln21 (1 + x) ltac:(lra)). apply Rabs_le. lra. }
  assert (PB : / 10 ^ 20 <= Rpower (1 / (1 + x)) (-3 * (1 + w0 + wa)) <= 10 ^ 20).
  { pose proof (de_range w0 wa x W0 Wa X). unfold Rpower. set (l := ln (1 / (1 + x))) in *. apply Rabs_le_inv in W0. apply Rabs_le_inv in Wa. assert (A' : Rabs ((1 + w0 + wa) * l) <= 4 * 3.06) by (rewrite Rabs_mult; apply Rmult_le_compat; try apply Rabs_pos; auto; apply Rabs_le; lra). apply Rabs_le_inv in A'. destruct e40 as [E1 E2].
    split; [eapply Rle_trans; [exact E2|]|eapply Rle_trans; [|exact E1]]; apply exp_mono; lra. }
  pose proof (npow_npos 4.2 35 3.06 12 _ _ _ _ A Q3 PB LA ltac:(lra) ltac:(lra) ltac:(simpl; lra)) as PW.
  assert (EX : npos 24.1 (nexp (Fin (-3) * Fin wa * (Fin 1 - va)))%num (exp (-3 * wa * (1 - 1 / (1 + x))))).
  { destruct Q6 as (y & -> & Ry & Dy & My). cbn [nexp]. apply (npos_weaken u H) with (23 + 1.02); [|lra]. apply npos_elem; [exact H|exact I|now apply lre_exp|lra|]. apply Rabs_le_inv in My. destruct e40 as [E1 E2]. apply small_range. split; [eapply Rle_trans; [exact E2|]|eapply Rle_trans; [|exact E1]]; apply exp_mono; lra. }
  pose proof (de_range w0 wa x W0 Wa X) as DR. rewrite <- de_eq in DR by lra. unfold de in DR.
  eapply (npos_weaken u H); [apply npos_mul; [exact H|exact PW|exact EX| |apply small_range; exact DR]|]; simpl; lra.
Qed.
Lemma Ez_err x x' Om0 w0 wa : rnd Om0 = Fin Om0 -> / 1000 <= Om0 <= 999 / 1000 -> rnd w0 = Fin w0 -> rnd wa = Fin wa -> Rabs w0 <= 2 -> Rabs wa <= 1 -> 0 <= x <= 20 -> rnd x' = Fin x' -> Rabs (x' - x) <= 2.05 * u * x ->
  npos 95 (Ez (Fin x') (Fin Om0) (Fin w0) (Fin wa)) (expansion Om0 w0 wa x).
Proof.
  intros RO HO R0 Ra W0 Wa X Rx Bx. pose proof (upos u H) as U. destruct (de_err x x' w0 wa R0 Ra W0 Wa X Rx Bx) as (Z1 & DE). pose proof (de_range w0 wa x W0 Wa X) as DR. pose proof (E2_range Om0 w0 wa x HO W0 Wa X) as ER. pose proof (E_range Om0 w0 wa x HO W0 Wa X) as SR.
  assert (T20 : 10 ^ 5 <= 10 ^ 20) by (apply Rle_pow; [lra|lia]). assert (P20 : / 10 ^ 20 <= / 10 ^ 5) by (apply Rinv_le_contravar; [apply pow_lt; lra|auto]). assert (P20' : 0 < / 10 ^ 20) by (apply Rinv_0_lt_compat, pow_lt; lra).
  unfold Ez. cbv zeta. set (zp := (Fin 1 + Fin x')%num) in *. clearbody zp. set (rd := rho_de_z (Fin x') (Fin w0) (Fin wa)) in *. clearbody rd. set (dd := dark_energy w0 wa x) in *. 
  assert (X2 : 1 <= (1 + x) * (1 + x) <= 441) by (split; [apply Rle_trans with (1 * 1); [lra|apply Rmult_le_compat; lra]|apply Rle_trans with (21 * 21); [apply Rmult_le_compat; lra|lra]]).
  assert (X3 : 1 <= (1 + x) * ((1 + x) * (1 + x)) <= 9261) by (split; [apply Rle_trans with (1 * 1); [lra|apply Rmult_le_compat; lra]|apply Rle_trans with (21 * 441); [apply Rmult_le_compat; lra|lra]]).
  assert (C3 : npos 11.4 (ipow zp 3) ((1 + x) ^ 3)).
  { cbn [ipow ipow_acc]. replace ((1 + x) ^ 3) with ((1 + x) * ((1 + x) * (1 + x))) by ring. apply (npos_weaken u H) with (3.1 + (3.1 + 3.1 + 1.02) + 1.02); [|lra].
    apply npos_mul; auto; [apply npos_mul; auto; [lra|apply small_range; simpl in *; lra]|lra|apply small_range; simpl in *; lra]. }
  replace ((1 + x) * ((1 + x) * (1 + x))) with ((1 + x) ^ 3) in X3 by ring. assert (OX : / 1000 * 1 <= Om0 * (1 + x) ^ 3 <= 1 * 9261) by (split; apply Rmult_le_compat; lra).
  assert (M : npos 12.5 (Fin Om0 * ipow zp 3)%num (Om0 * (1 + x) ^ 3)).
  { apply (npos_weaken u H) with (0 + 11.4 + 1.02); [|lra]. apply npos_mul; auto; [apply npos_machine; auto; lra|lra|apply small_range; simpl in *; lra]. }
  assert (OD : npos 1.02 (Fin 1 - Fin Om0)%num (1 - Om0)). { apply (npos_weaken u H) with (0 + 1.02); [|lra]. apply sub_npos; auto; [apply (rnd1 G)|apply big_1|apply lre_refl; lra|lra|apply Rle_trans with 1; [lra|apply pow_R1_Rle; lra]]. }
  assert (DD : / 1000 * / 10 ^ 20 <= (1 - Om0) * dd <= 1 * 10 ^ 20) by (split; apply Rmult_le_compat; lra).
  assert (D : npos 186.1 ((Fin 1 - Fin Om0) * rd)%num ((1 - Om0) * dd)).
  { apply (npos_weaken u H) with (1.02 + 184 + 1.02); [|lra]. apply npos_mul; auto; [lra|]. split; [replace (10 ^ 24) with (10000 * 10 ^ 20) by (simpl; ring); rewrite Rinv_mult; lra|]. apply Rle_trans with (10 ^ 20); [lra|apply Rle_pow; [lra|lia]]. }
  assert (S : npos 187.2 (Fin Om0 * ipow zp 3 + (Fin 1 - Fin Om0) * rd)%num (Om0 * (1 + x) ^ 3 + (1 - Om0) * dd)).
  { apply (npos_weaken u H) with (186.1 + 1.02); [|lra]. apply npos_add; auto; [apply (npos_weaken u H) with 12.5; auto; lra|lra|apply Rle_trans with (10 ^ 20); [lra|apply Rle_pow; [lra|lia]]]. }
  apply (npos_weaken u H) with (187.2 / 2 + 1.02); [|lra]. unfold expansion in SR |- *. apply npos_sqrt; auto; [lra|]. apply small_range. assert (10 ^ 10 <= 10 ^ 20) by (apply Rle_pow; [lra|lia]). simpl in P20. unfold dd. lra.
Qed.
Lemma f1_err x x' Om0 w0 wa : rnd Om0 = Fin Om0 -> / 1000 <= Om0 <= 999 / 1000 -> rnd w0 = Fin w0 -> rnd wa = Fin wa -> Rabs w0 <= 2 -> Rabs wa <= 1 -> 0 <= x <= 20 -> rnd x' = Fin x' -> Rabs (x' - x) <= 2.05 * u * x ->
  npos 97 (integrand_oneOverEz (Fin x') (Fin Om0) (Fin w0) (Fin wa)) (f1 Om0 w0 wa x) /\ / 10 ^ 10 <= f1 Om0 w0 wa x <= 100.
Proof.
  intros RO HO R0 Ra W0 Wa X Rx Bx. pose proof (Ez_err x x' Om0 w0 wa RO HO R0 Ra W0 Wa X Rx Bx) as E. pose proof (E_range Om0 w0 wa x HO W0 Wa X) as SR.
  assert (FR : / 10 ^ 10 <= f1 Om0 w0 wa x <= 100). { unfold f1, Rdiv. rewrite Rmult_1_l. split; [apply Rinv_le_contravar; lra|]. rewrite <- (Rinv_inv 100). apply Rinv_le_contravar; lra. }
  split; auto. unfold integrand_oneOverEz. apply (npos_weaken u H) with (0 + 95 + 1.02); [|lra]. unfold f1 in *. apply npos_div; auto; [apply npos_machine; [apply (rnd1 G)|lra]|lra|]. apply small_range. assert (/ 10 ^ 20 <= / 10 ^ 10) by (apply Rinv_le_contravar; [apply pow_lt; lra|apply Rle_pow; [lra|lia]]). assert (10 ^ 10 <= 10 ^ 20) by (apply Rle_pow; [lra|lia]). simpl in *. lra.
Qed.
End F.
