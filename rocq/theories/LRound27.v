(** * The age of the universe in rounded arithmetic *)
From Coq Require Import Reals List Arith Lra Lia ZArith Bool.
From Coquelicot Require Import Coquelicot.
From Flocq Require Import Core.Raux.
From Verif Require Import Num Arr MUtils MSed MCosmo Float Spec SpecFloat SpecFloat2 RList LUtils LFloat LFloat2 LFloat10 LRound1 LRound2 LRound3 LRound6 LRound14 LRound15 LRound21 LRound22 LRound23 LRound24 LRound25 LCosmo LImf.
Import ListNotations.
Open Scope R_scope.

Lemma ln10_le : ln 10 <= 2.5.
Proof.
  pose proof (exp_lb_half 5) as E. replace (INR 5 / 2) with 2.5 in E by (simpl; lra). assert (10 <= exp 2.5) by (eapply Rle_trans; [|exact E]; simpl; lra).
  rewrite <- (ln_exp 2.5). destruct (Rle_lt_or_eq_dec 10 (exp 2.5) ltac:(lra)) as [L|L]; [apply Rlt_le, ln_increasing; lra|rewrite L; lra].
Qed.
Lemma ln1000 x : 1 <= x <= 1000 -> 0 <= ln x <= 7.
Proof.
  intros X. split; [rewrite <- ln_1; destruct (proj1 X) as [L| <-]; [apply Rlt_le, ln_increasing; lra|lra]|].
  pose proof (exp_lb_half 14) as E. replace (INR 14 / 2) with 7 in E by (simpl; lra). assert (E2 : 1000 <= exp 7) by (eapply Rle_trans; [|exact E]; simpl; lra).
  rewrite <- (ln_exp 7). destruct (Rle_lt_or_eq_dec x (exp 7) ltac:(lra)) as [L|L]; [apply Rlt_le, ln_increasing; lra|rewrite L; lra].
Qed.
Lemma exp1_le : exp 1 <= 2.911.
Proof.
  assert (E8 : exp (1/8) <= 8/7). { pose proof (exp_ge1 (- (1/8))) as E. rewrite exp_Ropp in E. pose proof (exp_pos (1/8)) as P. apply Rmult_le_reg_r with (/ exp (1/8)); [now apply Rinv_0_lt_compat|]. rewrite Rinv_r by lra. lra. }
  replace 1 with (INR 8 * (1/8)) by (simpl; lra). rewrite exp_mult_nat. apply Rle_trans with ((8/7) ^ 8); [apply pow_incr; split; [apply Rlt_le, exp_pos|auto]|simpl; lra].
Qed.
Lemma e42 : exp 42 <= 4 * 10 ^ 19 /\ / (4 * 10 ^ 19) <= exp (- (42)).
Proof.
  pose proof exp1_le as E1.
  assert (E : exp 42 <= 4 * 10 ^ 19). { replace 42 with (INR 42 * 1) by (rewrite INR_IZR_INZ; simpl; lra). rewrite exp_mult_nat. apply Rle_trans with (2.911 ^ 42); [apply pow_incr; split; [apply Rlt_le, exp_pos|auto]|]. simpl; lra. }
  split; auto. rewrite exp_Ropp. apply Rinv_le_contravar; [apply exp_pos|auto].
Qed.
Lemma e3 : exp 3 <= 25 /\ / 25 <= exp (- (3)).
Proof.
  assert (E : exp 3 <= 25). { replace 3 with (INR 3 * 1) by (simpl; lra). rewrite exp_mult_nat. apply Rle_trans with (2.911 ^ 3); [apply pow_incr; split; [apply Rlt_le, exp_pos|apply exp1_le]|simpl; lra]. }
  split; auto. rewrite exp_Ropp. apply Rinv_le_contravar; [apply exp_pos|auto].
Qed.
Section D.
Variables (w0 wa x : R).
Hypotheses (W0 : -2 <= w0 <= 0) (Wa : -1 <= wa <= 1) (X : 0 <= x <= 999).
Lemma qx : 0 <= 1 - 1 / (1 + x) <= 1 /\ / 1000 <= 1 / (1 + x) <= 1.
Proof.
  assert (I : / 1000 <= 1 / (1 + x) <= 1); [|lra]. unfold Rdiv. rewrite Rmult_1_l. split; [apply Rinv_le_contravar; lra|]. rewrite <- Rinv_1. apply Rinv_le_contravar; lra.
Qed.
Lemma pow_part : / (4 * 10 ^ 19) <= Rpower (1 / (1 + x)) (-3 * (1 + w0 + wa)) <= 4 * 10 ^ 19.
Proof.
  pose proof qx as Q. unfold Rpower. replace (ln (1 / (1 + x))) with (- ln (1 + x)) by (unfold Rdiv; rewrite Rmult_1_l, ln_Rinv by lra; auto). pose proof (ln1000 (1 + x) ltac:(lra)) as L. set (l := ln (1 + x)) in *. clearbody l.
  assert (A : Rabs ((1 + w0 + wa) * l) <= 2 * 7) by (rewrite Rabs_mult; apply Rmult_le_compat; try apply Rabs_pos; apply Rabs_le; lra). apply Rabs_le_inv in A. destruct e42 as [E1 E2].
  split; [eapply Rle_trans; [exact E2|]|eapply Rle_trans; [|exact E1]]; apply exp_mono; lra.
Qed.
Lemma exp_part : / 25 <= exp (-3 * wa * (1 - 1 / (1 + x))) <= 25.
Proof.
  destruct qx as [Q _]. set (q := 1 - 1 / (1 + x)) in *. clearbody q. assert (B : Rabs (wa * q) <= 1 * 1) by (rewrite Rabs_mult; apply Rmult_le_compat; try apply Rabs_pos; apply Rabs_le; lra). apply Rabs_le_inv in B. destruct e3 as [E1 E2].
  split; [eapply Rle_trans; [exact E2|]|eapply Rle_trans; [|exact E1]]; apply exp_mono; lra.
Qed.
Lemma de_range3 : / 10 ^ 21 <= dark_energy w0 wa x <= 10 ^ 21.
Proof.
  rewrite <- de_eq by lra. unfold de. pose proof pow_part as P. pose proof exp_part as E. assert (0 < / (4 * 10 ^ 19)) by (apply Rinv_0_lt_compat, Rmult_lt_0_compat; [lra|apply pow_lt; lra]).
  pose proof (mul_range (/ (4 * 10 ^ 19)) (/ 25) (4 * 10 ^ 19) 25 _ _ ltac:(auto) ltac:(lra) P E) as M. replace (/ 10 ^ 21) with (/ (4 * 10 ^ 19) * / 25) by (rewrite <- Rinv_mult; f_equal; simpl; ring). replace (10 ^ 21) with (4 * 10 ^ 19 * 25) by (simpl; ring). exact M.
Qed.
End D.
Lemma E2_range3 Om0 w0 wa x : / 1000 <= Om0 <= 999 / 1000 -> -2 <= w0 <= 0 -> -1 <= wa <= 1 -> 0 <= x <= 999 -> / 1000 <= Om0 * (1 + x) ^ 3 + (1 - Om0) * dark_energy w0 wa x <= 10 ^ 24.
Proof.
  intros HO W0 Wa X. pose proof (de_range3 w0 wa x W0 Wa X) as D. assert (P20 : 0 < / 10 ^ 21) by (apply Rinv_0_lt_compat, pow_lt; lra). assert (T : 1 <= (1 + x) ^ 3 <= 1000 ^ 3) by (split; [apply pow_R1_Rle; lra|apply pow_incr; lra]).
  set (t := (1 + x) ^ 3) in *. clearbody t. set (dd := dark_energy w0 wa x) in *. clearbody dd. assert (A : / 1000 * 1 <= Om0 * t <= 1 * 1000 ^ 3) by (split; apply Rmult_le_compat; lra). assert (B : 0 <= (1 - Om0) * dd <= 999/1000 * 10 ^ 21) by (split; [apply Rmult_le_pos; lra|apply Rmult_le_compat; lra]).
  split; [lra|]. simpl in *. lra.
Qed.
Lemma E_range3 Om0 w0 wa x : / 1000 <= Om0 <= 999 / 1000 -> -2 <= w0 <= 0 -> -1 <= wa <= 1 -> 0 <= x <= 999 -> / 100 <= expansion Om0 w0 wa x <= 10 ^ 12.
Proof.
  intros HO W0 Wa X. pose proof (E2_range3 Om0 w0 wa x HO W0 Wa X) as B. unfold expansion. split.
  - rewrite <- (sqrt_pow2 (/ 100)) by lra. apply sqrt_le_1_alt. lra.
  - rewrite <- (sqrt_pow2 (10 ^ 12)) by (apply pow_le; lra). apply sqrt_le_1_alt. rewrite <- pow_mult. apply B.
Qed.
Lemma f2_range3 Om0 w0 wa x : / 1000 <= Om0 <= 999 / 1000 -> -2 <= w0 <= 0 -> -1 <= wa <= 1 -> 0 <= x <= 999 -> / 10 ^ 15 <= f2 Om0 w0 wa x <= 100 /\ / 10 ^ 12 <= f1 Om0 w0 wa x <= 100.
Proof.
  intros HO W0 Wa X. pose proof (E_range3 Om0 w0 wa x HO W0 Wa X) as SR.
  assert (D1 : 1 / 10 ^ 12 <= 1 / expansion Om0 w0 wa x <= 1 / / 100) by (apply div_range; lra). assert (D2 : 1 / 10 ^ 12 / 1000 <= 1 / expansion Om0 w0 wa x / (1 + x) <= 1 / / 100 / 1) by (apply div_range; try lra; simpl; lra).
  unfold f2, f1. simpl in *. lra.
Qed.

Section F.
Context {AR : Arith} (u : R) (H : rel_err AR u).
Notation G := (re_good _ _ H).
Notation lre := (lre u).
Notation npos := (npos (AR := AR) u).
Notation near := (near (AR := AR) u).

(** trapezoid rule on any grid whose spacings are known to a relative error *)
Lemma trapz_err n XS YS xs ys kd ky : (2 <= n <= 1024)%nat -> length XS = n -> length YS = n -> length xs = n -> length ys = n -> 0 <= kd <= 6000 -> 0 <= ky <= 1000 ->
  (forall i, (i < n - 1)%nat -> npos kd (Fin (ent xs (S i)) - Fin (ent xs i))%num (ent XS (S i) - ent XS i) /\ / 10 ^ 5 <= ent XS (S i) - ent XS i <= 1000) ->
  (forall i, (i < n)%nat -> npos ky (Fin (ent ys i)) (ent YS i) /\ / 10 ^ 15 <= ent YS i <= 10 ^ 10) ->
  npos (kd + ky + 3.06 + 1.02 * INR (n - 1)) (trapz_k (fins xs) (fins ys)) (trapezoid XS YS) /\ / 10 ^ 21 <= trapezoid XS YS <= 10 ^ 18.
Proof.
  intros Hn LX LY Lx Ly Hkd Hky HX HY. pose proof (upos u H) as U. pose proof (INR_n1 n ltac:(lia)) as N1. assert (N2 : INR (n - 1) <= 1023) by (replace 1023 with (INR 1023) by (rewrite INR_IZR_INZ; reflexivity); apply le_INR; lia).
  assert (P5 : 0 < / 10 ^ 5) by (apply Rinv_0_lt_compat, pow_lt; lra). assert (P15 : 0 < / 10 ^ 15) by (apply Rinv_0_lt_compat, pow_lt; lra).
  unfold trapz_k. rewrite cells_fins by congruence. rewrite Lx. rewrite trapezoid_cells by congruence. rewrite LX.
  set (K := kd + ky + 2.04).
  assert (CB : forall i, (i < n - 1)%nat -> / 10 ^ 20 <= 2 * cell XS YS i <= 10 ^ 14).
  { intros i Hi. destruct (HY i ltac:(lia)) as (_ & C0). destruct (HY (S i) ltac:(lia)) as (_ & C1). destruct (HX i Hi) as (_ & D0). replace (2 * cell XS YS i) with ((ent XS (S i) - ent XS i) * (ent YS (S i) + ent YS i)) by (unfold cell; lra).
    replace (/ 10 ^ 20) with (/ 10 ^ 5 * / 10 ^ 15) by (rewrite <- Rinv_mult, <- pow_add; reflexivity). assert (M : / 10 ^ 5 * (2 * / 10 ^ 15) <= (ent XS (S i) - ent XS i) * (ent YS (S i) + ent YS i) <= 1000 * (2 * 10 ^ 10)) by (apply mul_range; lra).
    assert (0 < / 10 ^ 5 * / 10 ^ 15) by (apply Rmult_lt_0_compat; auto). split; [lra|]. eapply Rle_trans; [apply M|simpl; lra]. }
  assert (CE : forall i, (i < n - 1)%nat -> npos K (nmul (nsub (Fin (ent xs (S i))) (Fin (ent xs i))) (nadd (Fin (ent ys (S i))) (Fin (ent ys i)))) (2 * cell XS YS i)).
  { intros i Hi. destruct (HY i ltac:(lia)) as (Y0 & C0). destruct (HY (S i) ltac:(lia)) as (Y1 & C1). destruct (HX i Hi) as (DX & D0). specialize (CB i Hi). replace (2 * cell XS YS i) with ((ent XS (S i) - ent XS i) * (ent YS (S i) + ent YS i)) in * by (unfold cell; lra).
    assert (YY : npos (ky + 1.02) (Fin (ent ys (S i)) + Fin (ent ys i))%num (ent YS (S i) + ent YS i)).
    { apply npos_add; auto; [lra|]. apply Rle_trans with (2 * 10 ^ 10); [lra|]. apply Rle_trans with (10 ^ 11); [simpl; lra|apply Rle_pow; [lra|lia]]. }
    apply (npos_weaken u H) with (kd + (ky + 1.02) + 1.02); [|unfold K; lra]. apply npos_mul; auto; [lra|]. apply small_range. assert (10 ^ 14 <= 10 ^ 20) by (apply Rle_pow; [lra|lia]). lra. }
  set (g := fun i => nmul (nsub (Fin (ent xs (S i))) (Fin (ent xs i))) (nadd (Fin (ent ys (S i))) (Fin (ent ys i)))) in *. set (c2 := fun i => 2 * cell XS YS i) in *.
  assert (E2 : Rsum (map (cell XS YS) (seq 0 (n - 1))) = (1/2) * Rsum (map c2 (seq 0 (n - 1)))).
  { clear. unfold c2. induction (seq 0 (n - 1)); cbn [map Rsum fold_right]; [lra|]. unfold Rsum in *. cbn [fold_right]. rewrite IHl. lra. }
  assert (KB : K <= 8000) by (unfold K; lra).
  rewrite E2. assert (VS : npos (K + 1.02 * INR (n - 2)) (vsum (map g (seq 0 (n - 1)))) (Rsum (map c2 (seq 0 (n - 1)))) /\ / 10 ^ 20 <= Rsum (map c2 (seq 0 (n - 1))) <= 10 ^ 18).
  { replace (n - 1)%nat with (S (n - 2)) in * by lia. cbn [seq map]. set (m := (n - 2)%nat) in *. assert (Hm : INR m <= 1023). { rewrite S_INR in N2. lra. }
    assert (F2 : forall l, (forall i, In i l -> (i < S m)%nat) -> Forall2 (npos K) (map g l) (map c2 l) /\ 0 <= Rsum (map c2 l) <= INR (length l) * 10 ^ 14).
    { intros l. induction l as [|i l IH]; intros Hl; [repeat split; simpl; try constructor; lra|]. destruct IH as (I1 & I2); [intros j Hj; apply Hl; now right|]. specialize (CB i (Hl i (or_introl eq_refl))). specialize (CE i (Hl i (or_introl eq_refl))).
      assert (0 < / 10 ^ 20) by (apply Rinv_0_lt_compat, pow_lt; lra). split; [constructor; auto|]. cbn [map length]. rewrite S_INR. change (Rsum (c2 i :: map c2 l)) with (c2 i + Rsum (map c2 l)). fold (c2 i) in CB. lra. }
    destruct (F2 (seq 1 m)) as (FF & FS); [intros i Hi; apply in_seq in Hi; lia|]. rewrite seq_length in FS. pose proof (CB 0%nat ltac:(lia)) as CB0. fold (c2 0%nat) in CB0.
    assert (Q : INR m * 10 ^ 14 <= 1023 * 10 ^ 14) by (apply Rmult_le_compat_r; [apply pow_le; lra|lra]).
    change (Rsum (c2 0%nat :: map c2 (seq 1 m))) with (c2 0%nat + Rsum (map c2 (seq 1 m))). assert (TB : c2 0%nat + Rsum (map c2 (seq 1 m)) <= 10 ^ 18) by (apply Rle_trans with (1024 * 10 ^ 14); [lra|simpl; lra]).
    split; [|lra]. assert (LM : INR m = INR (length (map g (seq 1 m)))) by (rewrite map_length, seq_length; reflexivity). rewrite LM. apply vsum_npos; auto.
    - apply CE. lia. - eapply Rle_trans; [exact TB|apply Rle_pow; [lra|lia]]. - rewrite <- LM. lra. }
  destruct VS as (VS & VB). assert (NN : INR (n - 2) <= INR (n - 1)) by (apply le_INR; lia). pose proof (pos_INR (n - 2)) as N0.
  assert (T : / 10 ^ 21 <= 1 / 2 * / 10 ^ 20). { replace (10 ^ 21) with (10 * 10 ^ 20) by (simpl; ring). rewrite Rinv_mult. assert (0 < / 10 ^ 20) by (apply Rinv_0_lt_compat, pow_lt; lra). lra. }
  split; [|lra]. apply (npos_weaken u H) with (0 + (K + 1.02 * INR (n - 2)) + 1.02); [|unfold K; lra]. apply npos_mul; auto.
  - apply npos_machine; [|lra]. apply (rnd_dy G 1 1); [lia|lia|simpl; lra].
  - unfold K. lra.
  - assert (/ 10 ^ 24 <= / 10 ^ 21) by (apply Rinv_le_contravar; [apply pow_lt; lra|apply Rle_pow; [lra|lia]]).
    assert (10 ^ 18 <= 10 ^ 36) by (apply Rle_pow; [lra|lia]). lra.
Qed.

Section E.
Variables (Om0 w0 wa x x' : R).
Hypotheses (RO : rnd Om0 = Fin Om0) (R0 : rnd w0 = Fin w0) (Ra : rnd wa = Fin wa) (HO : / 1000 <= Om0 <= 999 / 1000) (W0 : -2 <= w0 <= 0) (Wa : -1 <= wa <= 1) (X : 0 <= x <= 999) (Rx : rnd x' = Fin x') (Bx : Rabs (x' - x) <= 18 * u * (1 + x)).
Lemma zp1_err3 : npos 19.1 (Fin 1 + Fin x')%num (1 + x).
Proof.
  pose proof (upos u H) as U. cbn [nadd]. apply (npos_weaken u H) with (18.04 + 1.02); [|lra]. apply npos_rnd; [exact H| |lra|apply range16; simpl in *; lra]. apply (lre_weaken u H) with (1.002 * 18); [|lra]. apply (lre_abs u); [lra| |simpl in U; lra].
  replace (1 + x' - (1 + x)) with (x' - x) by ring. exact Bx.
Qed.
Lemma de_err3 : npos 564 (rho_de_z (Fin x') (Fin w0) (Fin wa)) (dark_energy w0 wa x).
Proof.
  pose proof zp1_err3 as Z1. pose proof (upos u H) as U. assert (T20 : 10 ^ 4 <= 10 ^ 20) by (apply Rle_pow; [lra|lia]). assert (P20 : / 10 ^ 20 <= / 10 ^ 4) by (apply Rinv_le_contravar; [apply pow_lt; lra|auto]).
  rewrite <- de_eq by lra. unfold rho_de_z, de. destruct (qx x X) as [QX IX].
  assert (A : npos 20.2 (Fin 1 / (Fin 1 + Fin x'))%num (1 / (1 + x))).
  { apply (npos_weaken u H) with (0 + 19.1 + 1.02); [|lra]. apply npos_div; auto; [apply npos_machine; [apply (rnd1 G)|lra]|lra|apply range16; simpl in *; lra]. }
  set (va := (Fin 1 / (Fin 1 + Fin x'))%num) in *. clearbody va. cbv zeta.
  assert (N1 : near (Fin 1) 1 0 1) by (apply near_machine; [apply (rnd1 G)|rewrite Rabs_R1; lra]). assert (N3 : near (Fin (-3)) (-3) 0 3) by (apply near_machine; [apply (machine_int u H (-3)); lia|rewrite Rabs_left; lra]).
  assert (Nw : near (Fin w0) w0 0 2) by (apply near_machine; auto; apply Rabs_le; lra). assert (Na : near (Fin wa) wa 0 1) by (apply near_machine; auto; apply Rabs_le; lra).
  assert (Q1 : near (Fin 1 + Fin w0)%num (1 + w0) 3.1 3) by (apply (near_add u H _ _ 0 1 _ _ 0 2 3.05); auto; simpl; lra).
  assert (Q2 : near (Fin 1 + Fin w0 + Fin wa)%num (1 + w0 + wa) 7.3 4) by (apply (near_add u H _ _ 3.1 3 _ _ 0 1 4.05); auto; simpl; lra).
  assert (Q3 : near (Fin (-3) * (Fin 1 + Fin w0 + Fin wa))%num (-3 * (1 + w0 + wa)) 35 12) by (apply (near_mul u H _ _ 0 3 _ _ 7.3 4 12.1); auto; simpl; lra).
  assert (Q4 : near (Fin (-3) * Fin wa)%num (-3 * wa) 3.2 3) by (apply (near_mul u H _ _ 0 3 _ _ 0 1 3.1); auto; simpl; lra).
  pose proof (npos_near u H _ _ _ 1 A ltac:(lra) ltac:(lra)) as NA. assert (Q5 : near (Fin 1 - va)%num (1 - 1 / (1 + x)) 21.5 1).
  { destruct NA as (a & -> & Ra' & Da & _). cbn [nsub nopp nadd]. apply (near_rnd u H _ _ 20.3 1.1); try (simpl; lra).
    - replace (1 + - a - (1 - 1 / (1 + x))) with (- (a - 1 / (1 + x))) by ring. rewrite Rabs_Ropp. eapply Rle_trans; [exact Da|]. apply Rmult_le_compat_r; lra.
    - apply Rabs_le. lra. }
  assert (Q6 : near (Fin (-3) * Fin wa * (Fin 1 - va))%num (-3 * wa * (1 - 1 / (1 + x))) 72 3) by (apply (near_mul u H _ _ 3.2 3 _ _ 21.5 1 3.1); auto; simpl; lra).
  assert (LA : Rabs (ln (1 / (1 + x))) <= 7). { unfold Rdiv. rewrite Rmult_1_l, ln_Rinv by lra. rewrite Rabs_Ropp. pose proof (ln1000 (1 + x) ltac:(lra)). apply Rabs_le. lra. }
  assert (PB : / 10 ^ 20 <= Rpower (1 / (1 + x)) (-3 * (1 + w0 + wa)) <= 10 ^ 20). { pose proof (pow_part w0 wa x W0 Wa X) as PB. assert (T : 4 * 10 ^ 19 <= 10 ^ 20) by (simpl; lra). assert (/ 10 ^ 20 <= / (4 * 10 ^ 19)) by (apply Rinv_le_contravar; [apply Rmult_lt_0_compat; [lra|apply pow_lt; lra]|auto]). lra. } pose proof (npow_npos u H 20.2 35 7 12 _ _ _ _ A Q3 PB LA ltac:(lra) ltac:(lra) ltac:(simpl; lra)) as PW.
  assert (EX : npos 73.1 (nexp (Fin (-3) * Fin wa * (Fin 1 - va)))%num (exp (-3 * wa * (1 - 1 / (1 + x))))).
  { destruct Q6 as (y & -> & Ry & Dy & My). cbn [nexp]. apply (npos_weaken u H) with (72 + 1.02); [|lra]. apply npos_elem; [exact H|exact I|now apply lre_exp|lra|]. pose proof (exp_part wa x Wa X). apply range16. simpl. lra. }
  pose proof (de_range3 w0 wa x W0 Wa X) as DR. rewrite <- de_eq in DR by lra. unfold de in DR.
  assert (P24 : / 10 ^ 24 <= / 10 ^ 21) by (apply Rinv_le_contravar; [apply pow_lt; lra|apply Rle_pow; [lra|lia]]). assert (P36 : 10 ^ 21 <= 10 ^ 36) by (apply Rle_pow; [lra|lia]).
  eapply (npos_weaken u H); [apply npos_mul; [exact H|exact PW|exact EX|simpl; lra|lra]|simpl; lra].
Qed.
Lemma Ez_err3 : npos 285 (Ez (Fin x') (Fin Om0) (Fin w0) (Fin wa)) (expansion Om0 w0 wa x).
Proof.
  pose proof (upos u H) as U. pose proof zp1_err3 as Z1. pose proof de_err3 as DE. pose proof (de_range3 w0 wa x W0 Wa X) as DR. pose proof (E2_range3 Om0 w0 wa x HO W0 Wa X) as ER. pose proof (E_range3 Om0 w0 wa x HO W0 Wa X) as SR.
  assert (T20 : 10 ^ 12 <= 10 ^ 21) by (apply Rle_pow; [lra|lia]). assert (P20 : / 10 ^ 21 <= / 10 ^ 5) by (apply Rinv_le_contravar; [apply pow_lt; lra|apply Rle_pow; [lra|lia]]). assert (P20' : 0 < / 10 ^ 21) by (apply Rinv_0_lt_compat, pow_lt; lra).
  unfold Ez. cbv zeta. set (zp := (Fin 1 + Fin x')%num) in *. clearbody zp. set (rd := rho_de_z (Fin x') (Fin w0) (Fin wa)) in *. clearbody rd. set (dd := dark_energy w0 wa x) in *. 
  assert (X2 : 1 <= (1 + x) * (1 + x) <= 10 ^ 6) by (split; [apply Rle_trans with (1 * 1); [lra|apply Rmult_le_compat; lra]|apply Rle_trans with (1000 * 1000); [apply Rmult_le_compat; lra|simpl; lra]]).
  assert (X3 : 1 <= (1 + x) * ((1 + x) * (1 + x)) <= 10 ^ 9) by (split; [apply Rle_trans with (1 * 1); [lra|apply Rmult_le_compat; lra]|apply Rle_trans with (1000 * 10 ^ 6); [apply Rmult_le_compat; lra|simpl; lra]]).
  assert (C3 : npos 59.4 (ipow zp 3) ((1 + x) ^ 3)).
  { cbn [ipow ipow_acc]. replace ((1 + x) ^ 3) with ((1 + x) * ((1 + x) * (1 + x))) by ring. apply (npos_weaken u H) with (19.1 + (19.1 + 19.1 + 1.02) + 1.02); [|lra].
    apply npos_mul; auto; [apply npos_mul; auto; [lra|apply range16; simpl in *; lra]|lra|apply range16; simpl in *; lra]. }
  replace ((1 + x) * ((1 + x) * (1 + x))) with ((1 + x) ^ 3) in X3 by ring. assert (OX : / 1000 * 1 <= Om0 * (1 + x) ^ 3 <= 1 * 10 ^ 9) by (split; apply Rmult_le_compat; lra).
  assert (M : npos 60.5 (Fin Om0 * ipow zp 3)%num (Om0 * (1 + x) ^ 3)).
  { apply (npos_weaken u H) with (0 + 59.4 + 1.02); [|lra]. apply npos_mul; auto; [apply npos_machine; auto; lra|lra|apply range16; simpl in *; lra]. }
  assert (OD : npos 1.02 (Fin 1 - Fin Om0)%num (1 - Om0)). { apply (npos_weaken u H) with (0 + 1.02); [|lra]. apply sub_npos; auto; [apply (rnd1 G)|apply big_1|apply lre_refl; lra|lra|apply Rle_trans with 1; [lra|apply pow_R1_Rle; lra]]. }
  assert (DD : / 1000 * / 10 ^ 21 <= (1 - Om0) * dd <= 1 * 10 ^ 21) by (split; apply Rmult_le_compat; lra).
  assert (D : npos 566.1 ((Fin 1 - Fin Om0) * rd)%num ((1 - Om0) * dd)).
  { apply (npos_weaken u H) with (1.02 + 564 + 1.02); [|lra]. apply npos_mul; auto; [lra|]. split; [replace (10 ^ 24) with (1000 * 10 ^ 21) by (simpl; ring); rewrite Rinv_mult; lra|]. apply Rle_trans with (10 ^ 21); [lra|apply Rle_pow; [lra|lia]]. }
  assert (S : npos 567.2 (Fin Om0 * ipow zp 3 + (Fin 1 - Fin Om0) * rd)%num (Om0 * (1 + x) ^ 3 + (1 - Om0) * dd)).
  { apply (npos_weaken u H) with (566.1 + 1.02); [|lra]. apply npos_add; auto; [apply (npos_weaken u H) with 60.5; auto; lra|lra|apply Rle_trans with (10 ^ 24); [apply ER|apply Rle_pow; [lra|lia]]]. }
  apply (npos_weaken u H) with (567.2 / 2 + 1.02); [|lra]. unfold expansion in SR |- *. apply npos_sqrt; auto; [lra|]. apply range16. assert (10 ^ 12 <= 10 ^ 16) by (apply Rle_pow; [lra|lia]). assert (/ 10 ^ 16 <= / 100) by (apply Rinv_le_contravar; [lra|simpl; lra]). unfold dd. lra.
Qed.
Lemma f2_err3 : npos 307 (Fin 1 / Ez (Fin x') (Fin Om0) (Fin w0) (Fin wa) / (Fin 1 + Fin x'))%num (f2 Om0 w0 wa x).
Proof.
  pose proof Ez_err3 as E. pose proof zp1_err3 as Z1. destruct (f2_range3 Om0 w0 wa x HO W0 Wa X) as (FR & F1). assert (/ 10 ^ 16 <= / 10 ^ 15) by (apply Rinv_le_contravar; [apply pow_lt; lra|apply Rle_pow; [lra|lia]]). assert (/ 10 ^ 16 <= / 10 ^ 12) by (apply Rinv_le_contravar; [apply pow_lt; lra|apply Rle_pow; [lra|lia]]). assert (100 <= 10 ^ 16) by (simpl; lra).
  apply (npos_weaken u H) with ((0 + 285 + 1.02) + 19.1 + 1.02); [|lra]. unfold f2, f1 in *. apply npos_div; auto; [|lra|apply range16; lra]. apply npos_div; auto; [apply npos_machine; [apply (rnd1 G)|lra]|lra|apply range16; lra].
Qed.
End E.
End F.
