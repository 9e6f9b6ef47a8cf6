(** * Consequences of rounding: what holds in every reasonable arithmetic *)
From Coq Require Import Reals List Arith Lra Lia ZArith Bool.
From Flocq Require Import Core.Raux Core.Zaux Core.Generic_fmt Core.FLX Core.FLT Core.Round_NE Core.Ulp Core.Defs Core.Float_prop.
From Flocq Require Import Sterbenz Relative.
From Verif Require Import Num Arr MUtils Float Spec LOrder.
Import ListNotations.
Open Scope R_scope.

(** ** Order on non-NaN numbers *)
Definition nle (a b : num) : Prop := nleb a b = true.
Lemma nle_fin x y : nle (Fin x) (Fin y) <-> x <= y.
Proof. unfold nle, nleb, nltb. destruct (Rlt_bool_spec y x); split; intros; try discriminate; auto; lra. Qed.
Lemma nle_refl a : a <> NaN -> nle a a.
Proof. destruct a; intros; try reflexivity; [apply nle_fin; lra|congruence]. Qed.
Lemma nle_trans a b c : nle a b -> nle b c -> nle a c.
Proof.
  destruct a, b, c; intros; try discriminate; try reflexivity.
  rewrite nle_fin in *. lra.
Qed.
Lemma nle_nan_l b : ~ nle NaN b. Proof. discriminate. Qed.
Lemma nle_nan_r a : ~ nle a NaN. Proof. destruct a; discriminate. Qed.

Record good_rounding (AR : Arith) : Prop := {
  rnd_mono : forall x y, x <= y -> nle (rnd x) (rnd y);
  rnd_opp : forall x, rnd (- x) = nopp (rnd x);
  rnd_idem : forall x y, rnd x = Fin y -> rnd y = Fin y;
  rnd_dyadic : forall n k, (Z.abs n <= 2 ^ 24)%Z -> (k <= 100)%nat -> rnd (IZR n / 2 ^ k) = Fin (IZR n / 2 ^ k);
  rnd_sterbenz : forall x y, rnd x = Fin x -> rnd y = Fin y -> 1 <= y -> y / 2 <= x <= 2 * y -> rnd (x - y) = Fin (x - y);
  rnd_one_minus : forall f, 0 <= f <= 1 -> rnd f = Fin f -> nle (nadd (Fin f) (rnd (1 - f))) (Fin 1);
  rnd_err : forall x, Rabs x <= 16 -> exists y, rnd x = Fin y /\ Rabs (y - x) <= / 2 ^ 20;
  rnd_range : forall x, Rabs x <= 10 ^ 38 -> exists y, rnd x = Fin y;
  eps_nonneg : 0 <= interp_eps;
  sum_order : any_order reduce;
  lib_ok : accurate_library AR (/ 2 ^ 20)
}.

Lemma good_exact : good_rounding exact.
Proof.
  constructor; cbn; intros; auto; try (now injection H as ->); try lra; [| | | |exact left_to_right_any_order|].
  - now apply nle_fin.
  - apply nle_fin. lra.
  - exists x. split; auto. replace (x - x) with 0 by lra. rewrite Rabs_R0. assert (0 < / 2 ^ 20) by (apply Rinv_0_lt_compat; lra). lra.
  - eauto.
  - intros f _. cbn. split; [discriminate|]. split; [|split; [eauto|]].
    + intros z [= <-]. split; auto. replace (elem_value f - elem_value f) with 0 by lra. rewrite Rabs_R0. pose proof (Rabs_pos (elem_value f)).
      assert (0 < / 2 ^ 20) by (apply Rinv_0_lt_compat; lra). assert (0 < / 2 ^ 102) by (apply Rinv_0_lt_compat, pow_lt; lra). assert (0 <= / 2 ^ 20 * Rabs (elem_value f)) by (apply Rmult_le_pos; lra). assert (0 <= / 2 ^ 20 * / 2 ^ 102) by (apply Rmult_le_pos; lra). lra.
    + intros m _. split; intros; now apply nle_fin.
Qed.

Lemma accurate_weaken AR e e' : accurate_library AR e -> e <= e' -> accurate_library AR e'.
Proof.
  intros A L f D. destruct (A f D) as (N & F & R & S). split; auto. split; auto. intros z Hz. destruct (F z Hz) as [F1 F2]. split; auto.
  assert (e * Rabs (elem_value f) <= e' * Rabs (elem_value f)) by (apply Rmult_le_compat_r; [apply Rabs_pos|auto]). assert (e * / 2 ^ 102 <= e' * / 2 ^ 102) by (apply Rmult_le_compat_r; [left; apply Rinv_0_lt_compat, pow_lt; lra|auto]). lra.
Qed.

Lemma pow_IZR_bpow k : 2 ^ k = bpow radix2 (Z.of_nat k).
Proof.
  induction k as [|k IH]; [reflexivity|]. rewrite Nat2Z.inj_succ. unfold Z.succ. rewrite bpow_plus. cbn [pow]. rewrite IH.
  change (bpow radix2 1) with 2. ring.
Qed.
Section Ieee.
Context (prec emin emax : Z) (Hp : (22 <= prec)%Z) (He : (emin <= - prec)%Z) (He' : (emin <= - 100)%Z) (Hm : (prec < emax)%Z) (Hm' : (128 <= emax)%Z).
Let fexp := FLT_exp emin prec.
Let P0 : Prec_gt_0 prec. Proof. unfold Prec_gt_0. lia. Qed.
Let VF : Valid_exp fexp. Proof. apply FLT_exp_valid. exact P0. Qed.
Let MF : Monotone_exp fexp. Proof. apply FLT_exp_monotone. Qed.
Let rd := round radix2 fexp ZnearestE.
Let VR : Valid_rnd ZnearestE. Proof. apply valid_rnd_N. Qed.
Let fmt := generic_format radix2 fexp.

Lemma rd_fmt x : fmt (rd x). Proof. apply generic_format_round; auto. Qed.
Lemma rd_id x : fmt x -> rd x = x. Proof. apply round_generic; auto. Qed.
Lemma rd_le x y : x <= y -> rd x <= rd y. Proof. apply round_le; auto. Qed.
Lemma rd_opp x : rd (- x) = - rd x. Proof. apply round_NE_opp. Qed.

Lemma ri_fin x : Rabs (rd x) < bpow radix2 emax -> round_ieee prec emin emax x = Fin (rd x).
Proof. intros H. unfold round_ieee. fold fexp. fold (rd x). cbv zeta. now rewrite Rlt_bool_true. Qed.
Lemma ri_pinf x : bpow radix2 emax <= rd x -> round_ieee prec emin emax x = PInf.
Proof.
  intros H. pose proof (bpow_gt_0 radix2 emax). unfold round_ieee. fold fexp. fold (rd x). cbv zeta.
  rewrite Rabs_right by lra. rewrite Rlt_bool_false by lra. now rewrite Rlt_bool_true by lra.
Qed.
Lemma ri_ninf x : rd x <= - bpow radix2 emax -> round_ieee prec emin emax x = NInf.
Proof.
  intros H. pose proof (bpow_gt_0 radix2 emax). unfold round_ieee. fold fexp. fold (rd x). cbv zeta.
  rewrite Rabs_left by lra. rewrite Rlt_bool_false by lra. now rewrite Rlt_bool_false by lra.
Qed.
Lemma ri_cases x : (Rabs (rd x) < bpow radix2 emax /\ round_ieee prec emin emax x = Fin (rd x))
  \/ (bpow radix2 emax <= rd x /\ round_ieee prec emin emax x = PInf)
  \/ (rd x <= - bpow radix2 emax /\ round_ieee prec emin emax x = NInf).
Proof.
  destruct (Rlt_le_dec (Rabs (rd x)) (bpow radix2 emax)) as [L|L]; [left; split; auto; now apply ri_fin|].
  right. unfold Rabs in L. destruct (Rcase_abs (rd x)).
  - right. split; [lra|]. apply ri_ninf. lra.
  - left. split; [lra|]. apply ri_pinf. lra.
Qed.
Lemma ri_inv x y : round_ieee prec emin emax x = Fin y -> y = rd x /\ Rabs (rd x) < bpow radix2 emax.
Proof. destruct (ri_cases x) as [[A B]|[[A B]|[A B]]]; rewrite B; intros H; try discriminate. injection H as <-. auto. Qed.
Lemma ri_id x : fmt x -> Rabs x < bpow radix2 emax -> round_ieee prec emin emax x = Fin x.
Proof. intros F B. rewrite ri_fin; rewrite rd_id; auto. Qed.
Lemma ri_rep x : round_ieee prec emin emax x = Fin x -> fmt x /\ Rabs x < bpow radix2 emax.
Proof. intros H. apply ri_inv in H. destruct H as [E B]. rewrite E. split; [apply rd_fmt|]. now rewrite <- E, E. Qed.
Lemma fmt_int n : (24 <= prec)%Z -> (Z.abs n <= 2 ^ 24)%Z -> fmt (IZR n).
Proof.
  intros Hp24 H. destruct (Z.eq_dec (Z.abs n) (2 ^ 24)) as [E|E].
  - assert (fmt (bpow radix2 24)) as F by (apply generic_format_bpow; unfold fexp, FLT_exp; lia).
    assert (n = 2 ^ 24 \/ n = - 2 ^ 24)%Z as [-> | ->] by lia.
    + exact F.
    + change (fmt (- bpow radix2 24)). now apply generic_format_opp.
  - apply generic_format_FLT. exists (Float radix2 n 0); cbn [Fnum Fexp].
    + unfold F2R. cbn [Fnum Fexp bpow]. ring.
    + apply Z.lt_le_trans with (2 ^ 24)%Z; [lia|]. apply (Zpower_le radix2). lia.
    + lia.
Qed.
Lemma fmt_dyadic n k : (24 <= prec)%Z -> (Z.abs n <= 2 ^ 24)%Z -> (k <= 100)%nat -> fmt (IZR n / 2 ^ k).
Proof.
  intros Hp24 H Hk.
  assert (E : / 2 ^ k = bpow radix2 (- Z.of_nat k)) by (rewrite bpow_opp, <- (pow_IZR_bpow k); reflexivity).
  unfold Rdiv. rewrite E.
  destruct (Z.eq_dec (Z.abs n) (2 ^ 24)) as [D|D].
  - assert (fmt (bpow radix2 (24 - Z.of_nat k))) as F by (apply generic_format_bpow; unfold fexp, FLT_exp; lia).
    unfold Zminus in F. rewrite bpow_plus in F.
    assert (n = 2 ^ 24 \/ n = - 2 ^ 24)%Z as [-> | ->] by lia.
    + exact F.
    + change (IZR (- 2 ^ 24)) with (- bpow radix2 24). rewrite Ropp_mult_distr_l_reverse. now apply generic_format_opp.
  - apply generic_format_FLT. exists (Float radix2 n (- Z.of_nat k)); cbn [Fnum Fexp].
    + reflexivity.
    + apply Z.lt_le_trans with (2 ^ 24)%Z; [lia|]. apply (Zpower_le radix2). lia.
    + lia.
Qed.
Lemma half_ulp_err x : Rabs (rd x - x) <= / 2 * ulp radix2 fexp x.
Proof. unfold rd. apply error_le_half_ulp; auto. Qed.
Lemma good_ieee eps red lib : (24 <= prec)%Z -> 0 <= eps -> any_order red -> accurate_library {| rnd := round_ieee prec emin emax; interp_eps := eps; reduce := red; elem := lib |} (/ 2 ^ 20) -> good_rounding {| rnd := round_ieee prec emin emax; interp_eps := eps; reduce := red; elem := lib |}.
Proof.
  intros Hp24 Heps OR LOK. pose proof (bpow_gt_0 radix2 emax) as Pm.
  assert (B2 : forall e, (e < emax)%Z -> bpow radix2 e < bpow radix2 emax) by (intros; now apply bpow_lt).
  constructor; cbn [rnd interp_eps reduce]; auto.
  - intros x y H. apply rd_le in H.
    destruct (ri_cases x) as [[A ->]|[[A ->]|[A ->]]], (ri_cases y) as [[C ->]|[[C ->]|[C ->]]]; try reflexivity;
      try (apply nle_fin; exact H);
      exfalso; try apply Rabs_def2 in A; try apply Rabs_def2 in C; lra.
  - intros x. destruct (ri_cases x) as [[A ->]|[[A ->]|[A ->]]]; cbn [nopp].
    + rewrite ri_fin; rewrite rd_opp; [reflexivity|now rewrite Rabs_Ropp].
    + apply ri_ninf. rewrite rd_opp. lra.
    + apply ri_pinf. rewrite rd_opp. lra.
  - intros x y H. apply ri_inv in H. destruct H as [-> B]. apply ri_id; auto. apply rd_fmt.
  - intros n k Hn Hk. apply ri_id; [now apply fmt_dyadic|]. unfold Rdiv. rewrite Rabs_mult, <- abs_IZR.
    assert (1 <= 2 ^ k) by (apply pow_R1_Rle; lra). rewrite Rabs_inv, (Rabs_right (2 ^ k)) by lra.
    apply Rle_lt_trans with (bpow radix2 24 * 1); [|rewrite Rmult_1_r; apply B2; lia]. apply (IZR_le _ (2 ^ 24)) in Hn.
    apply Rmult_le_compat; [apply IZR_le; lia|apply Rlt_le, Rinv_0_lt_compat; lra|exact Hn|].
    rewrite <- Rinv_1. apply Rinv_le; lra.
  - intros x y Hx Hy _ H. apply ri_rep in Hx, Hy. destruct Hx as [Fx Bx], Hy as [Fy By]. apply ri_id.
    + apply sterbenz; auto.
    + apply Rabs_def2 in Bx, By. apply Rabs_def1; lra.
  - intros f Hf H. apply ri_rep in H. destruct H as [Ff Bf].
    assert (F1 : fmt 1) by (apply (fmt_int 1); lia).
    assert (B1 : 1 < bpow radix2 emax) by (change 1 with (bpow radix2 0); apply B2; lia).
    assert (G0 : 0 <= rd (1 - f)) by (rewrite <- (rd_id 0) by apply generic_format_0; apply rd_le; lra).
    assert (G1 : rd (1 - f) <= 1) by (rewrite <- (rd_id 1) at 2 by auto; apply rd_le; lra).
    rewrite (ri_fin (1 - f)) by (rewrite Rabs_right; lra). cbn [nadd rnd].
    set (g := rd (1 - f)) in *.
    assert (K : rd (f + g) <= 1).
    { destruct (Req_dec f 0) as [Z|N].
      { unfold g. rewrite Z. replace (1 - 0) with 1 by lra. rewrite (rd_id 1) by auto. replace (0 + 1) with 1 by lra. rewrite rd_id by auto. lra. }
      destruct (Rlt_le_dec f (1/2)) as [L|L].
      - assert (E : Rabs (g - (1 - f)) <= bpow radix2 (- prec - 1)).
        { eapply Rle_trans; [apply half_ulp_err|].
          assert (ulp radix2 fexp (1 - f) <= bpow radix2 (- prec)) as U.
          { rewrite ulp_neq_0 by lra. unfold cexp. rewrite (mag_unique radix2 (1 - f) 0).
            + unfold fexp, FLT_exp. apply bpow_le. lia.
            + cbn. rewrite Rabs_right by lra. lra. }
          replace (- prec - 1)%Z with (- (1) + - prec)%Z by lia. rewrite bpow_plus. cbn [bpow]. cbn. lra. }
        apply round_N_le_midp; auto. rewrite succ_eq_pos by lra. change 1 with (bpow radix2 0) at 3. rewrite ulp_bpow.
        unfold fexp at 1, FLT_exp. rewrite Z.max_l by lia.
        pose proof (bpow_lt radix2 (- prec - 1) (- prec) ltac:(lia)).
        assert (bpow radix2 (0 + 1 - prec) = 2 * bpow radix2 (- prec)) as ->.
        { replace (0 + 1 - prec)%Z with (1 + - prec)%Z by lia. rewrite bpow_plus. reflexivity. }
        unfold Rabs in E. destruct (Rcase_abs _); lra.
      - assert (E : g = 1 - f).
        { apply rd_id. apply sterbenz; auto. lra. }
        rewrite E. replace (f + (1 - f)) with 1 by lra. rewrite rd_id by auto. lra. }
    assert (K0 : 0 <= rd (f + g)) by (rewrite <- (rd_id 0) at 1 by apply generic_format_0; apply rd_le; lra).
    rewrite ri_fin by (rewrite Rabs_right; lra). now apply nle_fin.
  - intros x Hx. assert (E : Rabs (rd x - x) <= / 2 ^ 20).
    { eapply Rle_trans; [apply half_ulp_err|].
      assert (ulp radix2 fexp x <= bpow radix2 (-19)) as U.
      { apply Rle_trans with (ulp radix2 fexp (bpow radix2 4)).
        - apply ulp_le; auto. rewrite (Rabs_right (bpow radix2 4)); [exact Hx|apply Rle_ge, bpow_ge_0].
        - rewrite ulp_bpow. apply bpow_le. unfold fexp, FLT_exp. lia. }
      replace (/ 2 ^ 20) with (/ 2 * bpow radix2 (-19)).
      - apply Rmult_le_compat_l; lra.
      - rewrite (pow_IZR_bpow 20). rewrite <- bpow_opp. change (- Z.of_nat 20)%Z with (-1 + -19)%Z. rewrite bpow_plus. reflexivity. }
    exists (rd x). split; auto. apply ri_fin.
    apply Rle_lt_trans with 17; [|apply Rlt_le_trans with (bpow radix2 5); [change (bpow radix2 5) with 32; lra|apply bpow_le; lia]].
    assert (/ 2 ^ 20 <= 1) by (rewrite <- Rinv_1; apply Rinv_le; [lra|]; apply pow_R1_Rle; lra).
    replace (rd x) with (rd x - x + x) by lra. eapply Rle_trans; [apply Rabs_triang|lra].
  - intros x Hx. exists (rd x). apply ri_fin.
    assert (F : fmt (bpow radix2 127)) by (apply generic_format_bpow; unfold fexp, FLT_exp; lia).
    assert (T : 10 ^ 38 <= bpow radix2 127).
    { change (bpow radix2 127) with (IZR (2 ^ 127)). rewrite (pow_IZR 10 38). apply IZR_le. vm_compute. discriminate. }
    apply Rle_lt_trans with (bpow radix2 127); [|apply B2; lia].
    assert (- bpow radix2 127 <= x <= bpow radix2 127) by (apply Rabs_le_inv; lra).
    apply Rabs_le. split.
    + replace (- bpow radix2 127) with (rd (- bpow radix2 127)) by (rewrite rd_opp, rd_id; auto). apply rd_le. lra.
    + replace (bpow radix2 127) with (rd (bpow radix2 127)) by (apply rd_id; auto). apply rd_le. lra.
Qed.
(** a correctly rounded library is accurate and monotone *)
Lemma correct_accurate eps red k : (emin <= -149)%Z -> prec = Z.of_nat k -> (emin + prec <= -125)%Z ->
  accurate_library {| rnd := round_ieee prec emin emax; interp_eps := eps; reduce := red; elem := fun f => round_ieee prec emin emax (elem_value f) |} (/ 2 ^ k).
Proof.
  intros He2 Hk Hen f _. cbn [rnd elem]. pose proof (bpow_gt_0 radix2 emax) as Pm.
  assert (B2 : forall e, (e < emax)%Z -> bpow radix2 e < bpow radix2 emax) by (intros; now apply bpow_lt).
  assert (BI : forall n, bpow radix2 (- Z.of_nat n) = / 2 ^ n) by (intros n; rewrite bpow_opp, (pow_IZR_bpow n); reflexivity).
  set (x := elem_value f). clearbody x. split; [|split; [|split]].
  - destruct (ri_cases x) as [[A ->]|[[A ->]|[A ->]]]; discriminate.
  - intros z Hz. apply ri_inv in Hz. destruct Hz as [-> B]. split; [apply ri_id; auto; apply rd_fmt|]. unfold rd.
    assert (P : Prec_gt_0 prec) by (unfold Prec_gt_0; lia).
    destruct (error_N_FLT radix2 emin prec P (fun x => negb (Z.even x)) x) as (e & t & He3 & Ht & _ & E).
    assert (U : / 2 * bpow radix2 (- prec + 1) = / 2 ^ k).
    { rewrite bpow_plus, Hk, BI. change (bpow radix2 1) with 2. field. apply pow_nonzero. lra. }
    unfold fexp in *. rewrite E. replace (x * (1 + e) + t - x) with (e * x + t) by ring. eapply Rle_trans; [apply Rabs_triang|]. rewrite Rabs_mult. apply Rplus_le_compat.
    + apply Rmult_le_compat_r; [apply Rabs_pos|]. lra.
    + eapply Rle_trans; [exact Ht|]. rewrite <- !BI, <- Hk, <- bpow_plus. change (/ 2) with (bpow radix2 (-1)). rewrite <- bpow_plus. apply bpow_le. lia.
  - intros Hx. exists (rd x). apply ri_fin.
    assert (F : fmt (bpow radix2 127)) by (apply generic_format_bpow; unfold fexp, FLT_exp; lia).
    assert (T : 10 ^ 38 <= bpow radix2 127).
    { change (bpow radix2 127) with (IZR (2 ^ 127)). rewrite (pow_IZR 10 38). apply IZR_le. vm_compute. discriminate. }
    apply Rle_lt_trans with (bpow radix2 127); [|apply B2; lia].
    assert (- bpow radix2 127 <= x <= bpow radix2 127) by (apply Rabs_le_inv; lra).
    apply Rabs_le. split.
    + replace (- bpow radix2 127) with (rd (- bpow radix2 127)) by (rewrite rd_opp, rd_id; auto). apply rd_le. lra.
    + replace (bpow radix2 127) with (rd (bpow radix2 127)) by (apply rd_id; auto). apply rd_le. lra.
  - intros m Hm1. assert (Fm : rd m = m /\ Rabs m < bpow radix2 emax).
    { split; [apply rd_id; destruct Hm1 as [->| ->]; [apply generic_format_0|]|].
      - change 1 with (bpow radix2 0). apply generic_format_bpow. unfold fexp, FLT_exp. lia.
      - assert (1 < bpow radix2 emax) by (change 1 with (bpow radix2 0); apply B2; lia). destruct Hm1 as [->| ->]; [rewrite Rabs_R0|rewrite Rabs_R1]; lra. }
    destruct Fm as [Fm Bm]. apply Rabs_def2 in Bm. split; intros L; apply rd_le in L; rewrite Fm in L; destruct (ri_cases x) as [[A ->]|[[A ->]|[A ->]]]; try reflexivity; try (apply nle_fin; lra); exfalso; lra.
Qed.
End Ieee.

(** two machine numbers, one of them not tiny: the sum is 0 or not tiny *)
Lemma sum_not_tiny prec emin emax k x y : (24 <= prec)%Z -> (emin <= - prec)%Z -> (emin <= -126)%Z -> (128 <= emax)%Z -> prec = Z.of_nat k ->
  round_ieee prec emin emax x = Fin x -> round_ieee prec emin emax y = Fin y -> bpow radix2 (-74) <= Rabs x -> (emin <= -75 - prec)%Z ->
  x + y = 0 \/ bpow radix2 (-75 - prec) <= Rabs (x + y).
Proof.
  intros Hp He He' Hm Hk Rx Ry Bx Hee. destruct (Rle_lt_dec (Rabs x / 2) (Rabs (x + y))) as [L|L].
  - right. eapply Rle_trans; [|exact L]. apply Rle_trans with (bpow radix2 (-74) / 2); [|lra].
    replace (bpow radix2 (-74) / 2) with (bpow radix2 (-75)); [apply bpow_le; lia|]. change (-75)%Z with (-74 + -1)%Z. rewrite bpow_plus. reflexivity.
  - assert (P : Prec_gt_0 prec) by (unfold Prec_gt_0; lia).
    apply ri_rep in Rx, Ry; try lia. destruct Rx as [Fx _], Ry as [Fy _].
    assert (CV : forall z, generic_format radix2 (FLT_exp emin prec) z -> bpow radix2 (-76) <= Rabs z -> generic_format radix2 (FLT_exp (-75 - prec) prec) z).
    { intros z Fz Bz. apply generic_format_FLT_FLX; [eapply Rle_trans; [|exact Bz]; apply bpow_le; lia|]. eapply generic_format_FLX_FLT; eauto. }
    assert (P74 : 0 < bpow radix2 (-74)) by apply bpow_gt_0.
    assert (E76 : bpow radix2 (-76) = bpow radix2 (-74) / 4) by (change (-76)%Z with (-74 + -2)%Z; rewrite bpow_plus; change (bpow radix2 (-2)) with (/ 4); lra).
    assert (Hx : bpow radix2 (-76) <= Rabs x) by lra.
    assert (TR : Rabs x <= Rabs (x + y) + Rabs y). { replace x with ((x + y) + - y) at 1 by lra. rewrite <- (Rabs_Ropp y). apply Rabs_triang. }
    assert (TR2 : Rabs y <= Rabs (x + y) + Rabs x). { replace y with ((x + y) + - x) at 1 by lra. rewrite <- (Rabs_Ropp x). apply Rabs_triang. }
    assert (Hy : bpow radix2 (-76) <= Rabs y) by lra.
    apply CV in Fx; [|exact Hx]. apply CV in Fy; [|exact Hy].
    assert (VF : Valid_exp (FLT_exp (-75 - prec) prec)) by (apply FLT_exp_valid; exact P).
    assert (MF : Monotone_exp (FLT_exp (-75 - prec) prec)) by apply FLT_exp_monotone.
    assert (F : generic_format radix2 (FLT_exp (-75 - prec) prec) (x + y)).
    { destruct (Rle_lt_dec 0 x) as [X|X].
      - rewrite (Rabs_right x) in * by lra. replace (x + y) with (x - - y) by lra. apply sterbenz; auto; [now apply generic_format_opp|]. unfold Rabs in L, TR, TR2, Hy. destruct (Rcase_abs (x + y)), (Rcase_abs y); lra.
      - rewrite (Rabs_left x) in * by lra. replace (x + y) with (- (- x - y)) by lra. apply generic_format_opp. apply sterbenz; auto; [now apply generic_format_opp|]. unfold Rabs in L, TR, TR2, Hy. destruct (Rcase_abs (x + y)), (Rcase_abs y); lra. }
    destruct (Req_dec (x + y) 0) as [Z|NZ]; [now left|right].
    apply generic_format_ge_bpow with (fexp := FLT_exp (-75 - prec) prec); [intros e; unfold FLT_exp; lia|now apply Rabs_pos_lt|now apply generic_format_abs].
Qed.

(** sums of machine numbers that cannot be subnormal unless they are 0 *)
Definition safe_sum (x y : R) : Prop := (0 <= x /\ 0 <= y) \/ / 2 ^ 74 <= Rabs x \/ / 2 ^ 74 <= Rabs y \/ / 2 ^ 100 <= Rabs (x + y).

(** ** Flushing subnormal results to zero *)
Section Flush.
Context {A0 : Arith} (G0 : good_rounding A0) (m : R) (Pm : 0 < m) (Rm : @rnd A0 m = Fin m) (Lm : m <= / 2 ^ 126).
Context (DM : forall x y, @rnd A0 x = Fin x -> @rnd A0 y = Fin y -> / 2 ^ 74 <= Rabs x -> x + y = 0 \/ m <= Rabs (x + y)).
Context (eps : R) (Heps : 0 <= eps) (red : (num -> num -> num) -> list num -> num) (OR : any_order red) (lib : elementary -> num).
Let A1 : Arith := {| rnd := fun x => flushed m (@rnd A0 x); interp_eps := eps; reduce := red; elem := lib |}.
Lemma fl_zero : @rnd A0 0 = Fin 0.
Proof. replace 0 with (IZR 0 / 2 ^ 0) by (simpl; lra). apply (rnd_dyadic _ G0); simpl; lia. Qed.
Lemma fl_one : @rnd A0 1 = Fin 1.
Proof. replace 1 with (IZR 1 / 2 ^ 0) by (simpl; lra). apply (rnd_dyadic _ G0); simpl; lia. Qed.
Lemma fl_big v : m <= Rabs v -> flushed m (Fin v) = Fin v.
Proof. intros L. cbn [flushed]. now rewrite Rlt_bool_false. Qed.
Lemma fl_0 : flushed m (Fin 0) = Fin 0.
Proof. cbn [flushed]. rewrite Rabs_R0, Rlt_bool_true; auto. Qed.
Lemma fl_inv x z : @rnd A1 x = Fin z -> (z = 0 /\ Rabs x < m) \/ (@rnd A0 x = Fin z /\ (m <= Rabs z \/ z = 0)).
Proof.
  cbn [rnd A1]. destruct (@rnd A0 x) as [y| | |] eqn:E; cbn [flushed]; try discriminate. destruct (Rlt_bool_spec (Rabs y) m) as [L|L].
  - intros [= <-]. left. split; auto. destruct (Rlt_le_dec (Rabs x) m) as [|C]; auto. exfalso.
    pose proof (rnd_opp _ G0 m) as Om. rewrite Rm in Om. cbn [nopp] in Om.
    unfold Rabs in C. destruct (Rcase_abs x) as [N|N].
    + pose proof (rnd_mono _ G0 x (- m) ltac:(lra)) as M. rewrite E, Om, nle_fin in M. rewrite Rabs_left in L by lra. lra.
    + pose proof (rnd_mono _ G0 m x ltac:(lra)) as M. rewrite E, Rm, nle_fin in M. rewrite Rabs_right in L by lra. lra.
  - intros [= <-]. right. auto.
Qed.
Lemma fl_machine x : @rnd A1 x = Fin x -> @rnd A0 x = Fin x /\ (m <= Rabs x \/ x = 0).
Proof. intros E. destruct (fl_inv _ _ E) as [[-> _]|Q]; [split; [apply fl_zero|auto]|exact Q]. Qed.
Lemma fl_mono a b : nle a b -> nle (flushed m a) (flushed m b).
Proof.
  destruct a as [x| | |], b as [y| | |]; try discriminate; try (intros; reflexivity).
  - rewrite nle_fin. intros L. cbn [flushed]. destruct (Rlt_bool_spec (Rabs x) m) as [A|A], (Rlt_bool_spec (Rabs y) m) as [B|B]; apply nle_fin; auto; try lra.
    + apply Rabs_def2 in A. unfold Rabs in B. destruct (Rcase_abs y); lra.
    + apply Rabs_def2 in B. unfold Rabs in A. destruct (Rcase_abs x); lra.
  - intros _. cbn [flushed]. destruct (Rlt_bool _ _); reflexivity.
  - intros _. cbn [flushed]. destruct (Rlt_bool _ _); reflexivity.
Qed.
Lemma fl_near x z : @rnd A1 x = Fin z -> Rabs (z - x) <= m \/ @rnd A0 x = Fin z.
Proof. intros E. destruct (fl_inv _ _ E) as [[-> L]|[Q _]]; [left|now right]. replace (0 - x) with (- x) by lra. rewrite Rabs_Ropp. lra. Qed.
Lemma any_flush v : 0 <= v -> (forall x z, @rnd A0 x = Fin z -> Rabs (z - x) <= v * Rabs x + v * / 2 ^ 102) -> m <= v * / 2 ^ 102 ->
  forall x z, @rnd A1 x = Fin z -> Rabs (z - x) <= v * Rabs x + v * / 2 ^ 102.
Proof.
  intros V0 A L x z E. destruct (fl_near _ _ E) as [Q|Q]; [|now apply A]. assert (0 <= v * Rabs x) by (apply Rmult_le_pos; [auto|apply Rabs_pos]). lra.
Qed.
Lemma good_flush : accurate_library A1 (/ 2 ^ 20) -> good_rounding A1.
Proof.
  intros LOK. assert (M1 : m < 1). { eapply Rle_lt_trans; [exact Lm|]. rewrite <- Rinv_1. apply Rinv_lt_contravar; [rewrite Rmult_1_l; apply pow_lt; lra|]. apply Rlt_pow_R1; [lra|lia]. }
  constructor; auto.
  - intros x y L. cbn [rnd A1]. apply fl_mono. now apply (rnd_mono _ G0).
  - intros x. cbn [rnd A1]. rewrite (rnd_opp _ G0). destruct (@rnd A0 x); cbn [nopp flushed]; auto. rewrite Rabs_Ropp. destruct (Rlt_bool _ _); cbn [nopp]; auto. now rewrite Ropp_0.
  - intros x y E. destruct (fl_inv _ _ E) as [[-> _]|[Q B]]; cbn [rnd A1].
    + rewrite fl_zero. apply fl_0.
    + rewrite (rnd_idem _ G0 _ _ Q). destruct B as [B| ->]; [now apply fl_big|apply fl_0].
  - intros n k Hn Hk. cbn [rnd A1]. rewrite (rnd_dyadic _ G0 n k Hn Hk). destruct (Z.eq_dec n 0) as [->|NZ]; [unfold Rdiv; rewrite Rmult_0_l; apply fl_0|]. apply fl_big.
    apply Rle_trans with (/ 2 ^ k).
    + eapply Rle_trans; [exact Lm|]. apply Rinv_le; [apply pow_lt; lra|]. apply Rle_pow; [lra|lia].
    + unfold Rdiv. rewrite Rabs_mult, (Rabs_right (/ 2 ^ k)) by (apply Rle_ge; left; apply Rinv_0_lt_compat, pow_lt; lra). rewrite <- (Rmult_1_l (/ 2 ^ k)) at 1. apply Rmult_le_compat_r; [left; apply Rinv_0_lt_compat, pow_lt; lra|].
      rewrite <- abs_IZR. change 1 with (IZR 1). apply IZR_le. lia.
  - intros x y Hx Hy Y1 B. apply fl_machine in Hx, Hy. destruct Hx as [Rx _], Hy as [Ry _]. cbn [rnd A1]. rewrite (rnd_sterbenz _ G0 x y Rx Ry Y1 B).
    assert (Ny : @rnd A0 (- y) = Fin (- y)) by (rewrite (rnd_opp _ G0), Ry; reflexivity).
    assert (T : / 2 ^ 74 <= Rabs (- y)). { rewrite Rabs_Ropp, Rabs_right by lra. apply Rle_trans with 1; [|lra]. rewrite <- Rinv_1. apply Rinv_le; [lra|]. apply pow_R1_Rle. lra. }
    destruct (DM (- y) x Ny Rx T) as [Z|Z].
    + replace (x - y) with 0 by lra. apply fl_0.
    + apply fl_big. replace (x - y) with (- y + x) by lra. exact Z.
  - intros f Hf E. apply fl_machine in E. destruct E as [E B]. pose proof (rnd_one_minus _ G0 f Hf E) as Q. cbn [rnd A1].
    assert (Rf : flushed m (@rnd A0 f) = Fin f) by (rewrite E; destruct B as [B| ->]; [now apply fl_big|apply fl_0]).
    assert (F1 : flushed m (Fin 1) = Fin 1) by (apply fl_big; rewrite Rabs_R1; lra).
    destruct (@rnd A0 (1 - f)) as [g| | |] eqn:Eg; cbn [flushed].
    + destruct (Rlt_bool_spec (Rabs g) m) as [L|L]; cbn [nadd rnd A1].
      * rewrite Rplus_0_r, Rf. apply nle_fin. lra.
      * cbn [nadd] in Q. rewrite <- F1. apply fl_mono. exact Q.
    + cbn [nadd] in *. exact Q.
    + cbn [nadd] in *. exact Q.
    + cbn [nadd] in *. exact Q.
  - intros x Hx. destruct (rnd_err _ G0 x Hx) as (y & E & A). destruct (@rnd A1 x) as [z| | |] eqn:E1; try (cbn [rnd A1] in E1; rewrite E in E1; cbn [flushed] in E1; destruct (Rlt_bool _ _) in E1; discriminate).
    exists z. split; auto. destruct (fl_near _ _ E1) as [L|L]; [|rewrite E in L; injection L as <-; exact A]. eapply Rle_trans; [exact L|]. eapply Rle_trans; [exact Lm|]. apply Rinv_le; [apply pow_lt; lra|]. apply Rle_pow; [lra|lia].
  - intros x Hx. destruct (rnd_range _ G0 x Hx) as (y & E). cbn [rnd A1]. rewrite E. cbn [flushed]. destruct (Rlt_bool _ _); eauto.
Qed.
Lemma add_flush v : (forall x y z, @rnd A0 x = Fin x -> @rnd A0 y = Fin y -> @rnd A0 (x + y) = Fin z -> Rabs (z - (x + y)) <= v * Rabs (x + y)) ->
  forall x y z, @rnd A1 x = Fin x -> @rnd A1 y = Fin y -> @rnd A1 (x + y) = Fin z -> safe_sum x y -> Rabs (z - (x + y)) <= v * Rabs (x + y).
Proof.
  intros AD x y z Ex Ey Ez S. apply fl_machine in Ex, Ey. destruct Ex as [Rx Bx], Ey as [Ry By]. destruct (fl_inv _ _ Ez) as [[-> L]|[Q _]]; [|now apply AD].
  assert (Z : x + y = 0).
  { destruct S as [[X0 Y0]|[S|[S|S]]].
    - rewrite Rabs_right in L by lra. rewrite Rabs_right in Bx, By by lra. destruct Bx, By; lra.
    - destruct (DM x y Rx Ry S); auto; lra.
    - destruct (DM y x Ry Rx S) as [Z|Z]; rewrite Rplus_comm in Z; auto; lra.
    - assert (/ 2 ^ 126 <= / 2 ^ 100) by (apply Rinv_le; [apply pow_lt; lra|]; apply Rle_pow; [lra|lia]). lra. }
  rewrite Z. replace (0 - 0) with 0 by lra. rewrite Rabs_R0. lra.
Qed.
End Flush.

Lemma good_double red lib : any_order red -> accurate_library (double_precision red lib) (/ 2 ^ 20) -> good_rounding (double_precision red lib).
Proof. intros O A. apply good_ieee; try lia; auto. apply bpow_ge_0. Qed.
Lemma good_single red lib : any_order red -> accurate_library (single_precision red lib) (/ 2 ^ 20) -> good_rounding (single_precision red lib).
Proof. intros O A. apply good_ieee; try lia; auto. apply bpow_ge_0. Qed.
Definition rounded64 (f : elementary) : num := round_ieee 53 (-1074) 1024 (elem_value f).
Definition rounded32 (f : elementary) : num := round_ieee 24 (-149) 128 (elem_value f).
Lemma accurate64 red : accurate_library (double_precision red rounded64) (/ 2 ^ 53).
Proof. apply correct_accurate; lia. Qed.
Lemma accurate32 red : accurate_library (single_precision red rounded32) (/ 2 ^ 24).
Proof. apply correct_accurate; lia. Qed.
Lemma half_pow_le a b : (b <= a)%nat -> / 2 ^ a <= / 2 ^ b.
Proof. intros H. apply Rinv_le; [apply pow_lt; lra|]. apply Rle_pow; [lra|auto]. Qed.
(** the flushed arithmetics *)
Lemma inv_bpow k : / 2 ^ k = bpow radix2 (- Z.of_nat k).
Proof. rewrite bpow_opp, (pow_IZR_bpow k). reflexivity. Qed.
Lemma normal64 : @rnd binary64 (bpow radix2 (-1022)) = Fin (bpow radix2 (-1022)).
Proof. apply ri_id; [apply generic_format_bpow; unfold FLT_exp; lia|]. rewrite Rabs_right by apply Rle_ge, bpow_ge_0. apply bpow_lt. lia. Qed.
Lemma normal32 : @rnd binary32 (bpow radix2 (-126)) = Fin (bpow radix2 (-126)).
Proof. apply ri_id; [apply generic_format_bpow; unfold FLT_exp; lia|]. rewrite Rabs_right by apply Rle_ge, bpow_ge_0. apply bpow_lt. lia. Qed.
Lemma small64 : bpow radix2 (-1022) <= / 2 ^ 126.
Proof. rewrite inv_bpow. apply bpow_le. lia. Qed.
Lemma small32 : bpow radix2 (-126) <= / 2 ^ 126.
Proof. rewrite inv_bpow. apply bpow_le. lia. Qed.
Lemma apart64 x y : @rnd binary64 x = Fin x -> @rnd binary64 y = Fin y -> / 2 ^ 74 <= Rabs x -> x + y = 0 \/ bpow radix2 (-1022) <= Rabs (x + y).
Proof.
  intros Rx Ry B. rewrite inv_bpow in B. destruct (sum_not_tiny 53 (-1074) 1024 53 x y) as [Z|Z]; try lia; auto. right. eapply Rle_trans; [|exact Z]. apply bpow_le. lia.
Qed.
Lemma apart32 x y : @rnd binary32 x = Fin x -> @rnd binary32 y = Fin y -> / 2 ^ 74 <= Rabs x -> x + y = 0 \/ bpow radix2 (-126) <= Rabs (x + y).
Proof.
  intros Rx Ry B. rewrite inv_bpow in B. destruct (sum_not_tiny 24 (-149) 128 24 x y) as [Z|Z]; try lia; auto. right. eapply Rle_trans; [|exact Z]. apply bpow_le. lia.
Qed.
Lemma good_binary64 : good_rounding binary64.
Proof. apply good_double; [apply left_to_right_any_order|]. eapply accurate_weaken; [apply accurate64|apply half_pow_le; lia]. Qed.
Lemma good_binary32 : good_rounding binary32.
Proof. apply good_single; [apply left_to_right_any_order|]. eapply accurate_weaken; [apply accurate32|apply half_pow_le; lia]. Qed.
Lemma good_double_flushed red lib : any_order red -> accurate_library (double_flushed red lib) (/ 2 ^ 20) -> good_rounding (double_flushed red lib).
Proof. intros O A. apply (good_flush good_binary64 (bpow radix2 (-1022)) (bpow_gt_0 _ _) normal64 small64 apart64 _ (bpow_ge_0 _ _) red O lib A). Qed.
Lemma good_single_flushed red lib : any_order red -> accurate_library (single_flushed red lib) (/ 2 ^ 20) -> good_rounding (single_flushed red lib).
Proof. intros O A. apply (good_flush good_binary32 (bpow radix2 (-126)) (bpow_gt_0 _ _) normal32 small32 apart32 _ (bpow_ge_0 _ _) red O lib A). Qed.
(** a correctly rounded, flushed library *)
Definition rounded64f (f : elementary) : num := flushed (bpow radix2 (-1022)) (rounded64 f).
Definition rounded32f (f : elementary) : num := flushed (bpow radix2 (-126)) (rounded32 f).
Lemma accurate_flush {A0 : Arith} (G0 : good_rounding A0) m eps red k : 0 < m -> @rnd A0 m = Fin m -> m <= / 2 ^ k * / 2 ^ 102 -> m <= / 2 ^ 126 ->
  (forall x y, @rnd A0 x = Fin x -> @rnd A0 y = Fin y -> / 2 ^ 74 <= Rabs x -> x + y = 0 \/ m <= Rabs (x + y)) ->
  (forall f, @elem A0 f = @rnd A0 (elem_value f)) -> accurate_library A0 (/ 2 ^ k) ->
  accurate_library {| rnd := fun x => flushed m (@rnd A0 x); interp_eps := eps; reduce := red; elem := fun f => flushed m (@elem A0 f) |} (/ 2 ^ k).
Proof.
  intros Pm Rm Lm Lm' _ EL ACC f D. set (A1 := {| rnd := fun x => flushed m (@rnd A0 x); interp_eps := eps; reduce := red; elem := fun f => flushed m (@elem A0 f) |}).
  assert (MI : forall z, @rnd A0 z = Fin z -> m <= Rabs z \/ z = 0 -> @rnd A1 z = Fin z).
  { intros z Rz B. cbn [rnd A1]. rewrite Rz. destruct B as [B| ->]; [now apply fl_big|now apply fl_0]. }
  destruct (ACC f D) as (N & F & B & S). split; [|split; [|split]].
  - cbn [elem A1]. destruct (@elem A0 f); cbn [flushed]; try congruence. destruct (Rlt_bool _ _); discriminate.
  - intros z Ez. pose proof Ez as Ez'. cbn [elem A1] in Ez. rewrite EL in Ez.
    destruct (fl_inv G0 m Pm Rm eps red (@elem A0) (elem_value f) z Ez) as [[-> L]|[Q W]].
    + split; [cbn [rnd A1]; rewrite (fl_zero G0); now apply fl_0|]. replace (0 - elem_value f) with (- elem_value f) by lra. rewrite Rabs_Ropp.
      assert (0 <= / 2 ^ k * Rabs (elem_value f)) by (apply Rmult_le_pos; [left; apply Rinv_0_lt_compat, pow_lt; lra|apply Rabs_pos]). lra.
    + rewrite <- EL in Q. destruct (F z Q) as [F1 F2]. split; auto.
  - intros L. destruct (B L) as (z & Ez). cbn [elem A1]. rewrite Ez. cbn [flushed]. destruct (Rlt_bool _ _); eauto.
  - assert (FM : forall q, q = 0 \/ q = 1 -> flushed m (Fin q) = Fin q).
    { intros q [->| ->]; [now apply fl_0|apply fl_big; rewrite Rabs_R1]. eapply Rle_trans; [exact Lm'|]. rewrite <- Rinv_1. apply Rinv_le; [lra|]. apply pow_R1_Rle. lra. }
    intros q Hq. destruct (S q Hq) as [S1 S2]. split; intros L; cbn [elem A1].
    + pose proof (fl_mono m _ _ (S1 L)) as Q. rewrite (FM q Hq) in Q. exact Q.
    + pose proof (fl_mono m _ _ (S2 L)) as Q. rewrite (FM q Hq) in Q. exact Q.
Qed.
Lemma accurate64f red : accurate_library (double_flushed red rounded64f) (/ 2 ^ 53).
Proof.
  apply (accurate_flush (A0 := binary64) good_binary64 (bpow radix2 (-1022)) (bpow radix2 (-104)) red 53 (bpow_gt_0 _ _) normal64); [|exact small64|exact apart64|reflexivity|apply accurate64].
  rewrite !inv_bpow, <- bpow_plus. apply bpow_le. lia.
Qed.
Lemma accurate32f red : accurate_library (single_flushed red rounded32f) (/ 2 ^ 24).
Proof.
  apply (accurate_flush (A0 := binary32) good_binary32 (bpow radix2 (-126)) (bpow radix2 (-46)) red 24 (bpow_gt_0 _ _) normal32); [|exact small32|exact apart32|reflexivity|apply accurate32].
  rewrite !inv_bpow, <- bpow_plus. apply bpow_le. lia.
Qed.
Lemma correct_monotone AR : good_rounding AR -> (forall f, elem f = rnd (elem_value f)) -> monotone_library AR.
Proof.
  intros G E x y L. rewrite !E. cbn [elem_value]. split; [|split].
  - apply (rnd_mono _ G). destruct L as [L|<-]; [left; now apply exp_increasing|lra].
  - intros P. assert (M : ln x <= ln y) by (destruct L as [L|<-]; [left; apply ln_increasing; lra|lra]). split; apply (rnd_mono _ G); auto.
    assert (0 < ln 10) by (rewrite <- ln_1; apply ln_increasing; lra). apply Rmult_le_compat_r; auto. left. now apply Rinv_0_lt_compat.
  - intros b B. rewrite !E. apply (rnd_mono _ G). cbn [elem_value]. apply Rle_Rpower; lra.
Qed.
