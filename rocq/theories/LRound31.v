(** * Burst weights in rounded arithmetic: normalised burst, mixing with the smooth weights *)
From Coq Require Import Reals List Arith Lra Lia ZArith Bool.
From Coquelicot Require Import Coquelicot.
From Flocq Require Import Core.Raux Core.Zaux Core.Generic_fmt Core.FLX Core.FLT Core.Ulp Core.Round_NE Core.Defs.
From Verif Require Import Num Arr MUtils MSed MDiffburst Float Spec SpecFloat RList LOrder LUtils LCalc LKern LBurst LFloat LFloat2 LFloat3 LFloat4 LFloat5 LFloat9 LFloat10 LFloat11 LRound1 LRound2 LRound3 LRound4 LRound5 LRound6 LRound29 LRound30.
Import ListNotations.
Open Scope R_scope.

(** rounding of a number below 1 + u gives at most 1 *)
Lemma ri_le_1 prec emin emax x z : (24 <= prec)%Z -> (emin <= -149)%Z -> (emin <= - prec)%Z -> (128 <= emax)%Z -> round_ieee prec emin emax x = Fin z -> x < 1 + / 2 * bpow radix2 (1 - prec) -> z <= 1.
Proof.
  intros P1 E1 E2 E3 E X. assert (P : Prec_gt_0 prec) by (unfold Prec_gt_0; lia). apply ri_inv in E. destruct E as [-> _].
  apply round_N_le_midp; [apply FLT_exp_valid; exact P| |].
  - apply fmt_int; lia.
  - rewrite succ_eq_pos by lra. change 1 with (bpow radix2 0) at 2 3. rewrite ulp_bpow. unfold FLT_exp. replace (Z.max (0 + 1 - prec) emin) with (1 - prec)%Z by lia. change (bpow radix2 0) with 1. lra.
Qed.
(** sharp versions, with the unit roundoff [v] of the precision *)
Lemma sharp_rounding AR u : accurate_to AR u -> exists v, 0 < v <= u /\ (forall x z, rnd x = Fin z -> x < 1 + v -> z <= 1)
  /\ (forall x y z, rnd x = Fin x -> rnd y = Fin y -> rnd (x + y) = Fin z -> safe_sum x y -> Rabs (z - (x + y)) <= v * Rabs (x + y)).
Proof.
  assert (C53 : forall x, x < 1 + / 2 ^ 53 -> x < 1 + / 2 * bpow radix2 (1 - 53)).
  { intros x X. change (1 - 53)%Z with (- Z.of_nat 52)%Z. rewrite bpow_inv. eapply Rlt_le_trans; [exact X|]. apply Rplus_le_compat_l. rewrite <- Rinv_mult. right. f_equal. }
  assert (C24 : forall x, x < 1 + / 2 ^ 24 -> x < 1 + / 2 * bpow radix2 (1 - 24)).
  { intros x X. change (1 - 24)%Z with (- Z.of_nat 23)%Z. rewrite bpow_inv. eapply Rlt_le_trans; [exact X|]. apply Rplus_le_compat_l. rewrite <- Rinv_mult. right. f_equal. }
  assert (FL : forall m v z, flushed m v = Fin z -> z = 0 \/ v = Fin z).
  { intros m v z. unfold flushed. destruct v as [y| | |]; try discriminate. destruct (Rlt_bool _ _); intros E; injection E as <-; auto. }
  intros ((red & lib & _ & [[[->| ->] Hu]|[[->| ->] Hu]]) & _).
  - exists (/ 2 ^ 53). split; [split; [apply Rinv_0_lt_compat, pow_lt; lra|lra]|]. split.
    + intros x z E X. cbn [rnd double_precision] in E. eapply ri_le_1 in E; eauto; lia.
    + exact (re_add _ _ (rel_err_unit _ _ unit64)).
  - exists (/ 2 ^ 53). split; [split; [apply Rinv_0_lt_compat, pow_lt; lra|lra]|]. split.
    + intros x z E X. cbn [rnd double_flushed] in E. destruct (FL _ _ _ E) as [->|E']; [lra|]. eapply ri_le_1 in E'; eauto; lia.
    + exact (re_add _ _ (rel_err_unit _ _ (unit64f_any _ left_to_right_any_order))).
  - exists (/ 2 ^ 24). split; [split; [apply Rinv_0_lt_compat, pow_lt; lra|lra]|]. split.
    + intros x z E X. cbn [rnd single_precision] in E. eapply ri_le_1 in E; eauto; lia.
    + exact (re_add _ _ (rel_err_unit _ _ unit32)).
  - exists (/ 2 ^ 24). split; [split; [apply Rinv_0_lt_compat, pow_lt; lra|lra]|]. split.
    + intros x z E X. cbn [rnd single_flushed] in E. destruct (FL _ _ _ E) as [->|E']; [lra|]. eapply ri_le_1 in E'; eauto; lia.
    + exact (re_add _ _ (rel_err_unit _ _ (unit32f_any _ left_to_right_any_order))).
Qed.

Definition sumdiff (a b : list R) : R := Rsum (map2 (fun x y => Rabs (x - y)) a b).
Lemma sumdiff_map {A} (f g : A -> R) l : sumdiff (map f l) (map g l) = Rsum (map (fun x => Rabs (f x - g x)) l).
Proof. unfold sumdiff. induction l as [|a l IH]; [reflexivity|]. cbn [map map2 Rsum]. now rewrite IH. Qed.
Lemma Rsum_map_le {A} (f g : A -> R) l : (forall a, In a l -> f a <= g a) -> Rsum (map f l) <= Rsum (map g l).
Proof. induction l as [|a l IH]; intros K; [cbn; lra|]. cbn [map Rsum]. pose proof (K a (or_introl eq_refl)). specialize (IH (fun b Hb => K b (or_intror Hb))). lra. Qed.
Lemma Rsum_map_const {A} (l : list A) c : Rsum (map (fun _ => c) l) = INR (length l) * c.
Proof. induction l as [|a l IH]; [cbn; lra|]. cbn [map Rsum length]. rewrite S_INR, IH. lra. Qed.
Lemma Rsum_map_plus {A} (f g : A -> R) l : Rsum (map (fun a => f a + g a) l) = Rsum (map f l) + Rsum (map g l).
Proof. induction l as [|a l IH]; [cbn; lra|]. cbn [map Rsum]. rewrite IH. lra. Qed.
Lemma Rsum_map_scal {A} (f : A -> R) c l : Rsum (map (fun a => c * f a) l) = c * Rsum (map f l).
Proof. induction l as [|a l IH]; [cbn; lra|]. cbn [map Rsum]. rewrite IH. lra. Qed.

(** normalising two nearby non-negative vectors *)
Lemma normalise_diff {A} (p q : A -> R) l E : (forall a, In a l -> 0 <= p a) -> (forall a, In a l -> Rabs (p a - q a) <= E) -> 0 < Rsum (map p l) -> 0 < Rsum (map q l) ->
  Rsum (map (fun a => Rabs (p a / Rsum (map p l) - q a / Rsum (map q l))) l) <= 2 * (INR (length l) * E) / Rsum (map q l).
Proof.
  intros P0 D. set (P := Rsum (map p l)). set (Q := Rsum (map q l)). intros HP HQ.
  assert (S : Rsum (map (fun a => Rabs (p a - q a)) l) <= INR (length l) * E) by (rewrite <- Rsum_map_const; apply Rsum_map_le; exact D).
  assert (PQ : Rabs (P - Q) <= INR (length l) * E).
  { eapply Rle_trans; [|exact S]. unfold P, Q. clear. induction l as [|a l IH]; [cbn; rewrite Rminus_0_r, Rabs_R0; lra|]. cbn [map Rsum].
    replace (p a + Rsum (map p l) - (q a + Rsum (map q l))) with ((p a - q a) + (Rsum (map p l) - Rsum (map q l))) by ring. eapply Rle_trans; [apply Rabs_triang|]. lra. }
  apply Rle_trans with (Rsum (map (fun a => / Q * Rabs (p a - q a) + Rabs (P - Q) / (P * Q) * p a) l)).
  - apply Rsum_map_le. intros a Ha. replace (p a / P - q a / Q) with (/ Q * (p a - q a) + - ((P - Q) / (P * Q) * p a)) by (field; lra).
    eapply Rle_trans; [apply Rabs_triang|]. rewrite Rabs_Ropp, !Rabs_mult. rewrite (Rabs_right (/ Q)) by (apply Rle_ge; left; now apply Rinv_0_lt_compat).
    rewrite (Rabs_right (p a)) by (apply Rle_ge; auto). apply Rplus_le_compat_l. right. f_equal. unfold Rdiv. rewrite Rabs_mult. f_equal. apply Rabs_right. apply Rle_ge. left. apply Rinv_0_lt_compat. now apply Rmult_lt_0_compat.
  - rewrite Rsum_map_plus, !Rsum_map_scal. fold P. replace (Rabs (P - Q) / (P * Q) * P) with (/ Q * Rabs (P - Q)) by (field; lra).
    replace (2 * (INR (length l) * E) / Q) with (/ Q * (INR (length l) * E) + / Q * (INR (length l) * E)) by (field; lra).
    assert (0 <= / Q) by (left; now apply Rinv_0_lt_compat). apply Rplus_le_compat; apply Rmult_le_compat_l; auto.
Qed.

Section F.
Context {AR : Arith} (u : R) (H : rel_err AR u).
Let G := re_good _ _ H.

Lemma burst_float peak mx ages : burst_range peak mx -> List.Forall (fun a => -4 <= a <= 4) ages -> (length ages <= 2 ^ 18)%nat -> exists b,
  pureburst_age_weights_from_params (map (fun x => nadd x (Fin 9)) (fins ages)) (Fin peak) (Fin mx) = fins b
  /\ length b = length ages /\ List.Forall (fun x => 0 <= x <= 1 /\ rnd x = Fin x) b
  /\ ((exists a, In a ages /\ Rabs (a + 9 - peak) <= (mx - peak) / 2) ->
      Rabs (Rsum b - 1) <= 2 * (INR (length ages) + 1) * u
      /\ sumdiff b (burst_w peak mx (map (fun a => a + 9) ages)) <= 11000 * INR (length ages) * u).
Proof.
  intros BR FA LN. pose proof (u_le u H) as Hu. pose proof (re_u _ _ H) as Hu'. pose proof (re_tiny2 _ _ H) as T2.
  destruct (raw_params u H peak mx BR) as (m & h & Em & Eh & Rm & Rh & Am & Ah).
  destruct (raw_float u H peak mx m h BR Rm Rh Am Ah) as [Bh V]. unfold pureburst_age_weights_from_params. rewrite Em, Eh.
  set (vf := fun a => fval (triweight_gaussian (nadd (Fin a) (Fin 9)) (Fin m) (Fin h))).
  set (q := fun a => tw_density ((a + 9 - peak) / ((mx - peak) / 3))).
  assert (VF : forall a, In a ages -> triweight_gaussian (nadd (Fin a) (Fin 9)) (Fin m) (Fin h) = Fin (vf a) /\ nonneg_machine (vf a) /\ vf a <= 40 /\ Rabs (vf a * h - q a) <= 800 * u).
  { intros a Ha. rewrite List.Forall_forall in FA. destruct (V a (FA a Ha)) as (v & Ev & K). unfold vf, q. rewrite Ev. cbn [fval]. auto. }
  assert (EL : map (fun x => triweight_gaussian x (Fin m) (Fin h)) (map (fun x => nadd x (Fin 9)) (fins ages)) = fins (map vf ages)).
  { unfold fins. rewrite !map_map. apply map_ext_in. intros a Ha. apply (VF a Ha). }
  rewrite EL. set (l := map vf ages). assert (Ll : length l = length ages) by (unfold l; apply map_length).
  assert (NL : List.Forall nonneg_machine l) by (unfold l; apply List.Forall_map, List.Forall_forall; intros a Ha; apply (VF a Ha)).
  assert (SB : Rsum l <= 10 ^ 37).
  { apply Rle_trans with (INR (length ages) * 40).
    - unfold l. rewrite <- Rsum_map_const. apply Rsum_map_le. intros a Ha. apply (VF a Ha).
    - apply le_INR in LN. rewrite pow_INR in LN. simpl (INR 2) in LN. apply Rle_trans with (2 ^ 18 * 40); [lra|]. apply Rle_trans with (10 ^ 10); [simpl; lra|apply Rle_pow; [lra|lia]]. }
  assert (NU : INR (length l) * u <= / 16) by (rewrite Ll; apply n_u; auto).
  destruct (vsum_error H l NL NU SB) as (T & ET & [T0 RT] & BT).
  assert (PL : 0 <= Rsum l) by (apply Rsum_nonneg; eapply List.Forall_impl; [|exact NL]; intros z Hz; apply Hz).
  unfold zero_safe_normalize. rewrite ET, nleb_fin. unfold nwhere.
  destruct (normalised_error H l NL NU SB) as [[Z _]|(Sp & SE & K)].
  - (* nothing in the burst *)
    assert (T = 0) as -> by (rewrite Z in BT; lra). rewrite Rle_bool_true by lra.
    assert (Zl : List.Forall (fun x => x = 0) l) by (apply Rsum_nonneg_zero; auto; eapply List.Forall_impl; [|exact NL]; intros z Hz; apply Hz).
    exists l. assert (R0 := rnd0 G). split; [|split; [exact Ll|split]].
    + unfold fins. rewrite map_map. apply map_ext_in. intros a Ha. rewrite List.Forall_forall in Zl. rewrite (Zl a Ha). cbn [ndiv]. rewrite Req_bool_false by lra. replace (0 / 1) with 0 by lra. exact R0.
    + eapply List.Forall_impl; [|exact Zl]. intros a ->. split; [lra|exact R0].
    + intros (a & Ha & Da). exfalso. destruct (VF a Ha) as (_ & _ & _ & D). assert (vf a = 0) as Q. { rewrite List.Forall_forall in Zl. apply Zl. unfold l. now apply in_map. }
      rewrite Q in D. replace (0 * h - q a) with (- q a) in D by lra. rewrite Rabs_Ropp in D. assert (QB : 35/96 * (27/64) <= q a).
      { unfold q. rewrite dens_clip. destruct BR as (_ & _ & _ & _ & PM). apply Rmult_le_compat_l; [lra|]. set (z := (a + 9 - peak) / ((mx - peak) / 3)).
        assert (Cz : 0 <= clip z <= 1/2).
        { split; [apply clip_unit|]. unfold clip. eapply Rle_trans; [apply Rmin_r|]. unfold z, Rdiv. rewrite Rabs_mult, (Rabs_right (/ _)) by (apply Rle_ge; left; apply Rinv_0_lt_compat; lra).
          apply Rle_trans with ((mx - peak) / 2 * / ((mx - peak) * / 3) * / 3); [|right; field; lra]. apply Rmult_le_compat_r; [lra|]. apply Rmult_le_compat_r; [left; apply Rinv_0_lt_compat; lra|exact Da]. }
        replace (27/64) with ((3/4) ^ 3) by lra. apply pow_incr. nra. }
      rewrite Rabs_right in D by lra. simpl in Hu. lra.
  - assert (Tp : 0 < T) by (eapply Rlt_le_trans; [|apply BT]; apply Rmult_lt_0_compat; lra). rewrite Rle_bool_false by lra. rewrite ET in K, SE.
    set (b := fun a => fval (ndiv (Fin (vf a)) (Fin T))). exists (map b ages).
    assert (KA : forall a, In a ages -> exists x, ndiv (Fin (vf a)) (Fin T) = Fin x /\ 0 <= x <= 1 /\ rnd x = Fin x /\ Rabs (x - vf a / Rsum l) <= 2 * (INR (length l) + 1) * u * (vf a / Rsum l) + (u * / 2 ^ 102)).
    { intros a Ha. apply K. unfold l. now apply in_map. }
    split; [|split; [apply map_length|split]].
    + unfold l, fins. rewrite !map_map. apply map_ext_in. intros a Ha. unfold b. destruct (KA a Ha) as (x & -> & _). reflexivity.
    + apply List.Forall_map, List.Forall_forall. intros a Ha. unfold b. destruct (KA a Ha) as (x & -> & B & R & _). cbn [fval]. auto.
    + intros (a0 & Ha0 & Da). rewrite Ll in *. split; [unfold l in SE; rewrite map_map in SE; exact SE|].
      destruct BR as (_ & _ & _ & _ & PM). set (w := (mx - peak) / 3) in *. assert (Hw : 0 < w) by (unfold w; lra).
      assert (QB : 35/96 * (27/64) <= q a0).
      { unfold q. rewrite dens_clip. apply Rmult_le_compat_l; [lra|]. set (z := (a0 + 9 - peak) / w).
        assert (Cz : 0 <= clip z <= 1/2).
        { split; [apply clip_unit|]. unfold clip. eapply Rle_trans; [apply Rmin_r|]. unfold z, Rdiv. rewrite Rabs_mult, (Rabs_right (/ _)) by (apply Rle_ge; left; apply Rinv_0_lt_compat; lra).
          apply Rle_trans with ((mx - peak) / 2 * / w * / 3); [|right; unfold w; field; lra]. apply Rmult_le_compat_r; [lra|]. apply Rmult_le_compat_r; [left; apply Rinv_0_lt_compat; lra|exact Da]. }
        replace (27/64) with ((3/4) ^ 3) by lra. apply pow_incr. nra. }
      set (Q := Rsum (map q ages)).
      assert (QQ : 0.1537 <= Q).
      { apply Rle_trans with (q a0); [lra|]. unfold Q. clear - Ha0. induction ages as [|c l IH]; [destruct Ha0|]. cbn [map Rsum]. assert (0 <= Rsum (map q l)) by (apply Rsum_nonneg, List.Forall_map, List.Forall_forall; intros; apply dens_le).
        assert (0 <= q c) by apply dens_le. destruct Ha0 as [->|Ha0]; [lra|]. specialize (IH Ha0). lra. }
      assert (EB : burst_w peak mx (map (fun a => a + 9) ages) = map (fun a => q a / Q) ages).
      { unfold burst_w. rewrite map_map. assert (BN : burst_norm peak mx (map (fun a => a + 9) ages) = Q / w).
        { unfold burst_norm. rewrite map_map. unfold burst_raw. fold w. assert (ES : Rsum (map (fun x => tw_density ((x + 9 - peak) / w) / w) ages) = Q / w).
          { unfold Q, Rdiv. rewrite Rmult_comm. rewrite <- Rsum_map_scal. f_equal. apply map_ext. intros a. unfold q. fold w. unfold Rdiv. lra. }
          rewrite ES. assert (0 < Q / w) by (apply Rdiv_lt_0_compat; lra). destruct (Rle_dec (Q / w) 0); lra. }
        rewrite BN. apply map_ext. intros a. unfold burst_raw. fold w. unfold q. fold w. field. lra. }
      rewrite EB, sumdiff_map. set (n := INR (length ages)) in *. assert (N1 : 1 <= n).
      { unfold n. destruct ages; [destruct Ha0|]. cbn [length]. rewrite S_INR. pose proof (pos_INR (length ages)). lra. }
      pose proof (normalise_diff (fun a => vf a * h) q ages (800 * u)) as ND. fold Q in ND.
      assert (ESh : Rsum (map (fun a => vf a * h) ages) = Rsum l * h).
      { unfold l. rewrite (Rmult_comm _ h), <- Rsum_map_scal. f_equal. apply map_ext. intros; lra. }
      rewrite ESh in ND. specialize (ND ltac:(intros a Ha; apply Rmult_le_pos; [apply (VF a Ha)|lra]) ltac:(intros a Ha; apply (VF a Ha)) ltac:(apply Rmult_lt_0_compat; lra) ltac:(lra)).
      apply Rle_trans with (Rsum (map (fun a => (2 * (n + 1) * u * (vf a / Rsum l) + (u * / 2 ^ 102)) + Rabs (vf a * h / (Rsum l * h) - q a / Q)) ages)).
      * apply Rsum_map_le. intros a Ha. unfold b. destruct (KA a Ha) as (x & -> & B & R & D). cbn [fval]. replace (vf a * h / (Rsum l * h)) with (vf a / Rsum l) by (field; lra).
        replace (x - q a / Q) with ((x - vf a / Rsum l) + (vf a / Rsum l - q a / Q)) by ring. eapply Rle_trans; [apply Rabs_triang|]. apply Rplus_le_compat_r. exact D.
      * rewrite !Rsum_map_plus, Rsum_map_scal, Rsum_map_const. fold n.
        assert (E1 : Rsum (map (fun a => vf a / Rsum l) ages) = 1).
        { replace 1 with (/ Rsum l * Rsum l) by (field; lra). unfold l at 3. rewrite <- Rsum_map_scal. f_equal. apply map_ext. intros; unfold Rdiv; lra. }
        rewrite E1. assert (E2 : 2 * (n * (800 * u)) / Q <= 10410 * (n * u)).
        { apply Rmult_le_reg_r with Q; [lra|]. unfold Rdiv. rewrite Rmult_assoc, Rinv_l by lra. assert (0 <= n * u) by (apply Rmult_le_pos; lra).
          assert (10410 * (n * u) * 0.1537 <= 10410 * (n * u) * Q) by (apply Rmult_le_compat_l; lra). lra. }
        assert (E3 : n * (u * / 2 ^ 102) <= n * (u * / 2 ^ 90)) by (apply Rmult_le_compat_l; lra).
        assert (E4 : n * (u * / 2 ^ 90) <= n * u). { apply Rmult_le_compat_l; [lra|]. rewrite <- (Rmult_1_r u) at 2. apply Rmult_le_compat_l; [lra|]. rewrite <- Rinv_1. apply Rinv_le; [lra|apply pow_R1_Rle; lra]. }
        assert (E5 : u <= n * u) by (rewrite <- (Rmult_1_l u) at 1; apply Rmult_le_compat_r; lra). fold n in ND. lra.
Qed.
End F.
