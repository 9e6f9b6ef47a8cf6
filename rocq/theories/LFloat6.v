(** * Age weights from a star-formation history, in rounded arithmetic *)
From Coq Require Import Reals List Arith Lra Lia ZArith Bool.
From Flocq Require Import Core.Raux.
From Verif Require Import Num Arr MUtils MSed Float Spec SpecFloat RList LBcast LUtils LFloat LFloat2 LFloat3 LFloat4 LFloat5.
Import ListNotations.
Open Scope R_scope.

Lemma log10_mul x y : 0 < x -> 0 < y -> log10 (x * y) = log10 x + log10 y.
Proof. intros X Y. unfold log10. rewrite ln_mult by auto. unfold Rdiv. ring. Qed.
Lemma log10_div x y : 0 < x -> 0 < y -> log10 (x / y) = log10 x - log10 y.
Proof. intros X Y. unfold Rdiv. rewrite log10_mul by (auto; now apply Rinv_0_lt_compat). unfold log10. rewrite ln_Rinv by auto. unfold Rdiv. ring. Qed.
(** ln(1.001)/ln(10) *)
Lemma lg1001 : 3 / 10000 <= log10 1.001.
Proof.
  assert (A : 0.0009 <= ln 1.001).
  { rewrite <- (ln_exp 0.0009). destruct (Rle_lt_dec (exp 0.0009) 1.001) as [[H|H]|H]; [left; apply ln_increasing; auto; apply exp_pos|rewrite H; lra|exfalso].
    pose proof (exp_ineq1 (- (0.0009)) ltac:(lra)) as B. rewrite exp_Ropp in B. pose proof (exp_pos 0.0009) as P.
    assert (/ exp 0.0009 * exp 0.0009 = 1) by (apply Rinv_l; lra). assert ((1 + - 0.0009) * 1.001 < / exp 0.0009 * exp 0.0009) by (apply Rmult_le_0_lt_compat; lra). lra. }
  assert (B : 0 < ln 10 <= 3).
  { split; [rewrite <- ln_1; apply ln_increasing; lra|]. rewrite <- (ln_exp 3). left. apply ln_increasing; [lra|].
    assert (E : exp 1 * exp 1 * exp 1 = exp 3) by (rewrite <- !exp_plus; f_equal; lra). rewrite <- E.
    pose proof (exp_ineq1 (1/4) ltac:(lra)) as F. assert (X4 : exp 1 = exp (1/4) * exp (1/4) * (exp (1/4) * exp (1/4))) by (rewrite <- !exp_plus; f_equal; lra).
    assert (2.4 <= exp 1). { rewrite X4. assert (1.5625 <= exp (1/4) * exp (1/4)) by (apply Rle_trans with (1.25 * 1.25); [lra|apply Rmult_le_compat; lra]). apply Rle_trans with (1.5625 * 1.5625); [lra|apply Rmult_le_compat; lra]. }
    apply Rlt_le_trans with (2.4 * 2.4 * 2.4); [lra|]. apply Rmult_le_compat; try lra. apply Rmult_le_compat; lra. }
  unfold log10. apply Rmult_le_reg_r with (ln 10); [lra|]. unfold Rdiv. rewrite (Rmult_assoc (ln 1.001)), Rinv_l by lra. lra.
Qed.

Section Good.
Context {AR : Arith} (G : good_rounding AR) (LM : monotone_library AR).

Lemma elem_log x B : 0 < x -> 0 <= B <= 30 -> Rabs (log10 x) <= B -> exists y, elem (LOG10 x) = Fin y /\ rnd y = Fin y /\ Rabs (y - log10 x) <= 1 / 10000.
Proof.
  intros X HB L. destruct (elem_fin G (LOG10 x)) as (y & E & R & D); [exact X|cbn [elem_value]; fold (log10 x); apply Rle_trans with 30; [lra|simpl; lra]|].
  exists y. split; auto. split; auto. cbn [elem_value] in D. fold (log10 x) in D. eapply Rle_trans; [exact D|].
  assert (A : / 2 ^ 20 * Rabs (log10 x) <= / 1000000 * 30) by (apply Rmult_le_compat; [left; apply Rinv_0_lt_compat; lra|apply Rabs_pos|simpl; lra|lra]).
  assert (C : / 2 ^ 122 <= / 2 ^ 20) by (apply half_pow_le; lia). assert (/ 2 ^ 20 <= / 1000000) by (simpl; lra). lra.
Qed.

Lemma nle_finite_trans c d r : rnd c = Fin c -> 0 <= d -> rnd (c + d) = Fin r -> c <= r /\ rnd r = Fin r.
Proof.
  intros Rc Hd E. split; [|eapply (rnd_idem _ G); eauto].
  assert (W : nle (rnd c) (rnd (c + d))) by (apply (rnd_mono _ G); lra). rewrite Rc, E in W. now apply nle_fin.
Qed.

(** one trapezoid is non-negative (or infinite, or NaN) *)
Lemma trapezoid_step a b fa fb c r : rnd c = Fin c -> a <= b -> 0 <= fa -> 0 <= fb ->
  (Fin c + (Fin b - Fin a) * (Fin fb + Fin fa) / Fin 2)%num = Fin r -> c <= r /\ rnd r = Fin r.
Proof.
  intros Rc AB Fa Fb. unfold nsub. cbn [nopp nadd].
  pose proof (rnd_nonneg G (b + - a) ltac:(lra)) as N1. pose proof (rnd_nonneg G (fb + fa) ltac:(lra)) as N2.
  destruct (rnd (b + - a)) as [x| | |]; try discriminate; destruct (rnd (fb + fa)) as [y| | |]; try discriminate; rewrite ?nle_fin in *.
  - cbn [nmul]. pose proof (rnd_nonneg G (x * y) ltac:(apply Rmult_le_pos; lra)) as N3.
    destruct (rnd (x * y)) as [p| | |]; try discriminate; cbn [ndiv].
    + rewrite nle_fin in N3. rewrite Req_bool_false by lra. pose proof (rnd_nonneg G (p / 2) ltac:(lra)) as N4.
      destruct (rnd (p / 2)) as [q| | |]; try discriminate; cbn [nadd]; try discriminate. rewrite nle_fin in N4. now apply nle_finite_trans.
    + rewrite Rlt_bool_false by lra. cbn [nadd]. discriminate.
  - cbn [nmul]. unfold inf_times. destruct (Rlt_bool_spec 0 x); [|destruct (Rlt_bool_spec x 0); [lra|]]; cbn [ndiv]; rewrite ?Rlt_bool_false by lra; cbn [nadd]; discriminate.
  - cbn [nmul]. unfold inf_times. destruct (Rlt_bool_spec 0 y); [|destruct (Rlt_bool_spec y 0); [lra|]]; cbn [ndiv]; rewrite ?Rlt_bool_false by lra; cbn [nadd]; discriminate.
  - cbn [nmul ndiv]. rewrite Rlt_bool_false by lra. cbn [nadd]. discriminate.
Qed.

Lemma scan_mono xs : forall ys a fa c, length xs = length ys -> nondecreasing (a :: xs) -> 0 <= fa -> Forall (fun y => 0 <= y) ys -> rnd c = Fin c ->
  Forall (fun v => exists r, v = Fin r) (scan cumtrapz_scan_func (Fin a, Fin fa, Fin c) (combine (fins xs) (fins ys))) ->
  exists cs, scan cumtrapz_scan_func (Fin a, Fin fa, Fin c) (combine (fins xs) (fins ys)) = fins cs
    /\ length cs = length xs /\ nondecreasing (c :: cs) /\ Forall (fun r => rnd r = Fin r) cs.
Proof.
  induction xs as [|x xs IH]; intros ys a fa c L I Fa Fy Rc F.
  - exists []. split; [reflexivity|]. split; auto. split; [|constructor]. intros i j Hij. simpl in Hij. lia.
  - destruct ys as [|y ys]; [simpl in L; lia|]. cbn [fins map combine scan cumtrapz_scan_func] in F. apply Forall_cons_iff in F. destruct F as [(r & Er) F].
    apply Forall_cons_iff in Fy. destruct Fy as [Fy0 Fy].
    assert (AX : a <= x) by (specialize (I 0%nat 1%nat); unfold ent in I; simpl in I; apply I; lia).
    destruct (trapezoid_step a x fa y c r Rc AX Fa Fy0 Er) as [CR Rr]. rewrite Er in F.
    destruct (IH ys x y r ltac:(simpl in L; lia) (nondecreasing_tl _ _ I) Fy0 Fy Rr F) as (cs & E & Lc & Nc & Rcs).
    exists (r :: cs). cbn [fins map combine scan cumtrapz_scan_func]. rewrite Er. split; [f_equal; exact E|]. split; [simpl; lia|]. split; [|now constructor].
    intros i j Hij. destruct i as [|i].
    + destruct j as [|j]; [lia|]. rewrite ent_cons_S. unfold ent at 1. simpl nth at 1.
      apply Rle_trans with r; auto. destruct j as [|j]; [unfold ent; simpl; lra|]. apply (Nc 0%nat (S j)). simpl in *. lia.
    + destruct j as [|j]; [lia|]. rewrite !ent_cons_S. apply Nc. simpl in *. lia.
Qed.

Lemma float_cumulative_mass ts ss m : length ts = length ss -> increasing (0.001 :: ts) -> Forall (fun t => rnd t = Fin t) ts -> Forall (fun y => 0 <= y) ss ->
  cumulative_mstar_formed_k (fins ts) (fins ss) = fins m -> length m = length ts /\ nondecreasing m /\ Forall (fun r => rnd r = Fin r) m.
Proof.
  intros L I RT F. destruct (tbm G) as (b & Eb & Bb).
  assert (Es : exists s, SFR_MIN = Fin s /\ 0 <= s).
  { unfold SFR_MIN, lit. destruct (rnd_between G 0 (1 / 10 ^ 14) 1 (rnd0 G) (rnd1 G)) as (s & E & B).
    - split; [apply Rdiv_le_0_compat'; [lra|apply pow_lt; lra]|]. apply Rdiv_le_1'; [apply pow_lt; lra|apply pow_R1_Rle; lra].
    - exists s. split; auto. lra. }
  destruct Es as (s & Es & Sp). rewrite cum_k_same by (now rewrite !fins_length). unfold cumtrapz_k. rewrite Eb, Es. cbn [first at_ nth combine scan cumtrapz_scan_func tl].
  assert (E0 : (Fin 0 + (Fin b - Fin b) * (Fin s + Fin s) / Fin 2)%num = Fin 0).
  { unfold nsub. cbn [nopp nadd]. replace (b + - b) with 0 by lra. rewrite (rnd0 G).
    assert (rnd (s + s) <> NaN) by apply (rnd_not_nan G). pose proof (rnd_nonneg G (s + s) ltac:(lra)) as N.
    unfold SFR_MIN, lit in Es.
    destruct (rnd_range _ G (s + s)) as (y & ->).
    - assert (s <= 1). { apply (rnd_le_rep G (1 / 10 ^ 14) s 1); auto; [|apply (rnd1 G)]. apply Rdiv_le_1'; [apply pow_lt; lra|apply pow_R1_Rle; lra]. }
      rewrite Rabs_right by lra. apply Rle_trans with (10 ^ 1); [simpl; lra|]. apply Rle_pow; [lra|lia].
    - cbn [nmul]. rewrite Rmult_0_l, (rnd0 G). cbn [ndiv]. rewrite Req_bool_false by lra. replace (0 / 2) with 0 by lra. rewrite (rnd0 G). cbn [nadd]. replace (0 + 0) with 0 by lra. apply (rnd0 G). }
  change (nth 0 (Fin b :: fins ts) NaN) with (Fin b). change (nth 0 (Fin s :: fins ss) NaN) with (Fin s).
  rewrite E0. intros Em.
  assert (Ib : nondecreasing (b :: ts)).
  { intros i j Hij. destruct j as [|j]; [lia|]. simpl in Hij. rewrite ent_cons_S. destruct i as [|i].
    - unfold ent at 1. simpl. assert (0.001 < ent ts j) by (specialize (I 0%nat (S j)); rewrite ent_cons_S in I; unfold ent at 1 in I; simpl in I; apply I; lia).
      rewrite Forall_forall in RT. assert (Rj : rnd (ent ts j) = Fin (ent ts j)) by (apply RT, ent_In; lia).
      apply (rnd_le_rep G 0.001 b (ent ts j)); [lra|exact Rj|exact Eb].
    - rewrite ent_cons_S. apply Rlt_le. specialize (I (S i) (S j)). rewrite !ent_cons_S in I. apply I. simpl. lia. }
  set (sc := scan cumtrapz_scan_func (Fin b, Fin s, Fin 0) (combine (fins ts) (fins ss))) in *.
  assert (FF : Forall (fun v => exists r, v = Fin r) sc).
  { apply Forall_forall. intros v Hv. assert (Hm : In (nmul v YEAR_PER_GYR) (fins m)) by (rewrite <- Em; apply in_map_iff; eauto).
    unfold fins in Hm. apply in_map_iff in Hm. destruct Hm as (z & Ez & _). destruct v; eauto; unfold YEAR_PER_GYR in Ez; cbn [nmul] in Ez; try discriminate;
      unfold inf_times in Ez; destruct (Rlt_bool 0 (10 ^ 9)), (Rlt_bool (10 ^ 9) 0); discriminate. }
  destruct (scan_mono ts ss b s 0 L Ib Sp F (rnd0 G) FF) as (cs & E & Lc & Nc & Rc). fold sc in E. rewrite E in Em.
  assert (Lm : length m = length ts). { apply (f_equal (@length num)) in Em. rewrite map_length, !fins_length in Em. lia. }
  assert (K : forall i, (i < length m)%nat -> rnd (ent cs i * 10 ^ 9) = Fin (ent m i)).
  { intros i Hi. apply (f_equal (fun l => at_ l i)) in Em. rewrite at_fins in Em by auto. unfold at_, fins in Em.
    rewrite (nth_map' _ _ _ NaN) in Em by (rewrite map_length; lia). rewrite (nth_map' _ _ _ 0) in Em by lia. exact Em. }
  split; auto. split.
  - intros i j Hij. assert (W : nle (rnd (ent cs i * 10 ^ 9)) (rnd (ent cs j * 10 ^ 9))).
    { apply (rnd_mono _ G). apply Rmult_le_compat_r; [apply pow_le; lra|]. specialize (Nc (S i) (S j)). rewrite !ent_cons_S in Nc. apply Nc. simpl. lia. }
    rewrite !K in W by lia. now apply nle_fin.
  - apply Forall_forall. intros r Hr. apply In_ent in Hr. destruct Hr as (i & Hi & <-). eapply (rnd_idem _ G). apply K. auto.
Qed.

Lemma float_age_weights_sfh ts ss ages t smin m k : length ts = length ss -> ts <> [] -> increasing (0.001 :: ts) ->
  Forall (fun x => rnd x = Fin x /\ x <= 1000) ts -> rnd t = Fin t -> t <= 1000 -> 0 < smin ->
  (3 <= length ages)%nat -> (forall i, (i < length ages)%nat -> -4 <= ent ages i <= 4) ->
  (forall i, (i < length ages)%nat -> age_edge ages i + / 2 ^ 16 <= age_edge ages (S i)) ->
  cumulative_mstar_formed (fins ts) (fins (floored smin ss)) = Ok (fins m) ->
  (1 <= k <= 15)%nat -> Forall (fun x => 1.001 * 10 ^ k <= x <= 10 ^ (2 * k) / 1.001) m ->
  exists w, calc_age_weights_from_sfh_table (fins ts) (fins ss) (fins ages) (Fin t) (Fin smin) = Ok w
    /\ length w = length ages /\ normalised_deltas w.
Proof.
  intros L NT I RT Rt Bt Sm L3 BA GA Em Hk Bm.
  assert (Lf : length ts = length (floored smin ss)) by (unfold floored; rewrite map_length; auto).
  apply cum_ok in Em.
  destruct (float_cumulative_mass ts (floored smin ss) m Lf I) as (Lm & Nm & Rm); auto.
  { eapply Forall_impl; [|exact RT]. intros x [H _]. exact H. }
  { unfold floored. apply Forall_map, Forall_forall. intros x _. pose proof (Rmax_l smin x). lra. }
  unfold calc_age_weights_from_sfh_table, check_sfh_tables, check_templates, check.
  rewrite fits_same by (now rewrite !fins_length).
  assert (negb (length (fins ts) =? 0)%nat = true) as ->.
  { rewrite fins_length. destruct ts; [congruence|reflexivity]. }
  assert ((3 <=? length (fins ages))%nat = true) as -> by (apply Nat.leb_le; now rewrite fins_length).
  assert (ET : exists T, map nlog10 (fins ts) = fins T /\ length T = length ts /\ nondecreasing T /\ forall i, (i < length T)%nat -> rnd (ent T i) = Fin (ent T i) /\ -1000 <= ent T i <= 1000).
  { assert (P : forall i, (i < length ts)%nat -> 0.001 < ent ts i <= 1000).
    { intros i Hi. split; [specialize (I 0%nat (S i)); rewrite ent_cons_S in I; unfold ent at 1 in I; simpl in I; apply I; lia|].
      rewrite Forall_forall in RT. apply RT, ent_In; auto. }
    assert (Q : forall i, (i < length ts)%nat -> exists y, nlog10 (Fin (ent ts i)) = Fin y /\ elem (LOG10 (ent ts i)) = Fin y /\ rnd y = Fin y /\ -1000 <= y <= 1000).
    { intros i Hi. specialize (P i Hi). unfold nlog10. rewrite Rlt_bool_true by lra.
      assert (-4 <= log10 (ent ts i) <= 4).
      { split; [apply Rle_trans with (log10 (1/1024)); [apply log10_1024|apply log10_le; lra]|].
        apply Rle_trans with (log10 1000); [apply log10_le; lra|]. pose proof log10_1000. lra. }
      destruct (elem_log (ent ts i) 4) as (x & Ex & Rx & B); try lra; [apply Rabs_le; lra|]. apply Rabs_le_inv in B. exists x. repeat split; auto; lra. }
    set (val := fun v => match v with Fin x => x | _ => 0 end).
    exists (map (fun x => val (nlog10 (Fin x))) ts).
    assert (V : forall i, (i < length ts)%nat -> Fin (ent (map (fun x => val (nlog10 (Fin x))) ts) i) = nlog10 (Fin (ent ts i))).
    { intros i Hi. rewrite ent_map by auto. destruct (Q i Hi) as (y & -> & _). reflexivity. }
    split; [|split; [|split]].
    - apply (list_eq_nth _ _ NaN); [unfold fins; now rewrite !map_length|]. unfold fins. rewrite !map_length. intros i Hi.
      rewrite (nth_map' _ _ _ NaN) by (now rewrite map_length). rewrite (nth_map' _ _ _ 0) by auto. rewrite (nth_map' _ _ _ 0) by (now rewrite map_length).
      symmetry. apply V. auto.
    - now rewrite map_length.
    - intros i j Hij. rewrite map_length in Hij. apply nle_fin. rewrite !V by lia. destruct (Q i ltac:(lia)) as (y & E & E' & _). destruct (Q j ltac:(lia)) as (z & F & F' & _).
      rewrite E, F, <- E', <- F'. apply (LM (ent ts i) (ent ts j)); [|pose proof (P i ltac:(lia)); lra]. specialize (I (S i) (S j)). rewrite !ent_cons_S in I. apply Rlt_le, I. simpl. lia.
    - rewrite map_length. intros i Hi. destruct (Q i Hi) as (y & E & E' & Ry & B). pose proof (V i Hi) as W. rewrite E in W. revert W.
      generalize (ent (map (fun x => val (nlog10 (Fin x))) ts) i). intros z W. injection W as ->.
      split; auto. }
  destruct ET as (T & ET & LT & NTT & RTT).
  assert (HK : forall i, (i < length m)%nat -> 1.001 * 10 ^ k <= ent m i <= 10 ^ (2 * k) / 1.001) by (intros i Hi; rewrite Forall_forall in Bm; apply Bm, ent_In; auto).
  assert (P10 : 0 < 10 ^ k) by (apply pow_lt; lra).
  assert (KL : forall j, log10 (10 ^ j) = INR j). { intros j. rewrite <- Rpower_pow by lra. apply log10_pow10. }
  assert (EB : forall x, 1.001 * 10 ^ k <= x <= 10 ^ (2 * k) / 1.001 -> exists y, nlog10 (Fin x) = Fin y /\ elem (LOG10 x) = Fin y /\ rnd y = Fin y /\ INR k <= y <= 2 * INR k).
  { intros x Hx. unfold nlog10. rewrite Rlt_bool_true by lra.
    assert (K15 : INR k <= 15) by (replace 15 with (INR 15) by (simpl; lra); apply le_INR; lia). pose proof (pos_INR k) as K0.
    pose proof lg1001 as LG. assert (B1 : INR k + 3 / 10000 <= log10 x). { rewrite <- (KL k). apply Rle_trans with (log10 (1.001 * 10 ^ k)); [rewrite log10_mul by lra; lra|apply log10_le; lra]. }
    assert (B2 : log10 x <= 2 * INR k - 3 / 10000). { replace (2 * INR k) with (INR (2 * k)) by (rewrite mult_INR; simpl (INR 2); lra). rewrite <- (KL (2 * k)%nat).
      assert (P2 : 0 < 10 ^ (2 * k)) by (apply pow_lt; lra). apply Rle_trans with (log10 (10 ^ (2 * k) / 1.001)); [apply log10_le; lra|rewrite log10_div by lra; lra]. }
    destruct (elem_log x 30) as (y & Ey & Ry & By); try lra; [apply Rabs_le; lra|]. apply Rabs_le_inv in By. exists y. repeat split; auto; lra. }
  set (val := fun v => match v with Fin x => x | _ => 0 end).
  set (SS := map (fun x => val (nlog10 (Fin x))) m).
  assert (V : forall i, (i < length m)%nat -> nlog10 (Fin (ent m i)) = Fin (ent SS i) /\ elem (LOG10 (ent m i)) = Fin (ent SS i) /\ rnd (ent SS i) = Fin (ent SS i) /\ INR k <= ent SS i <= 2 * INR k).
  { intros i Hi. unfold SS. rewrite ent_map by auto. destruct (EB _ (HK i Hi)) as (y & E & E' & Ry & B). rewrite E. simpl. auto. }
  assert (LSS : length SS = length m) by (unfold SS; now rewrite map_length).
  assert (ES : calc_logsm_table_from_sfh_table (fins ts) (fins ss) (Fin smin) = fins SS).
  { unfold calc_logsm_table_from_sfh_table.
    assert (EF : map (fun s => nwhere (s <? Fin smin)%num (Fin smin) s) (fins ss) = fins (floored smin ss)).
    { unfold floored, fins. rewrite !map_map. apply map_ext. intros x. unfold nwhere, nltb. destruct (Rlt_bool_spec x smin); f_equal; [rewrite Rmax_left|rewrite Rmax_right]; lra. }
    rewrite EF, Em. apply (list_eq_nth _ _ NaN); [unfold fins; rewrite !map_length; auto|]. unfold fins. rewrite !map_length. intros i Hi.
    rewrite (nth_map' _ _ _ NaN) by (now rewrite map_length). rewrite (nth_map' _ _ _ 0) by auto. rewrite (nth_map' _ _ _ 0) by (now rewrite LSS).
    apply V. auto. }
  unfold calc_age_weights_from_sfh_table_k. rewrite ES, ET.
  assert (MS : forall i j, (i < j < length SS)%nat -> ent SS i <= ent SS j).
  { intros i j Hij. apply nle_fin. destruct (V i ltac:(lia)) as (_ & <- & _). destruct (V j ltac:(lia)) as (_ & <- & _).
    apply (LM (ent m i) (ent m j)); [apply Nm; lia|pose proof (HK i ltac:(lia)); lra]. }
  eexists. split; [reflexivity|]. apply (float_age_weights G LM); auto.
  - split; [lia|]. split; auto. split; [intros i j Hij; apply MS; lia|].
    split; auto. split.
    { intros i Hi. apply (V i ltac:(lia)). }
    intros i Hi. destruct (V i ltac:(lia)) as (_ & _ & E & B). destruct (V (S i) ltac:(lia)) as (_ & _ & E' & B').
    assert (1 <= INR k) by (change 1 with (INR 1); apply le_INR; lia).
    assert (ent SS i <= ent SS (S i)) by (apply MS; lia).
    apply (rnd_sterbenz _ G); auto; lra.
  - intros Z. apply NT. destruct ts; auto. rewrite Z in LT. discriminate.
  - destruct (V (length SS - 1)%nat) as (_ & _ & _ & B); [destruct ts; [congruence|simpl in *; lia]|].
    assert (INR k <= 15) by (replace 15 with (INR 15) by (simpl; lra); apply le_INR; lia). lra.
Qed.
End Good.
