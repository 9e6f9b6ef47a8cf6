(** * Floating-point statements for the two IEEE formats *)
From Coq Require Import Reals List Arith Lra Lia ZArith Bool.
From Flocq Require Import Core.Raux.
From Verif Require Import Num Arr MUtils MDiffburst MMzr MDust MSed Float Spec SpecFloat LBcast LOrder LFloat LFloat2 LFloat3 LFloat5 LFloat6 LFloat7 LFloat8.
Import ListNotations.
Open Scope R_scope.

Lemma good_ieee_arithmetic AR : ieee_arithmetic AR -> good_rounding AR.
Proof.
  intros ((red & lib & OR & E) & A). assert (A' : accurate_library AR (/ 2 ^ 20)) by (eapply accurate_weaken; [exact A|apply half_pow_le; lia]).
  destruct E as [[-> | ->]|[-> | ->]]; [now apply good_double|now apply good_double_flushed|now apply good_single|now apply good_single_flushed].
Qed.

Lemma ieee64_any red : any_order red -> ieee_arithmetic (double_precision red rounded64).
Proof. intros O. split; [exists red, rounded64; split; auto; left; now left|eapply accurate_weaken; [apply accurate64|apply half_pow_le; lia]]. Qed.
Lemma ieee32_any red : any_order red -> ieee_arithmetic (single_precision red rounded32).
Proof. intros O. split; [exists red, rounded32; split; auto; right; now left|eapply accurate_weaken; [apply accurate32|apply half_pow_le; lia]]. Qed.
Lemma unit64_any red : any_order red -> accurate_to (double_precision red rounded64) (/ 2 ^ 53).
Proof. intros O. split; [exists red, rounded64; split; auto; left; split; [now left|]; split; [lra|apply half_pow_le; lia]|apply accurate64]. Qed.
Lemma unit32_any red : any_order red -> accurate_to (single_precision red rounded32) (/ 2 ^ 24).
Proof. intros O. split; [exists red, rounded32; split; auto; right; split; [now left|]; split; [lra|apply half_pow_le; lia]|apply accurate32]. Qed.
(** the same formats with subnormal results flushed to zero *)
Lemma ieee64f_any red : any_order red -> ieee_arithmetic (double_flushed red rounded64f).
Proof. intros O. split; [exists red, rounded64f; split; auto; left; now right|eapply accurate_weaken; [apply accurate64f|apply half_pow_le; lia]]. Qed.
Lemma ieee32f_any red : any_order red -> ieee_arithmetic (single_flushed red rounded32f).
Proof. intros O. split; [exists red, rounded32f; split; auto; right; now right|eapply accurate_weaken; [apply accurate32f|apply half_pow_le; lia]]. Qed.
Lemma unit64f_any red : any_order red -> accurate_to (double_flushed red rounded64f) (/ 2 ^ 53).
Proof. intros O. split; [exists red, rounded64f; split; auto; left; split; [now right|]; split; [lra|apply half_pow_le; lia]|apply accurate64f]. Qed.
Lemma unit32f_any red : any_order red -> accurate_to (single_flushed red rounded32f) (/ 2 ^ 24).
Proof. intros O. split; [exists red, rounded32f; split; auto; right; split; [now right|]; split; [lra|apply half_pow_le; lia]|apply accurate32f]. Qed.
Lemma ieee64 : ieee_arithmetic binary64. Proof. apply ieee64_any, left_to_right_any_order. Qed.
Lemma ieee32 : ieee_arithmetic binary32. Proof. apply ieee32_any, left_to_right_any_order. Qed.
Lemma unit64 : accurate_to binary64 (/ 2 ^ 53). Proof. apply unit64_any, left_to_right_any_order. Qed.
Lemma unit32 : accurate_to binary32 (/ 2 ^ 24). Proof. apply unit32_any, left_to_right_any_order. Qed.
Lemma mono64 : monotone_library binary64. Proof. apply correct_monotone; [exact good_binary64|reflexivity]. Qed.
Lemma mono32 : monotone_library binary32. Proof. apply correct_monotone; [exact good_binary32|reflexivity]. Qed.

Section Mono.
Context {AR : Arith} (G : good_rounding AR) (LM : monotone_library AR).
Lemma nadd_mono_l a b x : nle a b -> nle (nadd a (Fin x)) (nadd b (Fin x)).
Proof.
  destruct a as [p| | |], b as [q| | |]; intros H; try discriminate; cbn [nadd]; try reflexivity.
  - rewrite nle_fin in H. apply (rnd_mono _ G). lra.
  - pose proof (rnd_not_nan G (p + x)). destruct (rnd (p + x)); try reflexivity. congruence.
  - pose proof (rnd_not_nan G (q + x)). destruct (rnd (q + x)); try reflexivity. congruence.
Qed.
Lemma nadd_mono_r a b x : nle a b -> nle (nadd (Fin x) a) (nadd (Fin x) b).
Proof.
  assert (C : forall v, nadd (Fin x) v = nadd v (Fin x)) by (intros []; cbn [nadd]; auto; f_equal; lra). rewrite !C. apply nadd_mono_l.
Qed.
Lemma nmul_mono k a b : 0 < k -> nle a b -> nle (nmul (Fin k) a) (nmul (Fin k) b).
Proof.
  intros K. destruct a as [p| | |], b as [q| | |]; intros H; try discriminate; cbn [nmul]; unfold inf_times; rewrite ?Rlt_bool_true by lra; try reflexivity.
  - rewrite nle_fin in H. apply (rnd_mono _ G). nra.
  - pose proof (rnd_not_nan G (k * p)). destruct (rnd (k * p)); try reflexivity. congruence.
  - pose proof (rnd_not_nan G (k * q)). destruct (rnd (k * q)); try reflexivity. congruence.
Qed.
Lemma nopp_anti a b : nle a b -> nle (nopp b) (nopp a).
Proof. destruct a, b; intros H; try discriminate; cbn [nopp]; try reflexivity. rewrite nle_fin in *. lra. Qed.
Lemma nexp_mono a b : nle a b -> nle (nexp a) (nexp b).
Proof.
  destruct a as [p| | |], b as [q| | |]; intros H; try discriminate; cbn [nexp]; try reflexivity.
  - rewrite nle_fin in H. now apply LM.
  - destruct (lib_ok _ G (EXP p) I) as (N & _). destruct (elem (EXP p)); try reflexivity. congruence.
  - destruct (lib_ok _ G (EXP q) I) as (_ & _ & _ & S). apply S; [now left|]. apply Rlt_le, exp_pos.
  - apply nle_fin; lra.
Qed.
Lemma nexp_nonneg a : a <> NaN -> nle (Fin 0) (nexp a).
Proof. destruct a; intros N; try congruence; cbn [nexp]; try reflexivity; [|apply nle_fin; lra]. destruct (lib_ok _ G (EXP x) I) as (_ & _ & _ & S). apply S; [now left|]. apply Rlt_le, exp_pos. Qed.
Lemma nlogistic_mono a b : nle a b -> nle (nlogistic a) (nlogistic b).
Proof.
  intros H. unfold nlogistic.
  assert (Na : a <> NaN) by (intros ->; discriminate). assert (Nb : b <> NaN) by (intros ->; now apply nle_nan_r in H).
  assert (D : forall v, v <> NaN -> exists d, nadd (Fin 1) (nexp (nopp v)) = d /\ (d = PInf \/ exists y, d = Fin y /\ 1 <= y)).
  { intros v Nv. eexists. split; [reflexivity|]. assert (Nv' : nopp v <> NaN) by (destruct v; cbn; congruence).
    pose proof (nexp_nonneg (nopp v) Nv') as P. destruct (nexp (nopp v)) as [y| | |]; try discriminate; cbn [nadd]; auto.
    rewrite nle_fin in P. destruct (rnd_ge G 1 (1 + y) (rnd1 G) ltac:(lra)); auto. }
  assert (M : nle (nadd (Fin 1) (nexp (nopp b))) (nadd (Fin 1) (nexp (nopp a)))) by (apply nadd_mono_r, nexp_mono, nopp_anti, H).
  destruct (D a Na) as (da & Ea & Ca). destruct (D b Nb) as (db & Eb & Cb). rewrite Ea, Eb in *.
  destruct Ca as [->|(x & -> & X)], Cb as [->|(y & -> & Y)]; cbn [ndiv]; try discriminate; rewrite ?Req_bool_false by lra.
  - apply nle_fin; lra.
  - apply (rnd_nonneg G). apply Rlt_le, Rdiv_lt_0_compat; lra.
  - rewrite nle_fin in M. apply (rnd_mono _ G). unfold Rdiv. rewrite !Rmult_1_l. apply Rinv_le; lra.
Qed.
Lemma sigmoid_mono a b x0 k ylo yhi d : 0 < k -> nle a b -> rnd (yhi - ylo) = Fin d -> ylo <= yhi ->
  nle (sigmoid a (Fin x0) (Fin k) (Fin ylo) (Fin yhi)) (sigmoid b (Fin x0) (Fin k) (Fin ylo) (Fin yhi)).
Proof.
  intros K H E L. unfold sigmoid. cbv zeta. unfold nsub at 1 3. cbn [nopp nadd]. replace (yhi + - ylo) with (yhi - ylo) by lra. rewrite E.
  apply nadd_mono_r. assert (Dp : 0 <= d) by (apply (rnd_ge_rep G (yhi - ylo) d 0); [lra|apply (rnd0 G)|exact E]).
  assert (NN : nle (nlogistic (nmul (Fin k) (nsub a (Fin x0)))) (nlogistic (nmul (Fin k) (nsub b (Fin x0))))).
  { apply nlogistic_mono, nmul_mono; auto. unfold nsub. cbn [nopp]. now apply nadd_mono_l. }
  destruct Dp as [Dp| <-]; [now apply nmul_mono|].
  assert (Na : a <> NaN) by (intros ->; discriminate). assert (Nb : b <> NaN) by (intros ->; now apply nle_nan_r in H).
  assert (Z : forall v, v <> NaN -> nmul (Fin 0) (nlogistic (nmul (Fin k) (nsub v (Fin x0)))) = Fin 0).
  { intros v Nv. destruct (logistic_unit G (nmul (Fin k) (nsub v (Fin x0)))) as (r & -> & _).
    - apply (mul_fin_not_nan G); [lra|]. now apply (sub_fin_not_nan G).
    - cbn [nmul]. rewrite Rmult_0_l. apply (rnd0 G). }
  rewrite !Z by auto. apply nle_fin; lra.
Qed.
End Mono.

(** ** Statements *)
Lemma C93_sigmoid : forall AR : Arith, ieee_arithmetic AR -> forall (u : num) (x0 k ylo yhi : R),
  u <> NaN -> k <> 0 -> machine_number ylo -> machine_number yhi -> machine_number (yhi - ylo) -> ylo <= yhi ->
  exists y, sigmoid u (Fin x0) (Fin k) (Fin ylo) (Fin yhi) = Fin y /\ ylo <= y <= yhi.
Proof. intros AR I u x0 k ylo yhi N K Hl Hh Hd L. apply good_ieee_arithmetic in I. now apply (sigmoid_exact_height I). Qed.
Lemma C93_sigmoid_monotone : forall AR : Arith, ieee_arithmetic AR -> monotone_library AR -> forall (a b : num) (x0 k ylo yhi : R),
  nleb a b = true -> 0 < k -> machine_number (yhi - ylo) -> ylo <= yhi ->
  nleb (sigmoid a (Fin x0) (Fin k) (Fin ylo) (Fin yhi)) (sigmoid b (Fin x0) (Fin k) (Fin ylo) (Fin yhi)) = true.
Proof. intros AR I LM a b x0 k ylo yhi H K M L. apply good_ieee_arithmetic in I. now apply (sigmoid_mono I LM _ _ _ _ _ _ (yhi - ylo)). Qed.
Lemma C93_sigmoid_refuted : exists u x0 k ylo yhi y,
  @machine_number binary64 u /\ @machine_number binary64 x0 /\ @machine_number binary64 k /\ @machine_number binary64 ylo /\ @machine_number binary64 yhi
  /\ 0 < k /\ ylo < yhi
  /\ @sigmoid binary64 (Fin u) (Fin x0) (Fin k) (Fin ylo) (Fin yhi) = Fin y /\ yhi < y.
Proof.
  exists 1024, 0, 1, (-1), (3/4 * / 2 ^ 52), (/ 2 ^ 52).
  assert (I : forall n, (Z.abs n <= 2 ^ 24)%Z -> @machine_number binary64 (IZR n)).
  { intros n Hn. apply (rnd_dy good_binary64 n 0); auto; [lia|simpl; lra]. }
  destruct sigmoid_exceeds as (A & B & C). assert (0 < / 2 ^ 52) by (apply Rinv_0_lt_compat, pow_lt; lra).
  split; [apply (I 1024%Z); lia|]. split; [apply (I 0%Z); lia|]. split; [apply (I 1%Z); lia|]. split; [apply (I (-1)%Z); lia|].
  split; [exact B|]. split; [lra|]. split; [lra|]. split; [exact A|exact C].
Qed.
Lemma C93_burst : forall AR : Arith, ieee_arithmetic AR -> forall u_fb u_peak u_max : num,
  u_fb <> NaN -> u_peak <> NaN -> u_max <> NaN ->
  exists fb peak lo mx,
    get_params_from_u_params {| u_lgfburst := u_fb; u_lgyr_peak := u_peak; u_lgyr_max := u_max |}
      = {| lgfburst := Fin fb; lgyr_peak := Fin peak; lgyr_max := Fin mx |}
    /\ -8 <= fb <= -1 /\ 5 <= peak <= 8
    /\ nadd (Fin peak) (Fin 1) = Fin lo /\ lo <= mx <= 9 /\ peak + 1/2 <= mx.
Proof. intros AR I u_fb u_peak u_max. apply good_ieee_arithmetic in I. now apply (burst_bounds I). Qed.
Lemma C93_mzr : forall AR : Arith, ieee_arithmetic AR -> forall u : MZRParams, not_nan_params u ->
  exists y x k lo hi a b c d tenth, lit 0.1 = Fin tenth /\
  get_bounded_mzr_params u = {| mzr_t0_ytp := Fin y; mzr_t0_x0 := Fin x; mzr_t0_k := Fin k; mzr_t0_slope_lo := Fin lo;
    mzr_t0_slope_hi := Fin hi; c0_y_at_tlook_c := Fin a; c1_y_at_tlook_c := Fin b; c0_early_time_slope := Fin c;
    c1_early_time_slope := Fin d |}
  /\ -1 <= y <= 1/4 /\ 10.25 <= x <= 10.75 /\ 0.5 <= k <= 2 /\ tenth <= lo <= 1 /\ 0 <= hi <= lo
  /\ -2 <= a <= -1 /\ 0 <= b <= 0.5 /\ -1.5 <= c <= -0.5 /\ 0 <= d <= 0.5.
Proof. intros AR I u. apply good_ieee_arithmetic in I. apply (mzr_bounds I). Qed.
Lemma C93_transmission : forall AR : Arith, ieee_arithmetic AR -> forall (k_lambda av : num) (floor : R),
  0 <= floor <= 1 -> machine_number floor ->
  (frac_transmission_from_k_lambda k_lambda av (Fin floor) = NaN
   \/ exists t, frac_transmission_from_k_lambda k_lambda av (Fin floor) = Fin t /\ floor <= t <= 1)
  /\ forall kl a, k_lambda = Fin kl -> av = Fin a ->
     exists t, frac_transmission_from_k_lambda k_lambda av (Fin floor) = Fin t /\ floor <= t <= 1.
Proof. intros AR I k_lambda av f. apply good_ieee_arithmetic in I. apply (transmission_bounds I). Qed.

Lemma C94_sfh : forall AR : Arith, ieee_arithmetic AR -> monotone_library AR -> forall ts sfrs ages t_obs sfr_min m k,
  length ts = length sfrs -> ts <> [] -> increasing (0.001 :: ts) ->
  Forall (fun t => machine_number t /\ t <= 1000) ts -> machine_number t_obs -> t_obs <= 1000 -> 0 < sfr_min ->
  (3 <= length ages)%nat -> (forall i, (i < length ages)%nat -> -4 <= ent ages i <= 4) ->
  (forall i, (i < length ages)%nat -> age_edge ages i + / 2 ^ 16 <= age_edge ages (S i)) ->
  cumulative_mstar_formed (fins ts) (fins (floored sfr_min sfrs)) = Ok (fins m) ->
  (1 <= k <= 15)%nat -> Forall (fun x => 1.001 * 10 ^ k <= x <= 10 ^ (2 * k) / 1.001) m ->
  exists w, calc_age_weights_from_sfh_table (fins ts) (fins sfrs) (fins ages) (Fin t_obs) (Fin sfr_min) = Ok w
    /\ length w = length ages /\ (all_nan w \/ all_unit w).
Proof. intros AR I LM ts sfrs ages t_obs sfr_min m k. apply good_ieee_arithmetic in I. intros. edestruct (float_age_weights_sfh I LM ts sfrs ages t_obs sfr_min m k) as (w & E & L & D); eauto. exists w. split; auto. split; auto. now apply (deltas_unit I). Qed.
Lemma C94_logsm : forall AR : Arith, ieee_arithmetic AR -> monotone_library AR -> forall lgts logsm ages t_obs,
  length logsm = length lgts -> lgts <> [] -> nondecreasing lgts -> nondecreasing logsm ->
  (forall i, (i < length lgts)%nat -> machine_number (ent lgts i) /\ -1000 <= ent lgts i <= 1000) ->
  (forall i, (i < length logsm)%nat -> machine_number (ent logsm i)) ->
  (forall i, (S i < length logsm)%nat -> machine_number (ent logsm (S i) - ent logsm i)) ->
  ent logsm (length logsm - 1) <= 30 -> machine_number t_obs -> t_obs <= 1000 ->
  (3 <= length ages)%nat -> (forall i, (i < length ages)%nat -> -4 <= ent ages i <= 4) ->
  (forall i, (i < length ages)%nat -> age_edge ages i + / 2 ^ 16 <= age_edge ages (S i)) ->
  let w := snd (calc_age_weights_from_logsm_table_k (fins lgts) (fins logsm) (fins ages) (Fin t_obs)) in
  length w = length ages /\ (all_nan w \/ all_unit w).
Proof.
  intros AR I LM lgts logsm ages t_obs L N NT NS RT RS RD B. intros Rt Bt L3 BA GA. apply good_ieee_arithmetic in I.
  edestruct (float_age_weights I LM lgts logsm ages t_obs) as [L' D]; eauto; [|cbv zeta; split; [exact L'|]; now apply (deltas_unit I)].
  unfold good_table. repeat (split; [assumption|]). assumption.
Qed.
Lemma C94_refuted : exists lgts logsm ages t_obs w0 w1 w2,
  increasing lgts /\ nondecreasing logsm /\ increasing ages
  /\ (forall x, In x (t_obs :: lgts ++ logsm ++ ages) -> @machine_number binary64 x)
  /\ snd (@calc_age_weights_from_logsm_table_k binary64 (fins lgts) (fins logsm) (fins ages) (Fin t_obs)) = [Fin w0; w1; w2]
  /\ w0 < 0.
Proof.
  destruct negative_weight as (w0 & w1 & w2 & E & H). exists [0; 1], [ce_s0; ce_s1], [-1/2; 1/2; 3/2], 11, w0, w1, w2.
  pose proof U_small as US.
  split; [|split; [|split; [|split; [|auto]]]].
  - intros i j Hij. simpl in Hij. assert (i = 0 /\ j = 1)%nat as [-> ->] by lia. unfold ent. simpl. lra.
  - intros i j Hij. simpl in Hij. assert (i = 0 /\ j = 1)%nat as [-> ->] by lia. unfold ent. cbn [nth]. unfold ce_s0, ce_s1. lra.
  - intros i j Hij. simpl in Hij. unfold ent. destruct i as [|[|i]], j as [|[|[|j]]]; try lia; simpl; lra.
  - assert (D : forall n x, (Z.abs n <= 1000)%Z -> x = IZR n / 2 -> @machine_number binary64 x).
    { intros n x Hn ->. apply (rnd_dy good_binary64 n 1); [lia|lia|simpl; lra]. }
    cbn [app]. intros x Hx. cbn [In] in Hx.
    destruct Hx as [<-|[<-|[<-|[<-|[<-|[<-|[<-|[<-|[]]]]]]]]].
    + apply (D 22%Z); [lia|lra]. + apply (D 0%Z); [lia|lra]. + apply (D 2%Z); [lia|lra]. + apply rep_s0. + apply rep_s1.
    + apply (D (-1)%Z); [lia|lra]. + apply (D 1%Z); [lia|lra]. + apply (D 3%Z); [lia|lra].
Qed.

(** ** Concrete cases *)
#[local] Existing Instance binary64.
Lemma demo_int n x : (Z.abs n <= 2 ^ 24)%Z -> x = IZR n -> @machine_number binary64 x.
Proof. intros Hn ->. apply (rnd_dy good_binary64 n 0); auto; [lia|simpl; lra]. Qed.
Lemma demo_edges : (forall i, (i < 3)%nat -> age_edge [-1/2; 1/2; 3/2] i + / 2 ^ 16 <= age_edge [-1/2; 1/2; 3/2] (S i)).
Proof. intros i Hi. unfold age_edge, node_width, ent. destruct i as [|[|[|i]]]; try lia; simpl; lra. Qed.
Lemma demo_range : (forall i, (i < 3)%nat -> -4 <= ent [-1/2; 1/2; 3/2] i <= 4).
Proof. intros i Hi. unfold ent. destruct i as [|[|[|i]]]; try lia; simpl; lra. Qed.
(** masses formed by a constant star-formation rate of 1/1024 Msun/yr at 1 and 2 Gyr *)
Lemma demo_masses : exists m0 m1, @cumulative_mstar_formed binary64 (fins [1; 2]) (fins [1/1024; 1/1024]) = Ok (fins [m0; m1])
  /\ 1.001 * 10 ^ 5 <= m0 <= 10 ^ 10 / 1.001 /\ 1.001 * 10 ^ 5 <= m1 <= 10 ^ 10 / 1.001.
Proof.
  pose proof good_binary64 as G. destruct (@tbm binary64 G) as (b & Eb & Bb).
  assert (Bb' : b <= 1/512).
  { apply (rnd_le_rep G 0.001 b (1/512)); [lra|apply (rnd_dy G 1 9); [lia|lia|simpl; lra]|exact Eb]. }
  assert (P14 : 1 / 10 ^ 14 <= 1/1024) by (apply (Rmult_le_reg_r (10 ^ 14)); [apply pow_lt; lra|]; unfold Rdiv; rewrite (Rmult_1_l (/ _)), Rinv_l by (apply pow_nonzero; lra); simpl; lra).
  assert (P14' : 0 <= 1 / 10 ^ 14) by (apply Rlt_le, Rdiv_lt_0_compat; [lra|apply pow_lt; lra]).
  assert (R10 : rnd (1/1024) = Fin (1/1024)) by (apply (rnd_dy G 1 10); [lia|lia|simpl; lra]).
  destruct (rnd_between G 0 (1 / 10 ^ 14) (1/1024) (rnd0 G) R10 ltac:(lra)) as (s & Es & Bs).
  rewrite cum_same, cum_k_same by reflexivity. unfold cumtrapz_k. change SFR_MIN with (rnd (1 / 10 ^ 14)). rewrite Es, Eb.
  cbn [fins map first at_ nth combine scan cumtrapz_scan_func tl]. unfold nsub. cbn [nopp nadd].
  replace (b + - b) with 0 by lra. rewrite (rnd0 G).
  assert (R9 : rnd (1/512) = Fin (1/512)) by (apply (rnd_dy G 1 9); [lia|lia|simpl; lra]).
  destruct (rnd_between G 0 (s + s) (1/512) (rnd0 G) R9 ltac:(lra)) as (s2 & -> & Bs2). cbn [nmul]. rewrite Rmult_0_l, (rnd0 G). cbn [ndiv]. rewrite !Req_bool_false by lra.
  replace (0 / 2) with 0 by lra. rewrite (rnd0 G). cbn [nadd]. rewrite Rplus_0_l, (rnd0 G).
  assert (RD : forall n k x, (Z.abs n <= 2 ^ 24)%Z -> (k <= 100)%nat -> x = IZR n / 2 ^ k -> rnd x = Fin x) by exact (@rnd_dy _ G).
  assert (RH : rnd (1/2) = Fin (1/2)) by (apply (RD 1%Z 1%nat); [lia|lia|simpl; lra]).
  destruct (rnd_between G (1/2) (1 + - b) 1 RH (rnd1 G) ltac:(lra)) as (d & -> & Bd).
  destruct (rnd_between G (1/1024) (1/1024 + s) (1/512) R10 R9 ltac:(lra)) as (f & -> & Bf). cbn [nmul].
  assert (R11 : rnd (1/2048) = Fin (1/2048)) by (apply (RD 1%Z 11%nat); [lia|lia|simpl; lra]).
  destruct (rnd_between G (1/2048) (d * f) (1/512) R11 R9) as (p & -> & Bp); [nra|]. cbn [ndiv]. rewrite !Req_bool_false by lra.
  assert (R12 : rnd (1/4096) = Fin (1/4096)) by (apply (RD 1%Z 12%nat); [lia|lia|simpl; lra]).
  destruct (rnd_between G (1/4096) (p / 2) (1/512) R12 R9 ltac:(lra)) as (h & Eh & Bh). rewrite Eh. cbn [nadd]. rewrite Rplus_0_l, (rnd_idem _ G _ _ Eh).
  replace (2 + - (1)) with 1 by lra. rewrite (rnd1 G). replace (1/1024 + 1/1024) with (1/512) by lra. rewrite R9. cbn [nmul]. rewrite Rmult_1_l, R9.
  cbn [ndiv]. rewrite !Req_bool_false by lra. replace (1 / 512 / 2) with (1/1024) by lra. rewrite R10. cbn [nadd].
  assert (R8 : rnd (1/256) = Fin (1/256)) by (apply (RD 1%Z 8%nat); [lia|lia|simpl; lra]).
  destruct (rnd_between G (1/4096) (h + 1/1024) (1/256) R12 R8 ltac:(lra)) as (h2 & -> & Bh2).
  unfold YEAR_PER_GYR. cbn [nmul].
  assert (T9 : 10 ^ 9 = 1000000000) by (simpl; lra). rewrite T9.
  assert (RL : rnd 200000 = Fin 200000) by (apply (RD 200000%Z 0%nat); [lia|lia|simpl; lra]).
  assert (RU : rnd 8000000 = Fin 8000000) by (apply (RD 8000000%Z 0%nat); [lia|lia|simpl; lra]).
  destruct (rnd_between G 200000 (h * 1000000000) 8000000 RL RU ltac:(lra)) as (m0 & -> & B0).
  destruct (rnd_between G 200000 (h2 * 1000000000) 8000000 RL RU ltac:(lra)) as (m1 & -> & B1).
  exists m0, m1. split; [reflexivity|]. simpl. lra.
Qed.
