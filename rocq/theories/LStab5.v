(** * C144, C145: sensitivity to the star formation history *)
From Coq Require Import Reals List Arith Lra Lia.
From Coquelicot Require Import Coquelicot.
From Verif Require Import Num MUtils MSed MPhot Spec Spec2 SpecStab RList LUtils LAge LMet LJoint LPhot LPop LPop2 LStab1 LStab2 LStab3 LStab4.
Import ListNotations.
Open Scope R_scope.

Lemma mags_of_sed ws sed sed' c K : 0 < c -> 1 <= K -> good_spectrum ws sed -> good_spectrum ws sed' ->
  (forall k, (k < length ws)%nat -> within_factor K (c * ent sed k) (ent sed' k)) ->
  mags_shifted ws sed sed' (- (2.5 * log10 c)) (2.5 * log10 K).
Proof.
  intros Hc HK G G' H wf tf Gf Iw Pt. pose proof (Rinv_0_lt_compat K ltac:(lra)) as IK.
  destruct (C122_lemma ws sed sed' wf tf (c * / K) (c * K) G G' Gf Iw Pt) as [A B].
  - now apply Rmult_lt_0_compat.
  - apply Rmult_lt_0_compat; lra.
  - intros i Hi. destruct (H i Hi) as [P Q]. split; [|lra]. apply Rmult_le_reg_l with K; [lra|].
    replace (K * (c * / K * ent sed i)) with (c * ent sed i) by (field; lra). lra.
  - assert (E1 : log10 (c * K) = log10 c + log10 K) by (apply log10_mult; lra).
    assert (E2 : log10 (c * / K) = log10 c - log10 K).
    { rewrite log10_mult by lra. unfold log10 at 2. rewrite ln_Rinv by lra. unfold log10. lra. }
    rewrite E1, E2 in *. split.
    + intros P. destruct (A P) as (m & m' & R1 & R2 & R3). exists m, m'. split; [auto|]. split; [auto|]. apply Rabs_le. lra.
    + intros z Om0 w0 wa h Hz HO Hh P. destruct (B z Om0 w0 wa h Hz HO Hh P) as (m & m' & R1 & R2 & R3). exists m, m'. split; [auto|]. split; [auto|]. apply Rabs_le. lra.
Qed.
Lemma log10_pow L n : 0 < L -> log10 (L ^ n) = INR n * log10 L.
Proof.
  intros H. unfold log10. rewrite <- Rpower_pow by auto. unfold Rpower. rewrite ln_exp. unfold Rdiv. ring.
Qed.

Lemma C144_weights_lemma : forall ts s s' ages t_obs sfr_min L,
  length ts = length s -> ts <> [] -> increasing (0.001 :: ts) -> 0 < sfr_min -> (3 <= length ages)%nat -> nondecreasing (age_edges ages) ->
  (let formed lg_age := mass_formed_by ts (floored sfr_min s) (birth_time t_obs lg_age) in formed (age_edge ages 0) <> formed (age_edge ages (length ages))) ->
  1 <= L -> tables_within L s s' ->
  exists w w',
    calc_age_weights_from_sfh_table (fins ts) (fins s) (fins ages) (Fin t_obs) (Fin sfr_min) = Ok (fins w)
    /\ calc_age_weights_from_sfh_table (fins ts) (fins s') (fins ages) (Fin t_obs) (Fin sfr_min) = Ok (fins w')
    /\ length w = length ages /\ length w' = length ages
    /\ forall j, (j < length ages)%nat -> within_factor (L ^ 10) (ent w j) (ent w' j).
Proof.
  intros ts s s' ages t_obs m L Hl Hn Hi Hm Ha He Hf HL T. assert (Hs : s <> []) by (intro Q; subst; destruct ts; [congruence|discriminate]).
  destruct (weights_core ts s s' m 1 L t_obs ages) as (_ & w & w' & E & E' & L1 & L2 & _ & _ & W); auto; [destruct T; lia|lra|now apply floored_follows|].
  exists w, w'. auto.
Qed.
Lemma C144_sed_lemma : forall ts s s' lgmet scatter ssp_lgmet ages n_wave flux t_obs sfr_min L,
  good_grids ts s scatter ssp_lgmet ages t_obs -> 0 < t_obs -> 0 < sfr_min -> 1 <= L -> tables_within L s s' ->
  nonneg_cube (length ssp_lgmet) (length ages) n_wave flux ->
  exists r r' sed sed',
    calc_rest_sed_sfh_table_lognormal_mdf (fins ts) (fins s) (Fin lgmet) (Fin scatter) (fins ssp_lgmet) (fins ages) (fins3 flux) (Fin t_obs) (Fin sfr_min) = Ok r
    /\ calc_rest_sed_sfh_table_lognormal_mdf (fins ts) (fins s') (Fin lgmet) (Fin scatter) (fins ssp_lgmet) (fins ages) (fins3 flux) (Fin t_obs) (Fin sfr_min) = Ok r'
    /\ rest_sed r = fins sed /\ rest_sed r' = fins sed'
    /\ (forall k, (k < n_wave)%nat -> within_factor (L ^ 11) (ent sed k) (ent sed' k))
    /\ forall ws, length ws = n_wave -> ws <> [] -> increasing ws -> mags_shifted ws sed sed' 0 (27.5 * log10 L).
Proof.
  intros ts s s' lgmet h lgmets ages n_wave f t_obs m L G Ht Hm HL T Hf. pose proof G as (Hl & Hn & _).
  assert (Hs : s <> []) by (intro Q; subst; destruct ts; [congruence|discriminate]).
  destruct (sed_core_lognormal ts s s' lgmet h lgmets ages n_wave f t_obs m 1 L) as (r & r' & sed & sed' & E & E' & R & R' & L1 & L2 & W); auto; try lra.
  - destruct T; lia.
  - apply floored_follows; auto. lra.
  - now apply floored_follows.
  - exists r, r', sed, sed'. do 4 (split; [assumption|]). assert (W' : forall k, (k < n_wave)%nat -> within_factor (L ^ 11) (ent sed k) (ent sed' k)).
    { intros k Hk. destruct (W k Hk) as (_ & _ & Q). rewrite Rmult_1_l in Q. exact Q. }
    split; [exact W'|]. intros ws Hw Hwn Iw. replace (27.5 * log10 L) with (2.5 * log10 (L ^ 11)) by (rewrite log10_pow by lra; replace (INR 11) with 11 by (simpl; lra); lra).
    replace 0 with (- (2.5 * log10 1)) by (rewrite log10_1; lra). apply mags_of_sed; try lra.
    + apply pow_R1_Rle; lra.
    + repeat split; auto; lia.
    + repeat split; auto; lia.
    + intros k Hk. destruct (W k ltac:(lia)) as (_ & _ & Q). exact Q.
Qed.
Lemma C144_met_lemma : forall ts s s' lgmet_table scatter ssp_lgmet ages n_wave flux t_obs sfr_min L,
  good_grids ts s scatter ssp_lgmet ages t_obs -> length ts = length lgmet_table -> 0 < t_obs -> 0 < sfr_min -> 1 <= L -> tables_within L s s' ->
  nonneg_cube (length ssp_lgmet) (length ages) n_wave flux ->
  exists r r' sed sed',
    calc_rest_sed_sfh_table_met_table (fins ts) (fins s) (fins lgmet_table) (Fin scatter) (fins ssp_lgmet) (fins ages) (fins3 flux) (Fin t_obs) (Fin sfr_min) = Ok r
    /\ calc_rest_sed_sfh_table_met_table (fins ts) (fins s') (fins lgmet_table) (Fin scatter) (fins ssp_lgmet) (fins ages) (fins3 flux) (Fin t_obs) (Fin sfr_min) = Ok r'
    /\ rest_sed r = fins sed /\ rest_sed r' = fins sed'
    /\ (forall k, (k < n_wave)%nat -> within_factor (L ^ 11) (ent sed k) (ent sed' k))
    /\ forall ws, length ws = n_wave -> ws <> [] -> increasing ws -> mags_shifted ws sed sed' 0 (27.5 * log10 L).
Proof.
  intros ts s s' ms h lgmets ages n_wave f t_obs m L G Hms Ht Hm HL T Hf. pose proof G as (Hl & Hn & _).
  assert (Hs : s <> []) by (intro Q; subst; destruct ts; [congruence|discriminate]).
  destruct (sed_core_met ts s s' ms h lgmets ages n_wave f t_obs m 1 L) as (r & r' & sed & sed' & E & E' & R & R' & L1 & L2 & W); auto; try lra.
  - destruct T; lia.
  - apply floored_follows; auto. lra.
  - now apply floored_follows.
  - exists r, r', sed, sed'. do 4 (split; [assumption|]). assert (W' : forall k, (k < n_wave)%nat -> within_factor (L ^ 11) (ent sed k) (ent sed' k)).
    { intros k Hk. destruct (W k Hk) as (_ & _ & Q). rewrite Rmult_1_l in Q. exact Q. }
    split; [exact W'|]. intros ws Hw Hwn Iw. replace (27.5 * log10 L) with (2.5 * log10 (L ^ 11)) by (rewrite log10_pow by lra; replace (INR 11) with 11 by (simpl; lra); lra).
    replace 0 with (- (2.5 * log10 1)) by (rewrite log10_1; lra). apply mags_of_sed; try lra.
    + apply pow_R1_Rle; lra.
    + repeat split; auto; lia.
    + repeat split; auto; lia.
    + intros k Hk. destruct (W k ltac:(lia)) as (_ & _ & Q). exact Q.
Qed.

(** rescaling *)
Lemma floored_id m s : List.Forall (fun x => m <= x) s -> floored m s = s.
Proof. intros H. unfold floored. rewrite <- (map_id s) at 2. apply map_ext_in. intros x Hx. rewrite Forall_forall in H. apply Rmax_right. now apply H. Qed.
Lemma scaled_follows c e s : 0 < c -> 0 <= e -> s <> [] -> List.Forall (fun x => 0 < x) s -> 1 / 10 ^ 14 <= e * ent s 0 -> 1 / 10 ^ 14 <= e * (c * ent s 0) ->
  sfr_follows c (1 + e) s (map (Rmult c) s).
Proof.
  intros Hc He Hn P H1 H2. assert (P0 : 0 < ent s 0) by (rewrite Forall_ent in P; apply P; destruct s; [congruence|simpl; lia]).
  split; [now rewrite map_length|]. split.
  - intros i Hi. rewrite ent_map by auto. rewrite Forall_ent in P. specialize (P i Hi). assert (0 < c * ent s i) by (apply Rmult_lt_0_compat; auto). split; nra.
  - rewrite ent_map by (destruct s; [congruence|simpl; lia]). set (g := 1 / 10 ^ 14) in *. assert (0 < g) by (unfold g; lra). clearbody g. set (x := ent s 0) in *. clearbody x. clear - Hc He P0 H1 H2 H.
    assert (0 < c * x) by (apply Rmult_lt_0_compat; auto). assert (c * g <= c * (e * x)) by (apply Rmult_le_compat_l; lra). assert (0 <= e * g) by (apply Rmult_le_pos; lra). assert (0 <= c * (e * g)) by (apply Rmult_le_pos; lra).
    assert (0 <= c * g) by (apply Rmult_le_pos; lra). split; lra.
Qed.
Lemma C145_lemma : forall ts s ages t_obs sfr_min c eps,
  length ts = length s -> ts <> [] -> increasing (0.001 :: ts) -> 0 < sfr_min -> (3 <= length ages)%nat -> nondecreasing (age_edges ages) ->
  (let formed lg_age := mass_formed_by ts (floored sfr_min s) (birth_time t_obs lg_age) in formed (age_edge ages 0) <> formed (age_edge ages (length ages))) ->
  0 < c -> 0 <= eps -> List.Forall (fun x => sfr_min <= x /\ sfr_min <= c * x) s -> 1 / 10 ^ 14 <= eps * ent s 0 -> 1 / 10 ^ 14 <= eps * (c * ent s 0) ->
  exists w w',
    calc_age_weights_from_sfh_table (fins ts) (fins s) (fins ages) (Fin t_obs) (Fin sfr_min) = Ok (fins w)
    /\ calc_age_weights_from_sfh_table (fins ts) (fins (map (Rmult c) s)) (fins ages) (Fin t_obs) (Fin sfr_min) = Ok (fins w')
    /\ length w = length ages /\ length w' = length ages
    /\ forall j, (j < length ages)%nat -> within_factor ((1 + eps) ^ 10) (ent w j) (ent w' j).
Proof.
  intros ts s ages t_obs m c e Hl Hn Hi Hm Ha He Hf Hc Hep P H1 H2. assert (Hs : s <> []) by (intro Q; subst; destruct ts; [congruence|discriminate]).
  destruct (weights_core ts s (map (Rmult c) s) m c (1 + e) t_obs ages) as (_ & w & w' & E & E' & L1 & L2 & _ & _ & W); auto; try lra.
  - now rewrite map_length.
  - rewrite !floored_id. + apply scaled_follows; auto. eapply Forall_impl; [|exact P]. simpl. intros; lra.
    + apply Forall_map. eapply Forall_impl; [|exact P]. simpl. intros; lra.
    + eapply Forall_impl; [|exact P]. simpl. intros; lra.
  - exists w, w'. auto.
Qed.
Lemma C145_sed_lemma : forall ts s lgmet scatter ssp_lgmet ages n_wave flux t_obs sfr_min c eps,
  good_grids ts s scatter ssp_lgmet ages t_obs -> 0 < t_obs -> 0 < sfr_min -> 0 < c -> 0 <= eps ->
  List.Forall (fun x => sfr_min <= x /\ sfr_min <= c * x /\ 1 / 10 ^ 14 <= x /\ 1 / 10 ^ 14 <= c * x) s ->
  1 / 10 ^ 14 <= eps * ent s 0 -> 1 / 10 ^ 14 <= eps * (c * ent s 0) ->
  nonneg_cube (length ssp_lgmet) (length ages) n_wave flux ->
  exists r r' sed sed',
    calc_rest_sed_sfh_table_lognormal_mdf (fins ts) (fins s) (Fin lgmet) (Fin scatter) (fins ssp_lgmet) (fins ages) (fins3 flux) (Fin t_obs) (Fin sfr_min) = Ok r
    /\ calc_rest_sed_sfh_table_lognormal_mdf (fins ts) (fins (map (Rmult c) s)) (Fin lgmet) (Fin scatter) (fins ssp_lgmet) (fins ages) (fins3 flux) (Fin t_obs) (Fin sfr_min) = Ok r'
    /\ rest_sed r = fins sed /\ rest_sed r' = fins sed'
    /\ (forall k, (k < n_wave)%nat -> within_factor ((1 + eps) ^ 11) (c * ent sed k) (ent sed' k))
    /\ forall ws, length ws = n_wave -> ws <> [] -> increasing ws -> mags_shifted ws sed sed' (- (2.5 * log10 c)) (27.5 * log10 (1 + eps)).
Proof.
  intros ts s lgmet h lgmets ages n_wave f t_obs m c e G Ht Hm Hc He P H1 H2 Hf. pose proof G as (Hl & Hn & _).
  assert (Hs : s <> []) by (intro Q; subst; destruct ts; [congruence|discriminate]).
  assert (SF : sfr_follows c (1 + e) s (map (Rmult c) s)) by (apply scaled_follows; auto; eapply Forall_impl; [|exact P]; simpl; intros; lra).
  destruct (sed_core_lognormal ts s (map (Rmult c) s) lgmet h lgmets ages n_wave f t_obs m c (1 + e)) as (r & r' & sed & sed' & E & E' & R & R' & L1 & L2 & W); auto; try lra.
  - now rewrite map_length.
  - rewrite !floored_id; [exact SF| |]; [apply Forall_map|]; (eapply Forall_impl; [|exact P]); simpl; intros; lra.
  - rewrite !floored_id; [exact SF| |]; [apply Forall_map|]; (eapply Forall_impl; [|exact P]); simpl; intros; lra.
  - exists r, r', sed, sed'. do 4 (split; [assumption|]). assert (W' : forall k, (k < n_wave)%nat -> within_factor ((1 + e) ^ 11) (c * ent sed k) (ent sed' k)) by (intros k Hk; now destruct (W k Hk) as (_ & _ & Q)).
    split; [exact W'|]. intros ws Hw Hwn Iw. replace (27.5 * log10 (1 + e)) with (2.5 * log10 ((1 + e) ^ 11)) by (rewrite log10_pow by lra; replace (INR 11) with 11 by (simpl; lra); lra).
    apply mags_of_sed; try lra.
    + apply pow_R1_Rle; lra.
    + repeat split; auto; lia.
    + repeat split; auto; lia.
    + intros k Hk. apply W'. lia.
Qed.
