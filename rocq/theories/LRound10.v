(** * Joint weights and SEDs in rounded arithmetic: the public functions *)
From Coq Require Import Reals List Arith Lra Lia ZArith Bool.
From Coquelicot Require Import Rcomplements.
From Flocq Require Import Core.Raux.
From Verif Require Import Num Arr MUtils MSed Float Spec SpecFloat RList LUtils LAge LMet LJoint LFloat LFloat2 LFloat3 LFloat5 LFloat10 LFloat11 LFloat12 LRound1 LRound2 LRound3 LRound4 LRound5 LRound6 LRound7 LRound8 LRound9.
Import ListNotations.
Open Scope R_scope.

Lemma e14_ok : 1 / 10 ^ 20 <= 1 / 10 ^ 14 <= 10 ^ 19.
Proof.
  split; [unfold Rdiv; rewrite !Rmult_1_l; apply Rinv_le; [apply pow_lt; lra|apply Rle_pow; [lra|lia]]|].
  apply Rle_trans with 1; [apply Rdiv_le_1'; [apply pow_lt; lra|apply pow_R1_Rle; lra]|apply pow_R1_Rle; lra].
Qed.
Lemma rounding_grids {AR : Arith} K ts sfrs h lgmets ages t : rounding_history K ts sfrs (1 / 10 ^ 14) -> rounding_ages ages -> rounding_lgmets lgmets -> 0 < h ->
  half_in_bins ts sfrs (1 / 10 ^ 14) t ages -> good_grids ts sfrs h lgmets ages t.
Proof.
  intros (TO & LL & _) (LA & _ & NA) (LM & _ & NM) Hh HB. unfold good_grids. split; auto. split; [apply TO|]. split; [now apply times_increasing|]. split; [lia|]. split; auto. split; auto. split; [lia|]. split; auto.
  cbv zeta. unfold half_in_bins in HB. cbv zeta in HB. intros E. rewrite E in HB. pose proof (pow10_pos (pwlin (combine (map log10 ts) (map log10 (cumulative_mass ts (floored (1 / 10 ^ 14) sfrs)))) (log10 (birth_time t (age_edge ages (length ages)))))) as P.
  unfold mass_formed_by in HB. lra.
Qed.
Lemma half_total ts sfrs smin t ages : half_in_bins ts sfrs smin t ages -> total_mass ts sfrs smin t ages <> 0.
Proof.
  unfold half_in_bins, total_mass, edge_mass. cbv zeta. intros HB E.
  assert (P : 0 < mass_formed_by ts (floored smin sfrs) (birth_time t (age_edge ages 0))) by apply pow10_pos. lra.
Qed.
Lemma amp_pos K ts t na nb h c : 0 <= K -> 0 < ent ts 0 <= t -> (3 <= na)%nat -> (3 <= nb)%nat -> 0 < h <= 1 -> 0 <= c ->
  0 <= mass_amp K ts t na /\ 0 <= (130 + 8 * INR nb + c) / h /\ 3 <= INR na /\ 3 <= INR nb.
Proof.
  intros K0 T0 Na Nb Hh C0. pose proof (pos_INR (length ts)). assert (3 <= INR na) by (apply (le_INR 3) in Na; simpl in Na; lra). assert (3 <= INR nb) by (apply (le_INR 3) in Nb; simpl in Nb; lra).
  split; [|split; [apply Rdiv_le_0_compat; lra|auto]]. unfold mass_amp. assert (0 <= (K + 1) * (t / ent ts 0)). { apply Rmult_le_pos; [lra|]. apply Rdiv_le_0_compat; lra. }
  replace (321 * (K + 1) * (t / ent ts 0)) with (321 * ((K + 1) * (t / ent ts 0))) by ring. lra.
Qed.

Section F.
Context {AR : Arith} (u : R) (H : rel_err AR u) (HE : interp_eps <= / 2 ^ 40).
Let G := re_good _ _ H.

Lemma amp_use K ts t na nb h c : 0 <= K -> 0 < ent ts 0 <= t -> (3 <= na)%nat -> (3 <= nb)%nat -> 0 < h <= 1 -> 0 <= c ->
  joint_amp K ts t na nb h c * u <= 1/20 ->
  let A := mass_amp K ts t na in let eta := (130 + 8 * INR nb + c) * u / h in
  0 <= INR na * (A * u) <= 1/2000 /\ 0 <= INR nb * eta <= 1/520 /\ 0 <= INR (nb * na) * u <= 1/200
  /\ joint_amp K ts t na nb h c * u = 100 * (INR na * (A * u)) + 26 * (INR nb * eta) + 10 * (INR (nb * na) * u)
  /\ A * u <= 1/6000 /\ 0 <= A * u.
Proof.
  intros K0 T0 Na Nb Hh C0 HJ A eta. pose proof (u_le u H) as Hu. destruct (amp_pos K ts t na nb h c K0 T0 Na Nb Hh C0) as (P1 & P2 & P3 & P4). fold A in P1.
  assert (E : joint_amp K ts t na nb h c * u = 100 * (INR na * (A * u)) + 26 * (INR nb * eta) + 10 * (INR (nb * na) * u)) by (unfold joint_amp, eta, A; field; lra).
  assert (A0 : 0 <= A * u) by (apply Rmult_le_pos; lra). assert (A1 : 0 <= INR na * (A * u)) by (apply Rmult_le_pos; lra).
  assert (E0 : 0 <= eta). { unfold eta. replace ((130 + 8 * INR nb + c) * u / h) with ((130 + 8 * INR nb + c) / h * u) by (field; lra). apply Rmult_le_pos; lra. }
  assert (E1 : 0 <= INR nb * eta) by (apply Rmult_le_pos; lra). assert (N0 : 0 <= INR (nb * na) * u) by (apply Rmult_le_pos; [apply pos_INR|lra]).
  rewrite E in HJ. repeat split; try lra; auto. assert (3 * (A * u) <= INR na * (A * u)) by (apply Rmult_le_compat_r; lra). lra.
Qed.

Lemma age_l1 ts sfrs ages t K : rounding_history K ts sfrs (1 / 10 ^ 14) -> rounding_ages ages -> rnd t = Fin t -> ent ts 0 <= t <= 1000 ->
  half_in_bins ts sfrs (1 / 10 ^ 14) t ages -> INR (length ages) * (mass_amp K ts t (length ages) * u) <= 1/100 ->
  exists a a0, calc_age_weights_from_sfh_table (fins ts) (fins sfrs) (fins ages) (Fin t) SFR_MIN = Ok (fins a)
    /\ calc_age_weights_from_sfh_table (AR := exact) (fins ts) (fins sfrs) (fins ages) (Fin t) (Fin (1 / 10 ^ 14)) = Ok (fins a0)
    /\ length a = length ages /\ length a0 = length ages /\ distribution a0 /\ l1 a a0 <= 40 * (INR (length ages) * (mass_amp K ts t (length ages) * u)).
Proof.
  intros RH RA Rt Bt HB HA. destruct (age_public u H HE ts sfrs ages t (1 / 10 ^ 14) K RH RA Rt Bt HB HA) as (a & Ea & La & _ & Va).
  set (a0 := map (fun d => d / total_mass ts sfrs (1 / 10 ^ 14) t ages) (bin_masses ts sfrs (1 / 10 ^ 14) t ages)).
  assert (Lb : length (bin_masses ts sfrs (1 / 10 ^ 14) t ages) = length ages) by (unfold bin_masses; now rewrite map_length, seq_length).
  assert (L0 : length a0 = length ages) by (unfold a0; now rewrite map_length).
  destruct RH as (TO & LL & RH). destruct RA as (LA & RA1 & NA). pose proof sfr_min_pos as SP.
  pose proof (age_weights_fins_ok ts sfrs ages t (1 / 10 ^ 14) LL (times_increasing _ TO) (proj1 TO) SP ltac:(lia) (half_total _ _ _ _ _ HB)) as E0. fold a0 in E0.
  assert (D0 : distribution a0).
  { destruct (C01_lemma ts sfrs ages t (1 / 10 ^ 14) LL (proj1 TO) (times_increasing _ TO) SP ltac:(lia) NA) as (a1 & E1 & _ & D1).
    - cbv zeta. intros E. apply (half_total _ _ _ _ _ HB). unfold total_mass, edge_mass. lra.
    - rewrite E0 in E1. injection E1 as E1. apply fins_inj in E1. now subst. }
  exists a, a0. split; [exact Ea|]. split; [exact E0|]. split; auto. split; auto. split; auto. eapply Rle_trans; [apply (l1_entries a a0 (40 * mass_amp K ts t (length ages) * u))|].
  - congruence.
  - intros i Hi. unfold a0. rewrite ent_map by lia. apply Va. lia.
  - rewrite La. apply Req_le. ring.
Qed.

Lemma concat_nonneg n m W : is_matrix n m W -> (forall i j, (i < n)%nat -> (j < m)%nat -> 0 <= ent2 W i j) -> Forall (fun x => 0 <= x) (concat W).
Proof.
  intros [L F] P. apply Forall_concat, Forall_forall. intros row Hr. destruct (In_nth _ _ [] Hr) as (i & Hi & <-). apply Forall_ent. intros j Hj. apply (P i j); [lia|].
  rewrite Forall_forall in F. rewrite <- (F _ Hr). exact Hj.
Qed.
Lemma map_div1 l : map (fun x => x / 1) l = l.
Proof. rewrite <- (map_id l) at 2. apply map_ext. intros. field. Qed.

Lemma joint_public ts sfrs lgmet h lgmets ages t K : rounding_history K ts sfrs (1 / 10 ^ 14) -> rounding_ages ages -> rounding_lgmets lgmets ->
  rnd t = Fin t -> ent ts 0 <= t <= 1000 -> Rabs lgmet <= 5 -> rnd h = Fin h -> 1/1000 <= h <= 1 -> half_in_bins ts sfrs (1 / 10 ^ 14) t ages ->
  joint_amp K ts t (length ages) (length lgmets) h 0 * u <= 1/20 ->
  exists r r0 W W0,
    calc_ssp_weights_sfh_table_lognormal_mdf (fins ts) (fins sfrs) (Fin lgmet) (Fin h) (fins lgmets) (fins ages) (Fin t) = Ok r
    /\ calc_ssp_weights_sfh_table_lognormal_mdf (AR := exact) (fins ts) (fins sfrs) (Fin lgmet) (Fin h) (fins lgmets) (fins ages) (Fin t) = Ok r0
    /\ weights r = map fins W /\ weights r0 = map fins W0 /\ is_matrix (length lgmets) (length ages) W /\ is_matrix (length lgmets) (length ages) W0
    /\ Rsum2 W0 = 1 /\ (forall i j, (i < length lgmets)%nat -> (j < length ages)%nat -> 0 <= ent2 W0 i j)
    /\ total_difference W W0 <= joint_amp K ts t (length ages) (length lgmets) h 0 * u.
Proof.
  intros RH RA RM Rt Bt Bx Rh Bh HB HJ. pose proof (u_le u H) as Hu.
  assert (TO : times_ok ts) by apply RH. assert (T0 : 0.003 <= ent ts 0) by apply TO. assert (K0 : 0 <= K) by apply RH.
  assert (La : (3 <= length ages)%nat) by apply RA. assert (Lm : (3 <= length lgmets)%nat) by apply RM.
  destruct (amp_use K ts t (length ages) (length lgmets) h 0) as (U1 & U2 & U3 & UJ & _); auto; try lra. rewrite UJ. rewrite Rplus_0_r in *.
  set (na := INR (length ages)) in *. set (A := mass_amp K ts t (length ages)) in *. set (nb := INR (length lgmets)) in *. set (eta := (130 + 8 * nb) * u / h) in *. set (N := INR (length lgmets * length ages)) in *.
  destruct (age_l1 ts sfrs ages t K RH RA Rt Bt HB) as (a & a0 & Ea & Ea0 & L1 & L10 & Da0 & Dl); [fold na A; lra|]. fold na A in Dl.
  destruct (met_public u H lgmet h lgmets Rh Bh Bx RM) as (b & Eb & L2 & Rb & Vb); [fold nb eta; lra|]. fold nb eta in Vb.
  pose proof (rounding_grids K ts sfrs h lgmets ages t RH RA RM ltac:(lra) HB) as GG.
  destruct (joint_lognormal_fins ts sfrs lgmet h lgmets ages t GG) as (b0 & a1 & E1 & _ & _ & E2 & L20 & Db0 & E3).
  rewrite Ea0 in E1. injection E1 as E1. apply fins_inj in E1. subst a1.
  rewrite lognormal_fins in E2 by (try lra; try lia; apply RM). injection E2 as E2. apply fins_inj in E2. subst b0.
  set (b0 := met_weights lgmet h (met_edges lgmets)) in *.
  assert (Dm : l1 b b0 <= 10 * (nb * eta)). { eapply Rle_trans; [apply (l1_entries b b0 (10 * eta)); [lia|]|]. - intros i Hi. apply Vb. lia. - rewrite L2. fold nb. lra. }
  destruct (matrix_norm u H (outer b a) (outer b0 a0) 1 (1.02 * (10 * (nb * eta)) + 40 * (na * (A * u))) (length lgmets) (length ages)) as (W & EW & MW & DW).
  - rewrite <- L2, <- L1. apply outer_shape. - rewrite <- L20, <- L10. apply outer_shape. - nia.
  - apply (concat_nonneg (length lgmets) (length ages)). { rewrite <- L20, <- L10. apply outer_shape. }
    intros i j Hi Hj. rewrite LJoint.outer_ent by lia. destruct Da0 as [Pa _]. destruct Db0 as [Pb _]. rewrite Forall_ent in Pa, Pb. apply Rmult_le_pos; [apply Pb|apply Pa]; lia.
  - rewrite Rsum_concat. unfold outer. rewrite outer_sum. destruct Da0 as [_ ->]. destruct Db0 as [_ ->]. lra.
  - assert (/ 2 ^ 30 <= / 1) by (apply Rinv_le; [lra|apply pow_R1_Rle; lra]). lra.
  - eapply Rle_trans; [apply outer_l1; lia|]. rewrite (suma_nonneg b0) by apply Db0. destruct Db0 as [_ Sb]. rewrite Sb.
    pose proof (suma_bound a a0 _ ltac:(lia) Da0 Dl) as SA. pose proof (l1_nonneg b b0).
    assert (l1 b b0 * Rsuma a <= (10 * (nb * eta)) * 1.02) by (apply Rmult_le_compat; auto; [apply Rsuma_pos|lra]). lra.
  - lra.
  - fold N. lra.
  - exists {| weights := map fins W; lgmet_weights := fins b; age_weights := fins a |}. eexists. exists W, (outer b0 a0). split; [|split; [exact E3|]].
    + unfold calc_ssp_weights_sfh_table_lognormal_mdf. rewrite Ea. cbn [bind]. rewrite Eb. cbn [bind]. do 2 f_equal. rewrite <- EW. f_equal. unfold outer, fins. rewrite !map_map. apply map_ext. intros y. rewrite !map_map. apply map_ext. intros x. reflexivity.
    + cbn [weights]. split; auto. split; auto. split; auto. split; [rewrite <- L20, <- L10; apply outer_shape|].
      split; [unfold outer; rewrite outer_sum; destruct Da0 as [_ ->]; destruct Db0 as [_ ->]; lra|].
      split. { intros i j Hi Hj. rewrite LJoint.outer_ent by lia. destruct Da0 as [Pa _]. destruct Db0 as [Pb _]. rewrite Forall_ent in Pa, Pb. apply Rmult_le_pos; [apply Pb|apply Pa]; lia. }
      unfold total_difference. fold (l1 (concat W) (concat (outer b0 a0))). rewrite map_div1 in DW. fold N in DW. lra.
Qed.

Lemma sed_public ts sfrs lgmet h lgmets ages flux n_wave t sfr_min K F : rounding_history K ts sfrs (1 / 10 ^ 14) -> rounding_history K ts sfrs sfr_min -> rounding_ages ages -> rounding_lgmets lgmets ->
  rnd t = Fin t -> ent ts 0 <= t <= 1000 -> Rabs lgmet <= 5 -> rnd h = Fin h -> 1/1000 <= h <= 1 -> half_in_bins ts sfrs (1 / 10 ^ 14) t ages ->
  joint_amp K ts t (length ages) (length lgmets) h 0 * u <= 1/20 ->
  is_cube (length lgmets) (length ages) n_wave flux ->
  let M := mass_formed_by ts (floored sfr_min sfrs) t in
  (forall k, (k < n_wave)%nat -> 0 <= F k <= 10 ^ 30 /\ F k * M <= 10 ^ 36) ->
  (forall i j k, (i < length lgmets)%nat -> (j < length ages)%nat -> (k < n_wave)%nat -> Rabs (ent3 flux i j k) <= F k) ->
  exists r r0 sed sed0,
    calc_rest_sed_sfh_table_lognormal_mdf (fins ts) (fins sfrs) (Fin lgmet) (Fin h) (fins lgmets) (fins ages) (fins3 flux) (Fin t) (lit sfr_min) = Ok r
    /\ calc_rest_sed_sfh_table_lognormal_mdf (AR := exact) (fins ts) (fins sfrs) (Fin lgmet) (Fin h) (fins lgmets) (fins ages) (fins3 flux) (Fin t) (Fin sfr_min) = Ok r0
    /\ rest_sed r = fins sed /\ rest_sed r0 = fins sed0 /\ length sed = n_wave /\ length sed0 = n_wave
    /\ forall k, (k < n_wave)%nat -> Rabs (ent sed k - ent sed0 k)
         <= F k * M * (2 * joint_amp K ts t (length ages) (length lgmets) h 0 * u) + (3 * INR (length lgmets * length ages) * M + 1) * (u * / 2 ^ 102).
Proof.
  intros RH RH' RA RM Rt Bt Bx Rh Bh HB HJ HC M BF FF. pose proof (u_le u H) as Hu.
  destruct (joint_public ts sfrs lgmet h lgmets ages t K RH RA RM Rt Bt Bx Rh Bh HB HJ) as (r & r0 & W & W0 & Er & Er0 & EW & EW0 & MW & MW0 & SW & PW & DW).
  assert (TO : times_ok ts) by apply RH. assert (T0 : 0.003 <= ent ts 0) by apply TO. assert (K0 : 0 <= K) by apply RH.
  assert (La : (3 <= length ages)%nat) by apply RA. assert (Lm : (3 <= length lgmets)%nat) by apply RM.
  destruct (amp_use K ts t (length ages) (length lgmets) h 0) as (U1 & U2 & U3 & UJ & UA & UA0); auto; try lra.
  destruct (mass_public u H HE ts sfrs t sfr_min K (length ages) RH' Rt Bt) as (M' & EM & RM' & DM); [lra|]. fold M in DM.
  destruct (mass_le_public u H ts sfrs t sfr_min K RH') as [M0 M34]. fold M in M0, M34.
  pose proof (rounding_grids K ts sfrs h lgmets ages t RH RA RM ltac:(lra) HB) as GG.
  assert (SP : 0 < sfr_min). { destruct RH' as (_ & _ & _ & _ & B & _). apply Rlt_le_trans with (1 / 10 ^ 20); [apply Rdiv_lt_0_compat; [lra|apply pow_lt; lra]|lra]. }
  destruct (sed_lognormal_fins ts sfrs lgmet h lgmets ages flux n_wave t sfr_min GG ltac:(lra) SP HC) as (W1 & mw & aw & E1 & M1 & S1 & P1 & E2).
  rewrite Er0 in E1. injection E1 as E1. rewrite E1 in EW0. cbn [weights] in EW0. apply (f_equal (map (map fval))) in EW0.
  assert (FV : forall X, map (map fval) (map fins X) = X). { intros X. rewrite map_map. rewrite <- (map_id X) at 2. apply map_ext. intros l. unfold fins. rewrite map_map. rewrite <- (map_id l) at 2. apply map_ext. reflexivity. }
  rewrite !FV in EW0. subst W1.
  set (J := joint_amp K ts t (length ages) (length lgmets) h 0) in *. set (A := mass_amp K ts t (length ages)) in *.
  destruct (sed_err u H (length lgmets) (length ages) n_wave W W0 flux M M' (J * u) (4 * A * u) F) as (sed & Es & Ls & Vs); auto; try lia; try lra.
  - apply (concat_nonneg (length lgmets) (length ages)); auto.
  - now rewrite Rsum_concat.
  - exists {| rest_sed := fins sed; rs_weights := map fins W; rs_lgmet_weights := lgmet_weights r; rs_age_weights := age_weights r |}. eexists. exists sed, (map (fun k => template_mix (length lgmets) (length ages) W0 flux k * M) (seq 0 n_wave)).
    split; [|split; [exact E2|]].
    + unfold calc_rest_sed_sfh_table_lognormal_mdf. rewrite Er. cbn [bind]. unfold check. rewrite !fins_length. rewrite (cube_shape_ok _ _ n_wave) by (auto; lia).
      rewrite (stretch_cube _ _ n_wave) by auto. rewrite EM, EW, Es. reflexivity.
    + cbn [rest_sed]. split; auto. split; auto. split; auto. split; [now rewrite map_length, seq_length|]. intros k Hk. rewrite ent_map_seq by auto. cbn [Nat.add].
      eapply Rle_trans; [apply (Vs k Hk)|]. apply Rplus_le_compat_r. apply Rmult_le_compat_l; [apply Rmult_le_pos; [apply (BF k Hk)|lra]|].
      assert (Hn3 : 3 <= INR (length ages)) by (apply (le_INR 3) in La; simpl in La; lra). assert (3 * (A * u) <= INR (length ages) * (A * u)) by (apply Rmult_le_compat_r; lra).
      replace (2 * J * u) with (2 * (J * u)) by ring. rewrite UJ. lra.
Qed.
End F.
