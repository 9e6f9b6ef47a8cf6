(** * From the star formation history to the magnitude: the public statements (C152) *)
From Coq Require Import Reals List Arith Lra Lia ZArith Bool.
From Coquelicot Require Import Coquelicot.
From Flocq Require Import Core.Raux.
From Verif Require Import Num Arr MUtils MSed MCosmo MPhot Float Spec SpecFloat SpecFloat2 SpecFloat5 RList LBcast LUtils LFloat LFloat2 LFloat10 LRound12 LRound42.
Import ListNotations.
Open Scope R_scope.

Lemma nmul_mach {AR : Arith} (G : good_rounding AR) a b v : nmul a b = Fin v -> rnd v = Fin v.
Proof.
  destruct a, b; unfold nmul, inf_times; intros E; try discriminate; repeat (destruct (Rlt_bool _ _) in E; try discriminate); try (eapply (rnd_idem _ G); exact E).
Qed.
Lemma fins_nth l k : (k < length l)%nat -> nth k (fins l) NaN = Fin (ent l k).
Proof. revert k. induction l; intros [|k] K; simpl in *; try lia; [reflexivity|]. apply IHl. lia. Qed.
Lemma sed_mach {AR : Arith} (G : good_rounding AR) M l sed : map (fun s => nmul s M) l = fins sed -> forall k, (k < length sed)%nat -> rnd (ent sed k) = Fin (ent sed k).
Proof.
  intros E k K. pose proof (fins_nth sed k K) as N. rewrite <- E in N. assert (L : length l = length sed) by (apply (f_equal (@length _)) in E; now rewrite map_length, fins_length in E).
  rewrite (nth_indep _ NaN (nmul NaN M)) in N by (rewrite map_length; lia). rewrite (map_nth (fun s => nmul s M) l NaN k) in N. now apply (nmul_mach G) in N.
Qed.
Lemma C152_rest_lemma : forall AR u, accurate_to AR u -> forall K ts sfrs lgmet scatter lgmets ages flux n_wave t_obs sfr_min F ws wf tf B eps kappa r0 sed0,
  rounding_history K ts sfrs (1 / 10 ^ 14) -> rounding_history K ts sfrs sfr_min -> rounding_ages ages -> rounding_lgmets lgmets ->
  machine_number t_obs -> ent ts 0 <= t_obs <= 1000 -> Rabs lgmet <= 5 -> machine_number scatter -> 1/1000 <= scatter <= 1 ->
  half_in_bins ts sfrs (1 / 10 ^ 14) t_obs ages ->
  let n_met := length lgmets in let n_age := length ages in
  let bound := joint_amp K ts t_obs n_age n_met scatter 0 * u in bound <= 1/20 ->
  is_cube n_met n_age n_wave flux ->
  let M := mass_formed_by ts (floored sfr_min sfrs) t_obs in
  (forall k, (k < n_wave)%nat -> 0 <= F k <= 10 ^ 30 /\ F k * M <= 10 ^ 36) ->
  (forall i j k, (i < n_met)%nat -> (j < n_age)%nat -> (k < n_wave)%nat -> Rabs (ent3 flux i j k) <= F k) ->
  calc_rest_sed_sfh_table_lognormal_mdf (AR := exact) (fins ts) (fins sfrs) (Fin lgmet) (Fin scatter) (fins lgmets) (fins ages) (fins3 flux) (Fin t_obs) (Fin sfr_min) = Ok r0 ->
  rest_sed r0 = fins sed0 ->
  0 <= eps <= 1/100 -> (forall k, (k < n_wave)%nat -> 0 <= ent sed0 k <= B /\ sed_error u (F k) M bound (n_met * n_age) <= eps * ent sed0 k) ->
  / 10 ^ 20 <= B <= 10 ^ 19 -> length ws = n_wave -> rounding_wavelengths ws -> rounding_filter (AR := AR) wf tf ->
  1 / 10 ^ 18 <= B * band_integral (fun _ => 1) wf tf ->
  0 < kappa -> B <= kappa * (ab0 * band_flux (spectrum_at ws sed0) wf tf) -> 3 * (INR (length wf) + 25) * u * kappa <= 1 / 110 ->
  exists r sed m m0,
    calc_rest_sed_sfh_table_lognormal_mdf (AR := AR) (fins ts) (fins sfrs) (Fin lgmet) (Fin scatter) (fins lgmets) (fins ages) (fins3 flux) (Fin t_obs) (lit sfr_min) = Ok r
    /\ rest_sed r = fins sed /\ relatively_close eps sed sed0
    /\ calc_rest_mag (AR := AR) (fins ws) (rest_sed r) (fins wf) (fins tf) = Ok (Fin m)
    /\ calc_rest_mag (AR := exact) (fins ws) (rest_sed r0) (fins wf) (fins tf) = Ok (Fin m0)
    /\ Rabs (m - m0) <= 5 * (INR (length wf) + 70) * u * kappa + 1.3 * eps.
Proof.
  intros AR u U K ts sfrs lgmet scatter lgmets ages flux n_wave t_obs sfr_min F ws wf tf B eps kappa r0 sed0 RH RH' RA RM Rt Bt Bx Rh Bh HH n_met n_age bound HJ HC M BF FF E0 Es0 He HS HB LW RW RF HBI K0 HK SM.
  pose proof (rel_err_unit _ _ U) as H. destruct (C134_sed_lemma AR u U K ts sfrs lgmet scatter lgmets ages flux n_wave t_obs sfr_min F) as (r & r0' & sed & sed0' & E & E0' & Es & Es0' & L & L0 & D); auto.
  rewrite E0 in E0'. injection E0' as <-. rewrite Es0 in Es0'. apply fins_inj in Es0'. subst sed0'.
  assert (RC : relatively_close eps sed sed0). { split; [lia|]. intros k Hk. eapply Rle_trans; [apply D; lia|]. apply HS. lia. }
  assert (MA : forall k, (k < length sed)%nat -> rnd (Arith := AR) (ent sed k) = Fin (ent sed k)).
  { revert E. unfold calc_rest_sed_sfh_table_lognormal_mdf. destruct (calc_ssp_weights_sfh_table_lognormal_mdf _ _ _ _ _ _ _); [|discriminate]. cbn [bind]. unfold check. destruct (flux_shape_ok _ _ _); [|discriminate]. intros E. injection E as <-. cbn [rest_sed] in Es. eapply sed_mach; [apply (re_good _ _ H)|exact Es]. }
  destruct (rest_transfer u U B eps ws sed sed0 wf tf kappa RW HB He) as (m & m0 & Em & Em0 & Dm); auto; [lia|intros k Hk; apply HS; lia|].
  exists r, sed, m, m0. rewrite Es, Es0. auto 10.
Qed.
Lemma C152_rest_met_lemma : forall AR u, accurate_to AR u -> forall K Kz ts sfrs lgmet_table scatter lgmets ages flux n_wave t_obs sfr_min F ws wf tf B eps kappa r0 sed0,
  rounding_history K ts sfrs (1 / 10 ^ 14) -> rounding_history K ts sfrs sfr_min -> rounding_ages ages -> rounding_lgmets lgmets -> rounding_lgmet_table Kz ts lgmet_table ->
  machine_number t_obs -> ent ts 0 <= t_obs <= 1000 -> machine_number scatter -> 1/1000 <= scatter <= 1 ->
  half_in_bins ts sfrs (1 / 10 ^ 14) t_obs ages ->
  let n_met := length lgmets in let n_age := length ages in
  let bound := joint_amp K ts t_obs n_age n_met scatter (lgmet_amp Kz ts t_obs) * u in bound <= 1/20 ->
  is_cube n_met n_age n_wave flux ->
  let M := mass_formed_by ts (floored sfr_min sfrs) t_obs in
  (forall k, (k < n_wave)%nat -> 0 <= F k <= 10 ^ 30 /\ F k * M <= 10 ^ 36) ->
  (forall i j k, (i < n_met)%nat -> (j < n_age)%nat -> (k < n_wave)%nat -> Rabs (ent3 flux i j k) <= F k) ->
  calc_rest_sed_sfh_table_met_table (AR := exact) (fins ts) (fins sfrs) (fins lgmet_table) (Fin scatter) (fins lgmets) (fins ages) (fins3 flux) (Fin t_obs) (Fin sfr_min) = Ok r0 ->
  rest_sed r0 = fins sed0 ->
  0 <= eps <= 1/100 -> (forall k, (k < n_wave)%nat -> 0 <= ent sed0 k <= B /\ sed_error u (F k) M bound (n_met * n_age) <= eps * ent sed0 k) ->
  / 10 ^ 20 <= B <= 10 ^ 19 -> length ws = n_wave -> rounding_wavelengths ws -> rounding_filter (AR := AR) wf tf ->
  1 / 10 ^ 18 <= B * band_integral (fun _ => 1) wf tf ->
  0 < kappa -> B <= kappa * (ab0 * band_flux (spectrum_at ws sed0) wf tf) -> 3 * (INR (length wf) + 25) * u * kappa <= 1 / 110 ->
  exists r sed m m0,
    calc_rest_sed_sfh_table_met_table (AR := AR) (fins ts) (fins sfrs) (fins lgmet_table) (Fin scatter) (fins lgmets) (fins ages) (fins3 flux) (Fin t_obs) (lit sfr_min) = Ok r
    /\ rest_sed r = fins sed /\ relatively_close eps sed sed0
    /\ calc_rest_mag (AR := AR) (fins ws) (rest_sed r) (fins wf) (fins tf) = Ok (Fin m)
    /\ calc_rest_mag (AR := exact) (fins ws) (rest_sed r0) (fins wf) (fins tf) = Ok (Fin m0)
    /\ Rabs (m - m0) <= 5 * (INR (length wf) + 70) * u * kappa + 1.3 * eps.
Proof.
  intros AR u U K Kz ts sfrs lgmet_table scatter lgmets ages flux n_wave t_obs sfr_min F ws wf tf B eps kappa r0 sed0 RH RH' RA RM RZ Rt Bt Rh Bh HH n_met n_age bound HJ HC M BF FF E0 Es0 He HS HB LW RW RF HBI K0 HK SM.
  pose proof (rel_err_unit _ _ U) as H. destruct (C134_sed_met_lemma AR u U K Kz ts sfrs lgmet_table scatter lgmets ages flux n_wave t_obs sfr_min F) as (r & r0' & sed & sed0' & E & E0' & Es & Es0' & L & L0 & D); auto.
  rewrite E0 in E0'. injection E0' as <-. rewrite Es0 in Es0'. apply fins_inj in Es0'. subst sed0'.
  assert (RC : relatively_close eps sed sed0). { split; [lia|]. intros k Hk. eapply Rle_trans; [apply D; lia|]. apply HS. lia. }
  assert (MA : forall k, (k < length sed)%nat -> rnd (Arith := AR) (ent sed k) = Fin (ent sed k)).
  { revert E. unfold calc_rest_sed_sfh_table_met_table. destruct (calc_ssp_weights_sfh_table_met_table _ _ _ _ _ _ _); [|discriminate]. cbn [bind]. unfold check. destruct (flux_shape_ok _ _ _); [|discriminate]. intros E. injection E as <-. cbn [rest_sed] in Es. eapply sed_mach; [apply (re_good _ _ H)|exact Es]. }
  destruct (rest_transfer u U B eps ws sed sed0 wf tf kappa RW HB He) as (m & m0 & Em & Em0 & Dm); auto; [lia|intros k Hk; apply HS; lia|].
  exists r, sed, m, m0. rewrite Es, Es0. auto 10.
Qed.
Lemma C152_obs_lemma : forall AR u, accurate_to AR u -> forall K ts sfrs lgmet scatter lgmets ages flux n_wave t_obs sfr_min F ws wf tf B eps kappa Res z Om0 w0 wa h r0 sed0,
  rounding_history K ts sfrs (1 / 10 ^ 14) -> rounding_history K ts sfrs sfr_min -> rounding_ages ages -> rounding_lgmets lgmets ->
  machine_number t_obs -> ent ts 0 <= t_obs <= 1000 -> Rabs lgmet <= 5 -> machine_number scatter -> 1/1000 <= scatter <= 1 ->
  half_in_bins ts sfrs (1 / 10 ^ 14) t_obs ages ->
  let n_met := length lgmets in let n_age := length ages in
  let bound := joint_amp K ts t_obs n_age n_met scatter 0 * u in bound <= 1/20 ->
  is_cube n_met n_age n_wave flux ->
  let M := mass_formed_by ts (floored sfr_min sfrs) t_obs in
  (forall k, (k < n_wave)%nat -> 0 <= F k <= 10 ^ 30 /\ F k * M <= 10 ^ 36) ->
  (forall i j k, (i < n_met)%nat -> (j < n_age)%nat -> (k < n_wave)%nat -> Rabs (ent3 flux i j k) <= F k) ->
  calc_rest_sed_sfh_table_lognormal_mdf (AR := exact) (fins ts) (fins sfrs) (Fin lgmet) (Fin scatter) (fins lgmets) (fins ages) (fins3 flux) (Fin t_obs) (Fin sfr_min) = Ok r0 ->
  rest_sed r0 = fins sed0 ->
  0 <= eps <= 1/100 -> (forall k, (k < n_wave)%nat -> 0 <= ent sed0 k <= B /\ sed_error u (F k) M bound (n_met * n_age) <= eps * ent sed0 k) ->
  / 10 ^ 20 <= B <= 10 ^ 19 -> length ws = n_wave -> rounding_wavelengths ws -> rounding_filter (AR := AR) wf tf ->
  rounding_resolution Res ws -> rounding_cosmology (AR := AR) z Om0 w0 wa h -> inside_spectrum ws wf z ->
  1 / 10 ^ 18 <= B * band_integral (fun _ => 1) wf tf ->
  0 < kappa -> B <= kappa * (ab0 * band_flux (fun x => spectrum_at ws sed0 (x / (1 + z))) wf tf) -> 3 * (INR (length wf) + 5 * Res + 25) * u * kappa <= 1 / 1100 ->
  exists r sed m m0,
    calc_rest_sed_sfh_table_lognormal_mdf (AR := AR) (fins ts) (fins sfrs) (Fin lgmet) (Fin scatter) (fins lgmets) (fins ages) (fins3 flux) (Fin t_obs) (lit sfr_min) = Ok r
    /\ rest_sed r = fins sed /\ relatively_close eps sed sed0
    /\ calc_obs_mag (AR := AR) (fins ws) (rest_sed r) (fins wf) (fins tf) (Fin z) (Fin Om0) (Fin w0) (Fin wa) (Fin h) = Ok (Fin m)
    /\ calc_obs_mag (AR := exact) (fins ws) (rest_sed r0) (fins wf) (fins tf) (Fin z) (Fin Om0) (Fin w0) (Fin wa) (Fin h) = Ok (Fin m0)
    /\ Rabs (m - m0) <= 5 * (INR (length wf) + 5 * Res + 70) * u * kappa + 4200 * u + 1.3 * eps.
Proof.
  intros AR u U K ts sfrs lgmet scatter lgmets ages flux n_wave t_obs sfr_min F ws wf tf B eps kappa Res z Om0 w0 wa h r0 sed0 RH RH' RA RM Rt Bt Bx Rh Bh HH n_met n_age bound HJ HC M BF FF E0 Es0 He HS HB LW RW RF RR CO INS HBI K0 HK SM.
  pose proof (rel_err_unit _ _ U) as H. destruct (C134_sed_lemma AR u U K ts sfrs lgmet scatter lgmets ages flux n_wave t_obs sfr_min F) as (r & r0' & sed & sed0' & E & E0' & Es & Es0' & L & L0 & D); auto.
  rewrite E0 in E0'. injection E0' as <-. rewrite Es0 in Es0'. apply fins_inj in Es0'. subst sed0'.
  assert (RC : relatively_close eps sed sed0). { split; [lia|]. intros k Hk. eapply Rle_trans; [apply D; lia|]. apply HS. lia. }
  assert (MA : forall k, (k < length sed)%nat -> rnd (Arith := AR) (ent sed k) = Fin (ent sed k)).
  { revert E. unfold calc_rest_sed_sfh_table_lognormal_mdf. destruct (calc_ssp_weights_sfh_table_lognormal_mdf _ _ _ _ _ _ _); [|discriminate]. cbn [bind]. unfold check. destruct (flux_shape_ok _ _ _); [|discriminate]. intros E. injection E as <-. cbn [rest_sed] in Es. eapply sed_mach; [apply (re_good _ _ H)|exact Es]. }
  destruct (obs_transfer u U B Res eps ws sed sed0 wf tf z Om0 w0 wa h kappa RW HB He) as (m & m0 & Em & Em0 & Dm); auto; [lia|intros k Hk; apply HS; lia|].
  exists r, sed, m, m0. rewrite Es, Es0. auto 10.
Qed.
Lemma C152_obs_met_lemma : forall AR u, accurate_to AR u -> forall K Kz ts sfrs lgmet_table scatter lgmets ages flux n_wave t_obs sfr_min F ws wf tf B eps kappa Res z Om0 w0 wa h r0 sed0,
  rounding_history K ts sfrs (1 / 10 ^ 14) -> rounding_history K ts sfrs sfr_min -> rounding_ages ages -> rounding_lgmets lgmets -> rounding_lgmet_table Kz ts lgmet_table ->
  machine_number t_obs -> ent ts 0 <= t_obs <= 1000 -> machine_number scatter -> 1/1000 <= scatter <= 1 ->
  half_in_bins ts sfrs (1 / 10 ^ 14) t_obs ages ->
  let n_met := length lgmets in let n_age := length ages in
  let bound := joint_amp K ts t_obs n_age n_met scatter (lgmet_amp Kz ts t_obs) * u in bound <= 1/20 ->
  is_cube n_met n_age n_wave flux ->
  let M := mass_formed_by ts (floored sfr_min sfrs) t_obs in
  (forall k, (k < n_wave)%nat -> 0 <= F k <= 10 ^ 30 /\ F k * M <= 10 ^ 36) ->
  (forall i j k, (i < n_met)%nat -> (j < n_age)%nat -> (k < n_wave)%nat -> Rabs (ent3 flux i j k) <= F k) ->
  calc_rest_sed_sfh_table_met_table (AR := exact) (fins ts) (fins sfrs) (fins lgmet_table) (Fin scatter) (fins lgmets) (fins ages) (fins3 flux) (Fin t_obs) (Fin sfr_min) = Ok r0 ->
  rest_sed r0 = fins sed0 ->
  0 <= eps <= 1/100 -> (forall k, (k < n_wave)%nat -> 0 <= ent sed0 k <= B /\ sed_error u (F k) M bound (n_met * n_age) <= eps * ent sed0 k) ->
  / 10 ^ 20 <= B <= 10 ^ 19 -> length ws = n_wave -> rounding_wavelengths ws -> rounding_filter (AR := AR) wf tf ->
  rounding_resolution Res ws -> rounding_cosmology (AR := AR) z Om0 w0 wa h -> inside_spectrum ws wf z ->
  1 / 10 ^ 18 <= B * band_integral (fun _ => 1) wf tf ->
  0 < kappa -> B <= kappa * (ab0 * band_flux (fun x => spectrum_at ws sed0 (x / (1 + z))) wf tf) -> 3 * (INR (length wf) + 5 * Res + 25) * u * kappa <= 1 / 1100 ->
  exists r sed m m0,
    calc_rest_sed_sfh_table_met_table (AR := AR) (fins ts) (fins sfrs) (fins lgmet_table) (Fin scatter) (fins lgmets) (fins ages) (fins3 flux) (Fin t_obs) (lit sfr_min) = Ok r
    /\ rest_sed r = fins sed /\ relatively_close eps sed sed0
    /\ calc_obs_mag (AR := AR) (fins ws) (rest_sed r) (fins wf) (fins tf) (Fin z) (Fin Om0) (Fin w0) (Fin wa) (Fin h) = Ok (Fin m)
    /\ calc_obs_mag (AR := exact) (fins ws) (rest_sed r0) (fins wf) (fins tf) (Fin z) (Fin Om0) (Fin w0) (Fin wa) (Fin h) = Ok (Fin m0)
    /\ Rabs (m - m0) <= 5 * (INR (length wf) + 5 * Res + 70) * u * kappa + 4200 * u + 1.3 * eps.
Proof.
  intros AR u U K Kz ts sfrs lgmet_table scatter lgmets ages flux n_wave t_obs sfr_min F ws wf tf B eps kappa Res z Om0 w0 wa h r0 sed0 RH RH' RA RM RZ Rt Bt Rh Bh HH n_met n_age bound HJ HC M BF FF E0 Es0 He HS HB LW RW RF RR CO INS HBI K0 HK SM.
  pose proof (rel_err_unit _ _ U) as H. destruct (C134_sed_met_lemma AR u U K Kz ts sfrs lgmet_table scatter lgmets ages flux n_wave t_obs sfr_min F) as (r & r0' & sed & sed0' & E & E0' & Es & Es0' & L & L0 & D); auto.
  rewrite E0 in E0'. injection E0' as <-. rewrite Es0 in Es0'. apply fins_inj in Es0'. subst sed0'.
  assert (RC : relatively_close eps sed sed0). { split; [lia|]. intros k Hk. eapply Rle_trans; [apply D; lia|]. apply HS. lia. }
  assert (MA : forall k, (k < length sed)%nat -> rnd (Arith := AR) (ent sed k) = Fin (ent sed k)).
  { revert E. unfold calc_rest_sed_sfh_table_met_table. destruct (calc_ssp_weights_sfh_table_met_table _ _ _ _ _ _ _); [|discriminate]. cbn [bind]. unfold check. destruct (flux_shape_ok _ _ _); [|discriminate]. intros E. injection E as <-. cbn [rest_sed] in Es. eapply sed_mach; [apply (re_good _ _ H)|exact Es]. }
  destruct (obs_transfer u U B Res eps ws sed sed0 wf tf z Om0 w0 wa h kappa RW HB He) as (m & m0 & Em & Em0 & Dm); auto; [lia|intros k Hk; apply HS; lia|].
  exists r, sed, m, m0. rewrite Es, Es0. auto 10.
Qed.
