(** * Properties C127 and C156: shapes alone decide whether a call raises, and what an array of
    length 1 means.
    Every theorem holds for every arithmetic [AR] (exact or rounded), for all lengths and for
    every value of the entries, NaN and infinities included. [stands_for m n] (Spec) is "m = n or
    m = 1". *)
From Coq Require Import Reals List Arith Lra Lia.
From Verif Require Import Num Arr MUtils MSed MDiffburst MEmlines MPhot Spec SpecApi LShape LBcast2.
Import ListNotations.

(** C127 *)
Theorem C127_sed_shapes : forall (AR : Arith) ts sfrs mets lgmet scatter ssp_lgmet ages flux t_obs sfr_min,
  let history := stands_for (length sfrs) (length ts) /\ ts <> [] in
  let metallicities := length mets = length ts /\ ts <> [] in
  let enough_ages := (3 <= length ages)%nat in let enough_lgmets := (3 <= length ssp_lgmet)%nat in
  let cube := has_shape (length ssp_lgmet) (length ages) flux in
  ((exists w, calc_age_weights_from_sfh_table ts sfrs ages t_obs sfr_min = Ok w) <-> history /\ enough_ages)
  /\ ((exists w, calc_lgmet_weights_from_lognormal_mdf lgmet scatter ssp_lgmet = Ok w) <-> enough_lgmets)
  /\ ((exists w, calc_lgmet_weights_from_lgmet_table ts mets scatter ssp_lgmet ages t_obs = Ok w) <-> metallicities /\ enough_lgmets)
  /\ ((exists w, calc_ssp_weights_sfh_table_lognormal_mdf ts sfrs lgmet scatter ssp_lgmet ages t_obs = Ok w)
      <-> history /\ enough_ages /\ enough_lgmets)
  /\ ((exists w, calc_ssp_weights_sfh_table_met_table ts sfrs mets scatter ssp_lgmet ages t_obs = Ok w)
      <-> history /\ metallicities /\ enough_ages /\ enough_lgmets)
  /\ ((exists sed, calc_rest_sed_sfh_table_lognormal_mdf ts sfrs lgmet scatter ssp_lgmet ages flux t_obs sfr_min = Ok sed)
      <-> history /\ enough_ages /\ enough_lgmets /\ cube)
  /\ ((exists sed, calc_rest_sed_sfh_table_met_table ts sfrs mets scatter ssp_lgmet ages flux t_obs sfr_min = Ok sed)
      <-> history /\ metallicities /\ enough_ages /\ enough_lgmets /\ cube).
Proof. exact C127_sed_lemma. Qed.
Print Assumptions C127_sed_shapes.
Theorem C127_photometry_shapes : forall (AR : Arith) ws ls wf tf z Om0 w0 wa h,
  let matching := ws <> [] /\ length ls = length ws
    /\ (stands_for (length tf) (length wf) \/ length wf = 1%nat /\ (length tf <= 2)%nat) in
  ((exists m, calc_rest_mag ws ls wf tf = Ok m) <-> matching)
  /\ ((exists f, calc_rest_flux ws ls wf tf = Ok f) <-> matching)
  /\ ((exists m, calc_obs_mag_no_dimming ws ls wf tf z = Ok m) <-> matching)
  /\ ((exists m, calc_obs_mag ws ls wf tf z Om0 w0 wa h = Ok m) <-> matching).
Proof. exact C127_phot_lemma. Qed.
Print Assumptions C127_photometry_shapes.
Theorem C127_population_shapes : forall (AR : Arith) ws flux fws fts zs z Om0 w0 wa h,
  let matching := ws <> [] /\ Forall (Forall (fun spec => length spec = length ws)) flux /\ length fws = length fts
    /\ Forall (fun p => stands_for (length (snd p)) (length (fst p)) \/ length (fst p) = 1%nat /\ (length (snd p) <= 2)%nat) (combine fws fts) in
  ((exists tab, precompute_ssp_restmags ws flux fws fts = Ok tab) <-> matching)
  /\ ((exists tab, precompute_ssp_restmags_z_kcorrect ws flux fws fts z = Ok tab) <-> matching)
  /\ ((exists tab, precompute_ssp_obsmags_on_z_table ws flux fws fts zs Om0 w0 wa h = Ok tab) <-> matching).
Proof. exact C127_pop_lemma. Qed.
Print Assumptions C127_population_shapes.
Theorem C127_integral_and_burst_shapes : forall (AR : Arith) xs ys,
  ((exists v, trapz xs ys = Ok v)
   <-> length xs = length ys \/ length xs = 2%nat \/ length ys = 2%nat \/ (length xs <= 1)%nat /\ (length ys <= 1)%nat)
  /\ ((exists v, cumtrapz xs ys = Ok v) <-> length xs = length ys /\ xs <> [])
  /\ ((exists v, cumulative_mstar_formed xs ys = Ok v) <-> stands_for (length ys) (length xs))
  /\ (forall p, (exists v, calc_bursty_age_weights p xs ys = Ok v)
        <-> stands_for (length xs) (length ys) \/ length ys = 1%nat)
  /\ (forall u, (exists v, calc_bursty_age_weights_from_u_params u xs ys = Ok v)
        <-> stands_for (length xs) (length ys) \/ length ys = 1%nat)
  /\ (forall lstsq a b c d e f g, (exists v, ew_kernel lstsq xs ys a b c d e f g = Ok v) <-> stands_for (length ys) (length xs)).
Proof. exact C127_misc_lemma. Qed.
Print Assumptions C127_integral_and_burst_shapes.
Example C127_nonvacuous : forall AR : Arith,
  (exists m, calc_rest_mag [NaN; Fin 1; PInf] [Fin 2; NaN; Fin 0] [Fin 1; Fin 2; Fin 3] [NaN; NaN; NaN] = Ok m)
  /\ (exists m, calc_rest_mag [NaN; Fin 1; PInf] [Fin 2; NaN; Fin 0] [Fin 1; Fin 2; Fin 3] [NaN] = Ok m)
  /\ ~ (exists m, calc_rest_mag [NaN; Fin 1; PInf] [Fin 2; NaN; Fin 0] [Fin 1; Fin 2; Fin 3] [NaN; NaN] = Ok m).
Proof.
  intros AR. split; [|split].
  - apply (C127_photometry_shapes AR _ _ _ _ NaN NaN NaN NaN NaN). split; [discriminate|]. split; [reflexivity|]. left. now left.
  - apply (C127_photometry_shapes AR _ _ _ _ NaN NaN NaN NaN NaN). split; [discriminate|]. split; [reflexivity|]. left. now right.
  - intros H. apply (C127_photometry_shapes AR _ _ _ _ NaN NaN NaN NaN NaN) in H.
    destruct H as (_ & _ & [[H|H]|[H _]]); discriminate.
Qed.

(** C156: a star formation history of length 1 is the constant history *)
Theorem C156_single_sfr_is_constant_history : forall (AR : Arith) ts sfr mets lgmet scatter ssp_lgmet ages flux t_obs sfr_min,
  let constant := repeat sfr (length ts) in
  cumulative_mstar_formed ts [sfr] = cumulative_mstar_formed ts constant
  /\ calc_age_weights_from_sfh_table ts [sfr] ages t_obs sfr_min = calc_age_weights_from_sfh_table ts constant ages t_obs sfr_min
  /\ calc_rest_sed_sfh_table_lognormal_mdf ts [sfr] lgmet scatter ssp_lgmet ages flux t_obs sfr_min
     = calc_rest_sed_sfh_table_lognormal_mdf ts constant lgmet scatter ssp_lgmet ages flux t_obs sfr_min
  /\ calc_rest_sed_sfh_table_met_table ts [sfr] mets scatter ssp_lgmet ages flux t_obs sfr_min
     = calc_rest_sed_sfh_table_met_table ts constant mets scatter ssp_lgmet ages flux t_obs sfr_min.
Proof. exact C156_sfr_lemma. Qed.
Print Assumptions C156_single_sfr_is_constant_history.
(** one metallicity plane is used for every metallicity, one age spectrum for every age *)
Theorem C156_single_template_axis_is_repeated : forall (AR : Arith) ts sfrs mets lgmet scatter ssp_lgmet ages t_obs sfr_min,
  let n_met := length ssp_lgmet in let n_age := length ages in
  let sed flux := calc_rest_sed_sfh_table_lognormal_mdf ts sfrs lgmet scatter ssp_lgmet ages flux t_obs sfr_min in
  let sed_met flux := calc_rest_sed_sfh_table_met_table ts sfrs mets scatter ssp_lgmet ages flux t_obs sfr_min in
  (forall plane, sed [plane] = sed (repeat plane n_met) /\ sed_met [plane] = sed_met (repeat plane n_met))
  /\ (forall spectra, spectra <> [] ->
       sed (map (fun spec => [spec]) spectra) = sed (map (fun spec => repeat spec n_age) spectra)
       /\ sed_met (map (fun spec => [spec]) spectra) = sed_met (map (fun spec => repeat spec n_age) spectra))
  /\ (forall spec, sed [[spec]] = sed (repeat (repeat spec n_age) n_met)
       /\ sed_met [[spec]] = sed_met (repeat (repeat spec n_age) n_met)).
Proof. exact C156_flux_lemma. Qed.
Print Assumptions C156_single_template_axis_is_repeated.
Theorem C156_single_transmission_is_flat_filter : forall (AR : Arith) ws ls wf tau z Om0 w0 wa h,
  let flat := repeat tau (length wf) in
  calc_rest_mag ws ls wf [tau] = calc_rest_mag ws ls wf flat
  /\ calc_rest_flux ws ls wf [tau] = calc_rest_flux ws ls wf flat
  /\ calc_obs_mag_no_dimming ws ls wf [tau] z = calc_obs_mag_no_dimming ws ls wf flat z
  /\ calc_obs_mag ws ls wf [tau] z Om0 w0 wa h = calc_obs_mag ws ls wf flat z Om0 w0 wa h.
Proof. exact C156_filter_lemma. Qed.
Print Assumptions C156_single_transmission_is_flat_filter.
Theorem C156_single_weight_and_flux_are_repeated : forall (AR : Arith) xs y,
  (forall p, calc_bursty_age_weights p [y] xs = calc_bursty_age_weights p (repeat y (length xs)) xs)
  /\ (forall u, calc_bursty_age_weights_from_u_params u [y] xs = calc_bursty_age_weights_from_u_params u (repeat y (length xs)) xs)
  /\ (forall lstsq a b c d e f g, ew_kernel lstsq xs [y] a b c d e f g = ew_kernel lstsq xs (repeat y (length xs)) a b c d e f g
       /\ continuum_line_decomp_kern lstsq xs [y] a b c d e f g = continuum_line_decomp_kern lstsq xs (repeat y (length xs)) a b c d e f g).
Proof. exact C156_misc_lemma. Qed.
Print Assumptions C156_single_weight_and_flux_are_repeated.
(** the integral silently accepts two points against any number of points: half the step times the
    sum of neighbouring ordinates, or half the sum of the two ordinates times each step *)
Theorem C156_two_point_integrals : forall (AR : Arith) x0 x1 y0 y1 l, (length l <> 2)%nat ->
  trapz [x0; x1] l = Ok (nmul (Fin (1/2)) (vsum (map (nmul (nsub x1 x0)) (map2 nadd (tl l) l))))
  /\ trapz l [y0; y1] = Ok (nmul (Fin (1/2)) (vsum (map (fun d => nmul d (nadd y1 y0)) (map2 nsub (tl l) l)))).
Proof. exact C156_trapz_lemma. Qed.
Print Assumptions C156_two_point_integrals.
Example C156_nonvacuous : forall AR : Arith,
  (exists m, calc_rest_mag [Fin 1; Fin 2; Fin 3] [Fin 2; Fin 5; Fin 0] [Fin 1; Fin 2; Fin 3] [Fin (1/2)] = Ok m)
  /\ (exists r, calc_rest_sed_sfh_table_lognormal_mdf [Fin 1; Fin 2] [Fin 3] (Fin (-2)) (Fin (1/5)) [Fin (-3); Fin (-2); Fin (-1)]
        [Fin (-1); Fin 0; Fin 1] [[[Fin 1; Fin 2]]] (Fin 2) (Fin (1/1000)) = Ok r).
Proof.
  intros AR. split.
  - apply (C127_photometry_shapes AR _ _ _ _ NaN NaN NaN NaN NaN). split; [discriminate|]. split; [reflexivity|]. left. now right.
  - apply (C127_sed_shapes AR _ _ [] _ _ _ _ _ _ _). split; [split; [now right|discriminate]|]. split; [simpl; lia|]. split; [simpl; lia|].
    exists 1%nat, 1%nat, 2%nat. split; [now right|]. split; [now right|]. repeat constructor.
Qed.
