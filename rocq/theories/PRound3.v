(** * Properties C153-C155, C157, C158.  C153: the blackbody in double precision (dust/blackbody.py switches jax to double
    precision when it is imported).  Every operation and literal is rounded to nearest, in C153 exp
    and log are correctly rounded; [planck_freq] and [planck_wave] (Spec.v) are Planck's law in SI units. *)
From Coq Require Import Reals List Arith Lra Lia ZArith.
From Verif Require Import Num Arr MUtils MBlackbody MMzr MImf MCosmo MPhot Float Spec Spec2 SpecApi SpecFloat SpecFloat2 SpecFloat6 SpecFloat7 SpecFloat8 LRound12 LRound26 LRound51 LRound20 LRound54 LRound56 LRound57 LRound58.
Import ListNotations.
Open Scope R_scope.

(** C153: [photon_x] is h nu / k T, [planck_amp x] is (9 x + 2) (1 + 1/x) *)
Theorem C153_frequency_density_error : forall nu T,
  @machine_number binary64 nu -> @machine_number binary64 T -> 10 ^ 6 <= nu <= 10 ^ 22 -> 0.1 <= T <= 10 ^ 12 -> / 10 ^ 12 <= photon_x nu T <= 500 ->
  exists b, @blackbody_freq_density binary64 (Fin nu) (Fin T) = Fin b
    /\ Rabs (b - planck_freq nu T / watts_per_lsun) <= (1100 + planck_amp (photon_x nu T)) * / 2 ^ 53 * (planck_freq nu T / watts_per_lsun).
Proof. exact C153_freq. Qed.
Print Assumptions C153_frequency_density_error.
Example C153_nonvacuous_frequency : exists b, @blackbody_freq_density binary64 (Fin (2 ^ 49)) (Fin 5800) = Fin b
  /\ Rabs (b - planck_freq (2 ^ 49) 5800 / watts_per_lsun) <= (1100 + planck_amp (photon_x (2 ^ 49) 5800)) * / 2 ^ 53 * (planck_freq (2 ^ 49) 5800 / watts_per_lsun).
Proof. exact e153_freq. Qed.
Theorem C153_wavelength_density_error : forall wave_aa T,
  @machine_number binary64 wave_aa -> @machine_number binary64 T -> 0.1 <= wave_aa <= 10 ^ 10 -> 0.1 <= T <= 10 ^ 12 ->
  / 10 ^ 12 <= photon_x (c_light / (wave_aa / 10 ^ 10)) T <= 500 ->
  exists b, @blackbody_wave_density binary64 (Fin wave_aa) (Fin T) = Fin b
    /\ Rabs (b - planck_wave (wave_aa / 10 ^ 10) T / watts_per_lsun / 10 ^ 10)
       <= (1100 + planck_amp (photon_x (c_light / (wave_aa / 10 ^ 10)) T)) * / 2 ^ 53 * (planck_wave (wave_aa / 10 ^ 10) T / watts_per_lsun / 10 ^ 10).
Proof. exact C153_wave. Qed.
Print Assumptions C153_wavelength_density_error.
Example C153_nonvacuous_wavelength : exists b, @blackbody_wave_density binary64 (Fin 5000) (Fin 5800) = Fin b
  /\ Rabs (b - planck_wave (5000 / 10 ^ 10) 5800 / watts_per_lsun / 10 ^ 10) <= 1200 * / 2 ^ 53 * (planck_wave (5000 / 10 ^ 10) 5800 / watts_per_lsun / 10 ^ 10).
Proof. exact e153_wave. Qed.
(** the two ends: exact zero where exp overflows, and +infinity (instead of the finite
    Rayleigh-Jeans value) where exp x - 1 cancels completely *)
Theorem C153_overflow_and_cancellation : forall nu T,
  @machine_number binary64 nu -> @machine_number binary64 T -> 0.001 <= nu <= 10 ^ 22 -> 0.1 <= T <= 10 ^ 12 ->
  (720 <= photon_x nu T -> @blackbody_freq_density binary64 (Fin nu) (Fin T) = Fin 0)
  /\ (photon_x nu T <= / 2 ^ 54 -> @blackbody_freq_density binary64 (Fin nu) (Fin T) = PInf).
Proof. exact C153_edges. Qed.
Print Assumptions C153_overflow_and_cancellation.
Example C153_nonvacuous_edges : @blackbody_freq_density binary64 (Fin (2 ^ 57)) (Fin 5800) = Fin 0 /\ @blackbody_freq_density binary64 (Fin 1) (Fin 1000000) = PInf.
Proof. exact e153_edges. Qed.

(** C154: the mass-metallicity relation (both implementations) in any arithmetic accurate to
    u, in single or double precision *)
Theorem C154_umzr_rounding_error : forall AR u,
  accurate_to AR u -> forall m t y x k lo hi a b c d, rounding_mzr (AR := AR) m t y x k lo hi a b c d ->
  exists z z0, @umzr_model AR (Fin m) (Fin t) (mzr_of y x k lo hi a b c d) = Fin z
    /\ @umzr_model exact (Fin m) (Fin t) (mzr_of y x k lo hi a b c d) = Fin z0 /\ Rabs (z - z0) <= 10300 * u.
Proof. exact C154_umzr. Qed.
Print Assumptions C154_umzr_rounding_error.
Theorem C154_mzr_rounding_error : forall AR u,
  accurate_to AR u -> forall m t y x k lo hi a b c d tc, rounding_mzr (AR := AR) m t y x k lo hi a b c d -> machine_number (AR := AR) tc -> 4 <= tc <= 13 ->
  exists z z0, @mzr_model AR (Fin m) (Fin t) (Fin y) (Fin x) (Fin k) (Fin lo) (Fin hi) (Fin a) (Fin b) (Fin tc) (Fin c) (Fin d) = Fin z
    /\ @mzr_model exact (Fin m) (Fin t) (Fin y) (Fin x) (Fin k) (Fin lo) (Fin hi) (Fin a) (Fin b) (Fin tc) (Fin c) (Fin d) = Fin z0 /\ Rabs (z - z0) <= 10300 * u.
Proof. exact C154_mzr. Qed.
Print Assumptions C154_mzr_rounding_error.
Example C154_nonvacuous : accurate_to binary64 (/ 2 ^ 53)
  /\ rounding_mzr (AR := binary64) 10 6 (3/64) 10.5 1 (3/8) (1/8) (-3/2) (1/8) (-1) (1/16) /\ machine_number (AR := binary64) 8 /\ 4 <= 8 <= 13.
Proof. split; [exact rd_unit|]. split; [exact e154|]. split; [exact e154_tc|lra]. Qed.

(** C155: [relatively_close e x y]: |x - y| <= e y with finite x and finite positive y *)
Theorem C155_scalar_functions_rounding_error : forall AR u, accurate_to AR u -> forall z Om0 w0 wa h, rounding_cosmology (AR := AR) z Om0 w0 wa h ->
  relatively_close (198 * u) (rho_crit (AR := AR) (Fin z) (Fin Om0) (Fin w0) (Fin wa) (Fin h))
                             (rho_crit (AR := exact) (Fin z) (Fin Om0) (Fin w0) (Fin wa) (Fin h))
  /\ relatively_close (100 * u) (hubble_time (AR := AR) (Fin z) (Fin Om0) (Fin w0) (Fin wa) (Fin h))
                                (hubble_time (AR := exact) (Fin z) (Fin Om0) (Fin w0) (Fin wa) (Fin h))
  /\ relatively_close (4 * u) (hubble_distance_mpc (AR := AR) (Fin h)) (hubble_distance_mpc (AR := exact) (Fin h))
  /\ (forall d0, comoving_distance_to_z (AR := exact) (Fin z) (Fin Om0) (Fin w0) (Fin wa) (Fin h) = Fin d0 -> 1 / 10 ^ 8 <= d0 ->
      relatively_close (3000 * u) (differential_comoving_volume_at_z (AR := AR) (Fin z) (Fin Om0) (Fin w0) (Fin wa) (Fin h))
                                  (differential_comoving_volume_at_z (AR := exact) (Fin z) (Fin Om0) (Fin w0) (Fin wa) (Fin h))).
Proof. exact C155_scalar_lemma. Qed.
Print Assumptions C155_scalar_functions_rounding_error.
Theorem C155_matter_fraction_and_virial_time_rounding_error : forall AR u, accurate_to AR u -> forall zs Om0 w0 wa h, List.Forall (fun z => rounding_cosmology (AR := AR) z Om0 w0 wa h) zs ->
  all_relatively_close (200 * u) (Om (AR := AR) (Vector (fins zs)) (Fin Om0) (Fin w0) (Fin wa))
                                 (Om (AR := exact) (Vector (fins zs)) (Fin Om0) (Fin w0) (Fin wa))
  /\ all_relatively_close (700 * u) (delta_vir (AR := AR) (Vector (fins zs)) (Fin Om0) (Fin w0) (Fin wa))
                                    (delta_vir (AR := exact) (Vector (fins zs)) (Fin Om0) (Fin w0) (Fin wa))
  /\ all_relatively_close (510 * u) (virial_dynamical_time (AR := AR) (Vector (fins zs)) (Fin Om0) (Fin w0) (Fin wa) (Fin h))
                                    (virial_dynamical_time (AR := exact) (Vector (fins zs)) (Fin Om0) (Fin w0) (Fin wa) (Fin h)).
Proof. exact C155_vector_lemma. Qed.
Print Assumptions C155_matter_fraction_and_virial_time_rounding_error.
Example C155_nonvacuous : accurate_to binary32 (/ 2 ^ 24)
  /\ List.Forall (fun z => rounding_cosmology (AR := binary32) z (1/4) (-3/4) (1/2) (3/4)) [20; 20]
  /\ rounding_cosmology (AR := binary64) (1/2) (1/4) (-1) 0 (3/4)
  /\ (exists d0, comoving_distance_to_z (AR := exact) (Fin (1/2)) (Fin (1/4)) (Fin (-1)) (Fin 0) (Fin (3/4)) = Fin d0 /\ 1 / 10 ^ 8 <= d0).
Proof. split; [exact rd_unit32|]. split; [constructor; [exact cos_demo32|constructor; [exact cos_demo32|constructor]]|]. split; [exact cos_demo64|exact e155]. Qed.

(** C157: [absolutely_close e x y]: |x - y| <= e with finite x and y; the parameter sets are
    those shipped with the package, read in either arithmetic (their decimal literals are rounded) *)
Theorem C157_remnant_mass_rounding_error : forall AR u, accurate_to AR u -> forall x, machine_number (AR := AR) x -> 3 <= x <= 11 ->
  relatively_close (520 * u) (@remnant_mass AR (Fin x) (@REM_CHABRIER AR)) (@remnant_mass exact (Fin x) (@REM_CHABRIER exact))
  /\ relatively_close (520 * u) (@remnant_mass AR (Fin x) (@REM_SALPETER AR)) (@remnant_mass exact (Fin x) (@REM_SALPETER exact))
  /\ relatively_close (520 * u) (@remnant_mass AR (Fin x) (@REM_KROUPA AR)) (@remnant_mass exact (Fin x) (@REM_KROUPA exact))
  /\ relatively_close (520 * u) (@remnant_mass AR (Fin x) (@REM_VAN_DOKKUM AR)) (@remnant_mass exact (Fin x) (@REM_VAN_DOKKUM exact)).
Proof. exact C157_remnant. Qed.
Print Assumptions C157_remnant_mass_rounding_error.
Theorem C157_surviving_mass_rounding_error : forall AR u, accurate_to AR u -> forall x, machine_number (AR := AR) x -> 3 <= x <= 11 ->
  absolutely_close (82 * u) (@surviving_mstar AR (Fin x) (@SUR_CHABRIER AR)) (@surviving_mstar exact (Fin x) (@SUR_CHABRIER exact))
  /\ absolutely_close (82 * u) (@surviving_mstar AR (Fin x) (@SUR_SALPETER AR)) (@surviving_mstar exact (Fin x) (@SUR_SALPETER exact))
  /\ absolutely_close (82 * u) (@surviving_mstar AR (Fin x) (@SUR_KROUPA AR)) (@surviving_mstar exact (Fin x) (@SUR_KROUPA exact))
  /\ absolutely_close (82 * u) (@surviving_mstar AR (Fin x) (@SUR_VAN_DOKKUM AR)) (@surviving_mstar exact (Fin x) (@SUR_VAN_DOKKUM exact)).
Proof. exact C157_surviving. Qed.
Print Assumptions C157_surviving_mass_rounding_error.
Example C157_nonvacuous : accurate_to binary64 (/ 2 ^ 53) /\ accurate_to binary32 (/ 2 ^ 24) /\ machine_number (AR := binary64) 9 /\ machine_number (AR := binary32) 9
  /\ absolutely_close (1 / 10 ^ 5) (@surviving_mstar binary32 (Fin 9) (@SUR_KROUPA binary32)) (@surviving_mstar exact (Fin 9) (@SUR_KROUPA exact)).
Proof. split; [exact rd_unit|]. split; [exact rd_unit32|]. exact e157. Qed.

(** C158: [is_cube nm na n flux]: nm x na templates of n points; [entry3 tab i j b] is tab[i, j, b] *)
Theorem C158_rest_magnitude_table_rounding_error : forall AR u, accurate_to AR u -> forall nm na B ws flux fw ft kappa,
  is_cube nm na (length ws) flux -> ws <> [] -> length fw = length ft ->
  (forall i j, (i < nm)%nat -> (j < na)%nat -> rounding_spectrum (AR := AR) (B i j) ws (nth j (nth i flux []) [])) ->
  (forall b, (b < length fw)%nat -> rounding_filter (AR := AR) (nth b fw []) (nth b ft [])) -> 0 < kappa ->
  (forall i j b, (i < nm)%nat -> (j < na)%nat -> (b < length fw)%nat ->
     1 / 10 ^ 18 <= B i j * band_integral (fun _ => 1) (nth b fw []) (nth b ft [])
     /\ B i j <= kappa * (ab0 * band_flux (spectrum_at ws (nth j (nth i flux []) [])) (nth b fw []) (nth b ft []))
     /\ 3 * (INR (length (nth b fw [])) + 25) * u * kappa <= 1 / 100) ->
  exists tab tab0, precompute_ssp_restmags (AR := AR) (fins ws) (fins3 flux) (map fins fw) (map fins ft) = Ok tab
    /\ precompute_ssp_restmags (AR := exact) (fins ws) (fins3 flux) (map fins fw) (map fins ft) = Ok tab0
    /\ forall i j b, (i < nm)%nat -> (j < na)%nat -> (b < length fw)%nat ->
       absolutely_close (4 * (INR (length (nth b fw [])) + 70) * u * kappa) (entry3 tab i j b) (entry3 tab0 i j b).
Proof. exact C158_rest_lemma. Qed.
Print Assumptions C158_rest_magnitude_table_rounding_error.
Theorem C158_kcorrected_table_rounding_error : forall AR u, accurate_to AR u -> forall nm na B Res ws flux fw ft z kappa,
  is_cube nm na (length ws) flux -> ws <> [] -> length fw = length ft ->
  (forall i j, (i < nm)%nat -> (j < na)%nat -> rounding_spectrum (AR := AR) (B i j) ws (nth j (nth i flux []) [])) ->
  rounding_resolution Res ws -> machine_number (AR := AR) z -> 0 <= z <= 20 ->
  (forall b, (b < length fw)%nat -> rounding_filter (AR := AR) (nth b fw []) (nth b ft []) /\ inside_spectrum ws (nth b fw []) z) -> 0 < kappa ->
  (forall i j b, (i < nm)%nat -> (j < na)%nat -> (b < length fw)%nat ->
     1 / 10 ^ 18 <= B i j * band_integral (fun _ => 1) (nth b fw []) (nth b ft [])
     /\ B i j <= kappa * (ab0 * band_flux (fun x => spectrum_at ws (nth j (nth i flux []) []) (x / (1 + z))) (nth b fw []) (nth b ft []))
     /\ 3 * (INR (length (nth b fw [])) + 5 * Res + 25) * u * kappa <= 1 / 1000) ->
  exists tab tab0, precompute_ssp_restmags_z_kcorrect (AR := AR) (fins ws) (fins3 flux) (map fins fw) (map fins ft) (Fin z) = Ok tab
    /\ precompute_ssp_restmags_z_kcorrect (AR := exact) (fins ws) (fins3 flux) (map fins fw) (map fins ft) (Fin z) = Ok tab0
    /\ forall i j b, (i < nm)%nat -> (j < na)%nat -> (b < length fw)%nat ->
       absolutely_close (4 * (INR (length (nth b fw [])) + 5 * Res + 70) * u * kappa) (entry3 tab i j b) (entry3 tab0 i j b).
Proof. exact C158_kcorrect_lemma. Qed.
Print Assumptions C158_kcorrected_table_rounding_error.
Theorem C158_observed_table_rounding_error : forall AR u, accurate_to AR u -> forall nm na B Res ws flux fw ft zs Om0 w0 wa h kappa,
  is_cube nm na (length ws) flux -> ws <> [] -> length fw = length ft ->
  (forall i j, (i < nm)%nat -> (j < na)%nat -> rounding_spectrum (AR := AR) (B i j) ws (nth j (nth i flux []) [])) ->
  rounding_resolution Res ws -> List.Forall (fun z => rounding_cosmology (AR := AR) z Om0 w0 wa h) zs ->
  (forall b, (b < length fw)%nat -> rounding_filter (AR := AR) (nth b fw []) (nth b ft [])) -> 0 < kappa ->
  (forall i j b k, (i < nm)%nat -> (j < na)%nat -> (b < length fw)%nat -> (k < length zs)%nat ->
     inside_spectrum ws (nth b fw []) (ent zs k)
     /\ 1 / 10 ^ 18 <= B i j * band_integral (fun _ => 1) (nth b fw []) (nth b ft [])
     /\ B i j <= kappa * (ab0 * band_flux (fun x => spectrum_at ws (nth j (nth i flux []) []) (x / (1 + ent zs k))) (nth b fw []) (nth b ft []))
     /\ 3 * (INR (length (nth b fw [])) + 5 * Res + 25) * u * kappa <= 1 / 1000) ->
  exists tab tab0, precompute_ssp_obsmags_on_z_table (AR := AR) (fins ws) (fins3 flux) (map fins fw) (map fins ft) (fins zs) (Fin Om0) (Fin w0) (Fin wa) (Fin h) = Ok tab
    /\ precompute_ssp_obsmags_on_z_table (AR := exact) (fins ws) (fins3 flux) (map fins fw) (map fins ft) (fins zs) (Fin Om0) (Fin w0) (Fin wa) (Fin h) = Ok tab0
    /\ forall k i j b, (k < length zs)%nat -> (i < nm)%nat -> (j < na)%nat -> (b < length fw)%nat ->
       absolutely_close (4 * (INR (length (nth b fw [])) + 5 * Res + 70) * u * kappa + 4200 * u) (entry3 (nth k tab []) i j b) (entry3 (nth k tab0 []) i j b).
Proof. exact C158_obs_lemma. Qed.
Print Assumptions C158_observed_table_rounding_error.
Example C158_nonvacuous : (exists tab tab0, @precompute_ssp_restmags binary64 (fins ph_ws) (fins3 e158_flux) (map fins [ph_wf]) (map fins [ph_tf]) = Ok tab
    /\ @precompute_ssp_restmags exact (fins ph_ws) (fins3 e158_flux) (map fins [ph_wf]) (map fins [ph_tf]) = Ok tab0
    /\ absolutely_close (1 / 10 ^ 5) (entry3 tab 0 1 0) (entry3 tab0 0 1 0))
  /\ (exists tab tab0, @precompute_ssp_restmags_z_kcorrect binary64 (fins ph_ws) (fins3 e158_flux) (map fins [ph_wf]) (map fins [ph_tf]) (Fin (1/2)) = Ok tab
    /\ @precompute_ssp_restmags_z_kcorrect exact (fins ph_ws) (fins3 e158_flux) (map fins [ph_wf]) (map fins [ph_tf]) (Fin (1/2)) = Ok tab0
    /\ absolutely_close (1 / 10 ^ 5) (entry3 tab 0 1 0) (entry3 tab0 0 1 0))
  /\ (exists tab tab0, @precompute_ssp_obsmags_on_z_table binary64 (fins ph_ws) (fins3 e158_flux) (map fins [ph_wf]) (map fins [ph_tf]) (fins [1/2; 1/2]) (Fin (1/4)) (Fin (-1)) (Fin 0) (Fin (3/4)) = Ok tab
    /\ @precompute_ssp_obsmags_on_z_table exact (fins ph_ws) (fins3 e158_flux) (map fins [ph_wf]) (map fins [ph_tf]) (fins [1/2; 1/2]) (Fin (1/4)) (Fin (-1)) (Fin 0) (Fin (3/4)) = Ok tab0
    /\ absolutely_close (1 / 10 ^ 5) (entry3 (nth 1 tab []) 0 1 0) (entry3 (nth 1 tab0 []) 0 1 0)).
Proof.
  pose proof ph_u as U. set (u := / 2 ^ 53) in *. split; [|split].
  - destruct (C158_rest_magnitude_table_rounding_error binary64 u rd_unit 1 2 (fun _ _ => 4) ph_ws e158_flux [ph_wf] [ph_tf] 4) as (tab & tab0 & E & E0 & D).
    + exact e158_cube. + discriminate. + reflexivity. + intros i j Hi Hj. rewrite e158_template by auto. exact ph_spectrum. + apply e158_filter. exact ph_filter. + lra.
    + intros i j b Hi Hj. rewrite e158_template by auto. apply (e158_filter (fun wf tf => _ <= _ * _ _ wf tf /\ _ <= _ * (_ * _ _ wf tf) /\ 3 * (INR (length wf) + _) * _ * _ <= _)). split; [exact ph_BI|]. split; [exact ph_rest|unfold ph_wf; simpl in U |- *; lra].
    + exists tab, tab0. split; auto. split; auto. destruct (D 0%nat 1%nat 0%nat) as (m & m0 & M & M0 & DD); [lia|lia|simpl; lia|]. exists m, m0. split; auto. split; auto. eapply Rle_trans; [exact DD|]. unfold ph_wf. simpl in U |- *. lra.
  - destruct (C158_kcorrected_table_rounding_error binary64 u rd_unit 1 2 (fun _ _ => 4) 3 ph_ws e158_flux [ph_wf] [ph_tf] (1/2) 4) as (tab & tab0 & E & E0 & D).
    + exact e158_cube. + discriminate. + reflexivity. + intros i j Hi Hj. rewrite e158_template by auto. exact ph_spectrum. + exact ph_resolution. + exact ph_half. + lra.
    + apply (e158_filter (fun wf tf => rounding_filter (AR := binary64) wf tf /\ inside_spectrum ph_ws wf (1/2))). split; [exact ph_filter|exact ph_inside]. + lra.
    + intros i j b Hi Hj. rewrite e158_template by auto. apply (e158_filter (fun wf tf => _ <= _ * _ _ wf tf /\ _ <= _ * (_ * _ _ wf tf) /\ 3 * (INR (length wf) + _ + _) * _ * _ <= _)). split; [exact ph_BI|]. split; [exact ph_obs|unfold ph_wf; simpl in U |- *; lra].
    + exists tab, tab0. split; auto. split; auto. destruct (D 0%nat 1%nat 0%nat) as (m & m0 & M & M0 & DD); [lia|lia|simpl; lia|]. exists m, m0. split; auto. split; auto. eapply Rle_trans; [exact DD|]. unfold ph_wf. simpl in U |- *. lra.
  - destruct (C158_observed_table_rounding_error binary64 u rd_unit 1 2 (fun _ _ => 4) 3 ph_ws e158_flux [ph_wf] [ph_tf] [1/2; 1/2] (1/4) (-1) 0 (3/4) 4) as (tab & tab0 & E & E0 & D).
    + exact e158_cube. + discriminate. + reflexivity. + intros i j Hi Hj. rewrite e158_template by auto. exact ph_spectrum. + exact ph_resolution.
    + constructor; [exact cos_demo64|constructor; [exact cos_demo64|constructor]]. + apply e158_filter. exact ph_filter. + lra.
    + intros i j b k Hi Hj Hb Hk. rewrite e158_template by auto. replace (ent [1/2; 1/2] k) with (1/2) by (destruct k as [|[|k]]; [reflexivity|reflexivity|simpl in Hk; lia]). revert b Hb.
      apply (e158_filter (fun wf tf => inside_spectrum ph_ws wf _ /\ _ <= _ * _ _ wf tf /\ _ <= _ * (_ * _ _ wf tf) /\ 3 * (INR (length wf) + _ + _) * _ * _ <= _)). split; [exact ph_inside|]. split; [exact ph_BI|]. split; [exact ph_obs|unfold ph_wf; simpl in U |- *; lra].
    + exists tab, tab0. split; auto. split; auto. destruct (D 1%nat 0%nat 1%nat 0%nat) as (m & m0 & M & M0 & DD); [simpl; lia|lia|lia|simpl; lia|]. exists m, m0. split; auto. split; auto. eapply Rle_trans; [exact DD|]. unfold ph_wf. simpl in U |- *. lra.
Qed.
