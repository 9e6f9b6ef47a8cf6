(** * Properties C153-C155, C157, C158.  C153: the blackbody in double precision (dust/blackbody.py switches jax to double
    precision when it is imported).  Every operation and literal is rounded to nearest, in C153 exp
    and log are correctly rounded; [planck_freq] and [planck_wave] (Spec.v) are Planck's law in SI units. *)
From Coq Require Import Reals List Arith Lra Lia ZArith.
From Verif Require Import Num Arr MUtils MBlackbody MMzr MImf MCosmo MPhot Float Spec Spec2 SpecApi SpecFloat SpecFloat2 SpecFloat6 SpecFloat7 SpecFloat8 LRound12 LRound26 LRound51 LRound20 LRound54 LRound56 LRound57 LRound58.
Import ListNotations.
Open Scope R_scope.

(** C153: [photon_x] is h nu / k T, [planck_amp x] is (9 x + 2) (1 + 1/x) *)
@@C153_frequency_density_error = LRound51.C153_freq
Example C153_nonvacuous_frequency : exists b, @blackbody_freq_density binary64 (Fin (2 ^ 49)) (Fin 5800) = Fin b
  /\ Rabs (b - planck_freq (2 ^ 49) 5800 / watts_per_lsun) <= (1100 + planck_amp (photon_x (2 ^ 49) 5800)) * / 2 ^ 53 * (planck_freq (2 ^ 49) 5800 / watts_per_lsun).
Proof. exact e153_freq. Qed.
@@C153_wavelength_density_error = LRound51.C153_wave
Example C153_nonvacuous_wavelength : exists b, @blackbody_wave_density binary64 (Fin 5000) (Fin 5800) = Fin b
  /\ Rabs (b - planck_wave (5000 / 10 ^ 10) 5800 / watts_per_lsun / 10 ^ 10) <= 1200 * / 2 ^ 53 * (planck_wave (5000 / 10 ^ 10) 5800 / watts_per_lsun / 10 ^ 10).
Proof. exact e153_wave. Qed.
(** the two ends: exact zero where exp overflows, and +infinity (instead of the finite
    Rayleigh-Jeans value) where exp x - 1 cancels completely *)
@@C153_overflow_and_cancellation = LRound51.C153_edges
Example C153_nonvacuous_edges : @blackbody_freq_density binary64 (Fin (2 ^ 57)) (Fin 5800) = Fin 0 /\ @blackbody_freq_density binary64 (Fin 1) (Fin 1000000) = PInf.
Proof. exact e153_edges. Qed.

(** C154: the mass-metallicity relation (both implementations) in any arithmetic accurate to
    u, in single or double precision *)
@@C154_umzr_rounding_error = LRound54.C154_umzr
@@C154_mzr_rounding_error = LRound54.C154_mzr
Example C154_nonvacuous : accurate_to binary64 (/ 2 ^ 53)
  /\ rounding_mzr (AR := binary64) 10 6 (3/64) 10.5 1 (3/8) (1/8) (-3/2) (1/8) (-1) (1/16) /\ machine_number (AR := binary64) 8 /\ 4 <= 8 <= 13.
Proof. split; [exact rd_unit|]. split; [exact e154|]. split; [exact e154_tc|lra]. Qed.

(** C155: [relatively_close e x y]: |x - y| <= e y with finite x and finite positive y *)
@@C155_scalar_functions_rounding_error = LRound56.C155_scalar_lemma
@@C155_matter_fraction_and_virial_time_rounding_error = LRound56.C155_vector_lemma
Example C155_nonvacuous : accurate_to binary32 (/ 2 ^ 24)
  /\ List.Forall (fun z => rounding_cosmology (AR := binary32) z (1/4) (-3/4) (1/2) (3/4)) [20; 20]
  /\ rounding_cosmology (AR := binary64) (1/2) (1/4) (-1) 0 (3/4)
  /\ (exists d0, comoving_distance_to_z (AR := exact) (Fin (1/2)) (Fin (1/4)) (Fin (-1)) (Fin 0) (Fin (3/4)) = Fin d0 /\ 1 / 10 ^ 8 <= d0).
Proof. split; [exact rd_unit32|]. split; [constructor; [exact cos_demo32|constructor; [exact cos_demo32|constructor]]|]. split; [exact cos_demo64|exact e155]. Qed.

(** C157: [absolutely_close e x y]: |x - y| <= e with finite x and y; the parameter sets are
    those shipped with the package, read in either arithmetic (their decimal literals are rounded) *)
@@C157_remnant_mass_rounding_error = LRound57.C157_remnant
@@C157_surviving_mass_rounding_error = LRound57.C157_surviving
Example C157_nonvacuous : accurate_to binary64 (/ 2 ^ 53) /\ accurate_to binary32 (/ 2 ^ 24) /\ machine_number (AR := binary64) 9 /\ machine_number (AR := binary32) 9
  /\ absolutely_close (1 / 10 ^ 5) (@surviving_mstar binary32 (Fin 9) (@SUR_KROUPA binary32)) (@surviving_mstar exact (Fin 9) (@SUR_KROUPA exact)).
Proof. split; [exact rd_unit|]. split; [exact rd_unit32|]. exact e157. Qed.

(** C158: [is_cube nm na n flux]: nm x na templates of n points; [entry3 tab i j b] is tab[i, j, b] *)
@@C158_rest_magnitude_table_rounding_error = LRound58.C158_rest_lemma
@@C158_kcorrected_table_rounding_error = LRound58.C158_kcorrect_lemma
@@C158_observed_table_rounding_error = LRound58.C158_obs_lemma
Example C158_nonvacuous : (exists tab tab0, @precompute_ssp_restmags binary64 (fins ph_ws) (fins3 e158_flux) (map fins [ph_wf]) (map fins [ph_tf]) = Ok tab
    /\ @precompute_ssp_restmags exact (fins ph_ws) (fins3 e158_flux) (map fins [ph_wf]) (map fins [ph_tf]) = Ok tab0
    /\ absolutely_close (1 / 10 ^ 5) (entry3 tab 0 1 0) (entry3 tab0 0 1 0))
  /\ (exists tab tab0, @precompute_ssp_restmags_z_kcorrect binary64 (fins ph_ws) (fins3 e158_flux) (map fins [ph_wf]) (map fins [ph_tf]) (Fin (1/2)) = Ok tab
    /\ @precompute_ssp_restmags_z_kcorrect exact (fins ph_ws) (fins3 e158_flux) (map fins [ph_wf]) (map fins [ph_tf]) (Fin (1/2)) = Ok tab0
    /\ absolutely_close (1 / 10 ^ 5) (entry3 tab 0 1 0) (entry3 tab0 0 1 0))
  /\ (exists tab tab0, @precompute_ssp_obsmags_on_z_table binary64 (fins ph_ws) (fins3 e158_flux) (map fins [ph_wf]) (map fins [ph_tf]) (fins [1/2; 1/2]) (Fin (1/4)) (Fin (-1)) (Fin 0) (Fin (3/4)) = Ok tab
    /\ @precompute_ssp_obsmags_on_z_table exact (fins ph_ws) (fins3 e158_flux) (map fins [ph_wf]) (map fins [ph_tf]) (fins [1/2; 1/2]) (Fin (1/4)) (Fin (-1)) (Fin 0) (Fin (3/4)) = Ok tab0
    /\ absolutely_close (1 / 10 ^ 5) (entry3 (nth 1 tab []) 0 1 0) (entry3 (nth 1 tab0 []) 0 1 0)).
Proof.
  pose proof ph_u as U. set (u := / 2 ^ 53) in *. split; [|split].
  - destruct (C158_rest_magnitude_table_rounding_error binary64 u rd_unit 1 2 (fun _ _ => 4) ph_ws e158_flux [ph_wf] [ph_tf] 4) as (tab & tab0 & E & E0 & D).
    + exact e158_cube. + discriminate. + reflexivity. + intros i j Hi Hj. rewrite e158_template by auto. exact ph_spectrum. + apply e158_filter. exact ph_filter. + lra.
    + intros i j b Hi Hj. rewrite e158_template by auto. apply (e158_filter (fun wf tf => _ <= _ * _ _ wf tf /\ _ <= _ * (_ * _ _ wf tf) /\ 3 * (INR (length wf) + _) * _ * _ <= _)). split; [exact ph_BI|]. split; [exact ph_rest|unfold ph_wf; simpl in U |- *; lra].
    + exists tab, tab0. split; auto. split; auto. destruct (D 0%nat 1%nat 0%nat) as (m & m0 & M & M0 & DD); [lia|lia|simpl; lia|]. exists m, m0. split; auto. split; auto. eapply Rle_trans; [exact DD|]. unfold ph_wf. simpl in U |- *. lra.
  - destruct (C158_kcorrected_table_rounding_error binary64 u rd_unit 1 2 (fun _ _ => 4) 3 ph_ws e158_flux [ph_wf] [ph_tf] (1/2) 4) as (tab & tab0 & E & E0 & D).
    + exact e158_cube. + discriminate. + reflexivity. + intros i j Hi Hj. rewrite e158_template by auto. exact ph_spectrum. + exact ph_resolution. + exact ph_half. + lra.
    + apply (e158_filter (fun wf tf => rounding_filter (AR := binary64) wf tf /\ inside_spectrum ph_ws wf (1/2))). split; [exact ph_filter|exact ph_inside]. + lra.
    + intros i j b Hi Hj. rewrite e158_template by auto. apply (e158_filter (fun wf tf => _ <= _ * _ _ wf tf /\ _ <= _ * (_ * _ _ wf tf) /\ 3 * (INR (length wf) + _ + _) * _ * _ <= _)). split; [exact ph_BI|]. split; [exact ph_obs|unfold ph_wf; simpl in U |- *; lra].
    + exists tab, tab0. split; auto. split; auto. destruct (D 0%nat 1%nat 0%nat) as (m & m0 & M & M0 & DD); [lia|lia|simpl; lia|]. exists m, m0. split; auto. split; auto. eapply Rle_trans; [exact DD|]. unfold ph_wf. simpl in U |- *. lra.
  - destruct (C158_observed_table_rounding_error binary64 u rd_unit 1 2 (fun _ _ => 4) 3 ph_ws e158_flux [ph_wf] [ph_tf] [1/2; 1/2] (1/4) (-1) 0 (3/4) 4) as (tab & tab0 & E & E0 & D).
    + exact e158_cube. + discriminate. + reflexivity. + intros i j Hi Hj. rewrite e158_template by auto. exact ph_spectrum. + exact ph_resolution.
    + constructor; [exact cos_demo64|constructor; [exact cos_demo64|constructor]]. + apply e158_filter. exact ph_filter. + lra.
    + intros i j b k Hi Hj Hb Hk. rewrite e158_template by auto. replace (ent [1/2; 1/2] k) with (1/2) by (destruct k as [|[|k]]; [reflexivity|reflexivity|simpl in Hk; lia]). revert b Hb.
      apply (e158_filter (fun wf tf => inside_spectrum ph_ws wf _ /\ _ <= _ * _ _ wf tf /\ _ <= _ * (_ * _ _ wf tf) /\ 3 * (INR (length wf) + _ + _) * _ * _ <= _)). split; [exact ph_inside|]. split; [exact ph_BI|]. split; [exact ph_obs|unfold ph_wf; simpl in U |- *; lra].
    + exists tab, tab0. split; auto. split; auto. destruct (D 1%nat 0%nat 1%nat 0%nat) as (m & m0 & M & M0 & DD); [simpl; lia|lia|lia|simpl; lia|]. exists m, m0. split; auto. split; auto. eapply Rle_trans; [exact DD|]. unfold ph_wf. simpl in U |- *. lra.
Qed.
