(** * Model of dsps/photometry: photometry_kernels.py, photpop.py, utils.py *)
From Coq Require Import Reals List Bool Arith.
From Verif Require Import Num Arr MUtils MCosmo.
Import ListNotations.
Local Open Scope num_scope.

Section Phot.
  Context {AR : Arith}.

  (** photometry_kernels.py:9 *)
  Definition AB0 : num := lit (1.13492 / 10 ^ 13)%R.

  (** photometry_kernels.py:144-147 [_flux_ab0_at_10pc] *)
  Definition flux_ab0_at_10pc (wave_filter trans_filter : list num) : num :=
    let integrand := map2 (fun t w => t * AB0 / w) trans_filter wave_filter in
    trapz_k wave_filter integrand.

  (** photometry_kernels.py:136-140 [_rest_flux_ssp] *)
  Definition rest_flux_ssp (wave_spec_rest lum_spec wave_filter trans_filter : list num)
    : num :=
    let lum_phot :=
      map (fun x => interp_lr (Fin 0) (Fin 0) x wave_spec_rest lum_spec) wave_filter in
    let integrand :=
      map2 (fun a w => a / w) (map2 nmul trans_filter lum_phot) wave_filter in
    trapz_k wave_filter integrand.

  (** photometry_kernels.py:126-132 [_obs_flux_ssp] *)
  Definition obs_flux_ssp (wave_spec_rest lum_spec wave_filter trans_filter : list num)
    (z : num) : num :=
    let wave_z := map (fun w => w * (Fin 1 + z)) wave_spec_rest in
    let lum_zshift_phot :=
      map (fun x => interp_lr (Fin 0) (Fin 0) x wave_z lum_spec) wave_filter in
    let integrand :=
      map2 (fun a w => a / w) (map2 nmul trans_filter lum_zshift_phot) wave_filter in
    trapz_k wave_filter integrand.

  (** photometry_kernels.py:100-122 [calc_rest_flux] *)
  Definition calc_rest_flux_k (wave_spec_rest lum_spec wave_filter trans_filter : list num)
    : num :=
    let flux_source := rest_flux_ssp wave_spec_rest lum_spec wave_filter trans_filter in
    let flux_ab0 := flux_ab0_at_10pc wave_filter trans_filter in
    flux_source / flux_ab0.

  (** photometry_kernels.py:76-96 [calc_rest_mag] *)
  Definition calc_rest_mag_k (wave_spec_rest lum_spec wave_filter trans_filter : list num)
    : num :=
    let rest_flux := calc_rest_flux_k wave_spec_rest lum_spec wave_filter trans_filter in
    lit (-2.5)%R * nlog10 rest_flux.

  (** photometry_kernels.py:57-59 [_cosmological_dimming_from_table] *)
  Definition cosmological_dimming_from_table
    (z : num) (z_table distance_modulus_table : list num) : num :=
    let distance_modulus := interp z z_table distance_modulus_table in
    distance_modulus - lit 2.5%R * nlog10 (Fin 1 + z).

  (** photometry_kernels.py:63-65 [_cosmological_dimming] *)
  Definition cosmological_dimming (z Om0 w0 wa h : num) : num :=
    let dmod := distance_modulus_to_z z Om0 w0 wa h in
    dmod - lit 2.5%R * nlog10 (Fin 1 + z).

  (** photometry_kernels.py:69-72 [_calc_obs_mag_no_dimming] *)
  Definition calc_obs_mag_no_dimming_k
    (wave_spec_rest lum_spec wave_filter trans_filter : list num) (z : num) : num :=
    let flux_source := obs_flux_ssp wave_spec_rest lum_spec wave_filter trans_filter z in
    let flux_ab0 := flux_ab0_at_10pc wave_filter trans_filter in
    lit (-2.5)%R * nlog10 (flux_source / flux_ab0).

  (** photometry_kernels.py:16-53 [calc_obs_mag] *)
  Definition calc_obs_mag_k
    (wave_spec_rest lum_spec wave_filter trans_filter : list num)
    (redshift Om0 w0 wa h : num) : num :=
    let flux_source :=
      obs_flux_ssp wave_spec_rest lum_spec wave_filter trans_filter redshift in
    let flux_ab0 := flux_ab0_at_10pc wave_filter trans_filter in
    let mag_no_dimming := lit (-2.5)%R * nlog10 (flux_source / flux_ab0) in
    let dimming := cosmological_dimming redshift Om0 w0 wa h in
    mag_no_dimming + dimming.

  (** Shape requirements: [jnp.interp] needs one flux per wavelength (and at least one
      wavelength); the integrand, transmission times flux over wavelength, has the length of
      the filter wavelengths and the transmission must be broadcastable to it.  If there is a
      single filter wavelength the integrand takes the length of the transmission instead and
      [trapz] accepts up to two of them (and is 0, there being no step). *)
  Definition filter_ok (wave_filter trans_filter : list num) : bool :=
    (fits (length wave_filter) trans_filter ||
     ((length wave_filter =? 1) && (length trans_filter <=? 2))%nat)%bool.
  Definition check_spec {A} (wave_spec_rest lum_spec wave_filter trans_filter : list num)
    (k : res A) : res A :=
    check (same_len wave_spec_rest lum_spec) ShapeError
      (check (negb (length wave_spec_rest =? 0)%nat) ValueError
        (check (filter_ok wave_filter trans_filter) ShapeError k)).
  Definition calc_rest_flux (ws ls wf tf : list num) : res num :=
    check_spec ws ls wf tf (Ok (calc_rest_flux_k ws ls wf (stretch (length wf) tf))).
  Definition calc_rest_mag (ws ls wf tf : list num) : res num :=
    check_spec ws ls wf tf (Ok (calc_rest_mag_k ws ls wf (stretch (length wf) tf))).
  Definition calc_obs_mag_no_dimming (ws ls wf tf : list num) (z : num) : res num :=
    check_spec ws ls wf tf (Ok (calc_obs_mag_no_dimming_k ws ls wf (stretch (length wf) tf) z)).
  Definition calc_obs_mag (ws ls wf tf : list num) (z Om0 w0 wa h : num) : res num :=
    check_spec ws ls wf tf (Ok (calc_obs_mag_k ws ls wf (stretch (length wf) tf) z Om0 w0 wa h)).

  (** ** photpop.py.  Arrays are nested lists, [rect] is "this nested list is an
      ndarray"; vmap refuses different leading sizes. *)
  Definition rect (n : nat) (m : list (list num)) : bool :=
    forallb (fun r => (length r =? n)%nat) m.
  Definition check_pop {A} (ssp_wave : list num) (ssp_fluxes : list (list (list num)))
    (filter_waves filter_trans : list (list num)) (k : res A) : res A :=
    check (forallb (rect (length ssp_wave)) ssp_fluxes) ShapeError
      (check (negb (length ssp_wave =? 0)%nat) ValueError
        (check (same_len filter_waves filter_trans &&
                forallb (fun p => filter_ok (fst p) (snd p))
                        (combine filter_waves filter_trans))%bool ShapeError k)).

  (** photpop.py:8-15, 27-77 [precompute_ssp_obsmags_on_z_table] *)
  Definition precompute_ssp_obsmags_on_z_table
    (ssp_wave : list num) (ssp_fluxes : list (list (list num)))
    (filter_waves filter_trans : list (list num)) (z_table : list num)
    (Om0 w0 wa h : num) : res (list (list (list (list num)))) :=
    check_pop ssp_wave ssp_fluxes filter_waves filter_trans
      (Ok (map (fun z =>
             map (map (fun flux =>
               map2 (fun fw ft => calc_obs_mag_k ssp_wave flux fw (stretch (length fw) ft) z Om0 w0 wa h)
                    filter_waves filter_trans)) ssp_fluxes) z_table)).

  (** photpop.py:80-115 [precompute_ssp_restmags] *)
  Definition precompute_ssp_restmags
    (ssp_wave : list num) (ssp_fluxes : list (list (list num)))
    (filter_waves filter_trans : list (list num)) : res (list (list (list num))) :=
    check_pop ssp_wave ssp_fluxes filter_waves filter_trans
      (Ok (map (map (fun flux =>
             map2 (fun fw ft => calc_rest_mag_k ssp_wave flux fw (stretch (length fw) ft))
                  filter_waves filter_trans)) ssp_fluxes)).

  (** photpop.py:17-23, 119-149 [precompute_ssp_restmags_z_kcorrect] *)
  Definition precompute_ssp_restmags_z_kcorrect
    (ssp_wave : list num) (ssp_fluxes : list (list (list num)))
    (filter_waves filter_trans : list (list num)) (z_kcorrect : num)
    : res (list (list (list num))) :=
    check_pop ssp_wave ssp_fluxes filter_waves filter_trans
      (Ok (map (map (fun flux =>
             map2 (fun fw ft => calc_obs_mag_no_dimming_k ssp_wave flux fw (stretch (length fw) ft) z_kcorrect)
                  filter_waves filter_trans)) ssp_fluxes)).

  (** photometry/utils.py:6-45 [interpolate_filter_trans_curves].  Lines 27-35 (the
      global wavelength range) have no effect on the result except that they fail on an
      empty collection or an empty curve ([wave_filters[0]], [wave.min()]).  [zip] stops
      at the shorter of the two collections; [np.interp] refuses arrays of different
      lengths.  A curve of fewer than one point never reaches [np.interp]. *)
  Definition interp_curve (n : nat) (wave trans : list num) : list num * list num :=
    let new_wave := np_linspace (vmin wave) (vmax wave) n in
    let new_trans := map (fun x => np_interp x wave trans) new_wave in
    (new_wave, new_trans).
  Definition min_size (waves : list (list num)) : nat :=
    match waves with
    | [] => 0
    | w :: ws => fold_left Nat.min (map (@length num) ws) (length w)
    end.
  Definition interpolate_filter_trans_curves
    (wave_filters trans_filters : list (list num)) (n : option nat)
    : res (list (list num) * list (list num)) :=
    check (negb (length wave_filters =? 0)%nat) IndexError
      (check (forallb (fun w => negb (length w =? 0)%nat)
                      (firstn (Nat.max 1 (length trans_filters)) wave_filters)) ValueError
        (check (forallb (fun p => same_len (fst p) (snd p))
                        (combine wave_filters trans_filters)) ValueError
          (let n := match n with Some n => n | None => min_size wave_filters end in
           let out := map2 (interp_curve n) wave_filters trans_filters in
           Ok (map fst out, map snd out)))).
End Phot.
