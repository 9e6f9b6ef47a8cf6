{
 "claims": [
  {
   "property": "C01",
   "status": "proved",
   "theorems": [
    "C01_age_weights_are_a_distribution",
    "C01_age_weights_explicit_conditions"
   ],
   "note": ""
  },
  {
   "property": "C02",
   "status": "proved",
   "theorems": [
    "C02_increasing_grid_insufficient",
    "C02_bin_edges_ordered_iff",
    "C02_code_edges"
   ],
   "note": ""
  },
  {
   "property": "C03",
   "status": "proved",
   "theorems": [
    "C03_cumulative_weights_are_mass_fractions"
   ],
   "note": ""
  },
  {
   "property": "C04",
   "status": "proved",
   "theorems": [
    "C04_nan_iff_no_mass",
    "C04_nan_outside_table"
   ],
   "note": ""
  },
  {
   "property": "C05",
   "status": "proved",
   "theorems": [
    "C05_no_weight_before_the_table"
   ],
   "note": ""
  },
  {
   "property": "C06",
   "status": "proved",
   "theorems": [
    "C06_sfr_floor",
    "C06_mass_history_is_finite",
    "C06_sed_sfr_floor",
    "C06_sed_sfr_floor_met_table"
   ],
   "note": ""
  },
  {
   "property": "C07",
   "status": "proved",
   "theorems": [
    "C07_age_weights_causality",
    "C07_sed_causality",
    "C07_sed_causality_met_table"
   ],
   "note": ""
  },
  {
   "property": "C08",
   "status": "proved",
   "theorems": [
    "C08_cumulative_mass_grows"
   ],
   "note": ""
  },
  {
   "property": "C09",
   "status": "proved",
   "theorems": [
    "C09_cumulative_mass_is_the_integral"
   ],
   "note": ""
  },
  {
   "property": "C10",
   "status": "proved",
   "theorems": [
    "C10_metallicity_weights_are_a_distribution",
    "C10_weights_in_closed_form"
   ],
   "note": ""
  },
  {
   "property": "C11",
   "status": "proved",
   "theorems": [
    "C11_increasing_grid_insufficient",
    "C11_bin_edges_ordered_iff"
   ],
   "note": ""
  },
  {
   "property": "C12",
   "status": "proved",
   "theorems": [
    "C12_metallicity_weights_are_local",
    "C12_stochastic_order"
   ],
   "note": ""
  },
  {
   "property": "C13",
   "status": "proved",
   "theorems": [
    "C13_zero_scatter_selects_one_bin",
    "C13_zero_scatter_on_an_edge_is_nan"
   ],
   "note": ""
  },
  {
   "property": "C14",
   "status": "proved",
   "theorems": [
    "C14_metallicity_table_weights",
    "C14_columns_are_birth_time_distributions"
   ],
   "note": ""
  },
  {
   "property": "C15",
   "status": "proved",
   "theorems": [
    "C15_joint_weights_lognormal"
   ],
   "note": ""
  },
  {
   "property": "C16",
   "status": "proved",
   "theorems": [
    "C16_joint_weights_met_table"
   ],
   "note": ""
  },
  {
   "property": "C17",
   "status": "proved",
   "theorems": [
    "C17_sed_is_mass_times_template_mix",
    "C17_sed_is_mass_times_template_mix_met_table",
    "C17_sed_within_template_range",
    "C17_sed_linear_in_templates",
    "C17_sed_within_template_range_met_table",
    "C17_sed_linear_in_templates_met_table"
   ],
   "note": ""
  },
  {
   "property": "C18",
   "status": "proved",
   "theorems": [
    "C18_mass_normalisation",
    "C18_mass_normalisation_met_table"
   ],
   "note": ""
  },
  {
   "property": "C19",
   "status": "proved",
   "theorems": [
    "C19_constant_metallicity_history"
   ],
   "note": ""
  },
  {
   "property": "C20",
   "status": "proved",
   "theorems": [
    "C20_shape_errors",
    "C20_shape_errors_met_table",
    "C20_shape_errors_age_weights",
    "C20_shape_errors_lognormal_mdf",
    "C20_shape_errors_lgmet_table"
   ],
   "note": ""
  },
  {
   "property": "C21",
   "status": "proved",
   "theorems": [
    "C21_sfr_min_only_scales",
    "C21_sfr_min_only_scales_met_table"
   ],
   "note": ""
  },
  {
   "property": "C22",
   "status": "proved",
   "theorems": [
    "C22_triweight_cdf"
   ],
   "note": ""
  },
  {
   "property": "C23",
   "status": "proved",
   "theorems": [
    "C23_triweight_density"
   ],
   "note": ""
  },
  {
   "property": "C24",
   "status": "proved",
   "theorems": [
    "C24_histogram_conserves_probability"
   ],
   "note": ""
  },
  {
   "property": "C25",
   "status": "proved",
   "theorems": [
    "C25_sigmoid_bijection"
   ],
   "note": ""
  },
  {
   "property": "C26",
   "status": "proved",
   "theorems": [
    "C26_cumtrapz_and_trapz_agree"
   ],
   "note": ""
  },
  {
   "property": "C27",
   "status": "proved",
   "theorems": [
    "C27_trapz_is_an_integral",
    "C27_trapz_linear_monotone_odd"
   ],
   "note": ""
  },
  {
   "property": "C28",
   "status": "proved",
   "theorems": [
    "C28_weight_matrices_2d",
    "C28_weight_matrices_3d"
   ],
   "note": ""
  },
  {
   "property": "C29",
   "status": "proved",
   "theorems": [
    "C29_powerlaw_sampler",
    "C29_powerlaw_zero_index_is_nan"
   ],
   "note": ""
  },
  {
   "property": "C30",
   "status": "proved",
   "theorems": [
    "C30_bin_edges",
    "C30_short_grid_raises"
   ],
   "note": ""
  },
  {
   "property": "C31",
   "status": "proved",
   "theorems": [
    "C31_burst_parameters_bounded",
    "C31_parameters_increasing",
    "C31_bounding_formula"
   ],
   "note": ""
  },
  {
   "property": "C32",
   "status": "proved",
   "theorems": [
    "C32_unbounded_round_trip",
    "C32_bounded_round_trip",
    "C32_default_parameters"
   ],
   "note": ""
  },
  {
   "property": "C33",
   "status": "proved",
   "theorems": [
    "C33_bursty_weights_distribution"
   ],
   "note": ""
  },
  {
   "property": "C34",
   "status": "proved",
   "theorems": [
    "C34_unresolved_burst_loses_mass"
   ],
   "note": ""
  },
  {
   "property": "C35",
   "status": "proved",
   "theorems": [
    "C35_burst_support",
    "C35_outside_the_burst"
   ],
   "note": ""
  },
  {
   "property": "C36",
   "status": "proved",
   "theorems": [
    "C36_two_burst_apis_agree",
    "C36_two_unbounded_burst_apis_agree",
    "C36_pure_burst_from_unbounded",
    "C36_entry_depends_on_own_smooth_weight"
   ],
   "note": ""
  },
  {
   "property": "C37",
   "status": "proved",
   "theorems": [
    "C37_surviving_fraction"
   ],
   "note": ""
  },
  {
   "property": "C38",
   "status": "proved",
   "theorems": [
    "C38_surviving_fraction_can_increase"
   ],
   "note": ""
  },
  {
   "property": "C39",
   "status": "proved",
   "theorems": [
    "C39_remnant_fraction_grows"
   ],
   "note": ""
  },
  {
   "property": "C40",
   "status": "proved",
   "theorems": [
    "C40_transmission_is_a_fraction"
   ],
   "note": ""
  },
  {
   "property": "C41",
   "status": "proved",
   "theorems": [
    "C41_attenuation_never_negative",
    "C41_attenuation_finite_nonnegative"
   ],
   "note": ""
  },
  {
   "property": "C42",
   "status": "proved",
   "theorems": [
    "C42_bump_amplitude_from_slope",
    "C42_drude_bump"
   ],
   "note": ""
  },
  {
   "property": "C43",
   "status": "proved",
   "theorems": [
    "C43_power_law_normalised_at_V",
    "C43_noll09_and_sbl18_agree_at_V"
   ],
   "note": ""
  },
  {
   "property": "C44",
   "status": "proved",
   "theorems": [
    "C44_calzetti_decreasing"
   ],
   "note": ""
  },
  {
   "property": "C45",
   "status": "proved",
   "theorems": [
    "C45_curves_jump_at_joints"
   ],
   "note": ""
  },
  {
   "property": "C46",
   "status": "proved",
   "theorems": [
    "C46_effective_wavelength_in_filter"
   ],
   "note": ""
  },
  {
   "property": "C47",
   "status": "proved",
   "theorems": [
    "C47_triweight_curve",
    "C47_triweight_default_decreasing"
   ],
   "note": ""
  },
  {
   "property": "C48",
   "status": "proved",
   "theorems": [
    "C48_planck_law"
   ],
   "note": ""
  },
  {
   "property": "C49",
   "status": "proved",
   "theorems": [
    "C49_frequency_wavelength_consistent"
   ],
   "note": ""
  },
  {
   "property": "C50",
   "status": "proved",
   "theorems": [
    "C50_increasing_and_below_rayleigh_jeans"
   ],
   "note": ""
  },
  {
   "property": "C51",
   "status": "proved",
   "theorems": [
    "C51_edge_cases"
   ],
   "note": ""
  },
  {
   "property": "C52",
   "status": "proved",
   "theorems": [
    "C52_expansion_rate"
   ],
   "note": ""
  },
  {
   "property": "C53",
   "status": "proved",
   "theorems": [
    "C53_comoving_distance"
   ],
   "note": ""
  },
  {
   "property": "C54",
   "status": "proved",
   "theorems": [
    "C54_distance_duality"
   ],
   "note": ""
  },
  {
   "property": "C55",
   "status": "proved",
   "theorems": [
    "C55_distance_modulus"
   ],
   "note": ""
  },
  {
   "property": "C56",
   "status": "proved",
   "theorems": [
    "C56_hubble_scaling"
   ],
   "note": ""
  },
  {
   "property": "C57",
   "status": "proved",
   "theorems": [
    "C57_age_plus_lookback"
   ],
   "note": ""
  },
  {
   "property": "C58",
   "status": "proved",
   "theorems": [
    "C58_negative_ages",
    "C58_negative_ages_from_200"
   ],
   "note": ""
  },
  {
   "property": "C59",
   "status": "proved",
   "theorems": [
    "C59_matter_fraction_and_virial_time"
   ],
   "note": ""
  },
  {
   "property": "C60",
   "status": "proved",
   "theorems": [
    "C60_virial_time_refuses_scalars"
   ],
   "note": ""
  },
  {
   "property": "C61",
   "status": "proved",
   "theorems": [
    "C61_comoving_volume"
   ],
   "note": ""
  },
  {
   "property": "C62",
   "status": "proved",
   "theorems": [
    "C62_array_functions_pointwise",
    "C62_age_pointwise"
   ],
   "note": ""
  },
  {
   "property": "C63",
   "status": "proved",
   "theorems": [
    "C63_flux_scaling_shifts_magnitudes",
    "C63_rest_flux_additive"
   ],
   "note": ""
  },
  {
   "property": "C64",
   "status": "proved",
   "theorems": [
    "C64_ab_zero_point"
   ],
   "note": ""
  },
  {
   "property": "C65",
   "status": "proved",
   "theorems": [
    "C65_filter_normalisation_cancels"
   ],
   "note": ""
  },
  {
   "property": "C66",
   "status": "proved",
   "theorems": [
    "C66_brighter_spectrum_smaller_magnitude"
   ],
   "note": ""
  },
  {
   "property": "C67",
   "status": "proved",
   "theorems": [
    "C67_no_overlap"
   ],
   "note": ""
  },
  {
   "property": "C68",
   "status": "proved",
   "theorems": [
    "C68_observed_magnitude_decomposition"
   ],
   "note": ""
  },
  {
   "property": "C69",
   "status": "proved",
   "theorems": [
    "C69_redshift_is_blueshifted_filter"
   ],
   "note": ""
  },
  {
   "property": "C70",
   "status": "proved",
   "theorems": [
    "C70_observed_magnitude_table",
    "C70_rest_magnitude_table",
    "C70_kcorrected_magnitude_table"
   ],
   "note": ""
  },
  {
   "property": "C71",
   "status": "proved",
   "theorems": [
    "C71_filter_resampling"
   ],
   "note": ""
  },
  {
   "property": "C72",
   "status": "proved",
   "theorems": [
    "C72_bounded_parameters"
   ],
   "note": ""
  },
  {
   "property": "C73",
   "status": "proved",
   "theorems": [
    "C73_slope_hi_leaves_bounds_refuted"
   ],
   "note": ""
  },
  {
   "property": "C74",
   "status": "proved",
   "theorems": [
    "C74_round_trips"
   ],
   "note": ""
  },
  {
   "property": "C75",
   "status": "proved",
   "theorems": [
    "C75_evolution_lowers_metallicity"
   ],
   "note": ""
  },
  {
   "property": "C76",
   "status": "proved",
   "theorems": [
    "C76_modules_agree",
    "C76_number_of_parameters"
   ],
   "note": ""
  },
  {
   "property": "C77",
   "status": "proved",
   "theorems": [
    "C77_t0_relation_increasing"
   ],
   "note": ""
  },
  {
   "property": "C78",
   "status": "proved",
   "theorems": [
    "C78_t0_relation_can_decrease_refuted"
   ],
   "note": ""
  },
  {
   "property": "C79",
   "status": "proved",
   "theorems": [
    "C79_line_on_quadratic_continuum"
   ],
   "note": ""
  },
  {
   "property": "C80",
   "status": "proved",
   "theorems": [
    "C80_kernels_agree"
   ],
   "note": ""
  },
  {
   "property": "C81",
   "status": "proved",
   "theorems": [
    "C81_equivalent_width_scale_invariant",
    "C81_line_flux_linear"
   ],
   "note": ""
  },
  {
   "property": "C82",
   "status": "proved",
   "theorems": [
    "C82_template_file_precedence",
    "C82_path_join"
   ],
   "note": ""
  },
  {
   "property": "C83",
   "status": "proved",
   "theorems": [
    "C83_unique_filter_file"
   ],
   "note": ""
  },
  {
   "property": "C84",
   "status": "proved",
   "theorems": [
    "C84_transmission_in_unit_interval",
    "C84_any_arithmetic"
   ],
   "note": ""
  },
  {
   "property": "C85",
   "status": "proved",
   "theorems": [
    "C85_excess_transmission_refuted",
    "C85_excess_check_needs_all_values"
   ],
   "note": ""
  },
  {
   "property": "C86",
   "status": "proved",
   "theorems": [
    "C86_random_curve",
    "C86_narrow_range_centre_outside"
   ],
   "note": ""
  },
  {
   "property": "C87",
   "status": "proved",
   "theorems": [
    "C87_subset",
    "C87_subset_raises",
    "C87_subset_of_subset"
   ],
   "note": ""
  },
  {
   "property": "C88",
   "status": "proved",
   "theorems": [
    "C88_shipped_names"
   ],
   "note": ""
  },
  {
   "property": "C89",
   "status": "proved",
   "theorems": [
    "C89_match_iff_unique",
    "C89_unmatched_raises",
    "C89_shipped_lines_recognised"
   ],
   "note": ""
  },
  {
   "property": "C90",
   "status": "proved",
   "theorems": [
    "C90_write_then_load"
   ],
   "note": ""
  },
  {
   "property": "C91",
   "status": "proved",
   "theorems": [
    "C91_script_fails_without_lines"
   ],
   "note": ""
  },
  {
   "property": "C92",
   "status": "proved",
   "theorems": [
    "C92_malformed_lines_refused",
    "C92_errors",
    "C92_missing_dataset"
   ],
   "note": ""
  },
  {
   "property": "C93",
   "status": "proved",
   "theorems": [
    "C93_sigmoid_stays_in_bounds",
    "C93_sigmoid_is_monotone",
    "C93_sigmoid_bound_refuted",
    "C93_burst_parameters",
    "C93_mzr_parameters",
    "C93_dust_transmission"
   ],
   "note": ""
  },
  {
   "property": "C94",
   "status": "proved",
   "theorems": [
    "C94_age_weights_nonnegative",
    "C94_age_weights_from_log_masses_nonnegative",
    "C94_negative_weight_refuted"
   ],
   "note": ""
  },
  {
   "property": "C95",
   "status": "proved",
   "theorems": [
    "C95_comoving_distance_quadrature_error",
    "C95_lookback_quadrature_error"
   ],
   "note": ""
  },
  {
   "property": "C96",
   "status": "proved",
   "theorems": [
    "C96_metallicity_grows_with_time"
   ],
   "note": ""
  },
  {
   "property": "C97",
   "status": "proved",
   "theorems": [
    "C97_metallicity_can_drop_with_time"
   ],
   "note": ""
  },
  {
   "property": "C98",
   "status": "proved",
   "theorems": [
    "C98_random_parameters_in_bounds"
   ],
   "note": ""
  },
  {
   "property": "C99",
   "status": "proved",
   "theorems": [
    "C99_random_parameters_can_be_inadmissible"
   ],
   "note": ""
  },
  {
   "property": "C100",
   "status": "proved",
   "theorems": [
    "C100_triweight_bin_weights"
   ],
   "note": ""
  },
  {
   "property": "C101",
   "status": "proved",
   "theorems": [
    "C101_cell_widths",
    "C101_short_grid_raises",
    "C101_linspace_time_tables"
   ],
   "note": ""
  },
  {
   "property": "C102",
   "status": "proved",
   "theorems": [
    "C102_maiolino_relation"
   ],
   "note": ""
  },
  {
   "property": "C103",
   "status": "proved",
   "theorems": [
    "C103_dimming_table_agrees_at_nodes",
    "C103_table_from_zero_is_nan"
   ],
   "note": ""
  },
  {
   "property": "C104",
   "status": "proved",
   "theorems": [
    "C104_retrieve_assembles",
    "C104_retrieve_without_lines",
    "C104_retrieve_errors",
    "C104_fsps_to_user"
   ],
   "note": ""
  },
  {
   "property": "C105",
   "status": "proved",
   "theorems": [
    "C105_line_dictionary",
    "C105_malformed_line_raises"
   ],
   "note": ""
  },
  {
   "property": "C106",
   "status": "proved",
   "theorems": [
    "C106_rewriting_loaded_data_refuted"
   ],
   "note": ""
  },
  {
   "property": "C107",
   "status": "proved",
   "theorems": [
    "C107_dummy_line_names",
    "C107_too_many_lines_never_ends"
   ],
   "note": ""
  },
  {
   "property": "C108",
   "status": "proved",
   "theorems": [
    "C108_dummy_grids",
    "C108_dummy_weights_are_distributions"
   ],
   "note": ""
  },
  {
   "property": "C109",
   "status": "proved",
   "theorems": [
    "C109_dummy_spectra",
    "C109_dummy_luminosities",
    "C109_dummy_data_assembled"
   ],
   "note": ""
  },
  {
   "property": "C110",
   "status": "proved",
   "theorems": [
    "C110_dummy_bands",
    "C110_dummy_curves",
    "C110_dummy_filter_tables"
   ],
   "note": ""
  },
  {
   "property": "C111",
   "status": "proved",
   "theorems": [
    "C111_frequency_peak",
    "C111_wavelength_peak"
   ],
   "note": ""
  },
  {
   "property": "C112",
   "status": "proved",
   "theorems": [
    "C112_textbook_age",
    "C112_age_of_the_universe",
    "C112_today",
    "C112_published_parameters"
   ],
   "note": ""
  },
  {
   "property": "C113",
   "status": "proved",
   "theorems": [
    "C113_age_error",
    "C113_age_positive_to_redshift_30"
   ],
   "note": ""
  },
  {
   "property": "C114",
   "status": "proved",
   "theorems": [
    "C114_umzr_closed_form",
    "C114_mzr_closed_form",
    "C114_pivot_mass",
    "C114_slopes",
    "C114_lookback_times"
   ],
   "note": ""
  },
  {
   "property": "C115",
   "status": "proved",
   "theorems": [
    "C115_metallicity_weights_differentiable"
   ],
   "note": ""
  },
  {
   "property": "C116",
   "status": "proved",
   "theorems": [
    "C116_age_weights_differentiable",
    "C116_mass_table_differentiable"
   ],
   "note": ""
  },
  {
   "property": "C117",
   "status": "proved",
   "theorems": [
    "C117_rest_sed_differentiable",
    "C117_rest_sed_met_table_differentiable"
   ],
   "note": ""
  },
  {
   "property": "C118",
   "status": "proved",
   "theorems": [
    "C118_bursty_weights_differentiable",
    "C118_bursty_weights_differentiable_u",
    "C118_uncovered_burst_jumps_refuted"
   ],
   "note": ""
  },
  {
   "property": "C119",
   "status": "proved",
   "theorems": [
    "C119_rest_magnitude_differentiable",
    "C119_observed_magnitude_differentiable",
    "C119_galaxy_magnitude_differentiable",
    "C119_galaxy_magnitude_met_table_differentiable"
   ],
   "note": ""
  },
  {
   "property": "C120",
   "status": "proved",
   "theorems": [
    "C120_distances_differentiable"
   ],
   "note": ""
  },
  {
   "property": "C121",
   "status": "proved",
   "theorems": [
    "C121_magnitude_is_mixture_of_template_magnitudes",
    "C121_magnitude_is_mixture_met_table"
   ],
   "note": ""
  },
  {
   "property": "C122",
   "status": "proved",
   "theorems": [
    "C122_template_errors_bound_magnitude_errors"
   ],
   "note": ""
  },
  {
   "property": "C123",
   "status": "proved",
   "theorems": [
    "C123_dust_dims_by_a_bounded_amount"
   ],
   "note": ""
  },
  {
   "property": "C124",
   "status": "proved",
   "theorems": [
    "C124_metallicity_weights_continuous",
    "C124_age_weights_continuous",
    "C124_rest_sed_continuous",
    "C124_rest_sed_met_table_continuous"
   ],
   "note": ""
  },
  {
   "property": "C125",
   "status": "proved",
   "theorems": [
    "C125_rest_magnitude_continuous",
    "C125_obs_magnitude_continuous",
    "C125_galaxy_magnitude_continuous",
    "C125_galaxy_magnitude_met_table_continuous"
   ],
   "note": ""
  },
  {
   "property": "C126",
   "status": "proved",
   "theorems": [
    "C126_sfr_floor_kink",
    "C126_magnitude_jumps_at_spectrum_edge"
   ],
   "note": ""
  },
  {
   "property": "C127",
   "status": "proved",
   "theorems": [
    "C127_sed_shapes",
    "C127_photometry_shapes",
    "C127_population_shapes",
    "C127_integral_and_burst_shapes"
   ],
   "note": ""
  },
  {
   "property": "C128",
   "status": "proved",
   "theorems": [
    "C128_age_weights_sum",
    "C128_joint_weights_lognormal",
    "C128_joint_weights_met_table"
   ],
   "note": ""
  },
  {
   "property": "C129",
   "status": "proved",
   "theorems": [
    "C129_sed_lognormal",
    "C129_sed_met_table"
   ],
   "note": ""
  },
  {
   "property": "C130",
   "status": "proved",
   "theorems": [
    "C130_cumulative_mass"
   ],
   "note": ""
  },
  {
   "property": "C131",
   "status": "proved",
   "theorems": [
    "C131_age_weights",
    "C131_stellar_mass"
   ],
   "note": ""
  },
  {
   "property": "C132",
   "status": "proved",
   "theorems": [
    "C132_metallicity_weights",
    "C132_metallicity_table_weights"
   ],
   "note": ""
  },
  {
   "property": "C133",
   "status": "proved",
   "theorems": [
    "C133_joint_weights_lognormal",
    "C133_joint_weights_met_table"
   ],
   "note": ""
  },
  {
   "property": "C134",
   "status": "proved",
   "theorems": [
    "C134_sed_lognormal",
    "C134_sed_met_table"
   ],
   "note": ""
  },
  {
   "property": "C135",
   "status": "proved",
   "theorems": [
    "C135_rest_flux",
    "C135_rest_magnitude"
   ],
   "note": ""
  },
  {
   "property": "C136",
   "status": "proved",
   "theorems": [
    "C136_observed_magnitude"
   ],
   "note": ""
  },
  {
   "property": "C137",
   "status": "proved",
   "theorems": [
    "C137_published_curves",
    "C137_default_bump"
   ],
   "note": ""
  },
  {
   "property": "C138",
   "status": "proved",
   "theorems": [
    "C138_surviving_mass_fit",
    "C138_remnant_mass_fit",
    "C138_triweight_attenuation",
    "C138_maiolino_relation",
    "C138_hubble_time_and_critical_density"
   ],
   "note": ""
  },
  {
   "property": "C139",
   "status": "proved",
   "theorems": [
    "C139_distances",
    "C139_distance_modulus",
    "C139_lookback_time",
    "C139_age_of_universe"
   ],
   "note": ""
  },
  {
   "property": "C140",
   "status": "proved",
   "theorems": [
    "C140_observed_magnitude_dimmed"
   ],
   "note": ""
  },
  {
   "property": "C141",
   "status": "proved",
   "theorems": [
    "C141_bursty_weights_in_unit_interval",
    "C141_bursty_weights_sum",
    "C141_bursty_weights_close"
   ],
   "note": ""
  },
  {
   "property": "C142",
   "status": "proved",
   "theorems": [
    "C142_unit_interval_refuted",
    "C142_nearly_a_distribution"
   ],
   "note": ""
  },
  {
   "property": "C143",
   "status": "proved",
   "theorems": [
    "C143_transmission",
    "C143_base_curves",
    "C143_noll_curve",
    "C143_salim_curve",
    "C143_noll_transmission",
    "C143_salim_transmission",
    "C143_break_point_single_precision"
   ],
   "note": ""
  },
  {
   "property": "C144",
   "status": "proved",
   "theorems": [
    "C144_age_weights",
    "C144_sed_and_magnitudes",
    "C144_sed_and_magnitudes_met_table"
   ],
   "note": ""
  },
  {
   "property": "C145",
   "status": "proved",
   "theorems": [
    "C145_age_weights_scale_free",
    "C145_sed_scales_with_sfh",
    "C145_sed_scales_with_sfh_met_table"
   ],
   "note": ""
  },
  {
   "property": "C146",
   "status": "proved",
   "theorems": [
    "C146_age_weights_error",
    "C146_age_weights_converge",
    "C146_sed_error",
    "C146_sed_error_met_table",
    "C146_sed_converges",
    "C146_sed_converges_met_table",
    "C146_magnitudes_converge",
    "C146_magnitudes_converge_met_table"
   ],
   "note": ""
  },
  {
   "property": "C147",
   "status": "proved",
   "theorems": [
    "C147_mass_table_superposes",
    "C147_superposition_within_one_step",
    "C147_superposition_within_one_step_met_table",
    "C147_exact_superposition_refuted"
   ],
   "note": ""
  },
  {
   "property": "C148",
   "status": "proved",
   "theorems": [
    "C148_metallicity_weights",
    "C148_sed",
    "C148_sed_met_table"
   ],
   "note": ""
  },
  {
   "property": "C149",
   "status": "proved",
   "theorems": [
    "C149_more_gravity_shorter_distances",
    "C149_stiff_dark_energy_reverses",
    "C149_matter_fraction"
   ],
   "note": ""
  },
  {
   "property": "C150",
   "status": "proved",
   "theorems": [
    "C150_distance_error",
    "C150_distance_modulus_error"
   ],
   "note": ""
  },
  {
   "property": "C151",
   "status": "proved",
   "theorems": [
    "C151_true_distance_below_horizon",
    "C151_reported_distance_below_horizon_refuted",
    "C151_last_scattering_refuted"
   ],
   "note": ""
  },
  {
   "property": "C152",
   "status": "proved",
   "theorems": [
    "C152_rest_magnitude",
    "C152_rest_magnitude_met_table",
    "C152_observed_magnitude",
    "C152_observed_magnitude_met_table"
   ],
   "note": ""
  },
  {
   "property": "C153",
   "status": "proved",
   "theorems": [
    "C153_frequency_density_error",
    "C153_wavelength_density_error",
    "C153_overflow_and_cancellation"
   ],
   "note": ""
  },
  {
   "property": "C154",
   "status": "proved",
   "theorems": [
    "C154_umzr_rounding_error",
    "C154_mzr_rounding_error"
   ],
   "note": ""
  },
  {
   "property": "C155",
   "status": "proved",
   "theorems": [
    "C155_scalar_functions_rounding_error",
    "C155_matter_fraction_and_virial_time_rounding_error"
   ],
   "note": ""
  },
  {
   "property": "C156",
   "status": "proved",
   "theorems": [
    "C156_single_sfr_is_constant_history",
    "C156_single_template_axis_is_repeated",
    "C156_single_transmission_is_flat_filter",
    "C156_single_weight_and_flux_are_repeated",
    "C156_two_point_integrals"
   ],
   "note": ""
  },
  {
   "property": "C157",
   "status": "proved",
   "theorems": [
    "C157_remnant_mass_rounding_error",
    "C157_surviving_mass_rounding_error"
   ],
   "note": ""
  },
  {
   "property": "C158",
   "status": "proved",
   "theorems": [
    "C158_rest_magnitude_table_rounding_error",
    "C158_kcorrected_table_rounding_error",
    "C158_observed_table_rounding_error"
   ],
   "note": ""
  },
  {
   "property": "C159",
   "status": "proved",
   "theorems": [
    "C159_inputs",
    "C159_kernel_gradient",
    "C159_density_gradient",
    "C159_sigmoids_gradient",
    "C159_zero_width_gradient_refuted"
   ],
   "note": ""
  },
  {
   "property": "C160",
   "status": "proved",
   "theorems": [
    "C160_sigmoids_gradient",
    "C160_inverse_sigmoid_gradient",
    "C160_imf_gradient",
    "C160_umzr_gradient",
    "C160_mzr_gradient",
    "C160_bounding_gradient"
   ],
   "note": ""
  },
  {
   "property": "C161",
   "status": "proved",
   "theorems": [
    "C161_attenuation_curves_gradient",
    "C161_bump_curves_gradient",
    "C161_triweight_curve_gradient",
    "C161_transmission_gradient"
   ],
   "note": ""
  },
  {
   "property": "C162",
   "status": "proved",
   "theorems": [
    "C162_metallicity_weights_gradient",
    "C162_zero_scatter_gradient_refuted"
   ],
   "note": ""
  },
  {
   "property": "C163",
   "status": "proved",
   "theorems": [
    "C163_burst_weights_gradient",
    "C163_burst_parameters_gradient"
   ],
   "note": ""
  },
  {
   "property": "C164",
   "status": "proved",
   "theorems": [
    "C164_age_weights_gradient",
    "C164_rest_sed_gradient",
    "C164_rest_sed_met_table_gradient"
   ],
   "note": ""
  },
  {
   "property": "C165",
   "status": "proved",
   "theorems": [
    "C165_rest_magnitude_gradient",
    "C165_observed_magnitude_gradient",
    "C165_galaxy_magnitude_gradient"
   ],
   "note": ""
  },
  {
   "property": "C166",
   "status": "proved",
   "theorems": [
    "C166_cosmology_gradient",
    "C166_distance_modulus_gradient",
    "C166_distance_modulus_gradient_at_redshift_zero",
    "C166_observed_magnitude_cosmology_gradient"
   ],
   "note": ""
  },
  {
   "property": "C167",
   "status": "proved",
   "theorems": [
    "C167_observed_magnitude_redshift_gradient"
   ],
   "note": ""
  },
  {
   "property": "C168",
   "status": "proved",
   "theorems": [
    "C168_rest_sed_time_gradient"
   ],
   "note": ""
  },
  {
   "property": "C169",
   "status": "proved",
   "theorems": [
    "C169_galaxy_redshift_gradient"
   ],
   "note": ""
  },
  {
   "property": "C170",
   "status": "proved",
   "theorems": [
    "C170_blackbody_gradient",
    "C170_blackbody_gradient_at_temperature_zero",
    "C170_powerlaw_gradient",
    "C170_effective_wavelength_gradient"
   ],
   "note": ""
  },
  {
   "property": "C171",
   "status": "proved",
   "theorems": [
    "C171_rest_sed_met_table_time_gradient"
   ],
   "note": ""
  },
  {
   "property": "C172",
   "status": "proved",
   "theorems": [
    "C172_galaxy_met_table_redshift_gradient",
    "C172_dusty_magnitude_gradient"
   ],
   "note": ""
  },
  {
   "property": "C173",
   "status": "proved",
   "theorems": [
    "C173_effective_wavelength_rounding_error",
    "C173_triweight_curve_rounding_error",
    "C173_bump_amplitude_rounding_error"
   ],
   "note": ""
  },
  {
   "property": "C174",
   "status": "proved",
   "theorems": [
    "C174_kernel_rounding_error",
    "C174_histogram_rounding_error",
    "C174_step_rounding_error",
    "C174_slope_rounding_error"
   ],
   "note": ""
  },
  {
   "property": "C175",
   "status": "proved",
   "theorems": [
    "C175_sampler_rounding_error",
    "C175_sampler_rounding_error_away_from_one",
    "C175_sample_stays_in_range",
    "C175_density_rounding_error",
    "C175_density_rounding_error_negative_index"
   ],
   "note": ""
  }
 ]
}