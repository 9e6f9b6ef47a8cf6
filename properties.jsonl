{"id": "C01", "title": "Age weights are a probability distribution", "statement": "calc_age_weights_from_sfh_table returns one weight per template age, each >= 0, summing to exactly 1, whatever the SFR values (zero and negative included), whenever the time and log-age grids are increasing, the age bins are ordered, and some mass is formed between the oldest and the youngest bin edge.", "quantifier": "all table lengths >= 1, all increasing cosmic-time tables, all real SFR tables, all age grids of >= 3 entries with ordered bin edges, all t_obs and all sfr_min > 0 meeting the stated mass condition", "why_tests_cant": "a test checks a few tables; the claim is about every grid length, every SFR table and every t_obs", "anchors": ["dsps/sed/stellar_age_weights.py:calc_age_weights_from_sfh_table", "dsps/utils.py:cumulative_mstar_formed"]}
{"id": "C02", "title": "Increasing age grid does not suffice for non-negative age weights", "statement": "The claim \"for every strictly increasing ssp_lg_age_gyr grid all age weights are >= 0\" is false: bin edges are mid - width/2 with width taken from neighbouring midpoints, so a grid whose spacing grows by more than a factor of about 4 has unordered bin edges and calc_age_weights_from_sfh_table returns a negative weight. Bin edges are ordered exactly when each spacing satisfies d[i+1] <= 4 d[i] + d[i-1] (interior), with the analogous end conditions.", "quantifier": "all strictly increasing age grids", "why_tests_cant": "tests use the regular FSPS grid only", "anchors": ["dsps/sed/stellar_age_weights.py:_get_lg_age_bin_edges", "dsps/utils.py:_jax_get_dt_array"]}
{"id": "C03", "title": "Cumulative age weights are the mass-fraction history", "statement": "The sum of the age weights of the templates older than bin edge j equals (mass formed by the birth time of edge j minus mass formed by the birth time of the oldest edge) / (mass formed between the oldest and youngest edges).", "quantifier": "all grids, tables, t_obs with non-zero total and every edge j", "why_tests_cant": "holds for every prefix of every grid", "anchors": ["dsps/sed/stellar_age_weights.py:_calc_age_weights_from_logsm_table"]}
{"id": "C04", "title": "Age weights are NaN exactly when no mass falls in the age range", "statement": "Every entry of the age weights is NaN if and only if the mass formed at the birth times of the youngest and of the oldest bin edge is the same (for instance t_obs at or below the youngest age, or an observation long after the last table entry); otherwise every entry is finite.", "quantifier": "all tables, grids, t_obs", "why_tests_cant": "tests never exercise the 0/0 boundary exhaustively", "anchors": ["dsps/sed/stellar_age_weights.py:_calc_age_weights_from_logsm_table"]}
{"id": "C05", "title": "No weight for stars older than the universe", "statement": "A template whose whole age bin is older than t_obs - 1 Myr gets weight exactly 0 (when the weights are defined).", "quantifier": "all tables, grids, t_obs, templates", "why_tests_cant": "depends on clipping at every possible t_obs", "anchors": ["dsps/sed/stellar_age_weights.py:_get_lgt_birth"]}
{"id": "C06", "title": "SFR floor", "statement": "Age weights and the stellar mass factor depend on the SFR table only through max(SFR, sfr_min) (SED functions also through max(SFR, 1e-14), which they use for the weights); with sfr_min > 0 every logarithm taken is of a positive finite number, so arbitrary (zero, negative) SFR values never produce -inf or NaN in the mass history.", "quantifier": "all real SFR tables and sfr_min > 0", "why_tests_cant": "negative and zero SFR anywhere in the table", "anchors": ["dsps/sed/stellar_age_weights.py:_calc_logsm_table_from_sfh_table"]}
{"id": "C07", "title": "Causality: the future of the SFH table is irrelevant", "statement": "If two SFR tables on the same time grid agree at every table time up to and including the first one at or after t_obs, then age weights, joint weights and the rest SED at t_obs are equal.", "quantifier": "all pairs of tables, all grids, all t_obs", "why_tests_cant": "a relation between two runs over all tables", "anchors": ["dsps/sed/stellar_age_weights.py:calc_age_weights_from_sfh_table", "dsps/sed/stellar_sed.py:calc_rest_sed_sfh_table_lognormal_mdf"]}
{"id": "C08", "title": "Cumulative stellar mass: length, positivity, strict growth", "statement": "cumulative_mstar_formed returns one value per table entry; for positive SFR and a strictly increasing table starting after 1 Myr the masses are positive and strictly increasing.", "quantifier": "all lengths, all increasing times > 0.001 Gyr, all positive SFR tables", "why_tests_cant": "for all lengths (induction)", "anchors": ["dsps/utils.py:cumulative_mstar_formed", "dsps/utils.py:cumtrapz"]}
{"id": "C09", "title": "Cumulative stellar mass is the time integral of the SFH", "statement": "Entry i of cumulative_mstar_formed is 1e9 times the integral from 0.001 Gyr to t_i of the piecewise-linear function through (0.001, 1e-14) and the table points.", "quantifier": "all lengths, all strictly increasing time tables starting after 0.001, all real SFR", "why_tests_cant": "statement about an integral for all tables", "anchors": ["dsps/utils.py:cumulative_mstar_formed"]}
{"id": "C10", "title": "Metallicity weights are a probability distribution for every galaxy metallicity", "statement": "calc_lgmet_weights_from_lognormal_mdf returns one weight per template, each >= 0, summing to exactly 1, for every finite galaxy metallicity (also far outside the grid) and every scatter > 0, when the metallicity bin edges are ordered.", "quantifier": "all metallicity grids of >= 3 entries with ordered edges, all gal_lgmet in R, all scatter > 0", "why_tests_cant": "all reals, including the fill-in branch far from the grid", "anchors": ["dsps/sed/metallicity_weights.py:calc_lgmet_weights_from_lognormal_mdf", "dsps/utils.py:_fill_empty_weights_singlepoint"]}
{"id": "C11", "title": "Increasing metallicity grid does not suffice for non-negative weights", "statement": "The claim \"for every strictly increasing ssp_lgmet grid the weights are >= 0\" is false: strongly irregular spacing gives unordered bin edges and a negative weight.", "quantifier": "all strictly increasing metallicity grids", "why_tests_cant": "tests use one FSPS grid", "anchors": ["dsps/sed/metallicity_weights.py:calc_lgmet_weights_from_lognormal_mdf"]}
{"id": "C12", "title": "Metallicity weights are local", "statement": "For a galaxy metallicity in [-10, 10] (the outermost bin edges), a template whose metallicity bin lies farther than 3 scatter from the galaxy metallicity gets weight exactly 0; when the whole kernel lies inside the bin edges each weight is the triweight CDF difference across its bin.", "quantifier": "all grids, gal_lgmet, scatter > 0", "why_tests_cant": "all positions of the kernel relative to the bins", "anchors": ["dsps/sed/metallicity_weights.py:calc_lgmet_weights_from_lognormal_mdf", "dsps/utils.py:triweighted_histogram"]}
{"id": "C13", "title": "Zero metallicity scatter selects one bin", "statement": "With scatter = 0 and a galaxy metallicity strictly inside a bin, the weights are exactly 1 for that bin and 0 elsewhere; with the metallicity exactly on an edge they are NaN.", "quantifier": "all grids, all gal_lgmet", "why_tests_cant": "division by zero boundary", "anchors": ["dsps/sed/metallicity_weights.py:calc_lgmet_weights_from_lognormal_mdf"]}
{"id": "C14", "title": "Metallicity table weights: every age column is a distribution divided by n_age", "statement": "calc_lgmet_weights_from_lgmet_table returns an (n_met, n_age) matrix with entries >= 0 whose every column sums to 1/n_age and whose total is 1.", "quantifier": "all tables, grids, t_obs, scatter > 0", "why_tests_cant": "all grids and tables", "anchors": ["dsps/sed/metallicity_weights.py:calc_lgmet_weights_from_lgmet_table"]}
{"id": "C15", "title": "Joint weights with a lognormal MDF: total 1, marginals", "statement": "calc_ssp_weights_sfh_table_lognormal_mdf: all entries >= 0, total 1, entry (i,j) = lgmet_weight_i * age_weight_j, row sums are the metallicity weights, column sums are the age weights, and the returned marginals are those of the single-axis functions.", "quantifier": "all inputs satisfying C01 and C10", "why_tests_cant": "all grids and tables", "anchors": ["dsps/sed/ssp_weights.py:calc_ssp_weights_sfh_table_lognormal_mdf"]}
{"id": "C16", "title": "Joint weights with a metallicity table: total 1, age marginal", "statement": "calc_ssp_weights_sfh_table_met_table: all entries >= 0, total 1, and summing over metallicity gives the age weights.", "quantifier": "all inputs satisfying C01 and C14", "why_tests_cant": "all grids and tables", "anchors": ["dsps/sed/ssp_weights.py:calc_ssp_weights_sfh_table_met_table"]}
{"id": "C17", "title": "Rest SED is linear in the templates and lies in their range", "statement": "Each wavelength of the rest SED is (mass formed) times a convex combination of the template fluxes at that wavelength: it is linear in ssp_flux and lies between mass*min and mass*max over the templates, in particular >= 0 for non-negative templates.", "quantifier": "all templates, all tables", "why_tests_cant": "all flux cubes", "anchors": ["dsps/sed/stellar_sed.py:calc_rest_sed_sfh_table_lognormal_mdf", "dsps/sed/stellar_sed.py:calc_rest_sed_sfh_table_met_table"]}
{"id": "C18", "title": "Mass normalisation of the SED", "statement": "The mass factor of the rest SED at a t_obs equal to a table time is the cumulative_mstar_formed entry of that time (with floored SFR), is non-decreasing in t_obs, and is constant before the first and after the last table time.", "quantifier": "all tables, t_obs > 0", "why_tests_cant": "relation over all pairs of t_obs", "anchors": ["dsps/sed/stellar_sed.py:calc_rest_sed_sfh_table_lognormal_mdf", "dsps/sed/stellar_sed.py:calc_rest_sed_sfh_table_met_table"]}
{"id": "C19", "title": "Constant metallicity history agrees with the lognormal MDF", "statement": "calc_rest_sed_sfh_table_met_table with a constant metallicity table gives the same SED and joint weights as calc_rest_sed_sfh_table_lognormal_mdf with that metallicity, and its lgmet weights divided column-wise by 1/n_age agree.", "quantifier": "all inputs satisfying C01 and C10", "why_tests_cant": "two programs agree on all inputs", "anchors": ["dsps/sed/stellar_sed.py:calc_rest_sed_sfh_table_met_table", "dsps/sed/stellar_sed.py:calc_rest_sed_sfh_table_lognormal_mdf"]}
{"id": "C20", "title": "Shape errors are raised", "statement": "Galaxy tables of different length (other than an SFR table of length 1, which JAX broadcasts), an empty time table, fewer than three template ages or metallicities, or a flux cube whose shape is not (n_met, n_age, n_wave) up to broadcast axes of length 1 raise an exception instead of returning weights or an SED; all other inputs return, whatever their entries.", "quantifier": "all lengths", "why_tests_cant": "all combinations of shapes", "anchors": ["dsps/sed/stellar_age_weights.py:calc_age_weights_from_sfh_table", "dsps/utils.py:_jax_get_dt_array"]}
{"id": "C21", "title": "sfr_min has no influence on the weights returned with an SED", "statement": "The weights, lgmet_weights and age_weights returned by the SED functions do not depend on their sfr_min argument (only the mass factor does).", "quantifier": "all pairs of sfr_min", "why_tests_cant": "relation between two runs", "anchors": ["dsps/sed/stellar_sed.py:calc_rest_sed_sfh_table_lognormal_mdf", "dsps/sed/ssp_weights.py:calc_ssp_weights_sfh_table_lognormal_mdf"]}
{"id": "C22", "title": "Triweight CDF is a cumulative distribution", "statement": "For width h > 0 the triweight cumulative kernel is 0 at and below m-3h, 1 at and above m+3h, 1/2 at m, stays in [0,1], is non-decreasing in x and strictly increasing inside the support.", "quantifier": "all real x, m and h > 0", "why_tests_cant": "degree-7 polynomial on all reals", "anchors": ["dsps/utils.py:_tw_cuml_kern"]}
{"id": "C23", "title": "triweight_gaussian is the density of the triweight CDF", "statement": "The derivative in x of the triweight cumulative kernel is triweight_gaussian at every x, so triweight_gaussian is >= 0, integrates to 1 over any interval containing its support, and integrates over [a,b] to the CDF difference.", "quantifier": "all x, m, h > 0, all a <= b", "why_tests_cant": "integral statement", "anchors": ["dsps/utils.py:triweight_gaussian", "dsps/utils.py:_tw_cuml_kern"]}
{"id": "C24", "title": "Triweighted histogram conserves probability", "statement": "triweighted_histogram returns one value per bin, each in [0,1] for increasing edges, whose sum is the CDF difference between the outermost edges; the sum is 1 when the kernel support is inside the edges.", "quantifier": "all edge lists, x, sig > 0", "why_tests_cant": "telescoping for every number of bins", "anchors": ["dsps/utils.py:triweighted_histogram"]}
{"id": "C25", "title": "Bounding sigmoid is a bijection onto the open interval", "statement": "For k > 0 and ylo < yhi, _sigmoid maps every real to (ylo, yhi), strictly increasing, _inverse_sigmoid is its two-sided inverse, and _inverse_sigmoid gives +-inf at the bounds and NaN outside.", "quantifier": "all reals and all bounds", "why_tests_cant": "all reals", "anchors": ["dsps/utils.py:_sigmoid", "dsps/utils.py:_inverse_sigmoid"]}
{"id": "C26", "title": "cumtrapz and trapz agree", "statement": "cumtrapz has the length of its input, starts at 0, and its last entry equals trapz of the same arrays; every entry is trapz of the prefix.", "quantifier": "all lengths", "why_tests_cant": "induction on length", "anchors": ["dsps/utils.py:cumtrapz", "dsps/utils.py:trapz"]}
{"id": "C27", "title": "trapz is the integral of the piecewise-linear interpolant", "statement": "trapz equals the Riemann integral of the piecewise-linear interpolation of the points over [x_0, x_n] for increasing x; it is linear in y, monotone in y for increasing x, and reversing both arrays flips the sign.", "quantifier": "all lengths, all increasing x", "why_tests_cant": "integral for all grids", "anchors": ["dsps/utils.py:trapz"]}
{"id": "C28", "title": "Weight matrices are outer products", "statement": "_get_weight_matrices_2d/3d return per galaxy the outer product; the sum of all entries is the product of the sums.", "quantifier": "all lengths", "why_tests_cant": "induction", "anchors": ["dsps/utils.py:_get_weight_matrices_2d", "dsps/utils.py:_get_weight_matrices_3d"]}
{"id": "C29", "title": "Power-law sampler inverts the power-law CDF", "statement": "For 0 < a < b and g <> 0 powerlaw_pdf is positive and integrates to 1 on [a,b]; powerlaw_rvs maps a uniform r in [0,1) into [a,b), and the integral of powerlaw_pdf from a to powerlaw_rvs(r) is r.", "quantifier": "all a < b, g <> 0, r in [0,1)", "why_tests_cant": "integral statement over all parameters", "anchors": ["dsps/utils.py:powerlaw_pdf", "dsps/utils.py:powerlaw_rvs"]}
{"id": "C30", "title": "Bin edges of a regular grid", "statement": "On an evenly spaced grid _get_bin_edges puts the interior edges halfway between the nodes; on any grid it returns n+1 edges with the two given outer edges at the ends.", "quantifier": "all grid lengths >= 3, all spacings", "why_tests_cant": "all lengths", "anchors": ["dsps/utils.py:_get_bin_edges"]}
{"id": "C31", "title": "Burst parameters respect their bounds", "statement": "For every unbounded input, lgfburst is in (-8,-1), lgyr_peak in (5,8), lgyr_max in (lgyr_peak+1, 9); each is strictly increasing in its own unbounded input (lgyr_max for a fixed peak) and equals the documented logistic (centres -2, 6.5 and the middle of the allowed range, slope 0.1).", "quantifier": "all reals", "why_tests_cant": "all reals", "anchors": ["dsps/sfh/diffburst.py:_get_params_from_u_params"]}
{"id": "C32", "title": "Burst parameter round trips", "statement": "Bounded -> unbounded -> bounded and unbounded -> bounded -> unbounded are the identity (the first on the open bounded region); the default parameters (-3, 5.5, 7) lie in that region and survive the round trip.", "quantifier": "all reals / all bounded parameters", "why_tests_cant": "all reals", "anchors": ["dsps/sfh/diffburst.py:_get_params_from_u_params", "dsps/sfh/diffburst.py:_get_u_params_from_params"]}
{"id": "C33", "title": "Bursty age weights stay a distribution when the grid resolves the burst", "statement": "If the smooth weights are a distribution and at least one template age lies strictly inside the burst support, calc_bursty_age_weights returns non-negative weights summing to 1, for every lgfburst <= 0.", "quantifier": "all grids, smooth weights, parameters with lgyr_max > lgyr_peak", "why_tests_cant": "all grids", "anchors": ["dsps/sfh/diffburst.py:calc_bursty_age_weights"]}
{"id": "C34", "title": "Unresolved burst loses mass", "statement": "The claim \"bursty weights always sum to 1\" is false: when no template age lies inside the burst support the returned weights sum to 1 - 10**lgfburst.", "quantifier": "all grids with no age in the support", "why_tests_cant": "tests use fine grids", "anchors": ["dsps/sfh/diffburst.py:_zero_safe_normalize", "dsps/sfh/diffburst.py:calc_bursty_age_weights"]}
{"id": "C35", "title": "Burst support", "statement": "Burst weights vanish for ages with log10(age/yr) >= lgyr_max or <= 2 lgyr_peak - lgyr_max, are symmetric about lgyr_peak and decrease away from it; outside the support the bursty weight is (1-fb) times the smooth weight.", "quantifier": "all ages and parameters", "why_tests_cant": "all reals", "anchors": ["dsps/sfh/diffburst.py:_pureburst_age_weights_from_params"]}
{"id": "C36", "title": "The two burst APIs agree", "statement": "calc_bursty_age_weights(p, w, lg_age_gyr) equals _compute_bursty_age_weights_from_params(lg_age_gyr+9, w, p), and the u_params versions agree with bounding first; an output entry depends on its own smooth weight only; the pure-burst weights from unbounded parameters are those of the bounded parameters.", "quantifier": "all inputs", "why_tests_cant": "equality of two programs", "anchors": ["dsps/sfh/diffburst.py:calc_bursty_age_weights", "dsps/sfh/diffburst.py:_compute_bursty_age_weights_from_params"]}
{"id": "C37", "title": "Surviving mass fraction is a fraction", "statement": "For each of the four IMF calibrations surviving_mstar is below 1 at every age (some mass is always returned) and above 0.4 for every lg_age_yr <= 10.5.", "quantifier": "all real log ages (up to 10.5 for the lower bound), four IMFs", "why_tests_cant": "all reals", "anchors": ["dsps/imf/surviving_mstar.py:surviving_mstar"]}
{"id": "C38", "title": "Surviving mass fraction is not monotone in age", "statement": "The claim \"surviving_mstar never increases as the population ages\" is false for the default parameters: at very young ages the returned fraction dips.", "quantifier": "all ages", "why_tests_cant": "counterexample outside the tested grid", "anchors": ["dsps/imf/surviving_mstar.py:_returned_mass"]}
{"id": "C39", "title": "Remnant fraction grows with age", "statement": "For each IMF calibration remnant_mass is positive, equals 10**a at lg_age_yr = 7 and is strictly increasing in age; it stays below 1 for lg_age_yr <= 13.", "quantifier": "all real ages, four IMFs", "why_tests_cant": "strict monotonicity over all pairs of reals", "anchors": ["dsps/imf/remnant_mass.py:remnant_mass"]}
{"id": "C40", "title": "Dust transmission is a fraction", "statement": "For every reddening value, every av and floor in [0,1], the transmission is in [floor, 1], equals 1 for av = 0, is non-increasing in av >= 0 (for k >= 0) and in k (av >= 0), and with zero floor transmissions multiply when av values add.", "quantifier": "all reals k, av, floor in [0,1]", "why_tests_cant": "all reals", "anchors": ["dsps/dust/att_curves.py:_frac_transmission_from_k_lambda"]}
{"id": "C41", "title": "Attenuation is never negative", "statement": "Every attenuation curve function returns a value >= 0 (or NaN, never negative), and noll09/sbl18 reddening curves are >= 0 for every wavelength > 0 and all parameters.", "quantifier": "all wavelengths, av (any sign), bump amplitudes, slopes", "why_tests_cant": "all reals", "anchors": ["dsps/dust/att_curves.py:noll09_k_att_curve", "dsps/dust/att_curves.py:sbl18_k_att_curve", "dsps/dust/att_curves.py:calzetti00_att_curve", "dsps/dust/att_curves.py:leitherer02_att_curve"]}
{"id": "C42", "title": "Drude bump", "statement": "For ampl > 0, gamma > 0, x0 > 0 and x > 0 the Drude bump lies in (0, ampl] and attains ampl exactly at x = x0 and nowhere else. The bump amplitude implied by a slope delta is the decreasing affine function equal to 0.85 at 0, hence non-negative exactly for delta <= 0.85/1.9.", "quantifier": "all reals", "why_tests_cant": "all reals", "anchors": ["dsps/dust/att_curves.py:_drude_bump", "dsps/dust/att_curves.py:_get_eb_from_delta"]}
{"id": "C43", "title": "V-band normalisation of the power-law correction", "statement": "power_law_vband_norm is 1 at 0.55 micron for every slope, multiplicative in the slope, and decreasing in wavelength for negative slope; hence at 0.55 micron noll09 and sbl18 agree for every slope.", "quantifier": "all wavelengths and slopes", "why_tests_cant": "all reals", "anchors": ["dsps/dust/att_curves.py:power_law_vband_norm"]}
{"id": "C44", "title": "Calzetti curve decreases with wavelength and reaches zero attenuation in the infrared", "statement": "calzetti00_k_lambda is strictly decreasing in wavelength on each side of 0.63 micron; it is positive up to 3.1 micron and the attenuation curve is exactly 0 from 3.2 micron on for av >= 0.", "quantifier": "all wavelengths > 0", "why_tests_cant": "all reals", "anchors": ["dsps/dust/att_curves.py:calzetti00_k_lambda", "dsps/dust/att_curves.py:calzetti00_att_curve"]}
{"id": "C45", "title": "Piecewise dust curves are not continuous", "statement": "The claim \"the reddening curve is continuous at the joints\" is false: there is a jump at 0.63 micron of calzetti00_k_lambda (and at 0.15 micron of the l02/c00 combination); the jumps are bounded by the constants stated.", "quantifier": "joints", "why_tests_cant": "value at the joint vs. limit", "anchors": ["dsps/dust/att_curves.py:calzetti00_k_lambda", "dsps/dust/att_curves.py:_l02_below_c00_above"]}
{"id": "C46", "title": "Effective wavelength lies within the filter", "statement": "For non-negative transmission with positive integral and increasing wavelengths, the effective wavelength times (1+z) is between the shortest and longest filter wavelength; it is invariant under rescaling of the transmission and proportional to 1/(1+z).", "quantifier": "all filters, all z > -1", "why_tests_cant": "all curves", "anchors": ["dsps/dust/utils.py:get_filter_effective_wavelength"]}
{"id": "C47", "title": "Triweight reddening curve", "statement": "triweight_k_lambda is positive for every wavelength > 0, passes through 10**ytp at wavelength 10**xtp, and with its defaults is strictly decreasing in wavelength from 0.1 micron on.", "quantifier": "all wavelengths", "why_tests_cant": "all reals", "anchors": ["dsps/dust/att_curves.py:triweight_k_lambda"]}
{"id": "C48", "title": "Planck law", "statement": "blackbody_freq_density is (2 h nu^3/c^2)/(exp(h nu/kT)-1)/Lsun and blackbody_wave_density is (2 h c^2/lambda^5)/(exp(hc/(lambda kT))-1)/Lsun per Angstrom, both positive, for every positive frequency/wavelength and temperature.", "quantifier": "all positive arguments", "why_tests_cant": "log-space evaluation equals the law for all arguments", "anchors": ["dsps/dust/blackbody.py:blackbody_freq_density", "dsps/dust/blackbody.py:blackbody_wave_density"]}
{"id": "C49", "title": "Frequency and wavelength densities are consistent", "statement": "nu * B_nu(nu,T) = lambda * B_lambda(lambda,T) whenever nu = c/lambda (wavelength in Angstrom).", "quantifier": "all positive wavelengths, temperatures", "why_tests_cant": "relation between two functions", "anchors": ["dsps/dust/blackbody.py:blackbody_freq_density", "dsps/dust/blackbody.py:blackbody_wave_density"]}
{"id": "C50", "title": "Blackbody increases with temperature and stays below Rayleigh-Jeans", "statement": "At fixed positive frequency the density is strictly increasing in temperature and strictly below 2 nu^2 k T/c^2/Lsun.", "quantifier": "all positive nu, T1 < T2", "why_tests_cant": "all pairs of reals", "anchors": ["dsps/dust/blackbody.py:blackbody_freq_density"]}
{"id": "C51", "title": "Blackbody edge cases", "statement": "At temperature 0 the density is exactly 0 for every positive frequency; at frequency 0 and positive temperature it is NaN, not the physical limit 0.", "quantifier": "all temperatures/frequencies", "why_tests_cant": "special values", "anchors": ["dsps/dust/blackbody.py:_freq_density_denom"]}
{"id": "C52", "title": "Expansion rate", "statement": "For 0 < Om0 <= 1 and every w0, wa: E(0) = 1 and E(z) > 0 and finite for every z > -1; for Lambda-CDM E is strictly increasing.", "quantifier": "all z > -1 and cosmologies", "why_tests_cant": "all reals", "anchors": ["dsps/cosmology/flat_wcdm.py:_Ez"]}
{"id": "C53", "title": "Comoving distance bounds", "statement": "comoving_distance_to_z is 0 at z = 0, positive for z > 0, and for Lambda-CDM lies between D_H z/E(z) and D_H z.", "quantifier": "all z >= 0, h > 0, Om0", "why_tests_cant": "all reals; 256-point quadrature", "anchors": ["dsps/cosmology/flat_wcdm.py:comoving_distance_to_z"]}
{"id": "C54", "title": "Distance duality", "statement": "luminosity distance = (1+z)^2 angular diameter distance, and both relate to the comoving distance by one factor (1+z).", "quantifier": "all z > -1", "why_tests_cant": "all reals", "anchors": ["dsps/cosmology/flat_wcdm.py:luminosity_distance_to_z", "dsps/cosmology/flat_wcdm.py:angular_diameter_distance_to_z"]}
{"id": "C55", "title": "Distance modulus", "statement": "distance_modulus_to_z is 5 log10(d_L/10pc) for z > 0 and is -inf at z = 0.", "quantifier": "all cosmologies", "why_tests_cant": "boundary z=0", "anchors": ["dsps/cosmology/flat_wcdm.py:distance_modulus_to_z"]}
{"id": "C56", "title": "Hubble scaling", "statement": "h times comoving distance, h times lookback time, h times age and rho_crit/h^2 do not depend on h.", "quantifier": "all h > 0", "why_tests_cant": "relation over all pairs of h", "anchors": ["dsps/cosmology/flat_wcdm.py:comoving_distance_to_z", "dsps/cosmology/flat_wcdm.py:lookback_to_z", "dsps/cosmology/flat_wcdm.py:age_at_z0", "dsps/cosmology/flat_wcdm.py:rho_crit"]}
{"id": "C57", "title": "Age and lookback time add up", "statement": "age_at_z(z) + lookback_to_z(z) = age_at_z0 for every z, age_at_z(0) = age_at_z0, lookback_to_z(0) = 0 and lookback is positive for z > 0.", "quantifier": "all z >= 0, cosmologies", "why_tests_cant": "all reals", "anchors": ["dsps/cosmology/flat_wcdm.py:age_at_z", "dsps/cosmology/flat_wcdm.py:lookback_to_z", "dsps/cosmology/flat_wcdm.py:age_at_z0"]}
{"id": "C58", "title": "Age of the universe can come out negative", "statement": "The claim \"age_at_z is positive for every redshift\" is false: the 512-point linear quadrature of lookback_to_z overestimates at very large z, and age_at_z is negative for every Lambda-CDM cosmology and every z >= 7500, and for Om0 >= 0.05 (all published parameter sets) already for every z >= 200.", "quantifier": "all z", "why_tests_cant": "tests stop at moderate z", "anchors": ["dsps/cosmology/flat_wcdm.py:age_at_z"]}
{"id": "C59", "title": "Matter fraction and virial time", "statement": "Om(z) is in (0,1] for 0 < Om0 <= 1, equals Om0 at z=0 and rho_crit grows accordingly; the virial overdensity is above 56 and at most 18 pi^2, and virial_dynamical_time is positive.", "quantifier": "all z > -1, cosmologies", "why_tests_cant": "all reals", "anchors": ["dsps/cosmology/flat_wcdm.py:_Om_at_z", "dsps/cosmology/flat_wcdm.py:virial_dynamical_time"]}
{"id": "C60", "title": "virial_dynamical_time rejects the documented scalar redshift", "statement": "The claim \"virial_dynamical_time accepts a float redshift\" (its docstring) is false: it goes through a vmapped function and raises for every scalar; on an array it returns the elementwise values.", "quantifier": "all scalars / all arrays", "why_tests_cant": "API contract over all inputs", "anchors": ["dsps/cosmology/flat_wcdm.py:virial_dynamical_time", "dsps/cosmology/flat_wcdm.py:_delta_vir"]}
{"id": "C61", "title": "Differential comoving volume", "statement": "differential_comoving_volume_at_z = D_H D_C^2 / E(z), >= 0, and 0 at z = 0.", "quantifier": "all z > -1", "why_tests_cant": "all reals", "anchors": ["dsps/cosmology/flat_wcdm.py:differential_comoving_volume_at_z"]}
{"id": "C62", "title": "Vectorised cosmology functions act pointwise", "statement": "The array versions return, at each position, the scalar function of that entry, have the length of the input and refuse scalars; age_at_z accepts both.", "quantifier": "all arrays", "why_tests_cant": "all lengths", "anchors": ["dsps/cosmology/flat_wcdm.py:comoving_distance", "dsps/cosmology/flat_wcdm.py:age_at_z"]}
{"id": "C63", "title": "Magnitude shift under flux scaling", "statement": "Multiplying the spectrum by s > 0 adds exactly -2.5 log10 s to rest and observed magnitudes; adding spectra adds rest fluxes.", "quantifier": "all spectra, filters, s > 0", "why_tests_cant": "relation between runs", "anchors": ["dsps/photometry/photometry_kernels.py:calc_rest_mag", "dsps/photometry/photometry_kernels.py:calc_obs_mag"]}
{"id": "C64", "title": "AB zero point", "statement": "A spectrum equal to the AB constant at every wavelength has magnitude exactly 0 through every filter inside the spectrum range; a constant multiple s has magnitude -2.5 log10 s.", "quantifier": "all filters with non-zero integral", "why_tests_cant": "all filters", "anchors": ["dsps/photometry/photometry_kernels.py:calc_rest_mag"]}
{"id": "C65", "title": "Filter normalisation cancels", "statement": "Scaling the transmission curve by any factor c > 0 leaves all magnitudes unchanged.", "quantifier": "all c > 0, spectra, filters", "why_tests_cant": "relation between runs", "anchors": ["dsps/photometry/photometry_kernels.py:calc_rest_mag", "dsps/photometry/photometry_kernels.py:calc_obs_mag"]}
{"id": "C66", "title": "Brighter spectrum, smaller magnitude", "statement": "If one spectrum is at least another at every wavelength then its rest flux is at least as large and its magnitude at most as large (non-negative transmission, increasing positive filter wavelengths).", "quantifier": "all spectra pairs", "why_tests_cant": "all pairs", "anchors": ["dsps/photometry/photometry_kernels.py:calc_rest_flux", "dsps/photometry/photometry_kernels.py:calc_rest_mag"]}
{"id": "C67", "title": "No overlap between filter and spectrum", "statement": "If every filter wavelength is outside the spectrum range the rest flux is 0 and the magnitude is +inf.", "quantifier": "all filters/spectra", "why_tests_cant": "boundary behaviour", "anchors": ["dsps/photometry/photometry_kernels.py:calc_rest_mag"]}
{"id": "C68", "title": "Observed magnitude decomposition and z=0", "statement": "calc_obs_mag = no-dimming magnitude + distance modulus - 2.5 log10(1+z); the no-dimming magnitude at z=0 equals the rest magnitude; calc_obs_mag at z = 0 is -inf for every spectrum with positive flux.", "quantifier": "all inputs", "why_tests_cant": "all inputs and the z=0 boundary", "anchors": ["dsps/photometry/photometry_kernels.py:calc_obs_mag", "dsps/photometry/photometry_kernels.py:_calc_obs_mag_no_dimming"]}
{"id": "C69", "title": "Redshifting equals blueshifting the filter", "statement": "The no-dimming magnitude at redshift z equals the rest magnitude through the filter with wavelengths divided by (1+z).", "quantifier": "all z > -1, spectra, filters", "why_tests_cant": "relation between runs", "anchors": ["dsps/photometry/photometry_kernels.py:_calc_obs_mag_no_dimming"]}
{"id": "C70", "title": "Precomputed photometry tables are pointwise", "statement": "Entry [z][met][age][band] of the precomputed tables equals the single-spectrum function on that spectrum, filter and redshift, and the table has the documented shape.", "quantifier": "all array sizes", "why_tests_cant": "all sizes", "anchors": ["dsps/photometry/photpop.py:precompute_ssp_obsmags_on_z_table", "dsps/photometry/photpop.py:precompute_ssp_restmags", "dsps/photometry/photpop.py:precompute_ssp_restmags_z_kcorrect"]}
{"id": "C71", "title": "Filter resampling", "statement": "interpolate_filter_trans_curves returns every curve on n points from its own minimum to its own maximum wavelength (endpoints exact for n >= 2), with transmissions between the minimum and maximum of the original curve.", "quantifier": "all curve collections and n", "why_tests_cant": "all sizes", "anchors": ["dsps/photometry/utils.py:interpolate_filter_trans_curves"]}
{"id": "C72", "title": "Bounded MZR parameters", "statement": "For every unbounded input, all parameters other than mzr_t0_slope_hi are strictly inside MZR_PBOUNDS and 0 < mzr_t0_slope_hi < mzr_t0_slope_lo.", "quantifier": "all reals", "why_tests_cant": "all reals", "anchors": ["dsps/metallicity/umzr.py:get_bounded_mzr_params"]}
{"id": "C73", "title": "mzr_t0_slope_hi can leave its documented bounds", "statement": "The claim \"get_bounded_mzr_params returns parameters inside MZR_PBOUNDS\" is false: mzr_t0_slope_hi can exceed 0.3.", "quantifier": "all reals", "why_tests_cant": "counterexample at large u", "anchors": ["dsps/metallicity/umzr.py:_get_mzr_t0_slope_hi_from_unbounded"]}
{"id": "C74", "title": "MZR parameter round trips", "statement": "bounded -> unbounded -> bounded and back are the identity on the admissible region.", "quantifier": "all admissible parameters", "why_tests_cant": "all reals", "anchors": ["dsps/metallicity/umzr.py:get_bounded_mzr_params", "dsps/metallicity/umzr.py:get_unbounded_mzr_params"]}
{"id": "C75", "title": "Metallicity evolution only lowers metallicity", "statement": "mzr_model(t) <= mzr_model_t0 for every time and all parameters (both modules); after t = 12.5 Gyr the model no longer depends on t.", "quantifier": "all masses, times, parameters", "why_tests_cant": "all reals", "anchors": ["dsps/metallicity/umzr.py:mzr_model", "dsps/metallicity/mzr.py:mzr_model"]}
{"id": "C76", "title": "The two MZR modules agree", "statement": "mzr.mzr_model and umzr.mzr_model are equal when the turnover mass is 10.5 and tlook_c is 8.44, in particular at the defaults. mzr.mzr_model called with an unpacked parameter array succeeds iff it has ten entries, so unpacking all eleven DEFAULT_MET_PARAMS raises TypeError.", "quantifier": "all masses, times, other parameters", "why_tests_cant": "equality of programs", "anchors": ["dsps/metallicity/umzr.py:mzr_model", "dsps/metallicity/mzr.py:mzr_model"]}
{"id": "C77", "title": "Present-day MZR is increasing for the defaults", "statement": "With default parameters metallicity at t0 is strictly increasing in stellar mass; more generally whenever the turnover mass is 10.5 and slope_lo/11 <= slope_hi <= slope_lo.", "quantifier": "all masses", "why_tests_cant": "all pairs of reals", "anchors": ["dsps/metallicity/mzr.py:mzr_model_t0"]}
{"id": "C78", "title": "Present-day MZR can decrease for allowed parameters", "statement": "The claim \"for all parameters within bounds the t0 relation is increasing in mass\" is false.", "quantifier": "all allowed parameters", "why_tests_cant": "counterexample at extreme allowed values", "anchors": ["dsps/metallicity/umzr.py:mzr_model_t0"]}
{"id": "C79", "title": "Equivalent width recovers a line on a quadratic continuum", "statement": "If the flux equals a quadratic on both continuum windows (at least three distinct wavelengths) then the fitted coefficients are that quadratic, the line flux is the trapezoid integral of flux minus continuum over the line window and EW is that over the continuum at line centre, for every least-squares solver.", "quantifier": "all spectra, windows, least-squares solvers", "why_tests_cant": "all spectra", "anchors": ["dsps/em_lines/equivalent_width.py:_ew_kernel", "dsps/em_lines/equivalent_width.py:_weighted_quadratic_fit"]}
{"id": "C80", "title": "The two equivalent-width kernels agree", "statement": "_ew_kernel returns the first two components of _continuum_line_decomp_kern on every input.", "quantifier": "all inputs", "why_tests_cant": "equality of programs", "anchors": ["dsps/em_lines/equivalent_width.py:_ew_kernel", "dsps/em_lines/equivalent_width.py:_continuum_line_decomp_kern"]}
{"id": "C81", "title": "Equivalent width is invariant under flux rescaling", "statement": "Multiplying a spectrum by s <> 0 scales line flux and continuum by s and leaves the equivalent width unchanged.", "quantifier": "all spectra whose continuum windows hold at least three wavelengths, all s <> 0", "why_tests_cant": "relation between runs", "anchors": ["dsps/em_lines/equivalent_width.py:_ew_kernel"]}
{"id": "C82", "title": "Template file precedence", "statement": "load_ssp_templates opens fn if given, else drn/bn, else $DSPS_DRN/bn, and raises ValueError if neither is available, AssertionError if the file is missing; fn makes drn, bn and the environment irrelevant; dummy overrides everything.", "quantifier": "all arguments, environments and file systems", "why_tests_cant": "all combinations", "anchors": ["dsps/data_loaders/load_ssp_data.py:load_ssp_templates"]}
{"id": "C83", "title": "Filter file lookup needs a unique match", "statement": "load_transmission_curve without fn succeeds only if exactly one file matches the pattern; fn is opened literally and never globbed.", "quantifier": "all file systems", "why_tests_cant": "all file systems", "anchors": ["dsps/data_loaders/load_filter_data.py:load_transmission_curve"]}
{"id": "C84", "title": "Loaded transmission is in [0,1]", "statement": "Every transmission value returned by load_transmission_curve is in [0,1], values already in [0,1] are unchanged, and a curve with a value below -0.01 is rejected.", "quantifier": "all stored real curves", "why_tests_cant": "all arrays", "anchors": ["dsps/data_loaders/load_filter_data.py:load_transmission_curve"]}
{"id": "C85", "title": "Curves above unity are not rejected", "statement": "The claim \"a curve with a value above 1.01 raises ValueError\" is false: the check uses the minimum, so every curve whose smallest value is in [-0.01,1.01] is silently clipped, whatever its largest value.", "quantifier": "all stored curves", "why_tests_cant": "tests never load such a curve", "anchors": ["dsps/data_loaders/load_filter_data.py:load_transmission_curve"]}
{"id": "C86", "title": "Random transmission curve", "statement": "load_random_transmission_curve returns 200 wavelengths spanning wave_range and transmissions in (0,1] with maximum exactly 1; a centre outside the range raises; a drawn centre lies two scales inside the range if the range is at least four scales wide, but outside it (and is not refused) when the range is narrower than two scales.", "quantifier": "all centres, ranges, scales > 0", "why_tests_cant": "all reals", "anchors": ["dsps/data_loaders/load_filter_data.py:load_random_transmission_curve"]}
{"id": "C87", "title": "Emission-line subset", "statement": "get_subset_emline_data returns exactly the requested lines in the requested order with the right wavelengths and luminosity planes, leaving other fields unchanged; unknown name, duplicate name and empty list raise; selecting from a selection is selecting directly.", "quantifier": "all line sets and requests", "why_tests_cant": "all lists", "anchors": ["dsps/data_loaders/load_emline_info.py:get_subset_emline_data"]}
{"id": "C88", "title": "Emission-line names of the shipped file are valid and distinct", "statement": "Reading emlines_info.dat gives 166 distinct valid field names, and the two name-cleaning routines agree on every string.", "quantifier": "all strings (agreement); the shipped file (validity)", "why_tests_cant": "agreement over all strings", "anchors": ["dsps/data_loaders/load_emline_info.py:read_emlines_info_fsps", "dsps/data_loaders/retrieve_fsps_data.py:_get_emline_wave_namedtuple"]}
{"id": "C89", "title": "Emission-line matching", "statement": "_get_matched_emline_name returns a name iff exactly one reference wavelength is within 1e-6 relative of the request, and then it is that line; otherwise the empty string, which makes the namedtuple construction raise ValueError. With the shipped table all 166 FSPS lines are recognised, even if every wavelength is off by 5e-7 relative.", "quantifier": "all reference tables and wavelengths", "why_tests_cant": "all tables", "anchors": ["dsps/data_loaders/retrieve_fsps_data.py:_get_matched_emline_name"]}
{"id": "C90", "title": "Write then load", "statement": "Writing SSP data with emission lines with write_fsps_data_to_disk and loading the file returns the same arrays, names and wavelengths, with luminosities multiplied by L_SUN_CGS.", "quantifier": "all SSP data with valid distinct line names", "why_tests_cant": "all data", "anchors": ["scripts/write_fsps_data_to_disk.py", "dsps/data_loaders/load_ssp_data.py:load_ssp_templates"]}
{"id": "C91", "title": "Write script crashes without emission lines but leaves a loadable file", "statement": "The claim \"the script handles SSP data without emission lines\" is false: the test on _fields is always true, None._fields raises AttributeError; the file left behind nevertheless loads to the same data.", "quantifier": "all SSP data without lines", "why_tests_cant": "crash state", "anchors": ["scripts/write_fsps_data_to_disk.py"]}
{"id": "C92", "title": "Loading rejects malformed line tables", "statement": "A file with emission lines whose names are not distinct valid identifiers, or whose number of wavelengths differs from the number of names, raises instead of returning data.", "quantifier": "all files", "why_tests_cant": "all files", "anchors": ["dsps/data_loaders/load_ssp_data.py:load_ssp_templates"]}
{"id": "C93", "title": "Bounds survive floating-point rounding", "statement": "In IEEE double and single precision with round-to-nearest-even: every burst parameter and every mass-metallicity parameter obtained from unbounded (even infinite, not NaN) inputs stays in its closed bounds; a sigmoid whose height yhi - ylo is exactly representable stays in [ylo, yhi] and, if exp is monotone, is monotone; dust transmission with floor f is in [f, 1] (or NaN for non-finite inputs). The unrestricted claim \"a sigmoid never leaves its bounds\" is false in double precision.", "quantifier": "all floating-point inputs (including infinities), every mathematical library (exp, log, pow) of relative error at most 2^-22", "why_tests_cant": "every rounding of every operation", "anchors": ["dsps/utils.py:_sigmoid", "dsps/sfh/diffburst.py:_get_params_from_u_params", "dsps/dust/att_curves.py:_frac_transmission_from_k_lambda", "dsps/metallicity/umzr.py:get_bounded_mzr_params"]}
{"id": "C94", "title": "Floating-point age weights are in [0,1] or all NaN", "statement": "In IEEE double and single precision, if the cumulative masses formed at the table times lie in [1.001 10^k, 10^2k/1.001] for some k in 1..15 and template bin edges are at least 2^-16 dex apart, calc_age_weights_from_sfh_table returns weights that are all in [0,1] or all NaN (no mass formed in the age range). Without a condition on the mass table the claim is false: a non-decreasing log-mass table exists for which rounding makes an age weight negative in double precision.", "quantifier": "all floating-point histories, grids and times meeting the conditions, every order of summation, every monotone mathematical library of relative error at most 2^-22", "why_tests_cant": "every rounding", "anchors": ["dsps/sed/stellar_age_weights.py:calc_age_weights_from_sfh_table", "dsps/sed/stellar_age_weights.py:_calc_age_weights_from_logsm_table"]}
{"id": "C95", "title": "Quadrature error of distances and lookback times", "statement": "For every Lambda-CDM cosmology and z > 0, comoving_distance_to_z differs from D_H times the exact integral of 1/E by at most D_H z/510 (1 - 1/E(z)), and lookback_to_z from t_H times the integral of 1/((1+z)E) by at most t_H z/1022 (1 - 1/((1+z)E(z))).", "quantifier": "all z > 0, 0 < Om0 <= 1, h > 0", "why_tests_cant": "all reals; comparison with an exact integral", "anchors": ["dsps/cosmology/flat_wcdm.py:comoving_distance_to_z", "dsps/cosmology/flat_wcdm.py:lookback_to_z"]}
{"id": "C96", "title": "Low-mass galaxies only gain metallicity with time", "statement": "At the default parameters, for every mass up to 10^9 Msun, mzr_model is non-decreasing in cosmic time; in general this holds whenever the late and early time slopes at that mass are non-positive and within a factor 11 of each other.", "quantifier": "all masses <= 9 (log10), all pairs of times; all parameters meeting the slope condition", "why_tests_cant": "all pairs of reals", "anchors": ["dsps/metallicity/umzr.py:mzr_model"]}
{"id": "C97", "title": "Massive galaxies can lose metallicity with time at the default parameters", "statement": "The claim \"metallicity never decreases with cosmic time at the default parameters\" is false: log10 M = 11 is more metal rich at 5.5 Gyr than at 7.5 Gyr.", "quantifier": "all masses and times", "why_tests_cant": "counterexample in the default model", "anchors": ["dsps/metallicity/umzr.py:mzr_model"]}
{"id": "C98", "title": "Random t0 parameters respect their bounds", "statement": "get_ran_t0_params returns one value per bound, each in [lo, hi), for every sequence of uniform draws in [0,1).", "quantifier": "all bounds dictionaries and all draws", "why_tests_cant": "every random outcome", "anchors": ["dsps/metallicity/umzr.py:get_ran_t0_params"]}
{"id": "C99", "title": "Random t0 parameters can be outside the domain of the unbounding map", "statement": "The independent bounds allow draws with slope_lo < slope_hi, and for every such parameter set get_unbounded_mzr_params returns NaN for u_mzr_t0_slope_hi.", "quantifier": "all parameter sets with 0 < slope_lo < slope_hi", "why_tests_cant": "every random outcome", "anchors": ["dsps/metallicity/umzr.py:get_ran_t0_params", "dsps/metallicity/umzr.py:get_unbounded_mzr_params"]}
{"id": "C100", "title": "Triweight bin weights around a point", "statement": "The triweight bin weights of a single point are non-negative and sum to 1; while the kernel overlaps the grid each is the normalised kernel mass of its bin; a point at least three scatters below (above) the grid puts all weight on the first (last) bin.", "quantifier": "all non-decreasing bin edges with first < last, all points, all scatters > 0", "why_tests_cant": "all reals", "anchors": ["dsps/utils.py:_get_triweights_singlepoint"]}
{"id": "C101", "title": "Cells around grid nodes and time tables", "statement": "Every grid of at least three nodes gets one cell width per node: interior widths are half the distance between the neighbours, all widths are positive on increasing grids, and the total is the span of the grid plus half the first gap plus a quarter of the last two gaps; grids with fewer than three nodes raise. The linspace time table for t0 has 100 equally spaced times from 0.001 to t0, their base-10 logs, and all widths equal to (t0 - 0.001)/99.", "quantifier": "all grids of real nodes; all t0 > 0.001", "why_tests_cant": "all lists of reals", "anchors": ["dsps/utils.py:_jax_get_dt_array", "dsps/sed/stellar_age_weights.py:_get_linspace_time_tables"]}
{"id": "C102", "title": "Maiolino relation", "statement": "maiolino08_metallicity_evolution is symmetric about logm0, strictly increasing below it, and has its strict maximum k0 - 12 at logm0.", "quantifier": "all masses and parameters", "why_tests_cant": "all reals", "anchors": ["dsps/metallicity/umzr.py:maiolino08_metallicity_evolution"]}
{"id": "C103", "title": "Tabulated dimming", "statement": "Dimming interpolated from a table of distance moduli equals cosmological_dimming at every tabulated redshift when the table starts above 0; when the table starts at redshift 0 the result is NaN for every redshift below the second node.", "quantifier": "all increasing redshift tables, all Lambda-CDM-like cosmologies with 0 < Om0 <= 1", "why_tests_cant": "all tables", "anchors": ["dsps/photometry/photometry_kernels.py:_cosmological_dimming_from_table"]}
{"id": "C104", "title": "Data retrieved from python-fsps", "statement": "retrieve_ssp_data_from_fsps returns log10 of the metallicities, log10 ages in Gyr (FSPS log ages minus 9), the wavelengths, and for metallicity index i the spectra and line luminosities of zmet = i+1, in order; without emission lines the two line fields are None; it raises without python-fsps, without metallicities, when only some of the instances have line luminosities starting after the first, and when the lines cannot be named. Written to disk and loaded again by the user, the data are the same with luminosities times L_SUN_CGS and the field names of the shipped table.", "quantifier": "all python-fsps outputs, all decimal readers accurate to 1e-7", "why_tests_cant": "all outputs of an external program", "anchors": ["dsps/data_loaders/retrieve_fsps_data.py:retrieve_ssp_data_from_fsps", "scripts/write_fsps_data_to_disk.py", "dsps/data_loaders/load_ssp_data.py:load_ssp_templates"]}
{"id": "C105", "title": "Dictionary of emission lines", "statement": "read_emlines_info_fsps returns one entry per distinct cleaned name, in order of first appearance, holding the wavelength of the last line with that name, and in test mode all wavelengths in file order; a line without exactly one comma raises ValueError.", "quantifier": "all files, all readers of decimals", "why_tests_cant": "all files", "anchors": ["dsps/data_loaders/load_emline_info.py:read_emlines_info_fsps"]}
{"id": "C106", "title": "Rewriting loaded data changes the luminosities", "statement": "The claim \"data loaded from disk can be written with the layout of write_fsps_data_to_disk and loaded again unchanged\" is false: every load multiplies the luminosities by L_SUN_CGS, so any non-zero luminosity changes.", "quantifier": "all SSP data with valid distinct line names", "why_tests_cant": "every luminosity array", "anchors": ["scripts/write_fsps_data_to_disk.py", "dsps/data_loaders/load_ssp_data.py:load_ssp_templates"]}
{"id": "C107", "title": "Names of dummy emission lines", "statement": "For n_line >= 1, whatever the random draws and the set iteration order, load_fake_ssp_data either is still drawing names (exactly while fewer than n_line distinct names have been seen) or returns n_line distinct three-capital names including XXX, all valid field names, with logarithmically spaced wavelengths from 1e3 to 1e6; it never raises; for n_line > 26^3 it never returns.", "quantifier": "all n_line, all random draws, all iteration orders", "why_tests_cant": "all random outcomes; non-termination", "anchors": ["dsps/data_loaders/retrieve_fake_fsps_data.py:_get_emline_wave_namedtuple"]}
{"id": "C108", "title": "Dummy template grids are usable", "statement": "The dummy age grid is -3.5, -3.45, ..., 1.15, the metallicities are the 22 documented values and the wavelengths 1963 equally spaced values from 100 to 20000; for every galaxy observed between 0.0003 Gyr after its first table time and 14 Gyr the template weights on these grids are non-negative and sum to 1.", "quantifier": "all star-formation tables, metallicities, scatters > 0, observation times", "why_tests_cant": "all galaxies", "anchors": ["dsps/data_loaders/retrieve_fake_fsps_data.py:_get_log_age_gyr", "dsps/data_loaders/retrieve_fake_fsps_data.py:_get_lgzlegend", "dsps/data_loaders/retrieve_fake_fsps_data.py:_get_ssp_wave"]}
{"id": "C109", "title": "Dummy spectra and luminosities", "statement": "Whatever the coefficient tables, dummy spectra are positive power laws 10^(c0 + c1 log10 wave) with one spectrum per metallicity and age; whatever the draws, luminosities are in [1e-70, 1e3) L_SUN_CGS with at least one above 1e20 for every metallicity and age; the record combines them, with None for the line fields exactly when n_line = 0.", "quantifier": "all coefficient tables, all random draws and shuffles", "why_tests_cant": "all random outcomes", "anchors": ["dsps/data_loaders/retrieve_fake_fsps_data.py:load_fake_ssp_data", "dsps/data_loaders/retrieve_fake_fsps_data.py:_get_spec_ssp", "dsps/data_loaders/retrieve_fake_fsps_data.py:_get_ssp_emline_luminosity"]}
{"id": "C110", "title": "Dummy filters", "statement": "Each of the six dummy transmission curves is positive, below 0.55, has its strict maximum at its nominal centre, and passes the transmission check of the filter loader unchanged.", "quantifier": "all real wavelengths", "why_tests_cant": "all reals", "anchors": ["dsps/data_loaders/retrieve_fake_fsps_data.py:load_fake_filter_transmission_curves", "dsps/data_loaders/retrieve_fake_fsps_data.py:_get_filter_trans"]}
{"id": "C111", "title": "Wien displacement law", "statement": "At every temperature the blackbody densities per unit frequency and per unit wavelength each have a single maximum (strictly rising before, strictly falling after), and the two peak functions return its position to one part in 10^4 (frequency) and two parts in 10^4 (wavelength, in metres).", "quantifier": "all temperatures > 0, all pairs of frequencies or wavelengths", "why_tests_cant": "all reals; a maximum over a continuum", "anchors": ["dsps/dust/blackbody.py:_jax_bb_frequency_peak", "dsps/dust/blackbody.py:_jax_bb_wavelength_peak", "dsps/dust/blackbody.py:blackbody_freq_density", "dsps/dust/blackbody.py:blackbody_wave_density"]}
{"id": "C112", "title": "Age of the universe", "statement": "For flat Lambda-CDM age_at_z0 is the textbook closed form 2/(3 sqrt(1-Om0)) asinh(sqrt((1-Om0)/Om0)) Hubble times, never below it by more than 2.2e-5/sqrt(Om0) Hubble times and never above it by more than 1.3e-4 of it plus 7e-5 Hubble times; the Hubble time is 9.778/h Gyr; TODAY is between 13.81 and 13.83 Gyr.", "quantifier": "all 0 < Om0 <= 1, h > 0", "why_tests_cant": "all cosmologies; comparison with an exact integral", "anchors": ["dsps/cosmology/flat_wcdm.py:age_at_z0", "dsps/cosmology/defaults.py:TODAY"]}
{"id": "C113", "title": "Age at a redshift", "statement": "For flat Lambda-CDM age_at_z differs from the textbook age by at most 2.2e-5/sqrt(Om0) + (z/511)^2/8 (1 + 3/2 Om0) Hubble times below and 1.3e-4 of the age today plus 7e-5 Hubble times above; it is positive up to redshift 30 for 0.01 <= Om0 <= 1.", "quantifier": "all 0 < Om0 <= 1, h > 0, z > 0", "why_tests_cant": "all cosmologies and redshifts", "anchors": ["dsps/cosmology/flat_wcdm.py:age_at_z"]}
{"id": "C114", "title": "Mass-metallicity relation in closed form", "statement": "Both models return solar metallicity plus a line through the pivot mass whose slope slides between the two slope parameters, minus a drop (never a gain) that depends on the look-back time from 12.5 Gyr; at the pivot mass the present-day value is solar plus the offset for all slopes; every chord from the pivot has a slope strictly between slope_hi and slope_lo; at look-back time 8.44 Gyr the drop is exactly the fitted amplitude, and from 12.5 Gyr on a fixed residual remains.", "quantifier": "all reals: mass, time and the nine (or ten) parameters", "why_tests_cant": "all reals", "anchors": ["dsps/metallicity/umzr.py:mzr_model", "dsps/metallicity/umzr.py:mzr_model_t0", "dsps/metallicity/umzr.py:mzr_evolution_model", "dsps/metallicity/mzr.py:mzr_model", "dsps/metallicity/mzr.py:mzr_model_t0"]}
{"id": "C115", "title": "Metallicity weights are differentiable", "statement": "Every entry of calc_lgmet_weights_from_lognormal_mdf is differentiable along every differentiable change of the mean metallicity and the scatter (scatter > 0, strictly ordered metallicity bins).", "quantifier": "all template grids of >= 3 metallicities with strictly ordered bins, all differentiable parameter curves", "why_tests_cant": "gradients are used at arbitrary points of parameter space; finite-difference tests sample a few", "anchors": ["dsps/sed/metallicity_weights.py:calc_lgmet_weights_from_lognormal_mdf"]}
{"id": "C116", "title": "Age weights and mass table are differentiable away from the floor and the table nodes", "statement": "Every entry of calc_age_weights_from_sfh_table is differentiable along every differentiable change of the SFR table and of t_obs, provided no SFR entry sits exactly on sfr_min and (if t_obs moves) no age bin edge is born exactly at a table time or at 0.001 Gyr; the log stellar-mass table is differentiable in the SFR table off the floor.", "quantifier": "all tables, grids, differentiable curves of SFR tables and observation times meeting the conditions", "why_tests_cant": "as C115", "anchors": ["dsps/sed/stellar_age_weights.py:calc_age_weights_from_sfh_table", "dsps/utils.py:cumulative_mstar_formed"]}
{"id": "C117", "title": "The rest-frame SED is differentiable", "statement": "Both rest-SED functions are differentiable, entry by entry (SED, joint weights, age weights, metallicity weights), along every differentiable joint change of the SFR table, metallicity (or metallicity history), scatter, template spectra and t_obs, away from the two SFR floors and the table nodes.", "quantifier": "all grids, tables, template cubes and differentiable curves meeting the conditions", "why_tests_cant": "as C115", "anchors": ["dsps/sed/stellar_sed.py:calc_rest_sed_sfh_table_lognormal_mdf", "dsps/sed/stellar_sed.py:calc_rest_sed_sfh_table_met_table"]}
{"id": "C118", "title": "Burst-mixed age weights are differentiable when some template age lies in the burst", "statement": "calc_bursty_age_weights is differentiable in the burst fraction, peak and maximum age and in the smooth weights whenever some template age lies strictly inside the burst window; with u-parameters this holds everywhere if every peak between 10^5 and 10^8 yr has a template age within 1 dex. Without a template age in the window the claim is false: the weights jump from 9/10 to 1 as lgyr_max crosses 8 on a one-age grid.", "quantifier": "all template age grids, all differentiable parameter curves", "why_tests_cant": "as C115; the jump is at a single parameter value", "anchors": ["dsps/sfh/diffburst.py:calc_bursty_age_weights", "dsps/sfh/diffburst.py:calc_bursty_age_weights_from_u_params"]}
{"id": "C119", "title": "Magnitudes are differentiable, end to end", "statement": "calc_rest_mag and calc_obs_mag are differentiable in the spectrum, the redshift and the cosmological parameters whenever the band flux is positive and (if the redshift moves) no filter wavelength falls exactly on a redshifted spectrum node; composed with the SED calculation, the observed magnitude of a galaxy is differentiable in the SFR table, metallicity (a number or a metallicity-history table), scatter, t_obs and redshift.", "quantifier": "all spectra, filters, galaxies, cosmologies and differentiable curves meeting the conditions", "why_tests_cant": "as C115", "anchors": ["dsps/photometry/photometry_kernels.py:calc_rest_mag", "dsps/photometry/photometry_kernels.py:calc_obs_mag", "dsps/sed/stellar_sed.py:calc_rest_sed_sfh_table_lognormal_mdf"]}
{"id": "C120", "title": "Cosmological distances and times are differentiable", "statement": "Comoving, luminosity and angular diameter distance, look-back time, age at z and age today are finite and differentiable in redshift, Om0, w0, wa and h (0 < Om0 < 1, h > 0, z > -1); so is the distance modulus for z > 0.", "quantifier": "all cosmologies with 0 < Om0 < 1, h > 0, all z > -1, all differentiable curves", "why_tests_cant": "as C115", "anchors": ["dsps/cosmology/flat_wcdm.py:comoving_distance_to_z", "dsps/cosmology/flat_wcdm.py:luminosity_distance_to_z", "dsps/cosmology/flat_wcdm.py:angular_diameter_distance_to_z", "dsps/cosmology/flat_wcdm.py:distance_modulus_to_z", "dsps/cosmology/flat_wcdm.py:lookback_to_z", "dsps/cosmology/flat_wcdm.py:age_at_z", "dsps/cosmology/flat_wcdm.py:age_at_z0"]}
{"id": "C121", "title": "Photometry commutes with population synthesis", "statement": "For any star formation history, the rest-frame magnitude computed from the composite spectrum of calc_rest_sed_sfh_table_* equals -2.5 log10 of (total stellar mass times the weighted mixture, with the returned weights, of 10^(-0.4 m) over the template magnitudes m that precompute_ssp_restmags tabulates); likewise for precompute_ssp_restmags_z_kcorrect and calc_obs_mag_no_dimming, and for precompute_ssp_obsmags_on_z_table and calc_obs_mag. So the precomputed-magnitude shortcut and the full spectral calculation agree.", "quantifier": "all SFH tables, metallicities, template cubes, filter lists, redshift tables and cosmologies with positive template fluxes", "why_tests_cant": "two code paths must agree on every galaxy; tests compare a few", "anchors": ["dsps/sed/stellar_sed.py:calc_rest_sed_sfh_table_lognormal_mdf", "dsps/sed/stellar_sed.py:calc_rest_sed_sfh_table_met_table", "dsps/photometry/photpop.py:precompute_ssp_restmags", "dsps/photometry/photpop.py:precompute_ssp_restmags_z_kcorrect", "dsps/photometry/photpop.py:precompute_ssp_obsmags_on_z_table", "dsps/photometry/photometry_kernels.py:calc_rest_mag", "dsps/photometry/photometry_kernels.py:calc_obs_mag"]}
{"id": "C122", "title": "Spectral errors bound magnitude errors", "statement": "If every flux of one spectrum lies between a and b times the flux of another, then the rest-frame magnitudes, and the observed magnitudes at any redshift, differ by an amount between -2.5 log10 b and -2.5 log10 a.", "quantifier": "all pairs of spectra on one wavelength grid, all non-negative filters, redshifts and cosmologies", "why_tests_cant": "a bound over all perturbations", "anchors": ["dsps/photometry/photometry_kernels.py:calc_rest_mag", "dsps/photometry/photometry_kernels.py:calc_obs_mag"]}
{"id": "C123", "title": "Dust dims a band by a bounded, monotone amount", "statement": "Attenuating a non-negative spectrum with frac_transmission_from_k_lambda before calc_rest_mag: Av = 0 leaves the magnitude unchanged, the magnitude never decreases when Av grows, and for Av >= 0 the dimming is at most Av kmax / 4.05 magnitudes, kmax being the largest k_lambda in the spectrum.", "quantifier": "all non-negative spectra, attenuation curves, filters, unobscured fractions in [0, 1] and all Av", "why_tests_cant": "as C122", "anchors": ["dsps/dust/att_curves.py:_frac_transmission_from_k_lambda", "dsps/photometry/photometry_kernels.py:calc_rest_mag"]}
{"id": "C124", "title": "Weights and SEDs are continuous everywhere", "statement": "The metallicity weights, the age weights and both rest-frame SEDs (with all returned weights) are continuous along every continuous joint change of SFR table, metallicity or metallicity history, scatter, template spectra and observation time, including where an SFR entry sits on a floor and where a birth time falls on a table node or at the 0.001 Gyr start.", "quantifier": "all grids, tables, template cubes and continuous curves", "why_tests_cant": "a jump at one parameter value is invisible to sampling", "anchors": ["dsps/sed/metallicity_weights.py:calc_lgmet_weights_from_lognormal_mdf", "dsps/sed/stellar_age_weights.py:calc_age_weights_from_sfh_table", "dsps/sed/stellar_sed.py:calc_rest_sed_sfh_table_lognormal_mdf", "dsps/sed/stellar_sed.py:calc_rest_sed_sfh_table_met_table"]}
{"id": "C125", "title": "Magnitudes are continuous away from the ends of the template wavelengths", "statement": "calc_rest_mag and calc_obs_mag (and the observed magnitude of a composite galaxy with a single metallicity or a metallicity-history table) are continuous in the spectrum, redshift, cosmology and galaxy parameters wherever the band flux is positive and no filter wavelength is redshifted exactly onto the first or last template wavelength.", "quantifier": "all spectra, filters, galaxies, cosmologies and continuous curves meeting the condition", "why_tests_cant": "as C124", "anchors": ["dsps/photometry/photometry_kernels.py:calc_rest_mag", "dsps/photometry/photometry_kernels.py:calc_obs_mag"]}
{"id": "C126", "title": "Where smoothness genuinely fails", "statement": "The log stellar-mass table is continuous but not differentiable when an SFR entry crosses sfr_min. The undimmed observed magnitude of a flat spectrum on [1, 2] through a filter on [1, 2] is constant for 0 < z < 1 but jumps by 2.5 log10 3 magnitudes at z = 0, because the spectrum is taken to be 0 outside its wavelengths: it is not continuous in redshift.", "quantifier": "all positive floors; all redshifts in [0, 1)", "why_tests_cant": "failures at a single parameter value", "anchors": ["dsps/sed/stellar_age_weights.py:_calc_logsm_table_from_sfh_table", "dsps/photometry/photometry_kernels.py:_calc_obs_mag_no_dimming"]}
{"id": "C127", "title": "Shapes alone decide whether a call raises", "statement": "Age and metallicity weights, joint weights, SEDs, magnitudes and fluxes, the population magnitude tables, trapz, cumulative mass, bursty age weights and the equivalent-width kernel return a value exactly when the paired arrays have matching lengths up to the broadcasting of arrays of length 1 (and the template grids have at least three points), whatever the entries are: no NaN, infinity, zero or unsorted entry makes them raise, in exact or rounded arithmetic. trapz and cumtrapz have their own conditions, stated in the theorem.", "quantifier": "all arrays of all lengths with arbitrary entries, all parameters, every arithmetic", "why_tests_cant": "a raise could depend on any value", "anchors": ["dsps/sed/stellar_sed.py:calc_rest_sed_sfh_table_lognormal_mdf", "dsps/sed/stellar_sed.py:calc_rest_sed_sfh_table_met_table", "dsps/sed/stellar_age_weights.py:calc_age_weights_from_sfh_table", "dsps/sed/metallicity_weights.py:calc_lgmet_weights_from_lognormal_mdf", "dsps/sed/metallicity_weights.py:calc_lgmet_weights_from_lgmet_table", "dsps/sed/ssp_weights.py:calc_ssp_weights_sfh_table_lognormal_mdf", "dsps/photometry/photometry_kernels.py:calc_rest_mag", "dsps/photometry/photometry_kernels.py:calc_obs_mag", "dsps/photometry/photpop.py:precompute_ssp_restmags", "dsps/photometry/photpop.py:precompute_ssp_obsmags_on_z_table", "dsps/utils.py:trapz", "dsps/utils.py:cumulative_mstar_formed", "dsps/sfh/diffburst.py:calc_bursty_age_weights", "dsps/em_lines/equivalent_width.py:_ew_kernel"]}
{"id": "C128", "title": "Weights computed in floating point sum to one up to a few roundoffs", "statement": "In double or single precision, with u the larger of the unit roundoff and the relative error of the (monotone) mathematical library: age weights are either all NaN or lie in [0,1] and sum to 1 within 2(n+1)u for n template ages; joint age-metallicity weights built from age and metallicity weights in [0,1] form a matrix with entries in [0,1] that sums to 1 within 2(N+1)u for N templates and each entry is the normalised product within a relative error 3(N+2)u.", "quantifier": "both IEEE-754 precisions, gradual underflow or subnormals flushed to zero, every order of summation, every mathematical library accurate to u <= 2^-22, all tables of machine numbers in the stated ranges, all numbers of templates up to 2^18", "why_tests_cant": "a unit test checks sums with a tolerance on a few tables", "anchors": ["dsps/sed/stellar_age_weights.py:calc_age_weights_from_sfh_table", "dsps/sed/ssp_weights.py:calc_ssp_weights_sfh_table_lognormal_mdf", "dsps/sed/ssp_weights.py:calc_ssp_weights_sfh_table_met_table"]}
{"id": "C129", "title": "The floating-point SED is the weighted template sum up to a relative error linear in the number of templates", "statement": "In double or single precision, given the computed weights and mass (no overflow, nonnegative templates), every SED entry is nonnegative and differs from the exact sum of weight times template times mass by at most 2(N+2)u relative plus an underflow term in u 2^-102.", "quantifier": "both IEEE-754 precisions, gradual underflow or subnormals flushed to zero, every order of summation, every mathematical library accurate to u <= 2^-22, all template grids and fluxes without overflow", "why_tests_cant": "a unit test compares one grid with a tolerance", "anchors": ["dsps/sed/stellar_sed.py:calc_rest_sed_sfh_table_lognormal_mdf", "dsps/sed/stellar_sed.py:calc_rest_sed_sfh_table_met_table"]}
{"id": "C130", "title": "The floating-point cumulative mass has a relative error linear in the table index", "statement": "For times between 0.003 and 1000 Gyr and nonnegative rates up to 1e20, the cumulative mass computed in double or single precision at table entry i differs from the exact one by at most 2(i+10)u relative; it never overflows or becomes NaN.", "quantifier": "both IEEE-754 precisions, gradual underflow or subnormals flushed to zero, every order of summation, every mathematical library accurate to u <= 2^-22, all such tables up to 2^17 entries", "why_tests_cant": "errors accumulate along the table", "anchors": ["dsps/utils.py:cumulative_mstar_formed", "dsps/utils.py:_cumtrapz"]}
{"id": "C131", "title": "Age weights and stellar mass computed in floating point stay close to their exact values", "statement": "With a mass history of log-log slope at most K the age weights computed in double or single precision differ from those of exact arithmetic, entry by entry, by at most 40 A u, and the stellar mass by at most 4 A u relative, A = 2 n_t + 2 n_age + 740 + 321 (K+1) t_obs/t_0: rounding in logs, interpolation, clipping, powers and normalisation is never amplified more than this.", "quantifier": "both IEEE-754 precisions, gradual underflow or subnormals flushed to zero, every order of summation, every mathematical library accurate to u <= 2^-22, all histories, template ages and observation times in the stated ranges", "why_tests_cant": "requires following every rounding through logs, interpolation and exponentials", "anchors": ["dsps/sed/stellar_age_weights.py:calc_age_weights_from_sfh_table", "dsps/sed/stellar_age_weights.py:_calc_logsm_table_from_sfh_table", "dsps/sed/stellar_sed.py:calc_rest_sed_sfh_table_lognormal_mdf"]}
{"id": "C132", "title": "Metallicity weights computed in floating point stay close to their exact values", "statement": "The metallicity weights of a lognormal distribution, or of a metallicity history with log-time slope at most K, computed in double or single precision differ from those of exact arithmetic by at most 10 (130 + 8 n_met + c) u / scatter (for a history: that plus 1.2 u, divided by the number of ages), c = 0 or 100 + 321 K t_obs/t_0.", "quantifier": "both IEEE-754 precisions, gradual underflow or subnormals flushed to zero, every order of summation, every mathematical library accurate to u <= 2^-22, all metallicities, scatters in [0.001,1] and template grids in the stated ranges", "why_tests_cant": "kernel cancellation and the empty-histogram branch depend on values", "anchors": ["dsps/sed/metallicity_weights.py:calc_lgmet_weights_from_lognormal_mdf", "dsps/sed/metallicity_weights.py:calc_lgmet_weights_from_lgmet_table"]}
{"id": "C133", "title": "Joint weights computed in floating point: the total error is bounded by inputs only", "statement": "The sum over all templates of the absolute difference between the joint weights computed in double or single precision and those of exact arithmetic is at most an explicit factor, depending only on the lengths, the slope of the mass history, t_obs/t_0 and the metallicity scatter, times the unit roundoff; no hypothesis mentions an intermediate result.", "quantifier": "both IEEE-754 precisions, gradual underflow or subnormals flushed to zero, every order of summation, every mathematical library accurate to u <= 2^-22, all galaxies and template grids in the stated ranges for which the bound is at most 1/20", "why_tests_cant": "end-to-end rounding error over every input", "anchors": ["dsps/sed/ssp_weights.py:calc_ssp_weights_sfh_table_lognormal_mdf", "dsps/sed/ssp_weights.py:calc_ssp_weights_sfh_table_met_table"]}
{"id": "C134", "title": "The SED computed in floating point is close to the SED of exact arithmetic", "statement": "Every entry of the SED computed in double or single precision differs from the SED computed in exact arithmetic from the same inputs by at most F M (2 B) plus an underflow term in u 2^-102, with F a bound on the templates at that wavelength, M the stellar mass and B the explicit bound on the total weight error.", "quantifier": "both IEEE-754 precisions, gradual underflow or subnormals flushed to zero, every order of summation, every mathematical library accurate to u <= 2^-22, all galaxies, template grids and fluxes in the stated ranges", "why_tests_cant": "end-to-end rounding error over every input", "anchors": ["dsps/sed/stellar_sed.py:calc_rest_sed_sfh_table_lognormal_mdf", "dsps/sed/stellar_sed.py:calc_rest_sed_sfh_table_met_table"]}
{"id": "C135", "title": "Restframe fluxes and magnitudes computed in floating point are close to those of exact arithmetic", "statement": "For a filter curve of n wavelengths, the restframe band flux computed in double or single precision differs from the one computed in exact arithmetic from the same tables by at most 3 (n + 25) u B / AB0, with u the accuracy of the arithmetic (unit roundoff or library error) and B a bound on the spectrum; calc_rest_mag then differs by at most 4 (n + 70) u kappa magnitudes, with kappa the ratio of the spectrum maximum to its filter average. Both are finite.", "quantifier": "both IEEE-754 precisions, gradual underflow or subnormals flushed to zero, every order of summation, every mathematical library accurate to u <= 2^-22, all spectra (wavelengths 0 to 1e10 Angstrom at least 2^-20 apart, fluxes 0 to B), all filters of up to 2^18 wavelengths from 1 to 1e6 Angstrom", "why_tests_cant": "rounding error bound over every spectrum and filter", "anchors": ["dsps/photometry/photometry_kernels.py:calc_rest_mag"]}
{"id": "C136", "title": "Redshifted magnitudes computed in floating point are close to those of exact arithmetic", "statement": "For a spectrum of resolution at most Res whose redshifted range contains the filter, the apparent magnitude without dimming computed in double or single precision differs from that of exact arithmetic by at most 4 (n + 5 Res + 70) u kappa magnitudes, and both are finite.", "quantifier": "both IEEE-754 precisions, gradual underflow or subnormals flushed to zero, every order of summation, every mathematical library accurate to u <= 2^-22, all spectra and filters in the stated ranges, all machine redshifts 0 <= z <= 20", "why_tests_cant": "rounding error bound over every spectrum, filter and redshift, including the error of the shifted wavelengths", "anchors": ["dsps/photometry/photometry_kernels.py:_calc_obs_mag_no_dimming"]}
{"id": "C137", "title": "Attenuation curves are the published formulas and the default UV bump is the 2175 Angstrom feature", "statement": "calzetti00, leitherer02, noll09 and sbl18 return the published closed forms (joined at 0.63 and 0.15 micron, tilted by (lambda/0.55)^slope, floored at 0), and A(lambda) = A_V k(lambda) / 4.05. With the default bump arguments raising the amplitude from 0 to a adds a D(lambda) to sbl18 and a D(lambda) (lambda/0.55)^slope to noll09, where D is the Drude profile that is 1 exactly at 0.2175 micron and 1/2 exactly where |lambda^2 - 0.2175^2| = 0.0350 lambda.", "quantifier": "all wavelengths, slopes, amplitudes, centres, widths and A_V", "why_tests_cant": "closed form over all reals", "anchors": ["dsps/dust/att_curves.py:noll09_k_lambda", "dsps/dust/att_curves.py:sbl18_k_lambda", "dsps/dust/att_curves.py:calzetti00_k_lambda", "dsps/dust/att_curves.py:leitherer02_k_lambda", "dsps/dust/att_curves.py:UV_BUMP_W0", "dsps/dust/att_curves.py:UV_BUMP_DW"]}
{"id": "C138", "title": "The calibrated fits are the published closed forms", "statement": "For every IMF the surviving and the remnant mass fraction are the stated sigmoid fits of log10(age/yr) with the calibration constants of that IMF; the default triweight attenuation curve is exactly a power law of slope -0.65 below 0.1 micron and -1.95 above 100 micron, lies between the two in between and passes through 10^1.15 at 0.1 micron; the Maiolino relation is the parabola k0 - 12 - 0.0864 (logM - logM0)^2; the Hubble time is 9.7781 Gyr / (h E(z)) and the critical density 277.536627 h^2 E(z)^2 Msun/kpc^3.", "quantifier": "all ages, wavelengths, masses, redshifts > -1 and cosmologies with 0 < Om0 <= 1", "why_tests_cant": "closed form over all reals; wrong constants pass shape tests", "anchors": ["dsps/imf/surviving_mstar.py:surviving_mstar", "dsps/imf/remnant_mass.py:remnant_mass", "dsps/dust/att_curves.py:triweight_k_lambda", "dsps/metallicity/mzr.py:maiolino08_metallicity_evolution", "dsps/cosmology/flat_wcdm.py:_hubble_time", "dsps/cosmology/flat_wcdm.py:rho_crit"]}
{"id": "C139", "title": "Cosmological distances computed in floating point are close to those of exact arithmetic", "statement": "In double or single precision the comoving, luminosity and angular-diameter distances to z are finite and within 1440 u of relative error of the values of the same quadrature in exact arithmetic, the lookback time within 2900 u, the age today within 4250 u (w0 <= 0), the age at z within 4250 u times (age today + lookback time), and the distance modulus within 3800 u magnitudes (u the unit roundoff).", "quantifier": "both IEEE-754 precisions, gradual underflow or subnormals flushed to zero, every order of summation, every mathematical library accurate to u <= 2^-22, all machine parameters with 1e-6 <= z <= 20, 0.001 <= Om0 <= 0.999, |w0| <= 2, |wa| <= 1, 0.1 <= h <= 10", "why_tests_cant": "rounding error bound over a continuum of cosmologies, through powers, exponentials and a 256- or 512-point quadrature", "anchors": ["dsps/cosmology/flat_wcdm.py:comoving_distance_to_z", "dsps/cosmology/flat_wcdm.py:luminosity_distance_to_z", "dsps/cosmology/flat_wcdm.py:angular_diameter_distance_to_z", "dsps/cosmology/flat_wcdm.py:distance_modulus_to_z", "dsps/cosmology/flat_wcdm.py:lookback_to_z", "dsps/cosmology/flat_wcdm.py:age_at_z0", "dsps/cosmology/flat_wcdm.py:age_at_z"]}
{"id": "C140", "title": "Observed magnitudes with cosmological dimming computed in floating point are close to those of exact arithmetic", "statement": "For a spectrum of resolution at most Res whose redshifted range contains the filter, calc_obs_mag in double or single precision is finite and within 4 (n + 5 Res + 70) u kappa + 4200 u magnitudes of its value in exact arithmetic.", "quantifier": "both IEEE-754 precisions, gradual underflow or subnormals flushed to zero, every order of summation, every mathematical library accurate to u <= 2^-22, all spectra, filters and cosmologies in the stated ranges", "why_tests_cant": "rounding error bound over every spectrum, filter and cosmology", "anchors": ["dsps/photometry/photometry_kernels.py:calc_obs_mag", "dsps/photometry/photometry_kernels.py:_cosmological_dimming"]}
{"id": "C141", "title": "Burst-mixed age weights computed in floating point", "statement": "In double or single precision, for any non-NaN unbounded burst parameters (infinities included), template ages between 1e-4 and 1e4 Gyr and smooth weights in [0,1], calc_bursty_age_weights_from_u_params returns one finite weight in [0,1] per template (never NaN). If some template age lies within half of the burst width of its peak, the weights of calc_bursty_age_weights sum to 1 up to the deviation of the smooth weights plus 2 (n + 6) u, and their total distance to the weights of exact arithmetic is at most that of the smooth weights plus 12000 n u.", "quantifier": "both IEEE-754 precisions, gradual underflow or subnormals flushed to zero, every order of summation, every mathematical library accurate to u <= 2^-22, all burst parameters, all template grids of up to 2^18 ages, all smooth weights", "why_tests_cant": "rounding error bound over every burst and every template grid; the [0,1] bound holds for every rounding of every operation", "anchors": ["dsps/sfh/diffburst.py:calc_bursty_age_weights", "dsps/sfh/diffburst.py:calc_bursty_age_weights_from_u_params", "dsps/sfh/diffburst.py:_pureburst_age_weights_from_params", "dsps/sfh/diffburst.py:_zero_safe_normalize"]}
{"id": "C142", "title": "Metallicity weights in floating point are nearly, not exactly, a distribution", "statement": "In double and in single precision calc_lgmet_weights_from_lognormal_mdf can return a negative weight and a weight above 1 on ordinary inputs (so weights in [0,1] are refuted in both precisions); every weight lies within 10 eta of [0,1] and the weights sum to 1 up to 10 n eta, eta = (130 + 8 n) u / scatter.", "quantifier": "both IEEE-754 precisions; all metallicities, scatters of at least 0.001 and metallicity grids", "why_tests_cant": "the violation appears only for particular bit patterns near the edge of the kernel; the bound must hold for all of them", "anchors": ["dsps/sed/metallicity_weights.py:calc_lgmet_weights_from_lognormal_mdf", "dsps/sed/metallicity_weights.py:_get_lgmet_weights_singlegal", "dsps/utils.py:_tw_cuml_kern"]}
{"id": "C143", "title": "Dust attenuation and transmission computed in floating point", "statement": "In double or single precision the transmission computed from a curve value k differs from the exact transmission for k0 by at most 6.1 u + 0.25 A_V |k - k0|; the Leitherer curve is within 140 u and the Calzetti curve within 1900 u of its exact value, the Noll and Salim curves within the stated multiple of u (power-law tilt and bump amplification), and so are their transmissions end to end. The bound excludes the machine numbers nearest to the break points 0.63 and 0.15 micron, and must: in single precision the Calzetti curve at the number nearest to 0.63 is off by more than 0.02, because the other branch is taken.", "quantifier": "both IEEE-754 precisions, gradual underflow or subnormals flushed to zero, every order of summation, every mathematical library accurate to u <= 2^-22, all machine wavelengths from 0.09 to 10 micron, all A_V up to 1e15, all floors in [0,1], all bump and slope parameters in the stated ranges", "why_tests_cant": "rounding error bound over a continuum of wavelengths and parameters; the branch flip happens at one machine number", "anchors": ["dsps/dust/att_curves.py:_frac_transmission_from_k_lambda", "dsps/dust/att_curves.py:calzetti00_k_lambda", "dsps/dust/att_curves.py:leitherer02_k_lambda", "dsps/dust/att_curves.py:noll09_k_lambda", "dsps/dust/att_curves.py:sbl18_k_lambda", "dsps/dust/att_curves.py:_drude_bump"]}
{"id": "C144", "title": "A small change of the star formation history makes a small change of everything computed from it", "statement": "If two tabulated star formation histories on the same times agree up to a factor L at every time (L >= 1), then the age weights computed from them agree up to L^10 for every template age, the rest-frame SEDs (lognormal metallicity distribution and metallicity-history variants, any non-negative templates) up to L^11 at every wavelength, and the rest-frame and observed magnitudes in every filter, at every redshift and in every cosmology, up to 27.5 log10(L).", "quantifier": "all pairs of star formation histories within a factor L, all grids, templates, filters, redshifts and cosmologies", "why_tests_cant": "a Lipschitz bound over all pairs of inputs, through the interpolation in log mass and the normalisation", "anchors": ["dsps/sed/stellar_age_weights.py:calc_age_weights_from_sfh_table", "dsps/sed/stellar_sed.py:calc_rest_sed_sfh_table_lognormal_mdf", "dsps/sed/stellar_sed.py:calc_rest_sed_sfh_table_met_table", "dsps/photometry/photometry_kernels.py:calc_rest_mag", "dsps/photometry/photometry_kernels.py:calc_obs_mag"]}
{"id": "C145", "title": "Rescaling the star formation history rescales the spectrum and nothing else", "statement": "Multiplying the star formation history by c > 0 (both histories above the floors) leaves the age weights unchanged up to a factor (1 + eps)^10, multiplies the SED (lognormal metallicity distribution or metallicity history) by c up to (1 + eps)^11 and shifts every rest-frame and observed magnitude by -2.5 log10 c up to 27.5 log10(1 + eps), where eps = 1e-14 / min(s0, c s0) is the relative size of the initial-mass floor (1e-14 for histories starting at 1 Msun/yr).", "quantifier": "all histories, factors, grids, templates, filters, redshifts and cosmologies", "why_tests_cant": "a scaling law over all reals; exact homogeneity is broken by a floor of 1e-14, which no test tolerance can see", "anchors": ["dsps/sed/stellar_age_weights.py:calc_age_weights_from_sfh_table", "dsps/utils.py:cumulative_mstar_formed", "dsps/sed/stellar_sed.py:calc_rest_sed_sfh_table_lognormal_mdf", "dsps/photometry/photometry_kernels.py:calc_rest_mag", "dsps/photometry/photometry_kernels.py:calc_obs_mag"]}
{"id": "C146", "title": "The age weights, the SED and the magnitudes converge to those of the continuous star formation history as the table is refined", "statement": "Sample any history f (0 <= f <= F, Lipschitz constant K) on a table that starts within h of 0.001 Gyr, has no step longer than h and ends between t_obs and T, with a floor that lifts f by at most d. Then every age weight is within 4 e / A of the true fraction of the mass born in its age bin (the integral of f over the bin divided by A, the integral over all bins), with e = (K T + 3 F) h / 2 + d T, provided 2 e < A; for histories above the floor the weights converge to the true fractions as h -> 0, uniformly over all tables; and the SED is within an explicit multiple of e of the synthesis integral (mass formed times template mix of the true fractions). For a metallicity history Z(t) (Lipschitz constant Kz) sampled on the same table, the SED is within the same bound, plus the mass times the metallicity error of C148 for a shift Kz h, of the synthesis integral that gives every age its metallicity at birth. For histories above the floors both SEDs converge to their synthesis integrals as h -> 0, uniformly over all tables, and if the limit spectrum is positive the rest-frame and observed magnitudes converge too, uniformly over all filters, redshifts and cosmologies.", "quantifier": "all Lipschitz histories, all table meshes, all age grids, metallicity grids and templates", "why_tests_cant": "a convergence statement over all functions and all tables; a test compares one history at one resolution", "anchors": ["dsps/sed/stellar_age_weights.py:calc_age_weights_from_sfh_table", "dsps/utils.py:cumulative_mstar_formed", "dsps/sed/stellar_sed.py:calc_rest_sed_sfh_table_lognormal_mdf", "dsps/sed/stellar_sed.py:calc_rest_sed_sfh_table_met_table", "dsps/photometry/photometry_kernels.py:calc_rest_mag", "dsps/photometry/photometry_kernels.py:calc_obs_mag"]}
{"id": "C147", "title": "Superposition of star formation histories holds only up to one table step", "statement": "At the table times cumulative_mstar_formed of a sum of two histories is the sum of their masses minus the seed mass (1e9 * 1e-14 (t0 - 0.001)/2 Msun, counted once instead of twice), and it is monotone in the history. Between table times the mass behind an SED is interpolated in log-log, so the total mass of the summed history differs from the sum of the masses by up to (and never more than) the mass formed during the table step that contains t_obs, plus the seed; exact superposition of SEDs is refuted: there are two histories on a two-point table whose summed SED is more than 1.5 times the sum of their SEDs.", "quantifier": "all pairs of histories above the floor, all tables and observation times", "why_tests_cant": "superposition is an identity over pairs of inputs that holds at the nodes tests use and fails between them", "anchors": ["dsps/utils.py:cumulative_mstar_formed", "dsps/sed/stellar_sed.py:calc_rest_sed_sfh_table_lognormal_mdf"]}
{"id": "C148", "title": "A small change of metallicity makes a small change of the weights and of the SED", "statement": "For two metallicity distributions inside [-10,10] dex with centres at most dx apart and scatters h, h', the cumulative metallicity weights differ by at most delta = (35/96)(dx + 3|h - h'|)/min(h,h') at every bin edge and each weight by at most 2 delta; the SEDs (lognormal distribution, or metallicity histories within dx of each other at every table time) differ at every wavelength by at most the stellar mass times delta times the total variation of the templates along the metallicity grid.", "quantifier": "all metallicities, scatters, metallicity histories, grids and templates", "why_tests_cant": "a Lipschitz bound over all pairs of inputs, independent of the number of metallicity bins", "anchors": ["dsps/sed/metallicity_weights.py:calc_lgmet_weights_from_lognormal_mdf", "dsps/sed/metallicity_weights.py:calc_lgmet_weights_from_lgmet_table", "dsps/sed/stellar_sed.py:calc_rest_sed_sfh_table_lognormal_mdf", "dsps/sed/stellar_sed.py:calc_rest_sed_sfh_table_met_table"]}
{"id": "C149", "title": "Distances and times fall when matter, w0 or wa grows", "statement": "For every redshift z > 0 and h > 0, raising w0, raising wa, or raising Om0 (with dark energy that dilutes more slowly than matter: w0 < 0 and w0 + wa <= 0), alone or together, strictly lowers the comoving, luminosity and angular-diameter distances, the distance modulus, the differential comoving volume, the lookback time and the age today, and strictly raises the critical density. The condition on dark energy is needed: with w0 > 0 and w0 + wa >= 0 more matter raises distances and lookback times. The matter fraction Om(z) grows with Om0 and falls with w0 and wa.", "quantifier": "all pairs of cosmologies, redshifts and Hubble constants", "why_tests_cant": "a comparison of two calls over a continuum of parameters; a test samples a few", "anchors": ["dsps/cosmology/flat_wcdm.py:comoving_distance_to_z", "dsps/cosmology/flat_wcdm.py:luminosity_distance_to_z", "dsps/cosmology/flat_wcdm.py:angular_diameter_distance_to_z", "dsps/cosmology/flat_wcdm.py:distance_modulus_to_z", "dsps/cosmology/flat_wcdm.py:differential_comoving_volume_at_z", "dsps/cosmology/flat_wcdm.py:lookback_to_z", "dsps/cosmology/flat_wcdm.py:age_at_z0", "dsps/cosmology/flat_wcdm.py:rho_crit", "dsps/cosmology/flat_wcdm.py:_Om_at_z"]}
{"id": "C150", "title": "Comoving distances are accurate to second order in the redshift step", "statement": "In flat Lambda-CDM the comoving distance differs from the integral of c/H by at most (5/16)(z/255)^2(1 + z/255) z/(1+z) Hubble distances, for every redshift and matter density; up to redshift 5 the distance modulus is correct to 0.001 mag.", "quantifier": "all matter densities in (0,1], Hubble constants and redshifts (modulus: redshifts up to 5)", "why_tests_cant": "an error bound over a continuum of parameters against an integral no test can evaluate exactly", "anchors": ["dsps/cosmology/flat_wcdm.py:comoving_distance_to_z", "dsps/cosmology/flat_wcdm.py:distance_modulus_to_z"]}
{"id": "C151", "title": "Distances at high redshift lie within the particle horizon (refuted)", "statement": "In every cosmology the comoving distance is below the horizon 2 c/(H0 sqrt(Om0)). The reported comoving distance is not: from redshift 1020/sqrt(Om0) on it is beyond the horizon, in every cosmology; for Planck 2015 at last scattering (z = 1100) it is more than 15 per cent too large, because the 256 redshifts of the table are evenly spaced.", "quantifier": "all cosmologies and redshifts", "why_tests_cant": "the horizon bound ranges over all cosmologies and all redshifts", "anchors": ["dsps/cosmology/flat_wcdm.py:comoving_distance_to_z", "dsps/cosmology/flat_wcdm.py:PLANCK15"]}
{"id": "C152", "title": "From the star formation history to the magnitude in floating point", "statement": "Running the whole chain in double or single precision (spectrum of a galaxy from its star formation history and metallicity with either SED function, then rest-frame or observed magnitude of that spectrum) gives finite numbers. If the error bound of the spectrum (C134) is at most eps <= 1/100 of the exact spectrum at every wavelength, the computed spectrum agrees with the exact one to a relative eps, and the magnitude with that of the exact chain to 5 (n + 70) u kappa + 1.3 eps (rest frame; for observed magnitudes n + 5 Res replaces n and 4200 u is added), where n is the number of filter points and kappa the ratio of the largest flux density to its mean over the filter.", "quantifier": "both IEEE-754 precisions, gradual underflow or subnormals flushed to zero, every order of summation, every mathematical library accurate to u <= 2^-22, all histories, metallicities, template cubes, filters and cosmologies in the stated ranges", "why_tests_cant": "error bound of a long chain of rounded operations over every galaxy, template library and filter", "anchors": ["dsps/sed/stellar_sed.py:calc_rest_sed_sfh_table_lognormal_mdf", "dsps/sed/stellar_sed.py:calc_rest_sed_sfh_table_met_table", "dsps/photometry/photometry_kernels.py:calc_rest_mag", "dsps/photometry/photometry_kernels.py:calc_obs_mag"]}
{"id": "C153", "title": "The blackbody in double precision", "statement": "In double precision (the precision the blackbody module switches on when imported) the density per frequency and the density per wavelength are finite and agree with the Planck law to a relative error of (1100 + (9 x + 2)(1 + 1/x)) 2^-53 with x = h nu / k T, for every frequency, wavelength and temperature in the stated ranges with 1e-12 <= x <= 500: the accuracy is lost in proportion to 1/x in the Rayleigh-Jeans regime, because exp(x) - 1 is computed by subtraction. For x >= 720, where exp overflows, the density per frequency is exactly zero and never NaN; for x <= 2^-54 it is +infinity although the true value is finite.", "quantifier": "all double-precision frequencies (1e6-1e22 Hz), wavelengths (0.1-1e10 Angstrom) and temperatures (0.1-1e12 K)", "why_tests_cant": "error bound over every frequency, wavelength and temperature", "anchors": ["dsps/dust/blackbody.py:blackbody_freq_density", "dsps/dust/blackbody.py:blackbody_wave_density", "dsps/dust/blackbody.py:_freq_density_denom", "dsps/dust/blackbody.py:_wave_density_denom"]}
{"id": "C154", "title": "Rounding error of the mass-metallicity relation", "statement": "For a log10 stellar mass in [0, 16], a cosmic time in [0, 20] Gyr and parameters in generous physical ranges (offset and present-day slopes at most 2 in size, transition mass in [8, 12], transition rate in [0, 2], evolution amplitude a + b m with |a| <= 4 and |b| <= 1/2, early slope c + d m with |c| <= 3 and |d| <= 1/2, and for mzr_model a look-back time of transition in [4, 13] Gyr), all machine numbers, umzr_model and mzr_model evaluated in arithmetic of unit roundoff u return a finite number within 10300 u of the value the same formula has over the real numbers: about 6e-4 dex in single precision and 1.2e-12 dex in double precision, in spite of the cancellations in mass - transition mass and in the clip to the past.", "quantifier": "all machine-number masses, times and parameters in the stated ranges, and every arithmetic (single or double precision, any order of summation, any mathematical library) accurate to u", "why_tests_cant": "a test evaluates a few masses; the bound covers every representable input, including those next to the transition points where differences cancel, and both precisions", "anchors": ["dsps/metallicity/umzr.py:mzr_model", "dsps/metallicity/mzr.py:mzr_model"]}
{"id": "C155", "title": "Rounding error of densities, virial times and volumes", "statement": "In either IEEE-754 precision, with rounding and mathematical library accurate to u: the critical density is within 198 u (relative), the Hubble time within 100 u, the Hubble distance within 4 u, the matter fraction within 200 u, the virial overdensity within 700 u and the virial dynamical time within 510 u of the value of exact arithmetic, and the differential comoving volume within 3000 u once the comoving distance is at least 1e-8 Mpc; all of them are finite and positive.", "quantifier": "both IEEE-754 precisions, gradual underflow or subnormals flushed to zero, every order of summation, every mathematical library accurate to u <= 2^-22, all machine redshifts from 1e-6 to 20 (lists of any length for the vectorised functions), matter densities 0.001-0.999, w0 in [-2,2], wa in [-1,1], h in [0.1,10]", "why_tests_cant": "error bound over every machine redshift and cosmology; the overdensity polynomial subtracts nearly equal numbers at high redshift", "anchors": ["dsps/cosmology/flat_wcdm.py:rho_crit", "dsps/cosmology/flat_wcdm.py:_Om_at_z", "dsps/cosmology/flat_wcdm.py:_hubble_time", "dsps/cosmology/flat_wcdm.py:hubble_distance_mpc", "dsps/cosmology/flat_wcdm.py:_delta_vir", "dsps/cosmology/flat_wcdm.py:virial_dynamical_time", "dsps/cosmology/flat_wcdm.py:differential_comoving_volume_at_z"]}
{"id": "C156", "title": "An array of length 1 stands for a constant array", "statement": "Passing an SFR table with one entry is the same as passing the constant history with that entry at every table time (cumulative mass, age weights, both SED functions); a flux cube with a single metallicity plane, a single age per plane, or both, is the same as the cube with it repeated; a single transmission is the flat filter; a single smooth weight or a single flux value is repeated (bursty age weights, equivalent widths). trapz, given two points of one array and any other number of the other, silently applies the single step (or the single pair of ordinates) everywhere instead of raising.", "quantifier": "all lengths, all entries including NaN and infinities, every arithmetic", "why_tests_cant": "JAX broadcasting accepts malformed input silently; holds for all shapes", "anchors": ["dsps/sed/stellar_age_weights.py:calc_age_weights_from_sfh_table", "dsps/sed/stellar_sed.py:calc_rest_sed_sfh_table_lognormal_mdf", "dsps/sed/stellar_sed.py:calc_rest_sed_sfh_table_met_table", "dsps/photometry/photometry_kernels.py:calc_rest_mag", "dsps/photometry/photometry_kernels.py:calc_obs_mag", "dsps/utils.py:trapz", "dsps/utils.py:cumulative_mstar_formed", "dsps/sfh/diffburst.py:calc_bursty_age_weights", "dsps/em_lines/equivalent_width.py:_ew_kernel"]}
{"id": "C157", "title": "Rounding error of the remnant and surviving stellar mass", "statement": "For each of the four initial mass functions shipped with the package and every machine-number log10 age between 3 and 11, in either IEEE-754 precision with rounding and mathematical library accurate to u: remnant_mass is finite and within a relative 520 u of its value in exact arithmetic, and surviving_mstar is finite and within 82 u of its value in exact arithmetic (5e-6 in single precision). This includes the rounding of the decimal parameters themselves.", "quantifier": "both IEEE-754 precisions, gradual underflow or subnormals flushed to zero, every mathematical library accurate to u <= 2^-22, all machine log10 ages (yr) from 3 to 11, all four parameter sets", "why_tests_cant": "error bound over every representable age, next to the transition ages where differences cancel", "anchors": ["dsps/imf/remnant_mass.py:remnant_mass", "dsps/imf/surviving_mstar.py:surviving_mstar"]}
{"id": "C158", "title": "Rounding error of tables of magnitudes", "statement": "For a library of template spectra, a collection of filters and (for the observed magnitudes) a table of redshifts and a cosmology in the stated ranges, precompute_ssp_restmags, precompute_ssp_restmags_z_kcorrect and precompute_ssp_obsmags_on_z_table return, in either IEEE-754 precision, tables of finite magnitudes of the same shape as in exact arithmetic, each within 4 (n + 70) u kappa (rest frame), 4 (n + 5 Res + 70) u kappa (fixed redshift), 4 (n + 5 Res + 70) u kappa + 4200 u (redshift table) magnitudes of its exact value, where n is the number of points of that filter and kappa bounds the ratio of the largest flux density of a template to its mean over a filter.", "quantifier": "both IEEE-754 precisions, gradual underflow or subnormals flushed to zero, every order of summation, every mathematical library accurate to u <= 2^-22, libraries of any size, any number of filters and redshifts", "why_tests_cant": "error bound for every entry of a table over every library, filter set and redshift table", "anchors": ["dsps/photometry/photpop.py:precompute_ssp_restmags", "dsps/photometry/photpop.py:precompute_ssp_restmags_z_kcorrect", "dsps/photometry/photpop.py:precompute_ssp_obsmags_on_z_table"]}
{"id": "C159", "title": "Gradients of the triweight kernel", "statement": "The reverse-mode derivative that jax.grad computes for the triweight kernel, the triweight density, the triweight histogram kernel, _tw_sigmoid and _tw_sig_slope is finite and equals the derivative of the function, with respect to every argument (position, centre, width, heights) and for every composition in which the arguments are themselves computed from the input with right gradients. This holds everywhere, including exactly at the joints |x - m| = 3h, as long as the width is not 0. With width 0 the kernel still has the finite value of a step, but its gradient is NaN: the polynomial in the branch that jnp.where does not select is infinite there, and 0 * inf is NaN.", "quantifier": "all real arguments with non-zero width, every argument that is differentiated, all inner computations with right gradients; every position off the centre for width 0", "why_tests_cant": "derivative at every point including the joints of a piecewise definition; the NaN arises in a branch that is never selected, so value tests do not see it", "anchors": ["dsps/utils.py:_tw_cuml_kern", "dsps/utils.py:triweight_gaussian", "dsps/utils.py:_tw_sigmoid", "dsps/utils.py:_tw_sig_slope", "dsps/utils.py:_triweighted_histogram_kernel"]}
{"id": "C160", "title": "Gradients of sigmoids, of the mass-metallicity relation and of the mass functions", "statement": "jax.grad of _sigmoid and _sig_slope, of _inverse_sigmoid (value strictly between its bounds, slope not 0), of remnant_mass and surviving_mstar, of the bounded parameters of the mass-metallicity relation, and of both mass-metallicity relations (off the two kinks: cosmic time 12.5 Gyr and metallicity reduction exactly 0; for mzr_model with a look-back time of transition that is not 0) is finite and equals the derivative of the function, with respect to every argument and parameter.", "quantifier": "all real arguments and parameters off the stated kinks, every argument that is differentiated, all inner computations with right gradients", "why_tests_cant": "derivative at every point and in every argument", "anchors": ["dsps/utils.py:_sigmoid", "dsps/utils.py:_sig_slope", "dsps/utils.py:_inverse_sigmoid", "dsps/imf/remnant_mass.py:remnant_mass", "dsps/imf/surviving_mstar.py:surviving_mstar", "dsps/metallicity/umzr.py:mzr_model", "dsps/metallicity/mzr.py:mzr_model"]}
{"id": "C161", "title": "Gradients of the dust laws", "statement": "jax.grad of the Calzetti and Leitherer curves, of the Noll and Salim curves (with bump), of the triweight curve, of the attenuation and of the transmitted fraction is finite and equals the derivative of the function, with respect to wavelength, bump amplitude, slope, bump position and width, V-band attenuation and floor, for every positive wavelength off the two break points 0.15 and 0.63 micron and wherever the clipped quantity is not exactly 0.", "quantifier": "all real arguments off the stated break points, every argument that is differentiated, all inner computations with right gradients", "why_tests_cant": "derivative at every point and in every argument of a piecewise law", "anchors": ["dsps/dust/att_curves.py:calzetti00_k_lambda", "dsps/dust/att_curves.py:leitherer02_k_lambda", "dsps/dust/att_curves.py:noll09_k_lambda", "dsps/dust/att_curves.py:sbl18_k_lambda", "dsps/dust/att_curves.py:triweight_k_lambda", "dsps/dust/att_curves.py:_att_curve_from_k_lambda", "dsps/dust/att_curves.py:_frac_transmission_from_k_lambda"]}
{"id": "C162", "title": "Gradients of the metallicity weights", "statement": "For every metallicity grid with at least three entries, jax.grad of every weight returned by calc_lgmet_weights_from_lognormal_mdf is finite and equals the derivative of that weight, with respect to the metallicity and to the scatter, whenever log10 Z is between -10 and 10 and the scatter is positive; the handling of empty histograms does not disturb it. With scatter 0 the weights are finite but the gradient of every one of them is NaN.", "quantifier": "all grids of any length >= 3, all metallicities in [-10, 10], all positive scatters, metallicity and scatter computed in any way with right gradients; scatter 0 with a metallicity that is not a bin edge", "why_tests_cant": "derivative at every point for grids of any length; a NaN gradient with a finite value", "anchors": ["dsps/sed/ssp_weights.py:calc_lgmet_weights_from_lognormal_mdf", "dsps/utils.py:_fill_empty_weights_singlepoint"]}
{"id": "C163", "title": "Gradients of the burst weights", "statement": "For every template age grid, jax.grad of every weight returned by calc_bursty_age_weights is finite and equals the derivative of that weight, with respect to the burst fraction, peak age, maximum age, the smooth weights and the ages, whenever the peak age is below the maximum age and at least one template age lies inside the burst; this includes template ages exactly at the edge of the burst. The same holds for the bounded burst parameters as functions of the unbounded ones.", "quantifier": "all age grids of any length, all burst parameters with peak < max, all inner computations with right gradients", "why_tests_cant": "derivative at every point, at the joints of the kernel and for grids of any length", "anchors": ["dsps/sfh/diffburst.py:calc_bursty_age_weights", "dsps/sfh/diffburst.py:_pureburst_age_weights_from_params", "dsps/sfh/diffburst.py:_zero_safe_normalize", "dsps/sfh/diffburst.py:_get_params_from_u_params"]}
{"id": "C164", "title": "Gradients of the age weights and of the rest-frame SED", "statement": "For every time table, template grid and template cube that meet the input conditions of C15 and C17 (increasing times, at least three template ages and metallicities, stars formed inside the template age range), jax.grad of every age weight, metallicity weight, joint weight and SED value returned by the two rest-SED functions is finite and equals the derivative of that value, with respect to the star formation rates, the metallicity (or the metallicity table), the scatter and the template fluxes, whenever no star formation rate is exactly at one of the two floors and log10 Z is between -10 and 10. The time table, the template grids and t_obs are not differentiated.", "quantifier": "all tables and grids of any length meeting the conditions, every input differentiated, all inner computations with right gradients", "why_tests_cant": "derivative at every point, for tables and grids of any length, through interpolation, cumulative sums and normalizations", "anchors": ["dsps/sed/stellar_age_weights.py:calc_age_weights_from_sfh_table", "dsps/sed/ssp_weights.py:calc_ssp_weights_sfh_table_lognormal_mdf", "dsps/sed/ssp_weights.py:calc_ssp_weights_sfh_table_met_table", "dsps/sed/stellar_sed.py:calc_rest_sed_sfh_table_lognormal_mdf", "dsps/sed/stellar_sed.py:calc_rest_sed_sfh_table_met_table"]}
{"id": "C165", "title": "Gradients of magnitudes, end to end", "statement": "For every wavelength grid and filter, jax.grad of the rest-frame and of the observed magnitude is finite and equals the derivative of the magnitude with respect to the spectrum, whenever the flux through the filter is positive; composed with the rest-SED function it equals the derivative of the observed magnitude with respect to the star formation rates, the metallicity, the scatter and the template fluxes, under the conditions of C164. Redshift, cosmology, wavelengths and filter are not differentiated.", "quantifier": "all spectra, filters, redshifts and cosmologies with positive flux, tables and grids of any length, all inner computations with right gradients", "why_tests_cant": "derivative at every point, for spectra and filters of any length", "anchors": ["dsps/photometry/photometry_kernels.py:calc_rest_mag", "dsps/photometry/photometry_kernels.py:calc_obs_mag", "dsps/sed/stellar_sed.py:calc_rest_sed_sfh_table_lognormal_mdf"]}
{"id": "C166", "title": "Gradients of the cosmology functions", "statement": "jax.grad of comoving, luminosity and angular diameter distance, lookback time, age at z, age at z=0, critical density, matter fraction and virial dynamical time is finite and equals the derivative with respect to the redshift and all four cosmological parameters, for every redshift above -1, every matter fraction in (0, 1], any w0 and wa and any positive h; the same holds for the distance modulus, the differential comoving volume and the cosmological dimming at every positive redshift, and for the observed magnitude with respect to the spectrum and the cosmology at a fixed positive redshift and positive flux. At redshift 0 the distance modulus is -inf and its gradient NaN.", "quantifier": "all redshifts and cosmologies as stated, all inner computations with right gradients", "why_tests_cant": "derivative at every point; a finite difference at a few points cannot settle it", "anchors": ["dsps/cosmology/flat_wcdm.py:comoving_distance_to_z", "dsps/cosmology/flat_wcdm.py:luminosity_distance_to_z", "dsps/cosmology/flat_wcdm.py:distance_modulus_to_z", "dsps/cosmology/flat_wcdm.py:angular_diameter_distance_to_z", "dsps/cosmology/flat_wcdm.py:lookback_to_z", "dsps/cosmology/flat_wcdm.py:age_at_z", "dsps/cosmology/flat_wcdm.py:rho_crit", "dsps/cosmology/flat_wcdm.py:virial_dynamical_time", "dsps/cosmology/flat_wcdm.py:differential_comoving_volume_at_z", "dsps/photometry/photometry_kernels.py:calc_obs_mag"]}
{"id": "C167", "title": "Gradient of the observed magnitude in redshift", "statement": "jax.grad of the observed magnitude with respect to spectrum, redshift and cosmological parameters together is finite and equals the derivative, for every spectrum on at least two wavelengths, every filter, every positive redshift and every cosmology as in C166, whenever the flux through the filter is positive and no filter wavelength coincides with a redshifted template wavelength (there the interpolated spectrum has a corner).", "quantifier": "all spectra, filters, redshifts and cosmologies as stated, all inner computations with right gradients", "why_tests_cant": "derivative at every point, for spectra and filters of any length; the interpolation cell changes with redshift", "anchors": ["dsps/photometry/photometry_kernels.py:calc_obs_mag", "dsps/photometry/photometry_kernels.py:_obs_flux_ssp"]}
{"id": "C168", "title": "Gradient of the rest-frame SED in the time of observation", "statement": "jax.grad of every age weight, joint weight and SED value of the lognormal rest-SED function is finite and equals the derivative with respect to the time of observation together with star formation rates, metallicity, scatter and template fluxes, under the conditions of C164, for at least two table times, whenever t_obs is not a table time and the birth time of no age-bin edge is a table time or the floor 0.001 Gyr.", "quantifier": "all tables and grids of any length meeting the conditions, all inner computations with right gradients", "why_tests_cant": "derivative at every point; the interpolation cells change with t_obs", "anchors": ["dsps/sed/stellar_age_weights.py:calc_age_weights_from_sfh_table", "dsps/sed/ssp_weights.py:calc_ssp_weights_sfh_table_lognormal_mdf", "dsps/sed/stellar_sed.py:calc_rest_sed_sfh_table_lognormal_mdf"]}
{"id": "C169", "title": "Gradient of the magnitude of a galaxy in redshift and cosmology, end to end", "statement": "When a caller computes t_obs = age_at_z(z, cosmology), passes it to the lognormal rest-SED function and passes the SED, z and the cosmology to the observed magnitude, jax.grad of that magnitude is finite and equals the derivative of the whole composition with respect to z and the four cosmological parameters (which enter through the age, the redshifted wavelengths and the distance at once), together with star formation rates, metallicity, scatter and template fluxes, under the conditions of C167 and C168.", "quantifier": "all tables, grids, filters, redshifts and cosmologies meeting the conditions, all inner computations with right gradients", "why_tests_cant": "derivative at every point of a composition of three functions, for tables and grids of any length", "anchors": ["dsps/cosmology/flat_wcdm.py:age_at_z", "dsps/sed/stellar_sed.py:calc_rest_sed_sfh_table_lognormal_mdf", "dsps/photometry/photometry_kernels.py:calc_obs_mag"]}
{"id": "C170", "title": "Gradients of the blackbody densities, power laws and effective wavelength", "statement": "jax.grad of both blackbody densities is finite and equals the derivative with respect to frequency (or wavelength) and temperature at once, at every positive frequency, wavelength and temperature; at temperature zero the frequency density is 0 but its gradient is NaN. The same holds of powerlaw_pdf and powerlaw_rvs with respect to the evaluation point (or the uniform draw in [0,1)), both bounds and the index, for positive unequal bounds and a non-zero index, and of the effective wavelength of a filter with respect to the transmissions and the redshift, for every wavelength grid on which the transmission does not integrate to 0 and every redshift but -1.", "quantifier": "all real arguments meeting the conditions, wavelength grids of any length, all inner computations with right gradients", "why_tests_cant": "derivative at every point; the NaN appears only at one temperature", "anchors": ["dsps/dust/blackbody.py:blackbody_freq_density", "dsps/dust/blackbody.py:blackbody_wave_density", "dsps/utils.py:powerlaw_pdf", "dsps/utils.py:powerlaw_rvs", "dsps/dust/utils.py:get_filter_effective_wavelength"]}
{"id": "C171", "title": "Gradient of the metallicity-table SED in the time of observation", "statement": "jax.grad of every age weight, metallicity weight, joint weight and SED value of the metallicity-table rest-SED function is finite and equals the derivative with respect to the time of observation together with star formation rates, the metallicity table, the scatter and the template fluxes, under the conditions of C164, for at least two table times, whenever t_obs is not a table time and the birth time of no age-bin edge and of no template age is a table time or the floor 0.001 Gyr.", "quantifier": "all tables and grids of any length meeting the conditions, all inner computations with right gradients", "why_tests_cant": "derivative at every point; interpolation cells of rates and metallicities change with t_obs", "anchors": ["dsps/sed/metallicity_weights.py:calc_lgmet_weights_from_lgmet_table", "dsps/sed/ssp_weights.py:calc_ssp_weights_sfh_table_met_table", "dsps/sed/stellar_sed.py:calc_rest_sed_sfh_table_met_table"]}
{"id": "C172", "title": "Gradients of magnitudes of galaxies with a metallicity history, and of dusty galaxies", "statement": "The end-to-end gradient of C169 is also right when the galaxy has a table of metallicities through time: the magnitude composed of age_at_z, the metallicity-table rest-SED function and calc_obs_mag, with respect to redshift, cosmology, star formation rates, metallicity table, scatter and template fluxes. And when a spectrum is multiplied, wavelength by wavelength, by the transmitted fraction of any attenuation curve before calc_obs_mag, jax.grad of the magnitude is finite and equals the derivative with respect to the spectrum, the curve, A_V, the unobscured floor, redshift and cosmology, whenever A_V and the curve are not 0 and the dimmed flux through the filter is positive.", "quantifier": "all tables, grids, filters, attenuation curves, redshifts and cosmologies meeting the conditions, all inner computations with right gradients", "why_tests_cant": "derivative at every point of a composition of several functions, for tables and grids of any length", "anchors": ["dsps/cosmology/flat_wcdm.py:age_at_z", "dsps/sed/stellar_sed.py:calc_rest_sed_sfh_table_met_table", "dsps/dust/att_curves.py:_frac_transmission_from_k_lambda", "dsps/photometry/photometry_kernels.py:calc_obs_mag"]}
{"id": "C173", "title": "Rounding error of the effective wavelength and of the triweight reddening curve", "statement": "In either IEEE-754 precision, with rounding and mathematical library accurate to u: the effective wavelength of a filter of n points at a redshift between 0 and 20 is within a relative (2.5 n + 17) u of its value in exact arithmetic; the triweight reddening curve with its default parameters is, between 0.01 and 100 micron, within a relative 1604 u of its value in exact arithmetic (its decimal parameters included); the bump amplitude derived from a slope of at most 10 in size is within 62 u. All of them are finite, and the wavelength and the curve are positive.", "quantifier": "both IEEE-754 precisions, gradual underflow or subnormals flushed to zero, every order of summation, every mathematical library accurate to u <= 2^-22, filters of at most 2^18 increasing machine wavelengths from 1 to 1e6 Angstrom with machine transmissions in [0,1] and an integral of T/lambda of at least 1e-4, all machine redshifts in [0,20], machine wavelengths in [0.01,100] micron and machine slopes in [-10,10]", "why_tests_cant": "error bound over every representable filter, redshift and wavelength, next to the ends of the triweight transition as well", "anchors": ["dsps/dust/utils.py:get_filter_effective_wavelength", "dsps/dust/att_curves.py:triweight_k_lambda", "dsps/dust/att_curves.py:_get_eb_from_delta"]}
{"id": "C174", "title": "Rounding error of the smooth steps and kernels, however steep", "statement": "In either IEEE-754 precision, with rounding and mathematical library accurate to u: the cumulative triweight kernel is within 26 u and each bin of the triweighted histogram within 55 u of its value in exact arithmetic; the triweight density of width h is within 25 u / h; the sigmoid and the triweight sigmoid between two values of size at most Y (Y >= 1) are within 60 Y u; the two sigmoid-slope functions are within 65 (Y (|x - xtp| + 1) + |ytp|) u. None of these bounds grows with the steepness of the step or with the inverse width of the kernel, and no result is infinite or NaN.", "quantifier": "both IEEE-754 precisions, gradual underflow or subnormals flushed to zero, every mathematical library accurate to u <= 2^-22, all abscissas, centres and steepnesses of size at most 1e8, all widths h >= 1e-8 (at most 1e8 for the kernel, density and histogram), all machine end values of size at most 1e8, histograms with any number of bins", "why_tests_cant": "error bound over every argument, including the points where the exponential overflows or a rounded abscissa lands on the other side of the end of the kernel", "anchors": ["dsps/utils.py:_tw_cuml_kern", "dsps/utils.py:triweight_gaussian", "dsps/utils.py:triweighted_histogram", "dsps/utils.py:_tw_sigmoid", "dsps/utils.py:_sigmoid", "dsps/utils.py:_sig_slope", "dsps/utils.py:_tw_sig_slope"]}
{"id": "C175", "title": "Rounding error of the power-law density and sampler", "statement": "In either IEEE-754 precision, with rounding and mathematical library accurate to u: for a positive index the sampler returns, for a given uniform draw, a value within a relative 350 u of the value of exact arithmetic, whatever the draw and however close the two ends; for a negative index within (42 (1 + (a/b)^g) + 265) u, a bound that grows with the ratio of the two end powers, and for any index within (42/(1-r) + 265) u for draws r up to 0.98, whatever that ratio. The density is within a relative (2.1 (b^g + a^g)/(b^g - a^g) + 29) u for a positive index and within (2.1 (a^g + b^g)/(a^g - b^g) + 34) u for a negative one, the amplification being the cancellation of the two end powers. A sample drawn with a positive index leaves [a, b] by a relative 350 u at most. The results are finite and positive.", "quantifier": "both IEEE-754 precisions, gradual underflow or subnormals flushed to zero, every mathematical library accurate to u <= 2^-22, all machine draws in [0,1), all machine ends 0.01 <= a < b <= 100, machine indices of size 0.1 to 5 (with 1 + (a/b)^g at most 50 if negative for the sampler; for the density with an amplification of at most 1000), machine abscissas in [0.01,100]", "why_tests_cant": "error bound over every draw, end points and index; the difference of the end powers cancels", "anchors": ["dsps/utils.py:powerlaw_rvs", "dsps/utils.py:powerlaw_pdf"]}
