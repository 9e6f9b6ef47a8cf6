#!/usr/bin/env python3
"""Writes /verif/properties.jsonl from the table below (one entry per property)."""
import json
P = []
def p(id, title, statement, quantifier, why, anchors):
    P.append(dict(id=id, title=title, statement=statement, quantifier=quantifier,
                  why_tests_cant=why, anchors=anchors))
U='dsps/utils.py:'; A='dsps/sed/stellar_age_weights.py:'; M='dsps/sed/metallicity_weights.py:'
W='dsps/sed/ssp_weights.py:'; S='dsps/sed/stellar_sed.py:'; B='dsps/sfh/diffburst.py:'
D='dsps/dust/att_curves.py:'; K='dsps/dust/blackbody.py:'; C='dsps/cosmology/flat_wcdm.py:'
F='dsps/photometry/photometry_kernels.py:'; FP='dsps/photometry/photpop.py:'
Z='dsps/metallicity/umzr.py:'; ZM='dsps/metallicity/mzr.py:'; E='dsps/em_lines/equivalent_width.py:'
L='dsps/data_loaders/'

# ---- SED ----------------------------------------------------------------
p('C01','Age weights are a probability distribution',
 'calc_age_weights_from_sfh_table returns one weight per template age, each >= 0, summing to exactly 1, whatever the SFR values (zero and negative included), whenever the time and log-age grids are increasing, the age bins are ordered, and some mass is formed between the oldest and the youngest bin edge.',
 'all table lengths >= 1, all increasing cosmic-time tables, all real SFR tables, all age grids of >= 3 entries with ordered bin edges, all t_obs and all sfr_min > 0 meeting the stated mass condition',
 'a test checks a few tables; the claim is about every grid length, every SFR table and every t_obs', [A+'calc_age_weights_from_sfh_table',U+'cumulative_mstar_formed'])
p('C02','Increasing age grid does not suffice for non-negative age weights',
 'The claim "for every strictly increasing ssp_lg_age_gyr grid all age weights are >= 0" is false: bin edges are mid - width/2 with width taken from neighbouring midpoints, so a grid whose spacing grows by more than a factor of about 4 has unordered bin edges and calc_age_weights_from_sfh_table returns a negative weight. Bin edges are ordered exactly when each spacing satisfies d[i+1] <= 4 d[i] + d[i-1] (interior), with the analogous end conditions.',
 'all strictly increasing age grids','tests use the regular FSPS grid only',[A+'_get_lg_age_bin_edges',U+'_jax_get_dt_array'])
p('C03','Cumulative age weights are the mass-fraction history',
 'The sum of the age weights of the templates older than bin edge j equals (mass formed by the birth time of edge j minus mass formed by the birth time of the oldest edge) / (mass formed between the oldest and youngest edges).',
 'all grids, tables, t_obs with non-zero total and every edge j','holds for every prefix of every grid',[A+'_calc_age_weights_from_logsm_table'])
p('C04','Age weights are NaN exactly when no mass falls in the age range',
 'Every entry of the age weights is NaN if and only if the mass formed at the birth times of the youngest and of the oldest bin edge is the same (for instance t_obs at or below the youngest age, or an observation long after the last table entry); otherwise every entry is finite.',
 'all tables, grids, t_obs','tests never exercise the 0/0 boundary exhaustively',[A+'_calc_age_weights_from_logsm_table'])
p('C05','No weight for stars older than the universe',
 'A template whose whole age bin is older than t_obs - 1 Myr gets weight exactly 0 (when the weights are defined).',
 'all tables, grids, t_obs, templates','depends on clipping at every possible t_obs',[A+'_get_lgt_birth'])
p('C06','SFR floor',
 'Age weights and the stellar mass factor depend on the SFR table only through max(SFR, sfr_min) (SED functions also through max(SFR, 1e-14), which they use for the weights); with sfr_min > 0 every logarithm taken is of a positive finite number, so arbitrary (zero, negative) SFR values never produce -inf or NaN in the mass history.',
 'all real SFR tables and sfr_min > 0','negative and zero SFR anywhere in the table',[A+'_calc_logsm_table_from_sfh_table'])
p('C07','Causality: the future of the SFH table is irrelevant',
 'If two SFR tables on the same time grid agree at every table time up to and including the first one at or after t_obs, then age weights, joint weights and the rest SED at t_obs are equal.',
 'all pairs of tables, all grids, all t_obs','a relation between two runs over all tables',[A+'calc_age_weights_from_sfh_table',S+'calc_rest_sed_sfh_table_lognormal_mdf'])
p('C08','Cumulative stellar mass: length, positivity, strict growth',
 'cumulative_mstar_formed returns one value per table entry; for positive SFR and a strictly increasing table starting after 1 Myr the masses are positive and strictly increasing.',
 'all lengths, all increasing times > 0.001 Gyr, all positive SFR tables','for all lengths (induction)',[U+'cumulative_mstar_formed',U+'cumtrapz'])
p('C09','Cumulative stellar mass is the time integral of the SFH',
 'Entry i of cumulative_mstar_formed is 1e9 times the integral from 0.001 Gyr to t_i of the piecewise-linear function through (0.001, 1e-14) and the table points.',
 'all lengths, all strictly increasing time tables starting after 0.001, all real SFR','statement about an integral for all tables',[U+'cumulative_mstar_formed'])
p('C10','Metallicity weights are a probability distribution for every galaxy metallicity',
 'calc_lgmet_weights_from_lognormal_mdf returns one weight per template, each >= 0, summing to exactly 1, for every finite galaxy metallicity (also far outside the grid) and every scatter > 0, when the metallicity bin edges are ordered.',
 'all metallicity grids of >= 3 entries with ordered edges, all gal_lgmet in R, all scatter > 0','all reals, including the fill-in branch far from the grid',[M+'calc_lgmet_weights_from_lognormal_mdf',U+'_fill_empty_weights_singlepoint'])
p('C11','Increasing metallicity grid does not suffice for non-negative weights',
 'The claim "for every strictly increasing ssp_lgmet grid the weights are >= 0" is false: strongly irregular spacing gives unordered bin edges and a negative weight.',
 'all strictly increasing metallicity grids','tests use one FSPS grid',[M+'calc_lgmet_weights_from_lognormal_mdf'])
p('C12','Metallicity weights are local',
 'For a galaxy metallicity in [-10, 10] (the outermost bin edges), a template whose metallicity bin lies farther than 3 scatter from the galaxy metallicity gets weight exactly 0; when the whole kernel lies inside the bin edges each weight is the triweight CDF difference across its bin.',
 'all grids, gal_lgmet, scatter > 0','all positions of the kernel relative to the bins',[M+'calc_lgmet_weights_from_lognormal_mdf',U+'triweighted_histogram'])
p('C13','Zero metallicity scatter selects one bin',
 'With scatter = 0 and a galaxy metallicity strictly inside a bin, the weights are exactly 1 for that bin and 0 elsewhere; with the metallicity exactly on an edge they are NaN.',
 'all grids, all gal_lgmet','division by zero boundary',[M+'calc_lgmet_weights_from_lognormal_mdf'])
p('C14','Metallicity table weights: every age column is a distribution divided by n_age',
 'calc_lgmet_weights_from_lgmet_table returns an (n_met, n_age) matrix with entries >= 0 whose every column sums to 1/n_age and whose total is 1.',
 'all tables, grids, t_obs, scatter > 0','all grids and tables',[M+'calc_lgmet_weights_from_lgmet_table'])
p('C15','Joint weights with a lognormal MDF: total 1, marginals',
 'calc_ssp_weights_sfh_table_lognormal_mdf: all entries >= 0, total 1, entry (i,j) = lgmet_weight_i * age_weight_j, row sums are the metallicity weights, column sums are the age weights, and the returned marginals are those of the single-axis functions.',
 'all inputs satisfying C01 and C10','all grids and tables',[W+'calc_ssp_weights_sfh_table_lognormal_mdf'])
p('C16','Joint weights with a metallicity table: total 1, age marginal',
 'calc_ssp_weights_sfh_table_met_table: all entries >= 0, total 1, and summing over metallicity gives the age weights.',
 'all inputs satisfying C01 and C14','all grids and tables',[W+'calc_ssp_weights_sfh_table_met_table'])
p('C17','Rest SED is linear in the templates and lies in their range',
 'Each wavelength of the rest SED is (mass formed) times a convex combination of the template fluxes at that wavelength: it is linear in ssp_flux and lies between mass*min and mass*max over the templates, in particular >= 0 for non-negative templates.',
 'all templates, all tables','all flux cubes',[S+'calc_rest_sed_sfh_table_lognormal_mdf',S+'calc_rest_sed_sfh_table_met_table'])
p('C18','Mass normalisation of the SED',
 'The mass factor of the rest SED at a t_obs equal to a table time is the cumulative_mstar_formed entry of that time (with floored SFR), is non-decreasing in t_obs, and is constant before the first and after the last table time.',
 'all tables, t_obs > 0','relation over all pairs of t_obs',[S+'calc_rest_sed_sfh_table_lognormal_mdf',S+'calc_rest_sed_sfh_table_met_table'])
p('C19','Constant metallicity history agrees with the lognormal MDF',
 'calc_rest_sed_sfh_table_met_table with a constant metallicity table gives the same SED and joint weights as calc_rest_sed_sfh_table_lognormal_mdf with that metallicity, and its lgmet weights divided column-wise by 1/n_age agree.',
 'all inputs satisfying C01 and C10','two programs agree on all inputs',[S+'calc_rest_sed_sfh_table_met_table',S+'calc_rest_sed_sfh_table_lognormal_mdf'])
p('C20','Shape errors are raised',
 'Galaxy tables of different length (other than an SFR table of length 1, which JAX broadcasts), an empty time table, fewer than three template ages or metallicities, or a flux cube whose shape is not (n_met, n_age, n_wave) up to broadcast axes of length 1 raise an exception instead of returning weights or an SED; all other inputs return, whatever their entries.',
 'all lengths','all combinations of shapes',[A+'calc_age_weights_from_sfh_table',U+'_jax_get_dt_array'])
p('C21','sfr_min has no influence on the weights returned with an SED',
 'The weights, lgmet_weights and age_weights returned by the SED functions do not depend on their sfr_min argument (only the mass factor does).',
 'all pairs of sfr_min','relation between two runs',[S+'calc_rest_sed_sfh_table_lognormal_mdf',W+'calc_ssp_weights_sfh_table_lognormal_mdf'])
# ---- kernels ------------------------------------------------------------
p('C22','Triweight CDF is a cumulative distribution',
 'For width h > 0 the triweight cumulative kernel is 0 at and below m-3h, 1 at and above m+3h, 1/2 at m, stays in [0,1], is non-decreasing in x and strictly increasing inside the support.',
 'all real x, m and h > 0','degree-7 polynomial on all reals',[U+'_tw_cuml_kern'])
p('C23','triweight_gaussian is the density of the triweight CDF',
 'The derivative in x of the triweight cumulative kernel is triweight_gaussian at every x, so triweight_gaussian is >= 0, integrates to 1 over any interval containing its support, and integrates over [a,b] to the CDF difference.',
 'all x, m, h > 0, all a <= b','integral statement',[U+'triweight_gaussian',U+'_tw_cuml_kern'])
p('C24','Triweighted histogram conserves probability',
 'triweighted_histogram returns one value per bin, each in [0,1] for increasing edges, whose sum is the CDF difference between the outermost edges; the sum is 1 when the kernel support is inside the edges.',
 'all edge lists, x, sig > 0','telescoping for every number of bins',[U+'triweighted_histogram'])
p('C25','Bounding sigmoid is a bijection onto the open interval',
 'For k > 0 and ylo < yhi, _sigmoid maps every real to (ylo, yhi), strictly increasing, _inverse_sigmoid is its two-sided inverse, and _inverse_sigmoid gives +-inf at the bounds and NaN outside.',
 'all reals and all bounds','all reals',[U+'_sigmoid',U+'_inverse_sigmoid'])
p('C26','cumtrapz and trapz agree',
 'cumtrapz has the length of its input, starts at 0, and its last entry equals trapz of the same arrays; every entry is trapz of the prefix.',
 'all lengths','induction on length',[U+'cumtrapz',U+'trapz'])
p('C27','trapz is the integral of the piecewise-linear interpolant',
 'trapz equals the Riemann integral of the piecewise-linear interpolation of the points over [x_0, x_n] for increasing x; it is linear in y, monotone in y for increasing x, and reversing both arrays flips the sign.',
 'all lengths, all increasing x','integral for all grids',[U+'trapz'])
p('C28','Weight matrices are outer products',
 '_get_weight_matrices_2d/3d return per galaxy the outer product; the sum of all entries is the product of the sums.',
 'all lengths','induction',[U+'_get_weight_matrices_2d',U+'_get_weight_matrices_3d'])
p('C29','Power-law sampler inverts the power-law CDF',
 'For 0 < a < b and g <> 0 powerlaw_pdf is positive and integrates to 1 on [a,b]; powerlaw_rvs maps a uniform r in [0,1) into [a,b), and the integral of powerlaw_pdf from a to powerlaw_rvs(r) is r.',
 'all a < b, g <> 0, r in [0,1)','integral statement over all parameters',[U+'powerlaw_pdf',U+'powerlaw_rvs'])
p('C30','Bin edges of a regular grid',
 'On an evenly spaced grid _get_bin_edges puts the interior edges halfway between the nodes; on any grid it returns n+1 edges with the two given outer edges at the ends.',
 'all grid lengths >= 3, all spacings','all lengths',[U+'_get_bin_edges'])
# ---- diffburst ----------------------------------------------------------
p('C31','Burst parameters respect their bounds',
 'For every unbounded input, lgfburst is in (-8,-1), lgyr_peak in (5,8), lgyr_max in (lgyr_peak+1, 9); each is strictly increasing in its own unbounded input (lgyr_max for a fixed peak) and equals the documented logistic (centres -2, 6.5 and the middle of the allowed range, slope 0.1).',
 'all reals','all reals',[B+'_get_params_from_u_params'])
p('C32','Burst parameter round trips',
 'Bounded -> unbounded -> bounded and unbounded -> bounded -> unbounded are the identity (the first on the open bounded region); the default parameters (-3, 5.5, 7) lie in that region and survive the round trip.',
 'all reals / all bounded parameters','all reals',[B+'_get_params_from_u_params',B+'_get_u_params_from_params'])
p('C33','Bursty age weights stay a distribution when the grid resolves the burst',
 'If the smooth weights are a distribution and at least one template age lies strictly inside the burst support, calc_bursty_age_weights returns non-negative weights summing to 1, for every lgfburst <= 0.',
 'all grids, smooth weights, parameters with lgyr_max > lgyr_peak','all grids',[B+'calc_bursty_age_weights'])
p('C34','Unresolved burst loses mass',
 'The claim "bursty weights always sum to 1" is false: when no template age lies inside the burst support the returned weights sum to 1 - 10**lgfburst.',
 'all grids with no age in the support','tests use fine grids',[B+'_zero_safe_normalize',B+'calc_bursty_age_weights'])
p('C35','Burst support',
 'Burst weights vanish for ages with log10(age/yr) >= lgyr_max or <= 2 lgyr_peak - lgyr_max, are symmetric about lgyr_peak and decrease away from it; outside the support the bursty weight is (1-fb) times the smooth weight.',
 'all ages and parameters','all reals',[B+'_pureburst_age_weights_from_params'])
p('C36','The two burst APIs agree',
 'calc_bursty_age_weights(p, w, lg_age_gyr) equals _compute_bursty_age_weights_from_params(lg_age_gyr+9, w, p), and the u_params versions agree with bounding first; an output entry depends on its own smooth weight only; the pure-burst weights from unbounded parameters are those of the bounded parameters.',
 'all inputs','equality of two programs',[B+'calc_bursty_age_weights',B+'_compute_bursty_age_weights_from_params'])
# ---- imf ----------------------------------------------------------------
p('C37','Surviving mass fraction is a fraction',
 'For each of the four IMF calibrations surviving_mstar is below 1 at every age (some mass is always returned) and above 0.4 for every lg_age_yr <= 10.5.',
 'all real log ages (up to 10.5 for the lower bound), four IMFs','all reals',['dsps/imf/surviving_mstar.py:surviving_mstar'])
p('C38','Surviving mass fraction is not monotone in age',
 'The claim "surviving_mstar never increases as the population ages" is false for the default parameters: at very young ages the returned fraction dips.',
 'all ages','counterexample outside the tested grid',['dsps/imf/surviving_mstar.py:_returned_mass'])
p('C39','Remnant fraction grows with age',
 'For each IMF calibration remnant_mass is positive, equals 10**a at lg_age_yr = 7 and is strictly increasing in age; it stays below 1 for lg_age_yr <= 13.',
 'all real ages, four IMFs','strict monotonicity over all pairs of reals',['dsps/imf/remnant_mass.py:remnant_mass'])
# ---- dust ---------------------------------------------------------------
p('C40','Dust transmission is a fraction',
 'For every reddening value, every av and floor in [0,1], the transmission is in [floor, 1], equals 1 for av = 0, is non-increasing in av >= 0 (for k >= 0) and in k (av >= 0), and with zero floor transmissions multiply when av values add.',
 'all reals k, av, floor in [0,1]','all reals',[D+'_frac_transmission_from_k_lambda'])
p('C41','Attenuation is never negative',
 'Every attenuation curve function returns a value >= 0 (or NaN, never negative), and noll09/sbl18 reddening curves are >= 0 for every wavelength > 0 and all parameters.',
 'all wavelengths, av (any sign), bump amplitudes, slopes','all reals',[D+'noll09_k_att_curve',D+'sbl18_k_att_curve',D+'calzetti00_att_curve',D+'leitherer02_att_curve'])
p('C42','Drude bump',
 'For ampl > 0, gamma > 0, x0 > 0 and x > 0 the Drude bump lies in (0, ampl] and attains ampl exactly at x = x0 and nowhere else. The bump amplitude implied by a slope delta is the decreasing affine function equal to 0.85 at 0, hence non-negative exactly for delta <= 0.85/1.9.',
 'all reals','all reals',[D+'_drude_bump',D+'_get_eb_from_delta'])
p('C43','V-band normalisation of the power-law correction',
 'power_law_vband_norm is 1 at 0.55 micron for every slope, multiplicative in the slope, and decreasing in wavelength for negative slope; hence at 0.55 micron noll09 and sbl18 agree for every slope.',
 'all wavelengths and slopes','all reals',[D+'power_law_vband_norm'])
p('C44','Calzetti curve decreases with wavelength and reaches zero attenuation in the infrared',
 'calzetti00_k_lambda is strictly decreasing in wavelength on each side of 0.63 micron; it is positive up to 3.1 micron and the attenuation curve is exactly 0 from 3.2 micron on for av >= 0.',
 'all wavelengths > 0','all reals',[D+'calzetti00_k_lambda',D+'calzetti00_att_curve'])
p('C45','Piecewise dust curves are not continuous',
 'The claim "the reddening curve is continuous at the joints" is false: there is a jump at 0.63 micron of calzetti00_k_lambda (and at 0.15 micron of the l02/c00 combination); the jumps are bounded by the constants stated.',
 'joints','value at the joint vs. limit',[D+'calzetti00_k_lambda',D+'_l02_below_c00_above'])
p('C46','Effective wavelength lies within the filter',
 'For non-negative transmission with positive integral and increasing wavelengths, the effective wavelength times (1+z) is between the shortest and longest filter wavelength; it is invariant under rescaling of the transmission and proportional to 1/(1+z).',
 'all filters, all z > -1','all curves',['dsps/dust/utils.py:get_filter_effective_wavelength'])
p('C47','Triweight reddening curve',
 'triweight_k_lambda is positive for every wavelength > 0, passes through 10**ytp at wavelength 10**xtp, and with its defaults is strictly decreasing in wavelength from 0.1 micron on.',
 'all wavelengths','all reals',[D+'triweight_k_lambda'])
# ---- blackbody ----------------------------------------------------------
p('C48','Planck law',
 'blackbody_freq_density is (2 h nu^3/c^2)/(exp(h nu/kT)-1)/Lsun and blackbody_wave_density is (2 h c^2/lambda^5)/(exp(hc/(lambda kT))-1)/Lsun per Angstrom, both positive, for every positive frequency/wavelength and temperature.',
 'all positive arguments','log-space evaluation equals the law for all arguments',[K+'blackbody_freq_density',K+'blackbody_wave_density'])
p('C49','Frequency and wavelength densities are consistent',
 'nu * B_nu(nu,T) = lambda * B_lambda(lambda,T) whenever nu = c/lambda (wavelength in Angstrom).',
 'all positive wavelengths, temperatures','relation between two functions',[K+'blackbody_freq_density',K+'blackbody_wave_density'])
p('C50','Blackbody increases with temperature and stays below Rayleigh-Jeans',
 'At fixed positive frequency the density is strictly increasing in temperature and strictly below 2 nu^2 k T/c^2/Lsun.',
 'all positive nu, T1 < T2','all pairs of reals',[K+'blackbody_freq_density'])
p('C51','Blackbody edge cases',
 'At temperature 0 the density is exactly 0 for every positive frequency; at frequency 0 and positive temperature it is NaN, not the physical limit 0.',
 'all temperatures/frequencies','special values',[K+'_freq_density_denom'])
# ---- cosmology ----------------------------------------------------------
p('C52','Expansion rate',
 'For 0 < Om0 <= 1 and every w0, wa: E(0) = 1 and E(z) > 0 and finite for every z > -1; for Lambda-CDM E is strictly increasing.',
 'all z > -1 and cosmologies','all reals',[C+'_Ez'])
p('C53','Comoving distance bounds',
 'comoving_distance_to_z is 0 at z = 0, positive for z > 0, and for Lambda-CDM lies between D_H z/E(z) and D_H z.',
 'all z >= 0, h > 0, Om0','all reals; 256-point quadrature',[C+'comoving_distance_to_z'])
p('C54','Distance duality',
 'luminosity distance = (1+z)^2 angular diameter distance, and both relate to the comoving distance by one factor (1+z).',
 'all z > -1','all reals',[C+'luminosity_distance_to_z',C+'angular_diameter_distance_to_z'])
p('C55','Distance modulus',
 'distance_modulus_to_z is 5 log10(d_L/10pc) for z > 0 and is -inf at z = 0.',
 'all cosmologies','boundary z=0',[C+'distance_modulus_to_z'])
p('C56','Hubble scaling',
 'h times comoving distance, h times lookback time, h times age and rho_crit/h^2 do not depend on h.',
 'all h > 0','relation over all pairs of h',[C+'comoving_distance_to_z',C+'lookback_to_z',C+'age_at_z0',C+'rho_crit'])
p('C57','Age and lookback time add up',
 'age_at_z(z) + lookback_to_z(z) = age_at_z0 for every z, age_at_z(0) = age_at_z0, lookback_to_z(0) = 0 and lookback is positive for z > 0.',
 'all z >= 0, cosmologies','all reals',[C+'age_at_z',C+'lookback_to_z',C+'age_at_z0'])
p('C58','Age of the universe can come out negative',
 'The claim "age_at_z is positive for every redshift" is false: the 512-point linear quadrature of lookback_to_z overestimates at very large z, and age_at_z is negative for every Lambda-CDM cosmology and every z >= 7500, and for Om0 >= 0.05 (all published parameter sets) already for every z >= 200.',
 'all z','tests stop at moderate z',[C+'age_at_z'])
p('C59','Matter fraction and virial time',
 'Om(z) is in (0,1] for 0 < Om0 <= 1, equals Om0 at z=0 and rho_crit grows accordingly; the virial overdensity is above 56 and at most 18 pi^2, and virial_dynamical_time is positive.',
 'all z > -1, cosmologies','all reals',[C+'_Om_at_z',C+'virial_dynamical_time'])
p('C60','virial_dynamical_time rejects the documented scalar redshift',
 'The claim "virial_dynamical_time accepts a float redshift" (its docstring) is false: it goes through a vmapped function and raises for every scalar; on an array it returns the elementwise values.',
 'all scalars / all arrays','API contract over all inputs',[C+'virial_dynamical_time',C+'_delta_vir'])
p('C61','Differential comoving volume',
 'differential_comoving_volume_at_z = D_H D_C^2 / E(z), >= 0, and 0 at z = 0.',
 'all z > -1','all reals',[C+'differential_comoving_volume_at_z'])
p('C62','Vectorised cosmology functions act pointwise',
 'The array versions return, at each position, the scalar function of that entry, have the length of the input and refuse scalars; age_at_z accepts both.',
 'all arrays','all lengths',[C+'comoving_distance',C+'age_at_z'])
# ---- photometry ---------------------------------------------------------
p('C63','Magnitude shift under flux scaling',
 'Multiplying the spectrum by s > 0 adds exactly -2.5 log10 s to rest and observed magnitudes; adding spectra adds rest fluxes.',
 'all spectra, filters, s > 0','relation between runs',[F+'calc_rest_mag',F+'calc_obs_mag'])
p('C64','AB zero point',
 'A spectrum equal to the AB constant at every wavelength has magnitude exactly 0 through every filter inside the spectrum range; a constant multiple s has magnitude -2.5 log10 s.',
 'all filters with non-zero integral','all filters',[F+'calc_rest_mag'])
p('C65','Filter normalisation cancels',
 'Scaling the transmission curve by any factor c > 0 leaves all magnitudes unchanged.',
 'all c > 0, spectra, filters','relation between runs',[F+'calc_rest_mag',F+'calc_obs_mag'])
p('C66','Brighter spectrum, smaller magnitude',
 'If one spectrum is at least another at every wavelength then its rest flux is at least as large and its magnitude at most as large (non-negative transmission, increasing positive filter wavelengths).',
 'all spectra pairs','all pairs',[F+'calc_rest_flux',F+'calc_rest_mag'])
p('C67','No overlap between filter and spectrum',
 'If every filter wavelength is outside the spectrum range the rest flux is 0 and the magnitude is +inf.',
 'all filters/spectra','boundary behaviour',[F+'calc_rest_mag'])
p('C68','Observed magnitude decomposition and z=0',
 'calc_obs_mag = no-dimming magnitude + distance modulus - 2.5 log10(1+z); the no-dimming magnitude at z=0 equals the rest magnitude; calc_obs_mag at z = 0 is -inf for every spectrum with positive flux.',
 'all inputs','all inputs and the z=0 boundary',[F+'calc_obs_mag',F+'_calc_obs_mag_no_dimming'])
p('C69','Redshifting equals blueshifting the filter',
 'The no-dimming magnitude at redshift z equals the rest magnitude through the filter with wavelengths divided by (1+z).',
 'all z > -1, spectra, filters','relation between runs',[F+'_calc_obs_mag_no_dimming'])
p('C70','Precomputed photometry tables are pointwise',
 'Entry [z][met][age][band] of the precomputed tables equals the single-spectrum function on that spectrum, filter and redshift, and the table has the documented shape.',
 'all array sizes','all sizes',[FP+'precompute_ssp_obsmags_on_z_table',FP+'precompute_ssp_restmags',FP+'precompute_ssp_restmags_z_kcorrect'])
p('C71','Filter resampling',
 'interpolate_filter_trans_curves returns every curve on n points from its own minimum to its own maximum wavelength (endpoints exact for n >= 2), with transmissions between the minimum and maximum of the original curve.',
 'all curve collections and n','all sizes',['dsps/photometry/utils.py:interpolate_filter_trans_curves'])
# ---- metallicity --------------------------------------------------------
p('C72','Bounded MZR parameters',
 'For every unbounded input, all parameters other than mzr_t0_slope_hi are strictly inside MZR_PBOUNDS and 0 < mzr_t0_slope_hi < mzr_t0_slope_lo.',
 'all reals','all reals',[Z+'get_bounded_mzr_params'])
p('C73','mzr_t0_slope_hi can leave its documented bounds',
 'The claim "get_bounded_mzr_params returns parameters inside MZR_PBOUNDS" is false: mzr_t0_slope_hi can exceed 0.3.',
 'all reals','counterexample at large u',[Z+'_get_mzr_t0_slope_hi_from_unbounded'])
p('C74','MZR parameter round trips',
 'bounded -> unbounded -> bounded and back are the identity on the admissible region.',
 'all admissible parameters','all reals',[Z+'get_bounded_mzr_params',Z+'get_unbounded_mzr_params'])
p('C75','Metallicity evolution only lowers metallicity',
 'mzr_model(t) <= mzr_model_t0 for every time and all parameters (both modules); after t = 12.5 Gyr the model no longer depends on t.',
 'all masses, times, parameters','all reals',[Z+'mzr_model',ZM+'mzr_model'])
p('C76','The two MZR modules agree',
 'mzr.mzr_model and umzr.mzr_model are equal when the turnover mass is 10.5 and tlook_c is 8.44, in particular at the defaults. mzr.mzr_model called with an unpacked parameter array succeeds iff it has ten entries, so unpacking all eleven DEFAULT_MET_PARAMS raises TypeError.',
 'all masses, times, other parameters','equality of programs',[Z+'mzr_model',ZM+'mzr_model'])
p('C77','Present-day MZR is increasing for the defaults',
 'With default parameters metallicity at t0 is strictly increasing in stellar mass; more generally whenever the turnover mass is 10.5 and slope_lo/11 <= slope_hi <= slope_lo.',
 'all masses','all pairs of reals',[ZM+'mzr_model_t0'])
p('C78','Present-day MZR can decrease for allowed parameters',
 'The claim "for all parameters within bounds the t0 relation is increasing in mass" is false.',
 'all allowed parameters','counterexample at extreme allowed values',[Z+'mzr_model_t0'])
# ---- emission lines -----------------------------------------------------
p('C79','Equivalent width recovers a line on a quadratic continuum',
 'If the flux equals a quadratic on both continuum windows (at least three distinct wavelengths) then the fitted coefficients are that quadratic, the line flux is the trapezoid integral of flux minus continuum over the line window and EW is that over the continuum at line centre, for every least-squares solver.',
 'all spectra, windows, least-squares solvers','all spectra',[E+'_ew_kernel',E+'_weighted_quadratic_fit'])
p('C80','The two equivalent-width kernels agree',
 '_ew_kernel returns the first two components of _continuum_line_decomp_kern on every input.',
 'all inputs','equality of programs',[E+'_ew_kernel',E+'_continuum_line_decomp_kern'])
p('C81','Equivalent width is invariant under flux rescaling',
 'Multiplying a spectrum by s <> 0 scales line flux and continuum by s and leaves the equivalent width unchanged.',
 'all spectra whose continuum windows hold at least three wavelengths, all s <> 0','relation between runs',[E+'_ew_kernel'])
# ---- loaders ------------------------------------------------------------
p('C82','Template file precedence',
 'load_ssp_templates opens fn if given, else drn/bn, else $DSPS_DRN/bn, and raises ValueError if neither is available, AssertionError if the file is missing; fn makes drn, bn and the environment irrelevant; dummy overrides everything.',
 'all arguments, environments and file systems','all combinations',[L+'load_ssp_data.py:load_ssp_templates'])
p('C83','Filter file lookup needs a unique match',
 'load_transmission_curve without fn succeeds only if exactly one file matches the pattern; fn is opened literally and never globbed.',
 'all file systems','all file systems',[L+'load_filter_data.py:load_transmission_curve'])
p('C84','Loaded transmission is in [0,1]',
 'Every transmission value returned by load_transmission_curve is in [0,1], values already in [0,1] are unchanged, and a curve with a value below -0.01 is rejected.',
 'all stored real curves','all arrays',[L+'load_filter_data.py:load_transmission_curve'])
p('C85','Curves above unity are not rejected',
 'The claim "a curve with a value above 1.01 raises ValueError" is false: the check uses the minimum, so every curve whose smallest value is in [-0.01,1.01] is silently clipped, whatever its largest value.',
 'all stored curves','tests never load such a curve',[L+'load_filter_data.py:load_transmission_curve'])
p('C86','Random transmission curve',
 'load_random_transmission_curve returns 200 wavelengths spanning wave_range and transmissions in (0,1] with maximum exactly 1; a centre outside the range raises; a drawn centre lies two scales inside the range if the range is at least four scales wide, but outside it (and is not refused) when the range is narrower than two scales.',
 'all centres, ranges, scales > 0','all reals',[L+'load_filter_data.py:load_random_transmission_curve'])
p('C87','Emission-line subset',
 'get_subset_emline_data returns exactly the requested lines in the requested order with the right wavelengths and luminosity planes, leaving other fields unchanged; unknown name, duplicate name and empty list raise; selecting from a selection is selecting directly.',
 'all line sets and requests','all lists',[L+'load_emline_info.py:get_subset_emline_data'])
p('C88','Emission-line names of the shipped file are valid and distinct',
 'Reading emlines_info.dat gives 166 distinct valid field names, and the two name-cleaning routines agree on every string.',
 'all strings (agreement); the shipped file (validity)','agreement over all strings',[L+'load_emline_info.py:read_emlines_info_fsps',L+'retrieve_fsps_data.py:_get_emline_wave_namedtuple'])
p('C89','Emission-line matching',
 '_get_matched_emline_name returns a name iff exactly one reference wavelength is within 1e-6 relative of the request, and then it is that line; otherwise the empty string, which makes the namedtuple construction raise ValueError. With the shipped table all 166 FSPS lines are recognised, even if every wavelength is off by 5e-7 relative.',
 'all reference tables and wavelengths','all tables',[L+'retrieve_fsps_data.py:_get_matched_emline_name'])
p('C90','Write then load',
 'Writing SSP data with emission lines with write_fsps_data_to_disk and loading the file returns the same arrays, names and wavelengths, with luminosities multiplied by L_SUN_CGS.',
 'all SSP data with valid distinct line names','all data',['scripts/write_fsps_data_to_disk.py',L+'load_ssp_data.py:load_ssp_templates'])
p('C91','Write script crashes without emission lines but leaves a loadable file',
 'The claim "the script handles SSP data without emission lines" is false: the test on _fields is always true, None._fields raises AttributeError; the file left behind nevertheless loads to the same data.',
 'all SSP data without lines','crash state',['scripts/write_fsps_data_to_disk.py'])
p('C92','Loading rejects malformed line tables',
 'A file with emission lines whose names are not distinct valid identifiers, or whose number of wavelengths differs from the number of names, raises instead of returning data.',
 'all files','all files',[L+'load_ssp_data.py:load_ssp_templates'])
# ---- floating point -----------------------------------------------------
p('C93','Bounds survive floating-point rounding',
 'In IEEE double and single precision with round-to-nearest-even: every burst parameter and every mass-metallicity parameter obtained from unbounded (even infinite, not NaN) inputs stays in its closed bounds; a sigmoid whose height yhi - ylo is exactly representable stays in [ylo, yhi] and, if exp is monotone, is monotone; dust transmission with floor f is in [f, 1] (or NaN for non-finite inputs). The unrestricted claim "a sigmoid never leaves its bounds" is false in double precision.',
 'all floating-point inputs (including infinities), every mathematical library (exp, log, pow) of relative error at most 2^-22','every rounding of every operation',[U+'_sigmoid',B+'_get_params_from_u_params',D+'_frac_transmission_from_k_lambda',Z+'get_bounded_mzr_params'])
p('C94','Floating-point age weights are in [0,1] or all NaN',
 'In IEEE double and single precision, if the cumulative masses formed at the table times lie in [1.001 10^k, 10^2k/1.001] for some k in 1..15 and template bin edges are at least 2^-16 dex apart, calc_age_weights_from_sfh_table returns weights that are all in [0,1] or all NaN (no mass formed in the age range). Without a condition on the mass table the claim is false: a non-decreasing log-mass table exists for which rounding makes an age weight negative in double precision.',
 'all floating-point histories, grids and times meeting the conditions, every order of summation, every monotone mathematical library of relative error at most 2^-22','every rounding',[A+'calc_age_weights_from_sfh_table',A+'_calc_age_weights_from_logsm_table'])
# ---- added as the model grew -------------------------------------------
p('C95','Quadrature error of distances and lookback times',
 'For every Lambda-CDM cosmology and z > 0, comoving_distance_to_z differs from D_H times the exact integral of 1/E by at most D_H z/510 (1 - 1/E(z)), and lookback_to_z from t_H times the integral of 1/((1+z)E) by at most t_H z/1022 (1 - 1/((1+z)E(z))).',
 'all z > 0, 0 < Om0 <= 1, h > 0','all reals; comparison with an exact integral',[C+'comoving_distance_to_z',C+'lookback_to_z'])
p('C96','Low-mass galaxies only gain metallicity with time',
 'At the default parameters, for every mass up to 10^9 Msun, mzr_model is non-decreasing in cosmic time; in general this holds whenever the late and early time slopes at that mass are non-positive and within a factor 11 of each other.',
 'all masses <= 9 (log10), all pairs of times; all parameters meeting the slope condition','all pairs of reals',[Z+'mzr_model'])
p('C97','Massive galaxies can lose metallicity with time at the default parameters',
 'The claim "metallicity never decreases with cosmic time at the default parameters" is false: log10 M = 11 is more metal rich at 5.5 Gyr than at 7.5 Gyr.',
 'all masses and times','counterexample in the default model',[Z+'mzr_model'])
p('C98','Random t0 parameters respect their bounds',
 'get_ran_t0_params returns one value per bound, each in [lo, hi), for every sequence of uniform draws in [0,1).',
 'all bounds dictionaries and all draws','every random outcome',[Z+'get_ran_t0_params'])
p('C99','Random t0 parameters can be outside the domain of the unbounding map',
 'The independent bounds allow draws with slope_lo < slope_hi, and for every such parameter set get_unbounded_mzr_params returns NaN for u_mzr_t0_slope_hi.',
 'all parameter sets with 0 < slope_lo < slope_hi','every random outcome',[Z+'get_ran_t0_params',Z+'get_unbounded_mzr_params'])
p('C100','Triweight bin weights around a point',
 'The triweight bin weights of a single point are non-negative and sum to 1; while the kernel overlaps the grid each is the normalised kernel mass of its bin; a point at least three scatters below (above) the grid puts all weight on the first (last) bin.',
 'all non-decreasing bin edges with first < last, all points, all scatters > 0','all reals',['dsps/utils.py:_get_triweights_singlepoint'])
p('C101','Cells around grid nodes and time tables',
 'Every grid of at least three nodes gets one cell width per node: interior widths are half the distance between the neighbours, all widths are positive on increasing grids, and the total is the span of the grid plus half the first gap plus a quarter of the last two gaps; grids with fewer than three nodes raise. The linspace time table for t0 has 100 equally spaced times from 0.001 to t0, their base-10 logs, and all widths equal to (t0 - 0.001)/99.',
 'all grids of real nodes; all t0 > 0.001','all lists of reals',['dsps/utils.py:_jax_get_dt_array',A+'_get_linspace_time_tables'])
p('C102','Maiolino relation',
 'maiolino08_metallicity_evolution is symmetric about logm0, strictly increasing below it, and has its strict maximum k0 - 12 at logm0.',
 'all masses and parameters','all reals',[Z+'maiolino08_metallicity_evolution'])
p('C103','Tabulated dimming',
 'Dimming interpolated from a table of distance moduli equals cosmological_dimming at every tabulated redshift when the table starts above 0; when the table starts at redshift 0 the result is NaN for every redshift below the second node.',
 'all increasing redshift tables, all Lambda-CDM-like cosmologies with 0 < Om0 <= 1','all tables',['dsps/photometry/photometry_kernels.py:_cosmological_dimming_from_table'])
p('C104','Data retrieved from python-fsps',
 'retrieve_ssp_data_from_fsps returns log10 of the metallicities, log10 ages in Gyr (FSPS log ages minus 9), the wavelengths, and for metallicity index i the spectra and line luminosities of zmet = i+1, in order; without emission lines the two line fields are None; it raises without python-fsps, without metallicities, when only some of the instances have line luminosities starting after the first, and when the lines cannot be named. Written to disk and loaded again by the user, the data are the same with luminosities times L_SUN_CGS and the field names of the shipped table.',
 'all python-fsps outputs, all decimal readers accurate to 1e-7','all outputs of an external program',[L+'retrieve_fsps_data.py:retrieve_ssp_data_from_fsps','scripts/write_fsps_data_to_disk.py',L+'load_ssp_data.py:load_ssp_templates'])
p('C105','Dictionary of emission lines',
 'read_emlines_info_fsps returns one entry per distinct cleaned name, in order of first appearance, holding the wavelength of the last line with that name, and in test mode all wavelengths in file order; a line without exactly one comma raises ValueError.',
 'all files, all readers of decimals','all files',[L+'load_emline_info.py:read_emlines_info_fsps'])
p('C106','Rewriting loaded data changes the luminosities',
 'The claim "data loaded from disk can be written with the layout of write_fsps_data_to_disk and loaded again unchanged" is false: every load multiplies the luminosities by L_SUN_CGS, so any non-zero luminosity changes.',
 'all SSP data with valid distinct line names','every luminosity array',['scripts/write_fsps_data_to_disk.py',L+'load_ssp_data.py:load_ssp_templates'])
p('C107','Names of dummy emission lines',
 'For n_line >= 1, whatever the random draws and the set iteration order, load_fake_ssp_data either is still drawing names (exactly while fewer than n_line distinct names have been seen) or returns n_line distinct three-capital names including XXX, all valid field names, with logarithmically spaced wavelengths from 1e3 to 1e6; it never raises; for n_line > 26^3 it never returns.',
 'all n_line, all random draws, all iteration orders','all random outcomes; non-termination',[L+'retrieve_fake_fsps_data.py:_get_emline_wave_namedtuple'])
p('C108','Dummy template grids are usable',
 'The dummy age grid is -3.5, -3.45, ..., 1.15, the metallicities are the 22 documented values and the wavelengths 1963 equally spaced values from 100 to 20000; for every galaxy observed between 0.0003 Gyr after its first table time and 14 Gyr the template weights on these grids are non-negative and sum to 1.',
 'all star-formation tables, metallicities, scatters > 0, observation times','all galaxies',[L+'retrieve_fake_fsps_data.py:_get_log_age_gyr',L+'retrieve_fake_fsps_data.py:_get_lgzlegend',L+'retrieve_fake_fsps_data.py:_get_ssp_wave'])
p('C109','Dummy spectra and luminosities',
 'Whatever the coefficient tables, dummy spectra are positive power laws 10^(c0 + c1 log10 wave) with one spectrum per metallicity and age; whatever the draws, luminosities are in [1e-70, 1e3) L_SUN_CGS with at least one above 1e20 for every metallicity and age; the record combines them, with None for the line fields exactly when n_line = 0.',
 'all coefficient tables, all random draws and shuffles','all random outcomes',[L+'retrieve_fake_fsps_data.py:load_fake_ssp_data',L+'retrieve_fake_fsps_data.py:_get_spec_ssp',L+'retrieve_fake_fsps_data.py:_get_ssp_emline_luminosity'])
p('C110','Dummy filters',
 'Each of the six dummy transmission curves is positive, below 0.55, has its strict maximum at its nominal centre, and passes the transmission check of the filter loader unchanged.',
 'all real wavelengths','all reals',[L+'retrieve_fake_fsps_data.py:load_fake_filter_transmission_curves',L+'retrieve_fake_fsps_data.py:_get_filter_trans'])
p('C111','Wien displacement law',
 'At every temperature the blackbody densities per unit frequency and per unit wavelength each have a single maximum (strictly rising before, strictly falling after), and the two peak functions return its position to one part in 10^4 (frequency) and two parts in 10^4 (wavelength, in metres).',
 'all temperatures > 0, all pairs of frequencies or wavelengths','all reals; a maximum over a continuum',[K+'_jax_bb_frequency_peak',K+'_jax_bb_wavelength_peak',K+'blackbody_freq_density',K+'blackbody_wave_density'])
p('C112','Age of the universe',
 'For flat Lambda-CDM age_at_z0 is the textbook closed form 2/(3 sqrt(1-Om0)) asinh(sqrt((1-Om0)/Om0)) Hubble times, never below it by more than 2.2e-5/sqrt(Om0) Hubble times and never above it by more than 1.3e-4 of it plus 7e-5 Hubble times; the Hubble time is 9.778/h Gyr; TODAY is between 13.81 and 13.83 Gyr.',
 'all 0 < Om0 <= 1, h > 0','all cosmologies; comparison with an exact integral',[C+'age_at_z0','dsps/cosmology/defaults.py:TODAY'])
p('C113','Age at a redshift',
 'For flat Lambda-CDM age_at_z differs from the textbook age by at most 2.2e-5/sqrt(Om0) + (z/511)^2/8 (1 + 3/2 Om0) Hubble times below and 1.3e-4 of the age today plus 7e-5 Hubble times above; it is positive up to redshift 30 for 0.01 <= Om0 <= 1.',
 'all 0 < Om0 <= 1, h > 0, z > 0','all cosmologies and redshifts',[C+'age_at_z'])
p('C114','Mass-metallicity relation in closed form',
 'Both models return solar metallicity plus a line through the pivot mass whose slope slides between the two slope parameters, minus a drop (never a gain) that depends on the look-back time from 12.5 Gyr; at the pivot mass the present-day value is solar plus the offset for all slopes; every chord from the pivot has a slope strictly between slope_hi and slope_lo; at look-back time 8.44 Gyr the drop is exactly the fitted amplitude, and from 12.5 Gyr on a fixed residual remains.',
 'all reals: mass, time and the nine (or ten) parameters','all reals',[Z+'mzr_model',Z+'mzr_model_t0',Z+'mzr_evolution_model',ZM+'mzr_model',ZM+'mzr_model_t0'])
# ---- differentiability ---------------------------------------------------
p('C115','Metallicity weights are differentiable',
 'Every entry of calc_lgmet_weights_from_lognormal_mdf is differentiable along every differentiable change of the mean metallicity and the scatter (scatter > 0, strictly ordered metallicity bins).',
 'all template grids of >= 3 metallicities with strictly ordered bins, all differentiable parameter curves','gradients are used at arbitrary points of parameter space; finite-difference tests sample a few',[M+'calc_lgmet_weights_from_lognormal_mdf'])
p('C116','Age weights and mass table are differentiable away from the floor and the table nodes',
 'Every entry of calc_age_weights_from_sfh_table is differentiable along every differentiable change of the SFR table and of t_obs, provided no SFR entry sits exactly on sfr_min and (if t_obs moves) no age bin edge is born exactly at a table time or at 0.001 Gyr; the log stellar-mass table is differentiable in the SFR table off the floor.',
 'all tables, grids, differentiable curves of SFR tables and observation times meeting the conditions','as C115',[A+'calc_age_weights_from_sfh_table',U+'cumulative_mstar_formed'])
p('C117','The rest-frame SED is differentiable',
 'Both rest-SED functions are differentiable, entry by entry (SED, joint weights, age weights, metallicity weights), along every differentiable joint change of the SFR table, metallicity (or metallicity history), scatter, template spectra and t_obs, away from the two SFR floors and the table nodes.',
 'all grids, tables, template cubes and differentiable curves meeting the conditions','as C115',[S+'calc_rest_sed_sfh_table_lognormal_mdf',S+'calc_rest_sed_sfh_table_met_table'])
p('C118','Burst-mixed age weights are differentiable when some template age lies in the burst',
 'calc_bursty_age_weights is differentiable in the burst fraction, peak and maximum age and in the smooth weights whenever some template age lies strictly inside the burst window; with u-parameters this holds everywhere if every peak between 10^5 and 10^8 yr has a template age within 1 dex. Without a template age in the window the claim is false: the weights jump from 9/10 to 1 as lgyr_max crosses 8 on a one-age grid.',
 'all template age grids, all differentiable parameter curves','as C115; the jump is at a single parameter value',[B+'calc_bursty_age_weights',B+'calc_bursty_age_weights_from_u_params'])
p('C119','Magnitudes are differentiable, end to end',
 'calc_rest_mag and calc_obs_mag are differentiable in the spectrum, the redshift and the cosmological parameters whenever the band flux is positive and (if the redshift moves) no filter wavelength falls exactly on a redshifted spectrum node; composed with the SED calculation, the observed magnitude of a galaxy is differentiable in the SFR table, metallicity (a number or a metallicity-history table), scatter, t_obs and redshift.',
 'all spectra, filters, galaxies, cosmologies and differentiable curves meeting the conditions','as C115',[F+'calc_rest_mag',F+'calc_obs_mag',S+'calc_rest_sed_sfh_table_lognormal_mdf'])
p('C120','Cosmological distances and times are differentiable',
 'Comoving, luminosity and angular diameter distance, look-back time, age at z and age today are finite and differentiable in redshift, Om0, w0, wa and h (0 < Om0 < 1, h > 0, z > -1); so is the distance modulus for z > 0.',
 'all cosmologies with 0 < Om0 < 1, h > 0, all z > -1, all differentiable curves','as C115',[C+'comoving_distance_to_z',C+'luminosity_distance_to_z',C+'angular_diameter_distance_to_z',C+'distance_modulus_to_z',C+'lookback_to_z',C+'age_at_z',C+'age_at_z0'])

# ---- populations, error propagation, continuity --------------------------
p('C121','Photometry commutes with population synthesis',
 'For any star formation history, the rest-frame magnitude computed from the composite spectrum of calc_rest_sed_sfh_table_* equals -2.5 log10 of (total stellar mass times the weighted mixture, with the returned weights, of 10^(-0.4 m) over the template magnitudes m that precompute_ssp_restmags tabulates); likewise for precompute_ssp_restmags_z_kcorrect and calc_obs_mag_no_dimming, and for precompute_ssp_obsmags_on_z_table and calc_obs_mag. So the precomputed-magnitude shortcut and the full spectral calculation agree.',
 'all SFH tables, metallicities, template cubes, filter lists, redshift tables and cosmologies with positive template fluxes','two code paths must agree on every galaxy; tests compare a few',[S+'calc_rest_sed_sfh_table_lognormal_mdf',S+'calc_rest_sed_sfh_table_met_table',FP+'precompute_ssp_restmags',FP+'precompute_ssp_restmags_z_kcorrect',FP+'precompute_ssp_obsmags_on_z_table',F+'calc_rest_mag',F+'calc_obs_mag'])
p('C122','Spectral errors bound magnitude errors',
 'If every flux of one spectrum lies between a and b times the flux of another, then the rest-frame magnitudes, and the observed magnitudes at any redshift, differ by an amount between -2.5 log10 b and -2.5 log10 a.',
 'all pairs of spectra on one wavelength grid, all non-negative filters, redshifts and cosmologies','a bound over all perturbations',[F+'calc_rest_mag',F+'calc_obs_mag'])
p('C123','Dust dims a band by a bounded, monotone amount',
 'Attenuating a non-negative spectrum with frac_transmission_from_k_lambda before calc_rest_mag: Av = 0 leaves the magnitude unchanged, the magnitude never decreases when Av grows, and for Av >= 0 the dimming is at most Av kmax / 4.05 magnitudes, kmax being the largest k_lambda in the spectrum.',
 'all non-negative spectra, attenuation curves, filters, unobscured fractions in [0, 1] and all Av','as C122',[D+'_frac_transmission_from_k_lambda',F+'calc_rest_mag'])
p('C124','Weights and SEDs are continuous everywhere',
 'The metallicity weights, the age weights and both rest-frame SEDs (with all returned weights) are continuous along every continuous joint change of SFR table, metallicity or metallicity history, scatter, template spectra and observation time, including where an SFR entry sits on a floor and where a birth time falls on a table node or at the 0.001 Gyr start.',
 'all grids, tables, template cubes and continuous curves','a jump at one parameter value is invisible to sampling',[M+'calc_lgmet_weights_from_lognormal_mdf',A+'calc_age_weights_from_sfh_table',S+'calc_rest_sed_sfh_table_lognormal_mdf',S+'calc_rest_sed_sfh_table_met_table'])
p('C125','Magnitudes are continuous away from the ends of the template wavelengths',
 'calc_rest_mag and calc_obs_mag (and the observed magnitude of a composite galaxy with a single metallicity or a metallicity-history table) are continuous in the spectrum, redshift, cosmology and galaxy parameters wherever the band flux is positive and no filter wavelength is redshifted exactly onto the first or last template wavelength.',
 'all spectra, filters, galaxies, cosmologies and continuous curves meeting the condition','as C124',[F+'calc_rest_mag',F+'calc_obs_mag'])
p('C126','Where smoothness genuinely fails',
 'The log stellar-mass table is continuous but not differentiable when an SFR entry crosses sfr_min. The undimmed observed magnitude of a flat spectrum on [1, 2] through a filter on [1, 2] is constant for 0 < z < 1 but jumps by 2.5 log10 3 magnitudes at z = 0, because the spectrum is taken to be 0 outside its wavelengths: it is not continuous in redshift.',
 'all positive floors; all redshifts in [0, 1)','failures at a single parameter value',[A+'_calc_logsm_table_from_sfh_table',F+'_calc_obs_mag_no_dimming'])

p('C127','Shapes alone decide whether a call raises',
 'Age and metallicity weights, joint weights, SEDs, magnitudes and fluxes, the population magnitude tables, trapz, cumulative mass, bursty age weights and the equivalent-width kernel return a value exactly when the paired arrays have matching lengths up to the broadcasting of arrays of length 1 (and the template grids have at least three points), whatever the entries are: no NaN, infinity, zero or unsorted entry makes them raise, in exact or rounded arithmetic. trapz and cumtrapz have their own conditions, stated in the theorem.',
 'all arrays of all lengths with arbitrary entries, all parameters, every arithmetic','a raise could depend on any value',[S+'calc_rest_sed_sfh_table_lognormal_mdf',S+'calc_rest_sed_sfh_table_met_table',A+'calc_age_weights_from_sfh_table',M+'calc_lgmet_weights_from_lognormal_mdf',M+'calc_lgmet_weights_from_lgmet_table',W+'calc_ssp_weights_sfh_table_lognormal_mdf',F+'calc_rest_mag',F+'calc_obs_mag',FP+'precompute_ssp_restmags',FP+'precompute_ssp_obsmags_on_z_table',U+'trapz',U+'cumulative_mstar_formed',B+'calc_bursty_age_weights',E+'_ew_kernel'])

p('C128','Weights computed in floating point sum to one up to a few roundoffs',
 'In double or single precision, with u the larger of the unit roundoff and the relative error of the (monotone) mathematical library: age weights are either all NaN or lie in [0,1] and sum to 1 within 2(n+1)u for n template ages; joint age-metallicity weights built from age and metallicity weights in [0,1] form a matrix with entries in [0,1] that sums to 1 within 2(N+1)u for N templates and each entry is the normalised product within a relative error 3(N+2)u.',
 'both IEEE-754 precisions, gradual underflow or subnormals flushed to zero, every order of summation, every mathematical library accurate to u <= 2^-22, all tables of machine numbers in the stated ranges, all numbers of templates up to 2^18','a unit test checks sums with a tolerance on a few tables',[A+'calc_age_weights_from_sfh_table',W+'calc_ssp_weights_sfh_table_lognormal_mdf',W+'calc_ssp_weights_sfh_table_met_table'])
p('C129','The floating-point SED is the weighted template sum up to a relative error linear in the number of templates',
 'In double or single precision, given the computed weights and mass (no overflow, nonnegative templates), every SED entry is nonnegative and differs from the exact sum of weight times template times mass by at most 2(N+2)u relative plus an underflow term in u 2^-102.',
 'both IEEE-754 precisions, gradual underflow or subnormals flushed to zero, every order of summation, every mathematical library accurate to u <= 2^-22, all template grids and fluxes without overflow','a unit test compares one grid with a tolerance',[S+'calc_rest_sed_sfh_table_lognormal_mdf',S+'calc_rest_sed_sfh_table_met_table'])
p('C130','The floating-point cumulative mass has a relative error linear in the table index',
 'For times between 0.003 and 1000 Gyr and nonnegative rates up to 1e20, the cumulative mass computed in double or single precision at table entry i differs from the exact one by at most 2(i+10)u relative; it never overflows or becomes NaN.',
 'both IEEE-754 precisions, gradual underflow or subnormals flushed to zero, every order of summation, every mathematical library accurate to u <= 2^-22, all such tables up to 2^17 entries','errors accumulate along the table',[U+'cumulative_mstar_formed',U+'_cumtrapz'])
p('C131','Age weights and stellar mass computed in floating point stay close to their exact values',
 'With a mass history of log-log slope at most K the age weights computed in double or single precision differ from those of exact arithmetic, entry by entry, by at most 40 A u, and the stellar mass by at most 4 A u relative, A = 2 n_t + 2 n_age + 740 + 321 (K+1) t_obs/t_0: rounding in logs, interpolation, clipping, powers and normalisation is never amplified more than this.',
 'both IEEE-754 precisions, gradual underflow or subnormals flushed to zero, every order of summation, every mathematical library accurate to u <= 2^-22, all histories, template ages and observation times in the stated ranges','requires following every rounding through logs, interpolation and exponentials',[A+'calc_age_weights_from_sfh_table',A+'_calc_logsm_table_from_sfh_table',S+'calc_rest_sed_sfh_table_lognormal_mdf'])
p('C132','Metallicity weights computed in floating point stay close to their exact values',
 'The metallicity weights of a lognormal distribution, or of a metallicity history with log-time slope at most K, computed in double or single precision differ from those of exact arithmetic by at most 10 (130 + 8 n_met + c) u / scatter (for a history: that plus 1.2 u, divided by the number of ages), c = 0 or 100 + 321 K t_obs/t_0.',
 'both IEEE-754 precisions, gradual underflow or subnormals flushed to zero, every order of summation, every mathematical library accurate to u <= 2^-22, all metallicities, scatters in [0.001,1] and template grids in the stated ranges','kernel cancellation and the empty-histogram branch depend on values',[M+'calc_lgmet_weights_from_lognormal_mdf',M+'calc_lgmet_weights_from_lgmet_table'])
p('C133','Joint weights computed in floating point: the total error is bounded by inputs only',
 'The sum over all templates of the absolute difference between the joint weights computed in double or single precision and those of exact arithmetic is at most an explicit factor, depending only on the lengths, the slope of the mass history, t_obs/t_0 and the metallicity scatter, times the unit roundoff; no hypothesis mentions an intermediate result.',
 'both IEEE-754 precisions, gradual underflow or subnormals flushed to zero, every order of summation, every mathematical library accurate to u <= 2^-22, all galaxies and template grids in the stated ranges for which the bound is at most 1/20','end-to-end rounding error over every input',[W+'calc_ssp_weights_sfh_table_lognormal_mdf',W+'calc_ssp_weights_sfh_table_met_table'])
p('C134','The SED computed in floating point is close to the SED of exact arithmetic',
 'Every entry of the SED computed in double or single precision differs from the SED computed in exact arithmetic from the same inputs by at most F M (2 B) plus an underflow term in u 2^-102, with F a bound on the templates at that wavelength, M the stellar mass and B the explicit bound on the total weight error.',
 'both IEEE-754 precisions, gradual underflow or subnormals flushed to zero, every order of summation, every mathematical library accurate to u <= 2^-22, all galaxies, template grids and fluxes in the stated ranges','end-to-end rounding error over every input',[S+'calc_rest_sed_sfh_table_lognormal_mdf',S+'calc_rest_sed_sfh_table_met_table'])

p('C135','Restframe fluxes and magnitudes computed in floating point are close to those of exact arithmetic',
 'For a filter curve of n wavelengths, the restframe band flux computed in double or single precision differs from the one computed in exact arithmetic from the same tables by at most 3 (n + 25) u B / AB0, with u the accuracy of the arithmetic (unit roundoff or library error) and B a bound on the spectrum; calc_rest_mag then differs by at most 4 (n + 70) u kappa magnitudes, with kappa the ratio of the spectrum maximum to its filter average. Both are finite.',
 'both IEEE-754 precisions, gradual underflow or subnormals flushed to zero, every order of summation, every mathematical library accurate to u <= 2^-22, all spectra (wavelengths 0 to 1e10 Angstrom at least 2^-20 apart, fluxes 0 to B), all filters of up to 2^18 wavelengths from 1 to 1e6 Angstrom','rounding error bound over every spectrum and filter',[F+'calc_rest_mag'])
p('C136','Redshifted magnitudes computed in floating point are close to those of exact arithmetic',
 'For a spectrum of resolution at most Res whose redshifted range contains the filter, the apparent magnitude without dimming computed in double or single precision differs from that of exact arithmetic by at most 4 (n + 5 Res + 70) u kappa magnitudes, and both are finite.',
 'both IEEE-754 precisions, gradual underflow or subnormals flushed to zero, every order of summation, every mathematical library accurate to u <= 2^-22, all spectra and filters in the stated ranges, all machine redshifts 0 <= z <= 20','rounding error bound over every spectrum, filter and redshift, including the error of the shifted wavelengths',[F+'_calc_obs_mag_no_dimming'])
p('C137','Attenuation curves are the published formulas and the default UV bump is the 2175 Angstrom feature',
 'calzetti00, leitherer02, noll09 and sbl18 return the published closed forms (joined at 0.63 and 0.15 micron, tilted by (lambda/0.55)^slope, floored at 0), and A(lambda) = A_V k(lambda) / 4.05. With the default bump arguments raising the amplitude from 0 to a adds a D(lambda) to sbl18 and a D(lambda) (lambda/0.55)^slope to noll09, where D is the Drude profile that is 1 exactly at 0.2175 micron and 1/2 exactly where |lambda^2 - 0.2175^2| = 0.0350 lambda.',
 'all wavelengths, slopes, amplitudes, centres, widths and A_V','closed form over all reals',[D+'noll09_k_lambda',D+'sbl18_k_lambda',D+'calzetti00_k_lambda',D+'leitherer02_k_lambda',D+'UV_BUMP_W0',D+'UV_BUMP_DW'])

p('C138','The calibrated fits are the published closed forms',
 'For every IMF the surviving and the remnant mass fraction are the stated sigmoid fits of log10(age/yr) with the calibration constants of that IMF; the default triweight attenuation curve is exactly a power law of slope -0.65 below 0.1 micron and -1.95 above 100 micron, lies between the two in between and passes through 10^1.15 at 0.1 micron; the Maiolino relation is the parabola k0 - 12 - 0.0864 (logM - logM0)^2; the Hubble time is 9.7781 Gyr / (h E(z)) and the critical density 277.536627 h^2 E(z)^2 Msun/kpc^3.',
 'all ages, wavelengths, masses, redshifts > -1 and cosmologies with 0 < Om0 <= 1','closed form over all reals; wrong constants pass shape tests',['dsps/imf/surviving_mstar.py:surviving_mstar','dsps/imf/remnant_mass.py:remnant_mass',D+'triweight_k_lambda',ZM+'maiolino08_metallicity_evolution',C+'_hubble_time',C+'rho_crit'])
p('C139','Cosmological distances computed in floating point are close to those of exact arithmetic',
 'In double or single precision the comoving, luminosity and angular-diameter distances to z are finite and within 1440 u of relative error of the values of the same quadrature in exact arithmetic, the lookback time within 2900 u, the age today within 4250 u (w0 <= 0), the age at z within 4250 u times (age today + lookback time), and the distance modulus within 3800 u magnitudes (u the unit roundoff).',
 'both IEEE-754 precisions, gradual underflow or subnormals flushed to zero, every order of summation, every mathematical library accurate to u <= 2^-22, all machine parameters with 1e-6 <= z <= 20, 0.001 <= Om0 <= 0.999, |w0| <= 2, |wa| <= 1, 0.1 <= h <= 10','rounding error bound over a continuum of cosmologies, through powers, exponentials and a 256- or 512-point quadrature',[C+'comoving_distance_to_z',C+'luminosity_distance_to_z',C+'angular_diameter_distance_to_z',C+'distance_modulus_to_z',C+'lookback_to_z',C+'age_at_z0',C+'age_at_z'])
p('C140','Observed magnitudes with cosmological dimming computed in floating point are close to those of exact arithmetic',
 'For a spectrum of resolution at most Res whose redshifted range contains the filter, calc_obs_mag in double or single precision is finite and within 4 (n + 5 Res + 70) u kappa + 4200 u magnitudes of its value in exact arithmetic.',
 'both IEEE-754 precisions, gradual underflow or subnormals flushed to zero, every order of summation, every mathematical library accurate to u <= 2^-22, all spectra, filters and cosmologies in the stated ranges','rounding error bound over every spectrum, filter and cosmology',[F+'calc_obs_mag',F+'_cosmological_dimming'])

p('C141','Burst-mixed age weights computed in floating point',
 'In double or single precision, for any non-NaN unbounded burst parameters (infinities included), template ages between 1e-4 and 1e4 Gyr and smooth weights in [0,1], calc_bursty_age_weights_from_u_params returns one finite weight in [0,1] per template (never NaN). If some template age lies within half of the burst width of its peak, the weights of calc_bursty_age_weights sum to 1 up to the deviation of the smooth weights plus 2 (n + 6) u, and their total distance to the weights of exact arithmetic is at most that of the smooth weights plus 12000 n u.',
 'both IEEE-754 precisions, gradual underflow or subnormals flushed to zero, every order of summation, every mathematical library accurate to u <= 2^-22, all burst parameters, all template grids of up to 2^18 ages, all smooth weights','rounding error bound over every burst and every template grid; the [0,1] bound holds for every rounding of every operation',[B+'calc_bursty_age_weights',B+'calc_bursty_age_weights_from_u_params',B+'_pureburst_age_weights_from_params',B+'_zero_safe_normalize'])

p('C142','Metallicity weights in floating point are nearly, not exactly, a distribution',
 'In double and in single precision calc_lgmet_weights_from_lognormal_mdf can return a negative weight and a weight above 1 on ordinary inputs (so weights in [0,1] are refuted in both precisions); every weight lies within 10 eta of [0,1] and the weights sum to 1 up to 10 n eta, eta = (130 + 8 n) u / scatter.',
 'both IEEE-754 precisions; all metallicities, scatters of at least 0.001 and metallicity grids','the violation appears only for particular bit patterns near the edge of the kernel; the bound must hold for all of them',[M+'calc_lgmet_weights_from_lognormal_mdf',M+'_get_lgmet_weights_singlegal',U+'_tw_cuml_kern'])

p('C143','Dust attenuation and transmission computed in floating point',
 'In double or single precision the transmission computed from a curve value k differs from the exact transmission for k0 by at most 6.1 u + 0.25 A_V |k - k0|; the Leitherer curve is within 140 u and the Calzetti curve within 1900 u of its exact value, the Noll and Salim curves within the stated multiple of u (power-law tilt and bump amplification), and so are their transmissions end to end. The bound excludes the machine numbers nearest to the break points 0.63 and 0.15 micron, and must: in single precision the Calzetti curve at the number nearest to 0.63 is off by more than 0.02, because the other branch is taken.',
 'both IEEE-754 precisions, gradual underflow or subnormals flushed to zero, every order of summation, every mathematical library accurate to u <= 2^-22, all machine wavelengths from 0.09 to 10 micron, all A_V up to 1e15, all floors in [0,1], all bump and slope parameters in the stated ranges','rounding error bound over a continuum of wavelengths and parameters; the branch flip happens at one machine number',[D+'_frac_transmission_from_k_lambda',D+'calzetti00_k_lambda',D+'leitherer02_k_lambda',D+'noll09_k_lambda',D+'sbl18_k_lambda',D+'_drude_bump'])

p('C144','A small change of the star formation history makes a small change of everything computed from it',
 'If two tabulated star formation histories on the same times agree up to a factor L at every time (L >= 1), then the age weights computed from them agree up to L^10 for every template age, the rest-frame SEDs (lognormal metallicity distribution and metallicity-history variants, any non-negative templates) up to L^11 at every wavelength, and the rest-frame and observed magnitudes in every filter, at every redshift and in every cosmology, up to 27.5 log10(L).',
 'all pairs of star formation histories within a factor L, all grids, templates, filters, redshifts and cosmologies','a Lipschitz bound over all pairs of inputs, through the interpolation in log mass and the normalisation',[A+'calc_age_weights_from_sfh_table',S+'calc_rest_sed_sfh_table_lognormal_mdf',S+'calc_rest_sed_sfh_table_met_table',F+'calc_rest_mag',F+'calc_obs_mag'])
p('C145','Rescaling the star formation history rescales the spectrum and nothing else',
 'Multiplying the star formation history by c > 0 (both histories above the floors) leaves the age weights unchanged up to a factor (1 + eps)^10, multiplies the SED (lognormal metallicity distribution or metallicity history) by c up to (1 + eps)^11 and shifts every rest-frame and observed magnitude by -2.5 log10 c up to 27.5 log10(1 + eps), where eps = 1e-14 / min(s0, c s0) is the relative size of the initial-mass floor (1e-14 for histories starting at 1 Msun/yr).',
 'all histories, factors, grids, templates, filters, redshifts and cosmologies','a scaling law over all reals; exact homogeneity is broken by a floor of 1e-14, which no test tolerance can see',[A+'calc_age_weights_from_sfh_table',U+'cumulative_mstar_formed',S+'calc_rest_sed_sfh_table_lognormal_mdf',F+'calc_rest_mag',F+'calc_obs_mag'])

p('C146','The age weights, the SED and the magnitudes converge to those of the continuous star formation history as the table is refined',
 'Sample any history f (0 <= f <= F, Lipschitz constant K) on a table that starts within h of 0.001 Gyr, has no step longer than h and ends between t_obs and T, with a floor that lifts f by at most d. Then every age weight is within 4 e / A of the true fraction of the mass born in its age bin (the integral of f over the bin divided by A, the integral over all bins), with e = (K T + 3 F) h / 2 + d T, provided 2 e < A; for histories above the floor the weights converge to the true fractions as h -> 0, uniformly over all tables; and the SED is within an explicit multiple of e of the synthesis integral (mass formed times template mix of the true fractions). For a metallicity history Z(t) (Lipschitz constant Kz) sampled on the same table, the SED is within the same bound, plus the mass times the metallicity error of C148 for a shift Kz h, of the synthesis integral that gives every age its metallicity at birth. For histories above the floors both SEDs converge to their synthesis integrals as h -> 0, uniformly over all tables, and if the limit spectrum is positive the rest-frame and observed magnitudes converge too, uniformly over all filters, redshifts and cosmologies.',
 'all Lipschitz histories, all table meshes, all age grids, metallicity grids and templates','a convergence statement over all functions and all tables; a test compares one history at one resolution',[A+'calc_age_weights_from_sfh_table',U+'cumulative_mstar_formed',S+'calc_rest_sed_sfh_table_lognormal_mdf',S+'calc_rest_sed_sfh_table_met_table',F+'calc_rest_mag',F+'calc_obs_mag'])
p('C147','Superposition of star formation histories holds only up to one table step',
 'At the table times cumulative_mstar_formed of a sum of two histories is the sum of their masses minus the seed mass (1e9 * 1e-14 (t0 - 0.001)/2 Msun, counted once instead of twice), and it is monotone in the history. Between table times the mass behind an SED is interpolated in log-log, so the total mass of the summed history differs from the sum of the masses by up to (and never more than) the mass formed during the table step that contains t_obs, plus the seed; exact superposition of SEDs is refuted: there are two histories on a two-point table whose summed SED is more than 1.5 times the sum of their SEDs.',
 'all pairs of histories above the floor, all tables and observation times','superposition is an identity over pairs of inputs that holds at the nodes tests use and fails between them',[U+'cumulative_mstar_formed',S+'calc_rest_sed_sfh_table_lognormal_mdf'])
p('C148','A small change of metallicity makes a small change of the weights and of the SED',
 'For two metallicity distributions inside [-10,10] dex with centres at most dx apart and scatters h, h\', the cumulative metallicity weights differ by at most delta = (35/96)(dx + 3|h - h\'|)/min(h,h\') at every bin edge and each weight by at most 2 delta; the SEDs (lognormal distribution, or metallicity histories within dx of each other at every table time) differ at every wavelength by at most the stellar mass times delta times the total variation of the templates along the metallicity grid.',
 'all metallicities, scatters, metallicity histories, grids and templates','a Lipschitz bound over all pairs of inputs, independent of the number of metallicity bins',[M+'calc_lgmet_weights_from_lognormal_mdf',M+'calc_lgmet_weights_from_lgmet_table',S+'calc_rest_sed_sfh_table_lognormal_mdf',S+'calc_rest_sed_sfh_table_met_table'])
p('C149','Distances and times fall when matter, w0 or wa grows',
 'For every redshift z > 0 and h > 0, raising w0, raising wa, or raising Om0 (with dark energy that dilutes more slowly than matter: w0 < 0 and w0 + wa <= 0), alone or together, strictly lowers the comoving, luminosity and angular-diameter distances, the distance modulus, the differential comoving volume, the lookback time and the age today, and strictly raises the critical density. The condition on dark energy is needed: with w0 > 0 and w0 + wa >= 0 more matter raises distances and lookback times. The matter fraction Om(z) grows with Om0 and falls with w0 and wa.',
 'all pairs of cosmologies, redshifts and Hubble constants','a comparison of two calls over a continuum of parameters; a test samples a few',[C+'comoving_distance_to_z',C+'luminosity_distance_to_z',C+'angular_diameter_distance_to_z',C+'distance_modulus_to_z',C+'differential_comoving_volume_at_z',C+'lookback_to_z',C+'age_at_z0',C+'rho_crit',C+'_Om_at_z'])
p('C150','Comoving distances are accurate to second order in the redshift step',
 'In flat Lambda-CDM the comoving distance differs from the integral of c/H by at most (5/16)(z/255)^2(1 + z/255) z/(1+z) Hubble distances, for every redshift and matter density; up to redshift 5 the distance modulus is correct to 0.001 mag.',
 'all matter densities in (0,1], Hubble constants and redshifts (modulus: redshifts up to 5)','an error bound over a continuum of parameters against an integral no test can evaluate exactly',[C+'comoving_distance_to_z',C+'distance_modulus_to_z'])
p('C151','Distances at high redshift lie within the particle horizon (refuted)',
 'In every cosmology the comoving distance is below the horizon 2 c/(H0 sqrt(Om0)). The reported comoving distance is not: from redshift 1020/sqrt(Om0) on it is beyond the horizon, in every cosmology; for Planck 2015 at last scattering (z = 1100) it is more than 15 per cent too large, because the 256 redshifts of the table are evenly spaced.',
 'all cosmologies and redshifts','the horizon bound ranges over all cosmologies and all redshifts',[C+'comoving_distance_to_z',C+'PLANCK15'])

p('C152','From the star formation history to the magnitude in floating point',
 'Running the whole chain in double or single precision (spectrum of a galaxy from its star formation history and metallicity with either SED function, then rest-frame or observed magnitude of that spectrum) gives finite numbers. If the error bound of the spectrum (C134) is at most eps <= 1/100 of the exact spectrum at every wavelength, the computed spectrum agrees with the exact one to a relative eps, and the magnitude with that of the exact chain to 5 (n + 70) u kappa + 1.3 eps (rest frame; for observed magnitudes n + 5 Res replaces n and 4200 u is added), where n is the number of filter points and kappa the ratio of the largest flux density to its mean over the filter.',
 'both IEEE-754 precisions, gradual underflow or subnormals flushed to zero, every order of summation, every mathematical library accurate to u <= 2^-22, all histories, metallicities, template cubes, filters and cosmologies in the stated ranges','error bound of a long chain of rounded operations over every galaxy, template library and filter',[S+'calc_rest_sed_sfh_table_lognormal_mdf',S+'calc_rest_sed_sfh_table_met_table',F+'calc_rest_mag',F+'calc_obs_mag'])

p('C153','The blackbody in double precision',
 'In double precision (the precision the blackbody module switches on when imported) the density per frequency and the density per wavelength are finite and agree with the Planck law to a relative error of (1100 + (9 x + 2)(1 + 1/x)) 2^-53 with x = h nu / k T, for every frequency, wavelength and temperature in the stated ranges with 1e-12 <= x <= 500: the accuracy is lost in proportion to 1/x in the Rayleigh-Jeans regime, because exp(x) - 1 is computed by subtraction. For x >= 720, where exp overflows, the density per frequency is exactly zero and never NaN; for x <= 2^-54 it is +infinity although the true value is finite.',
 'all double-precision frequencies (1e6-1e22 Hz), wavelengths (0.1-1e10 Angstrom) and temperatures (0.1-1e12 K)','error bound over every frequency, wavelength and temperature',[K+'blackbody_freq_density',K+'blackbody_wave_density',K+'_freq_density_denom',K+'_wave_density_denom'])

p('C154','Rounding error of the mass-metallicity relation',
"For a log10 stellar mass in [0, 16], a cosmic time in [0, 20] Gyr and parameters in generous physical ranges (offset and present-day slopes at most 2 in size, transition mass in [8, 12], transition rate in [0, 2], evolution amplitude a + b m with |a| <= 4 and |b| <= 1/2, early slope c + d m with |c| <= 3 and |d| <= 1/2, and for mzr_model a look-back time of transition in [4, 13] Gyr), all machine numbers, umzr_model and mzr_model evaluated in arithmetic of unit roundoff u return a finite number within 10300 u of the value the same formula has over the real numbers: about 6e-4 dex in single precision and 1.2e-12 dex in double precision, in spite of the cancellations in mass - transition mass and in the clip to the past.",
'all machine-number masses, times and parameters in the stated ranges, and every arithmetic (single or double precision, any order of summation, any mathematical library) accurate to u',
'a test evaluates a few masses; the bound covers every representable input, including those next to the transition points where differences cancel, and both precisions',
[Z+'mzr_model', ZM+'mzr_model'])
p('C155','Rounding error of densities, virial times and volumes',
'In either IEEE-754 precision, with rounding and mathematical library accurate to u: the critical density is within 198 u (relative), the Hubble time within 100 u, the Hubble distance within 4 u, the matter fraction within 200 u, the virial overdensity within 700 u and the virial dynamical time within 510 u of the value of exact arithmetic, and the differential comoving volume within 3000 u once the comoving distance is at least 1e-8 Mpc; all of them are finite and positive.',
'both IEEE-754 precisions, gradual underflow or subnormals flushed to zero, every order of summation, every mathematical library accurate to u <= 2^-22, all machine redshifts from 1e-6 to 20 (lists of any length for the vectorised functions), matter densities 0.001-0.999, w0 in [-2,2], wa in [-1,1], h in [0.1,10]',
'error bound over every machine redshift and cosmology; the overdensity polynomial subtracts nearly equal numbers at high redshift',
[C+'rho_crit',C+'_Om_at_z',C+'_hubble_time',C+'hubble_distance_mpc',C+'_delta_vir',C+'virial_dynamical_time',C+'differential_comoving_volume_at_z'])
p('C156','An array of length 1 stands for a constant array',
'Passing an SFR table with one entry is the same as passing the constant history with that entry at every table time (cumulative mass, age weights, both SED functions); a flux cube with a single metallicity plane, a single age per plane, or both, is the same as the cube with it repeated; a single transmission is the flat filter; a single smooth weight or a single flux value is repeated (bursty age weights, equivalent widths). trapz, given two points of one array and any other number of the other, silently applies the single step (or the single pair of ordinates) everywhere instead of raising.',
'all lengths, all entries including NaN and infinities, every arithmetic','JAX broadcasting accepts malformed input silently; holds for all shapes',
[A+'calc_age_weights_from_sfh_table',S+'calc_rest_sed_sfh_table_lognormal_mdf',S+'calc_rest_sed_sfh_table_met_table',F+'calc_rest_mag',F+'calc_obs_mag',U+'trapz',U+'cumulative_mstar_formed',B+'calc_bursty_age_weights',E+'_ew_kernel'])
p('C157','Rounding error of the remnant and surviving stellar mass',
'For each of the four initial mass functions shipped with the package and every machine-number log10 age between 3 and 11, in either IEEE-754 precision with rounding and mathematical library accurate to u: remnant_mass is finite and within a relative 520 u of its value in exact arithmetic, and surviving_mstar is finite and within 82 u of its value in exact arithmetic (5e-6 in single precision). This includes the rounding of the decimal parameters themselves.',
'both IEEE-754 precisions, gradual underflow or subnormals flushed to zero, every mathematical library accurate to u <= 2^-22, all machine log10 ages (yr) from 3 to 11, all four parameter sets',
'error bound over every representable age, next to the transition ages where differences cancel',
['dsps/imf/remnant_mass.py:remnant_mass','dsps/imf/surviving_mstar.py:surviving_mstar'])
p('C158','Rounding error of tables of magnitudes',
'For a library of template spectra, a collection of filters and (for the observed magnitudes) a table of redshifts and a cosmology in the stated ranges, precompute_ssp_restmags, precompute_ssp_restmags_z_kcorrect and precompute_ssp_obsmags_on_z_table return, in either IEEE-754 precision, tables of finite magnitudes of the same shape as in exact arithmetic, each within 4 (n + 70) u kappa (rest frame), 4 (n + 5 Res + 70) u kappa (fixed redshift), 4 (n + 5 Res + 70) u kappa + 4200 u (redshift table) magnitudes of its exact value, where n is the number of points of that filter and kappa bounds the ratio of the largest flux density of a template to its mean over a filter.',
'both IEEE-754 precisions, gradual underflow or subnormals flushed to zero, every order of summation, every mathematical library accurate to u <= 2^-22, libraries of any size, any number of filters and redshifts',
'error bound for every entry of a table over every library, filter set and redshift table',
[FP+'precompute_ssp_restmags',FP+'precompute_ssp_restmags_z_kcorrect',FP+'precompute_ssp_obsmags_on_z_table'])
p('C159','Gradients of the triweight kernel',
'The reverse-mode derivative that jax.grad computes for the triweight kernel, the triweight density, the triweight histogram kernel, _tw_sigmoid and _tw_sig_slope is finite and equals the derivative of the function, with respect to every argument (position, centre, width, heights) and for every composition in which the arguments are themselves computed from the input with right gradients. This holds everywhere, including exactly at the joints |x - m| = 3h, as long as the width is not 0. With width 0 the kernel still has the finite value of a step, but its gradient is NaN: the polynomial in the branch that jnp.where does not select is infinite there, and 0 * inf is NaN.',
'all real arguments with non-zero width, every argument that is differentiated, all inner computations with right gradients; every position off the centre for width 0',
'derivative at every point including the joints of a piecewise definition; the NaN arises in a branch that is never selected, so value tests do not see it',
[U+'_tw_cuml_kern',U+'triweight_gaussian',U+'_tw_sigmoid',U+'_tw_sig_slope',U+'_triweighted_histogram_kernel'])
p('C160','Gradients of sigmoids, of the mass-metallicity relation and of the mass functions',
'jax.grad of _sigmoid and _sig_slope, of _inverse_sigmoid (value strictly between its bounds, slope not 0), of remnant_mass and surviving_mstar, of the bounded parameters of the mass-metallicity relation, and of both mass-metallicity relations (off the two kinks: cosmic time 12.5 Gyr and metallicity reduction exactly 0; for mzr_model with a look-back time of transition that is not 0) is finite and equals the derivative of the function, with respect to every argument and parameter.',
'all real arguments and parameters off the stated kinks, every argument that is differentiated, all inner computations with right gradients',
'derivative at every point and in every argument',
[U+'_sigmoid',U+'_sig_slope',U+'_inverse_sigmoid','dsps/imf/remnant_mass.py:remnant_mass','dsps/imf/surviving_mstar.py:surviving_mstar','dsps/metallicity/umzr.py:mzr_model','dsps/metallicity/mzr.py:mzr_model'])
p('C161','Gradients of the dust laws',
'jax.grad of the Calzetti and Leitherer curves, of the Noll and Salim curves (with bump), of the triweight curve, of the attenuation and of the transmitted fraction is finite and equals the derivative of the function, with respect to wavelength, bump amplitude, slope, bump position and width, V-band attenuation and floor, for every positive wavelength off the two break points 0.15 and 0.63 micron and wherever the clipped quantity is not exactly 0.',
'all real arguments off the stated break points, every argument that is differentiated, all inner computations with right gradients',
'derivative at every point and in every argument of a piecewise law',
[D+'calzetti00_k_lambda',D+'leitherer02_k_lambda',D+'noll09_k_lambda',D+'sbl18_k_lambda',D+'triweight_k_lambda',D+'_att_curve_from_k_lambda',D+'_frac_transmission_from_k_lambda'])
p('C162','Gradients of the metallicity weights',
'For every metallicity grid with at least three entries, jax.grad of every weight returned by calc_lgmet_weights_from_lognormal_mdf is finite and equals the derivative of that weight, with respect to the metallicity and to the scatter, whenever log10 Z is between -10 and 10 and the scatter is positive; the handling of empty histograms does not disturb it. With scatter 0 the weights are finite but the gradient of every one of them is NaN.',
'all grids of any length >= 3, all metallicities in [-10, 10], all positive scatters, metallicity and scatter computed in any way with right gradients; scatter 0 with a metallicity that is not a bin edge',
'derivative at every point for grids of any length; a NaN gradient with a finite value',
[W+'calc_lgmet_weights_from_lognormal_mdf',U+'_fill_empty_weights_singlepoint'])
p('C163','Gradients of the burst weights',
'For every template age grid, jax.grad of every weight returned by calc_bursty_age_weights is finite and equals the derivative of that weight, with respect to the burst fraction, peak age, maximum age, the smooth weights and the ages, whenever the peak age is below the maximum age and at least one template age lies inside the burst; this includes template ages exactly at the edge of the burst. The same holds for the bounded burst parameters as functions of the unbounded ones.',
'all age grids of any length, all burst parameters with peak < max, all inner computations with right gradients',
'derivative at every point, at the joints of the kernel and for grids of any length',
[B+'calc_bursty_age_weights',B+'_pureburst_age_weights_from_params',B+'_zero_safe_normalize',B+'_get_params_from_u_params'])
p('C164','Gradients of the age weights and of the rest-frame SED',
'For every time table, template grid and template cube that meet the input conditions of C15 and C17 (increasing times, at least three template ages and metallicities, stars formed inside the template age range), jax.grad of every age weight, metallicity weight, joint weight and SED value returned by the two rest-SED functions is finite and equals the derivative of that value, with respect to the star formation rates, the metallicity (or the metallicity table), the scatter and the template fluxes, whenever no star formation rate is exactly at one of the two floors and log10 Z is between -10 and 10. The time table, the template grids and t_obs are not differentiated.',
'all tables and grids of any length meeting the conditions, every input differentiated, all inner computations with right gradients',
'derivative at every point, for tables and grids of any length, through interpolation, cumulative sums and normalizations',
[A+'calc_age_weights_from_sfh_table',W+'calc_ssp_weights_sfh_table_lognormal_mdf',W+'calc_ssp_weights_sfh_table_met_table',S+'calc_rest_sed_sfh_table_lognormal_mdf',S+'calc_rest_sed_sfh_table_met_table'])
p('C165','Gradients of magnitudes, end to end',
'For every wavelength grid and filter, jax.grad of the rest-frame and of the observed magnitude is finite and equals the derivative of the magnitude with respect to the spectrum, whenever the flux through the filter is positive; composed with the rest-SED function it equals the derivative of the observed magnitude with respect to the star formation rates, the metallicity, the scatter and the template fluxes, under the conditions of C164. Redshift, cosmology, wavelengths and filter are not differentiated.',
'all spectra, filters, redshifts and cosmologies with positive flux, tables and grids of any length, all inner computations with right gradients',
'derivative at every point, for spectra and filters of any length',
[F+'calc_rest_mag',F+'calc_obs_mag',S+'calc_rest_sed_sfh_table_lognormal_mdf'])
p('C166','Gradients of the cosmology functions',
'jax.grad of comoving, luminosity and angular diameter distance, lookback time, age at z, age at z=0, critical density, matter fraction and virial dynamical time is finite and equals the derivative with respect to the redshift and all four cosmological parameters, for every redshift above -1, every matter fraction in (0, 1], any w0 and wa and any positive h; the same holds for the distance modulus, the differential comoving volume and the cosmological dimming at every positive redshift, and for the observed magnitude with respect to the spectrum and the cosmology at a fixed positive redshift and positive flux. At redshift 0 the distance modulus is -inf and its gradient NaN.',
'all redshifts and cosmologies as stated, all inner computations with right gradients',
'derivative at every point; a finite difference at a few points cannot settle it',
[C+'comoving_distance_to_z',C+'luminosity_distance_to_z',C+'distance_modulus_to_z',C+'angular_diameter_distance_to_z',C+'lookback_to_z',C+'age_at_z',C+'rho_crit',C+'virial_dynamical_time',C+'differential_comoving_volume_at_z',F+'calc_obs_mag'])
p('C167','Gradient of the observed magnitude in redshift',
'jax.grad of the observed magnitude with respect to spectrum, redshift and cosmological parameters together is finite and equals the derivative, for every spectrum on at least two wavelengths, every filter, every positive redshift and every cosmology as in C166, whenever the flux through the filter is positive and no filter wavelength coincides with a redshifted template wavelength (there the interpolated spectrum has a corner).',
'all spectra, filters, redshifts and cosmologies as stated, all inner computations with right gradients',
'derivative at every point, for spectra and filters of any length; the interpolation cell changes with redshift',
[F+'calc_obs_mag',F+'_obs_flux_ssp'])
p('C168','Gradient of the rest-frame SED in the time of observation',
'jax.grad of every age weight, joint weight and SED value of the lognormal rest-SED function is finite and equals the derivative with respect to the time of observation together with star formation rates, metallicity, scatter and template fluxes, under the conditions of C164, for at least two table times, whenever t_obs is not a table time and the birth time of no age-bin edge is a table time or the floor 0.001 Gyr.',
'all tables and grids of any length meeting the conditions, all inner computations with right gradients',
'derivative at every point; the interpolation cells change with t_obs',
[A+'calc_age_weights_from_sfh_table',W+'calc_ssp_weights_sfh_table_lognormal_mdf',S+'calc_rest_sed_sfh_table_lognormal_mdf'])
p('C169','Gradient of the magnitude of a galaxy in redshift and cosmology, end to end',
'When a caller computes t_obs = age_at_z(z, cosmology), passes it to the lognormal rest-SED function and passes the SED, z and the cosmology to the observed magnitude, jax.grad of that magnitude is finite and equals the derivative of the whole composition with respect to z and the four cosmological parameters (which enter through the age, the redshifted wavelengths and the distance at once), together with star formation rates, metallicity, scatter and template fluxes, under the conditions of C167 and C168.',
'all tables, grids, filters, redshifts and cosmologies meeting the conditions, all inner computations with right gradients',
'derivative at every point of a composition of three functions, for tables and grids of any length',
[C+'age_at_z',S+'calc_rest_sed_sfh_table_lognormal_mdf',F+'calc_obs_mag'])
p('C170','Gradients of the blackbody densities, power laws and effective wavelength',
'jax.grad of both blackbody densities is finite and equals the derivative with respect to frequency (or wavelength) and temperature at once, at every positive frequency, wavelength and temperature; at temperature zero the frequency density is 0 but its gradient is NaN. The same holds of powerlaw_pdf and powerlaw_rvs with respect to the evaluation point (or the uniform draw in [0,1)), both bounds and the index, for positive unequal bounds and a non-zero index, and of the effective wavelength of a filter with respect to the transmissions and the redshift, for every wavelength grid on which the transmission does not integrate to 0 and every redshift but -1.',
'all real arguments meeting the conditions, wavelength grids of any length, all inner computations with right gradients',
'derivative at every point; the NaN appears only at one temperature',
[K+'blackbody_freq_density',K+'blackbody_wave_density',U+'powerlaw_pdf',U+'powerlaw_rvs','dsps/dust/utils.py:get_filter_effective_wavelength'])
p('C171','Gradient of the metallicity-table SED in the time of observation',
'jax.grad of every age weight, metallicity weight, joint weight and SED value of the metallicity-table rest-SED function is finite and equals the derivative with respect to the time of observation together with star formation rates, the metallicity table, the scatter and the template fluxes, under the conditions of C164, for at least two table times, whenever t_obs is not a table time and the birth time of no age-bin edge and of no template age is a table time or the floor 0.001 Gyr.',
'all tables and grids of any length meeting the conditions, all inner computations with right gradients',
'derivative at every point; interpolation cells of rates and metallicities change with t_obs',
[M+'calc_lgmet_weights_from_lgmet_table',W+'calc_ssp_weights_sfh_table_met_table',S+'calc_rest_sed_sfh_table_met_table'])
p('C172','Gradients of magnitudes of galaxies with a metallicity history, and of dusty galaxies',
'The end-to-end gradient of C169 is also right when the galaxy has a table of metallicities through time: the magnitude composed of age_at_z, the metallicity-table rest-SED function and calc_obs_mag, with respect to redshift, cosmology, star formation rates, metallicity table, scatter and template fluxes. And when a spectrum is multiplied, wavelength by wavelength, by the transmitted fraction of any attenuation curve before calc_obs_mag, jax.grad of the magnitude is finite and equals the derivative with respect to the spectrum, the curve, A_V, the unobscured floor, redshift and cosmology, whenever A_V and the curve are not 0 and the dimmed flux through the filter is positive.',
'all tables, grids, filters, attenuation curves, redshifts and cosmologies meeting the conditions, all inner computations with right gradients',
'derivative at every point of a composition of several functions, for tables and grids of any length',
[C+'age_at_z',S+'calc_rest_sed_sfh_table_met_table',D+'_frac_transmission_from_k_lambda',F+'calc_obs_mag'])
p('C173','Rounding error of the effective wavelength and of the triweight reddening curve',
'In either IEEE-754 precision, with rounding and mathematical library accurate to u: the effective wavelength of a filter of n points at a redshift between 0 and 20 is within a relative (2.5 n + 17) u of its value in exact arithmetic; the triweight reddening curve with its default parameters is, between 0.01 and 100 micron, within a relative 1604 u of its value in exact arithmetic (its decimal parameters included); the bump amplitude derived from a slope of at most 10 in size is within 62 u. All of them are finite, and the wavelength and the curve are positive.',
'both IEEE-754 precisions, gradual underflow or subnormals flushed to zero, every order of summation, every mathematical library accurate to u <= 2^-22, filters of at most 2^18 increasing machine wavelengths from 1 to 1e6 Angstrom with machine transmissions in [0,1] and an integral of T/lambda of at least 1e-4, all machine redshifts in [0,20], machine wavelengths in [0.01,100] micron and machine slopes in [-10,10]',
'error bound over every representable filter, redshift and wavelength, next to the ends of the triweight transition as well',
['dsps/dust/utils.py:get_filter_effective_wavelength',D+'triweight_k_lambda',D+'_get_eb_from_delta'])
p('C174','Rounding error of the smooth steps and kernels, however steep',
'In either IEEE-754 precision, with rounding and mathematical library accurate to u: the cumulative triweight kernel is within 26 u and each bin of the triweighted histogram within 55 u of its value in exact arithmetic; the triweight density of width h is within 25 u / h; the sigmoid and the triweight sigmoid between two values of size at most Y (Y >= 1) are within 60 Y u; the two sigmoid-slope functions are within 65 (Y (|x - xtp| + 1) + |ytp|) u. None of these bounds grows with the steepness of the step or with the inverse width of the kernel, and no result is infinite or NaN.',
'both IEEE-754 precisions, gradual underflow or subnormals flushed to zero, every mathematical library accurate to u <= 2^-22, all abscissas, centres and steepnesses of size at most 1e8, all widths h >= 1e-8 (at most 1e8 for the kernel, density and histogram), all machine end values of size at most 1e8, histograms with any number of bins',
'error bound over every argument, including the points where the exponential overflows or a rounded abscissa lands on the other side of the end of the kernel',
[U+'_tw_cuml_kern',U+'triweight_gaussian',U+'triweighted_histogram',U+'_tw_sigmoid',U+'_sigmoid',U+'_sig_slope',U+'_tw_sig_slope'])
p('C175','Rounding error of the power-law density and sampler',
'In either IEEE-754 precision, with rounding and mathematical library accurate to u: for a positive index the sampler returns, for a given uniform draw, a value within a relative 350 u of the value of exact arithmetic, whatever the draw and however close the two ends; for a negative index within (42 (1 + (a/b)^g) + 265) u, a bound that grows with the ratio of the two end powers, and for any index within (42/(1-r) + 265) u for draws r up to 0.98, whatever that ratio. The density is within a relative (2.1 (b^g + a^g)/(b^g - a^g) + 29) u for a positive index and within (2.1 (a^g + b^g)/(a^g - b^g) + 34) u for a negative one, the amplification being the cancellation of the two end powers. A sample drawn with a positive index leaves [a, b] by a relative 350 u at most. The results are finite and positive.',
'both IEEE-754 precisions, gradual underflow or subnormals flushed to zero, every mathematical library accurate to u <= 2^-22, all machine draws in [0,1), all machine ends 0.01 <= a < b <= 100, machine indices of size 0.1 to 5 (with 1 + (a/b)^g at most 50 if negative for the sampler; for the density with an amplification of at most 1000), machine abscissas in [0.01,100]',
'error bound over every draw, end points and index; the difference of the end powers cancels',
[U+'powerlaw_rvs',U+'powerlaw_pdf'])
if __name__ == '__main__':
    import os
    fn = os.path.join(os.path.dirname(__file__), '..', 'properties.jsonl')
    with open(fn, 'w') as f:
        for q in P:
            f.write(json.dumps(q) + '\n')
    print(len(P))
