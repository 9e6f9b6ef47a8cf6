(** * Model of dsps/sed: stellar_age_weights.py, metallicity_weights.py,
      ssp_weights.py, stellar_sed.py *)
From Coq Require Import Reals List Bool Arith.
From Verif Require Import Num Arr MUtils.
Import ListNotations.
Local Open Scope num_scope.

Section Sed.
  Context {AR : Arith}.

  (** ** stellar_age_weights.py *)

  (** stellar_age_weights.py:118-125 [_get_lgt_birth], one element *)
  Definition get_lgt_birth (t_obs lg_age : num) : num :=
    let t_birth := t_obs - npow10 lg_age in
    let t_birth := nwhere (t_birth <? T_BIRTH_MIN) T_BIRTH_MIN t_birth in
    nlog10 t_birth.

  (** stellar_age_weights.py:128-163 [_get_lg_age_bin_edges] *)
  Definition get_lg_age_bin_edges_k (lg_ages : list num) : list num :=
    let dlgtau := get_dt_array_k lg_ages in
    let dlowest := (at_ lg_ages 1 - at_ lg_ages 0) / Fin 2 in
    let lowest := at_ lg_ages 0 - dlowest in
    let highest := last_ lg_ages + last_ dlgtau / Fin 2 in
    lowest :: tl (map2 (fun m d => m - d / Fin 2) lg_ages dlgtau) ++ [highest].

  (** stellar_age_weights.py:166-183 [_calc_logsm_table_from_sfh_table] *)
  Definition calc_logsm_table_from_sfh_table
    (gal_t_table gal_sfr_table : list num) (sfr_min : num) : list num :=
    let gal_sfr_table := map (fun s => nwhere (s <? sfr_min) sfr_min s) gal_sfr_table in
    let gal_smh_table := cumulative_mstar_formed_k gal_t_table gal_sfr_table in
    map nlog10 gal_smh_table.

  (** stellar_age_weights.py:52-88 [_calc_age_weights_from_logsm_table] *)
  Definition calc_age_weights_from_logsm_table_k
    (lgt_table logsm_table ssp_lg_age_gyr : list num) (t_obs : num)
    : list num * list num :=
    let lg_age_bin_edges := get_lg_age_bin_edges_k ssp_lg_age_gyr in
    let lgt_birth_bin_edges := map (get_lgt_birth t_obs) lg_age_bin_edges in
    let lgt_birth_bin_mids := map (get_lgt_birth t_obs) ssp_lg_age_gyr in
    let logsm_at_t_birth_bin_edges :=
      map (fun x => interp x lgt_table logsm_table) lgt_birth_bin_edges in
    let delta_mstar_at_t_birth :=
      map nopp (diff (map npow10 logsm_at_t_birth_bin_edges)) in
    let total := vsum delta_mstar_at_t_birth in
    let age_weights := map (fun d => d / total) delta_mstar_at_t_birth in
    (lgt_birth_bin_mids, age_weights).

  (** stellar_age_weights.py:18-49 [calc_age_weights_from_sfh_table].
      Shape checks: the SFR table must have the length of the time table or length 1
      (see [cumulative_mstar_formed]); an empty table cannot be interpolated; fewer than
      3 template ages raise (see [get_dt_array]). *)
  Definition calc_age_weights_from_sfh_table_k
    (gal_t_table gal_sfr_table ssp_lg_age_gyr : list num) (t_obs sfr_min : num)
    : list num :=
    let logsm_table :=
      calc_logsm_table_from_sfh_table gal_t_table gal_sfr_table sfr_min in
    let gal_lgt_table := map nlog10 gal_t_table in
    snd (calc_age_weights_from_logsm_table_k
           gal_lgt_table logsm_table ssp_lg_age_gyr t_obs).
  (** [jnp.interp] refuses a metallicity table of another length *)
  Definition check_gal_tables {A} (gal_t_table gal_table : list num) (k : res A) : res A :=
    check (same_len gal_t_table gal_table) ShapeError
      (check (negb (length gal_t_table =? 0)%nat) ValueError k).
  Definition check_sfh_tables {A} (gal_t_table gal_sfr_table : list num) (k : res A) : res A :=
    check (fits (length gal_t_table) gal_sfr_table) ShapeError
      (check (negb (length gal_t_table =? 0)%nat) ValueError k).
  Definition check_templates {A} (grid : list num) (k : res A) : res A :=
    check (3 <=? length grid)%nat IndexError k.
  Definition calc_age_weights_from_sfh_table
    (gal_t_table gal_sfr_table ssp_lg_age_gyr : list num) (t_obs sfr_min : num)
    : res (list num) :=
    check_sfh_tables gal_t_table gal_sfr_table
      (check_templates ssp_lg_age_gyr
        (Ok (calc_age_weights_from_sfh_table_k
               gal_t_table gal_sfr_table ssp_lg_age_gyr t_obs sfr_min))).

  (** stellar_age_weights.py:91-115 [_get_linspace_time_tables] *)
  Definition get_linspace_time_tables (t0 : num) : list num * list num * list num :=
    let t_table := linspace T_BIRTH_MIN t0 N_T_LGSM_INTEGRATION in
    let lgt_table := map nlog10 t_table in
    let dt_table := get_dt_array_k t_table in
    (t_table, lgt_table, dt_table).

  (** ** metallicity_weights.py *)

  (** metallicity_weights.py:104-116 [_get_lgmet_weights_singlegal] *)
  Definition get_lgmet_weights_singlegal
    (gal_lgmet gal_lgmet_scatter : num) (lgmetbin_edges : list num) : list num :=
    let tw_hist_results :=
      triweighted_histogram gal_lgmet gal_lgmet_scatter lgmetbin_edges in
    let tw_hist_results_sum := vsum tw_hist_results in
    let zmsk := tw_hist_results_sum =? Fin 0 in
    let tw_hist_results_sum := nwhere zmsk (Fin 1) tw_hist_results_sum in
    let weights := map (fun w => w / tw_hist_results_sum) tw_hist_results in
    fill_empty_weights_singlepoint gal_lgmet lgmetbin_edges weights.

  (** metallicity_weights.py:26-51 [calc_lgmet_weights_from_lognormal_mdf] *)
  Definition calc_lgmet_weights_from_lognormal_mdf_k
    (gal_lgmet gal_lgmet_scatter : num) (ssp_lgmet : list num) : list num :=
    let lgmetbin_edges := get_bin_edges_k ssp_lgmet LGMET_LO LGMET_HI in
    get_lgmet_weights_singlegal gal_lgmet gal_lgmet_scatter lgmetbin_edges.
  Definition calc_lgmet_weights_from_lognormal_mdf
    (gal_lgmet gal_lgmet_scatter : num) (ssp_lgmet : list num) : res (list num) :=
    check_templates ssp_lgmet
      (Ok (calc_lgmet_weights_from_lognormal_mdf_k gal_lgmet gal_lgmet_scatter ssp_lgmet)).

  (** metallicity_weights.py:123-128 [_calc_lgmet_at_ssp_lgage_table] *)
  Definition calc_lgmet_at_ssp_lgage_table
    (gal_t_table gal_lgmet_table ssp_lg_age_gyr : list num) (t_obs : num) : list num :=
    let lgt_table := map nlog10 gal_t_table in
    let lgt_birth := map (get_lgt_birth t_obs) ssp_lg_age_gyr in
    map (fun x => interp x lgt_table gal_lgmet_table) lgt_birth.

  (** [jnp.swapaxes(m, 1, 0)] of a matrix whose rows have [n] entries *)
  Definition transpose (n : nat) (m : list (list num)) : list (list num) :=
    map (fun i => map (fun row => at_ row i) m) (seq 0 n).

  (** metallicity_weights.py:54-101 [calc_lgmet_weights_from_lgmet_table] *)
  Definition calc_lgmet_weights_from_lgmet_table_k
    (gal_t_table gal_lgmet_table : list num) (gal_lgmet_scatter : num)
    (ssp_lgmet ssp_lg_age_gyr : list num) (t_obs : num) : list (list num) :=
    let lgmet_at_ssp_lgages :=
      calc_lgmet_at_ssp_lgage_table gal_t_table gal_lgmet_table ssp_lg_age_gyr t_obs in
    let lgmetbin_edges := get_bin_edges_k ssp_lgmet LGMET_LO LGMET_HI in
    let lgmet_weight_matrix :=
      map (fun m => get_lgmet_weights_singlegal m gal_lgmet_scatter lgmetbin_edges)
          lgmet_at_ssp_lgages in
    let lgmet_weight_matrix :=
      map (map (fun w => w / Fin (INR (length ssp_lg_age_gyr)))) lgmet_weight_matrix in
    transpose (length ssp_lgmet) lgmet_weight_matrix.
  Definition calc_lgmet_weights_from_lgmet_table
    (gal_t_table gal_lgmet_table : list num) (gal_lgmet_scatter : num)
    (ssp_lgmet ssp_lg_age_gyr : list num) (t_obs : num) : res (list (list num)) :=
    check_gal_tables gal_t_table gal_lgmet_table
      (check_templates ssp_lgmet
        (Ok (calc_lgmet_weights_from_lgmet_table_k gal_t_table gal_lgmet_table
               gal_lgmet_scatter ssp_lgmet ssp_lg_age_gyr t_obs))).

  (** ** ssp_weights.py *)

  (** ssp_weights.py:25-28 [SSPWeights]; [lgmet_weights] is a vector for the
      lognormal MDF and a matrix for the metallicity table, hence the parameter. *)
  Record SSPWeights (L : Type) := {
    weights : list (list num);
    lgmet_weights : L;
    age_weights : list num
  }.
  Arguments weights {L} _.
  Arguments lgmet_weights {L} _.
  Arguments age_weights {L} _.

  (** [weights / weights.sum()] (ssp_weights.py:88, 155) *)
  Definition normalize_matrix (m : list (list num)) : list (list num) :=
    let total := vsum (concat m) in
    map (map (fun w => w / total)) m.

  (** ssp_weights.py:31-90 [calc_ssp_weights_sfh_table_lognormal_mdf] *)
  Definition calc_ssp_weights_sfh_table_lognormal_mdf
    (gal_t_table gal_sfr_table : list num) (gal_lgmet gal_lgmet_scatter : num)
    (ssp_lgmet ssp_lg_age_gyr : list num) (t_obs : num)
    : res (SSPWeights (list num)) :=
    let* age_w := calc_age_weights_from_sfh_table
                    gal_t_table gal_sfr_table ssp_lg_age_gyr t_obs SFR_MIN in
    let* lgmet_w := calc_lgmet_weights_from_lognormal_mdf
                      gal_lgmet gal_lgmet_scatter ssp_lgmet in
    let w := map (fun m => map (fun a => m * a) age_w) lgmet_w in
    let w := normalize_matrix w in
    Ok {| weights := w; lgmet_weights := lgmet_w; age_weights := age_w |}.

  (** ssp_weights.py:93-157 [calc_ssp_weights_sfh_table_met_table] *)
  Definition calc_ssp_weights_sfh_table_met_table
    (gal_t_table gal_sfr_table gal_lgmet_table : list num) (gal_lgmet_scatter : num)
    (ssp_lgmet ssp_lg_age_gyr : list num) (t_obs : num)
    : res (SSPWeights (list (list num))) :=
    let* age_w := calc_age_weights_from_sfh_table
                    gal_t_table gal_sfr_table ssp_lg_age_gyr t_obs SFR_MIN in
    let* lgmet_w := calc_lgmet_weights_from_lgmet_table
                      gal_t_table gal_lgmet_table gal_lgmet_scatter
                      ssp_lgmet ssp_lg_age_gyr t_obs in
    let w := map (fun row => map2 nmul row age_w) lgmet_w in
    let w := normalize_matrix w in
    Ok {| weights := w; lgmet_weights := lgmet_w; age_weights := age_w |}.

  (** ** stellar_sed.py *)

  (** stellar_sed.py:23-43 [RestSED] *)
  Record RestSED (L : Type) := {
    rest_sed : list num;
    rs_weights : list (list num);
    rs_lgmet_weights : L;
    rs_age_weights : list num
  }.
  Arguments rest_sed {L} _.
  Arguments rs_weights {L} _.
  Arguments rs_lgmet_weights {L} _.
  Arguments rs_age_weights {L} _.

  (** shape (n_met, n_ages, n_wave) of [ssp_flux], as nested lists; the first two axes may
      have length 1 (broadcasting against the weights) *)
  Definition flux_n_wave (ssp_flux : list (list (list num))) : nat :=
    length (hd [] (hd [] ssp_flux)).
  Definition flux_shape_ok (n_met n_ages : nat) (ssp_flux : list (list (list num))) : bool :=
    (fits n_met ssp_flux && fits n_ages (hd [] ssp_flux) &&
     forallb (fun plane => (length plane =? length (hd [] ssp_flux))%nat &&
       forallb (fun spec => (length spec =? flux_n_wave ssp_flux)%nat) plane) ssp_flux)%bool.
  Definition stretch_flux (n_met n_ages : nat) (ssp_flux : list (list (list num)))
    : list (list (list num)) :=
    stretch n_met (map (stretch n_ages) ssp_flux).

  (** stellar_sed.py:115-118 / 198-201: [jnp.sum(ssp_flux * weights, axis=(0, 1))] *)
  Definition sed_unit_mstar (ssp_flux : list (list (list num))) (w : list (list num))
    : list num :=
    map (fun k => vsum (concat (map2 (map2 (fun spec x => at_ spec k * x)) ssp_flux w)))
        (seq 0 (flux_n_wave ssp_flux)).

  (** stellar_sed.py:120-124 / 203-207: stellar mass formed by t_obs *)
  Definition mstar_at_t_obs (gal_t_table gal_sfr_table : list num) (t_obs sfr_min : num)
    : num :=
    let lgt_obs := nlog10 t_obs in
    let lgt_table := map nlog10 gal_t_table in
    let logsm_table := calc_logsm_table_from_sfh_table gal_t_table gal_sfr_table sfr_min in
    let logsm_obs := interp lgt_obs lgt_table logsm_table in
    npow10 logsm_obs.

  (** stellar_sed.py:46-127 [calc_rest_sed_sfh_table_lognormal_mdf] *)
  Definition calc_rest_sed_sfh_table_lognormal_mdf
    (gal_t_table gal_sfr_table : list num) (gal_lgmet gal_lgmet_scatter : num)
    (ssp_lgmet ssp_lg_age_gyr : list num) (ssp_flux : list (list (list num)))
    (t_obs sfr_min : num) : res (RestSED (list num)) :=
    let* sw := calc_ssp_weights_sfh_table_lognormal_mdf gal_t_table gal_sfr_table
                 gal_lgmet gal_lgmet_scatter ssp_lgmet ssp_lg_age_gyr t_obs in
    check (flux_shape_ok (length ssp_lgmet) (length ssp_lg_age_gyr) ssp_flux) ShapeError
      (let mstar_obs := mstar_at_t_obs gal_t_table gal_sfr_table t_obs sfr_min in
       Ok {| rest_sed := map (fun s => s * mstar_obs)
               (sed_unit_mstar (stretch_flux (length ssp_lgmet) (length ssp_lg_age_gyr) ssp_flux)
                  (weights sw));
             rs_weights := weights sw;
             rs_lgmet_weights := lgmet_weights sw;
             rs_age_weights := age_weights sw |}).

  (** stellar_sed.py:130-210 [calc_rest_sed_sfh_table_met_table] *)
  Definition calc_rest_sed_sfh_table_met_table
    (gal_t_table gal_sfr_table gal_lgmet_table : list num) (gal_lgmet_scatter : num)
    (ssp_lgmet ssp_lg_age_gyr : list num) (ssp_flux : list (list (list num)))
    (t_obs sfr_min : num) : res (RestSED (list (list num))) :=
    let* sw := calc_ssp_weights_sfh_table_met_table gal_t_table gal_sfr_table
                 gal_lgmet_table gal_lgmet_scatter ssp_lgmet ssp_lg_age_gyr t_obs in
    check (flux_shape_ok (length ssp_lgmet) (length ssp_lg_age_gyr) ssp_flux) ShapeError
      (let mstar_obs := mstar_at_t_obs gal_t_table gal_sfr_table t_obs sfr_min in
       Ok {| rest_sed := map (fun s => s * mstar_obs)
               (sed_unit_mstar (stretch_flux (length ssp_lgmet) (length ssp_lg_age_gyr) ssp_flux)
                  (weights sw));
             rs_weights := weights sw;
             rs_lgmet_weights := lgmet_weights sw;
             rs_age_weights := age_weights sw |}).
End Sed.
Arguments weights {L} _.
Arguments lgmet_weights {L} _.
Arguments age_weights {L} _.
Arguments rest_sed {L} _.
Arguments rs_weights {L} _.
Arguments rs_lgmet_weights {L} _.
Arguments rs_age_weights {L} _.
