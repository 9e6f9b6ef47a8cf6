(** * Properties C107-C110: the dummy data (data_loaders/retrieve_fake_fsps_data.py).
    Exact real arithmetic.  Random draws and set iteration order are universally quantified. *)
From Coq Require Import Reals List Arith String Ascii ZArith Lra Lia Permutation.
From Verif Require Import Num Arr MUtils MSed MLoaders MFake Spec SpecApi SpecLoad RList LFake LFake2.
Import ListNotations.
Open Scope R_scope.

(** C107 *)
Theorem C107_dummy_line_names : forall n draws order, (1 <= n)%nat -> (forall s, Permutation s (order s)) ->
  (fake_emline_wave_namedtuple n draws order = None <->
     (List.length (nodup string_dec ("XXX"%string :: map random_name draws)) < n)%nat)
  /\ (forall r, fake_emline_wave_namedtuple n draws order = Some r ->
       exists lines, r = Ok lines /\ List.length lines = n
       /\ NoDup (map fst lines) /\ In "XXX"%string (map fst lines)
       /\ (forall name, In name (map fst lines) -> three_capitals name /\ field_name name
             /\ (name = "XXX"%string \/ In name (map random_name draws)))
       /\ (forall i, (i < n)%nat -> at_ (map snd lines) i = Fin (pow10 (3 + 3 * INR i / INR (Nat.max 1 (n - 1)))))).
Proof. exact C107_lemma. Qed.
Print Assumptions C107_dummy_line_names.
Theorem C107_too_many_lines_never_ends : forall n draws order, (26 * 26 * 26 < n)%nat ->
  fake_emline_wave_namedtuple n draws order = None.
Proof. exact C107_never_lemma. Qed.
Print Assumptions C107_too_many_lines_never_ends.
Example C107_nonvacuous :
  fake_emline_wave_namedtuple 3 [(0, 1, 2); (23, 23, 23); (0, 1, 2); (25, 0, 0)]%nat (@rev string)
  = Some (Ok [("ZAA"%string, Fin (pow10 3)); ("ABC"%string, Fin (pow10 4.5)); ("XXX"%string, Fin (pow10 6))])
  /\ fake_emline_wave_namedtuple 3 [(0, 1, 2); (23, 23, 23); (0, 1, 2)]%nat (@rev string) = None.
Proof.
  split; [|reflexivity].
  change (Some (Ok [("ZAA"%string, npow10 (Fin (INR 0) * ((Fin 6 - Fin 3) / Fin (INR (3 - 1))) + Fin 3)%num);
    ("ABC"%string, npow10 (Fin (INR 1) * ((Fin 6 - Fin 3) / Fin (INR (3 - 1))) + Fin 3)%num); ("XXX"%string, npow10 (Fin 6))])
    = Some (Ok [("ZAA"%string, Fin (pow10 3)); ("ABC"%string, Fin (pow10 4.5)); ("XXX"%string, Fin (pow10 6))])).
  simpl INR. rewrite nsub_fin, ndiv_fin, !nmul_fin, !nadd_fin, !npow10_fin by lra. repeat f_equal; lra.
Qed.

(** C108 *)
Theorem C108_dummy_grids : fake_log_age_gyr = fins dummy_ages /\ fake_lgzlegend = fins (map log10 dummy_mets) /\ fake_ssp_wave = fins dummy_waves
  /\ increasing dummy_ages /\ increasing dummy_mets /\ increasing dummy_waves
  /\ nondecreasing (age_edges dummy_ages) /\ nondecreasing (met_edges (map log10 dummy_mets)).
Proof. exact C108_grids_lemma. Qed.
Print Assumptions C108_dummy_grids.
Theorem C108_dummy_weights_are_distributions : forall ts sfrs lgmet scatter t_obs,
  List.length ts = List.length sfrs -> (2 <= List.length ts)%nat -> increasing (0.001 :: ts) ->
  0 < scatter -> ent ts 0 + 0.0003 <= t_obs <= 14 ->
  exists W mw aw,
    calc_ssp_weights_sfh_table_lognormal_mdf (fins ts) (fins sfrs) (Fin lgmet) (Fin scatter)
      fake_lgzlegend fake_log_age_gyr (Fin t_obs)
    = Ok {| weights := map fins W; lgmet_weights := fins mw; age_weights := fins aw |}
    /\ is_matrix 22 94 W /\ distribution mw /\ distribution aw
    /\ (forall i j, (i < 22)%nat -> (j < 94)%nat -> ent2 W i j = ent mw i * ent aw j /\ 0 <= ent2 W i j)
    /\ Rsum2 W = 1.
Proof. exact C108_weights_lemma. Qed.
Print Assumptions C108_dummy_weights_are_distributions.
Example C108_nonvacuous : increasing (0.001 :: [0.1; 5; 13.8]) /\ ent [0.1; 5; 13.8] 0 + 0.0003 <= 13.8 <= 14.
Proof.
  split; [|unfold ent; simpl; lra].
  intros i j H. destruct i as [|[|[|[|]]]], j as [|[|[|[|]]]]; simpl in *; unfold ent; simpl; try lia; lra.
Qed.

(** C109 *)
Theorem C109_dummy_spectra : forall n k c0 c1, (1 <= n)%nat -> is_matrix n k c0 -> is_matrix n k c1 ->
  exists f, fake_spec_ssp (map fins c0) (map fins c1) = Ok (map (map fins) f)
  /\ is_cube n k 1963 f
  /\ forall i j w, (i < n)%nat -> (j < k)%nat -> (w < 1963)%nat ->
     ent3 f i j w = pow10 (ent2 c0 i j + ent2 c1 i j * log10 (ent dummy_waves w))
     /\ 0 < ent3 f i j w.
Proof. exact C109_flux_lemma. Qed.
Print Assumptions C109_dummy_spectra.
Theorem C109_dummy_luminosities : forall n k c0 n_line ul uh shuffle, (1 <= n)%nat -> is_matrix n k c0 -> (1 <= n_line)%nat ->
  (forall i j l, 0 <= ul i j l < 1) -> (forall i j l, 0 <= uh i j l < 1) ->
  (forall i j s, Permutation s (shuffle i j s)) ->
  exists lum, fake_emline_luminosity (map fins c0) n_line (fun i j l => Fin (ul i j l)) (fun i j l => Fin (uh i j l)) shuffle
              = fins3 lum
  /\ is_cube n k n_line lum
  /\ forall i j, (i < n)%nat -> (j < k)%nat ->
     (forall l, (l < n_line)%nat ->
        / 10 ^ 70 * (3.828 * 10 ^ 33) <= ent3 lum i j l < 10 ^ 3 * (3.828 * 10 ^ 33))
     /\ exists l, (l < n_line)%nat /\ 10 ^ 20 < ent3 lum i j l.
Proof. exact C109_lum_lemma. Qed.
Print Assumptions C109_dummy_luminosities.
Theorem C109_dummy_data_assembled : forall n k c0 c1 n_line r, (1 <= n)%nat -> is_matrix n k c0 -> is_matrix n k c1 ->
  (forall s, Permutation s (set_order r s)) ->
  exists flux, fake_spec_ssp (map fins c0) (map fins c1) = Ok (fins3 flux) /\ is_cube n k 1963 flux
  /\ (n_line = 0%nat ->
      load_fake_ssp_data (map fins c0) (map fins c1) n_line r
      = Some (Ok {| ssp_lgmet := D1 (fins (map log10 dummy_mets)); ssp_lg_age_gyr := D1 (fins dummy_ages);
                    ssp_wave := D1 (fins dummy_waves); ssp_flux := D3 (fins3 flux);
                    ssp_emline_wave := None; ssp_emline_luminosity := None |}))
  /\ ((1 <= n_line)%nat ->
      load_fake_ssp_data (map fins c0) (map fins c1) n_line r = None
      \/ exists lines,
         load_fake_ssp_data (map fins c0) (map fins c1) n_line r
         = Some (Ok {| ssp_lgmet := D1 (fins (map log10 dummy_mets)); ssp_lg_age_gyr := D1 (fins dummy_ages);
                       ssp_wave := D1 (fins dummy_waves); ssp_flux := D3 (fins3 flux);
                       ssp_emline_wave := Some lines;
                       ssp_emline_luminosity := Some (fake_emline_luminosity (map fins c0) n_line
                          (low_draws r) (high_draws r) (shuffles r)) |})
         /\ fake_emline_wave_namedtuple n_line (name_draws r) (set_order r) = Some (Ok lines)
         /\ List.length lines = n_line /\ field_names (map fst lines)).
Proof. exact C109_lemma. Qed.
Print Assumptions C109_dummy_data_assembled.
Example C109_nonvacuous : is_matrix 2 3 [[-10; -11; -12]; [-9; -10; -11]] /\ (forall s : list string, Permutation s (rev s)).
Proof. split; [split; [reflexivity|repeat constructor]|intros; apply Permutation_rev]. Qed.

(** C110 *)
Theorem C110_dummy_bands : forall i, (i < 6)%nat -> exists T : R -> R,
  (forall x, nth i lsst_bands (fun _ => NaN) (Fin x) = Fin (T x))
  /\ (forall x, 0 < T x < 0.55)
  /\ (forall x, x <> ent lsst_centres i -> T x < T (ent lsst_centres i)).
Proof. exact C110_lemma. Qed.
Print Assumptions C110_dummy_bands.
Theorem C110_dummy_curves : exists curves,
  load_fake_filter_transmission_curves = (fins dummy_waves, map fins curves)
  /\ is_matrix 6 1963 curves
  /\ forall i, (i < 6)%nat ->
     (forall j, (j < 1963)%nat -> 0 < ent2 curves i j < 0.55
        /\ nth i lsst_bands (fun _ => NaN) (Fin (log10 (ent dummy_waves j))) = Fin (ent2 curves i j))
     /\ validate_transmission (fins (nth i curves [])) = Ok (fins (nth i curves [])).
Proof. exact C110_curves_lemma. Qed.
Print Assumptions C110_dummy_curves.
Theorem C110_dummy_filter_tables : exists waves trans,
  fake_filter_waves = map fins waves /\ fake_filter_trans = map fins trans
  /\ is_matrix 6 1906 waves /\ is_matrix 6 1906 trans
  /\ forall i, (i < 6)%nat -> increasing (nth i waves [])
     /\ forall j, (j < 1906)%nat -> 0 < ent2 waves i j /\ 0 < ent2 trans i j < 0.55
        /\ nth i lsst_bands (fun _ => NaN) (Fin (log10 (ent2 waves i j))) = Fin (ent2 trans i j).
Proof. exact C110_tables_lemma. Qed.
Print Assumptions C110_dummy_filter_tables.
