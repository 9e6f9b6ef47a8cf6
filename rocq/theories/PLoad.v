(** * Properties C82-C92, C104-C106: data loaders (dsps/data_loaders, scripts/write_fsps_data_to_disk.py).
    Any arithmetic, except C84-C86, C88, C89, the second part of C104 and C106 (exact real arithmetic). *)
From Coq Require Import Reals List Arith String Ascii ZArith Lra Lia.
From Verif Require Import Num Arr MUtils MLoaders EmlinesDat Spec SpecLoad RList LLoad LLoad2 LLoad3 LLoad4 LLoad5.
Import ListNotations.
Local Open Scope string_scope.
Open Scope R_scope.

(** example data used below *)
Definition demo_ssp : SSPData := {|
  ssp_lgmet := D1 (fins [-2; -1]); ssp_lg_age_gyr := D1 (fins [0; 1]); ssp_wave := D1 (fins [100; 200]);
  ssp_flux := D3 [[fins [1; 2]; fins [3; 4]]; [fins [5; 6]; fins [7; 8]]];
  ssp_emline_wave := Some [("Ba_alpha_6563"%string, Fin 6563); ("Ba_beta_4861"%string, Fin 4861)];
  ssp_emline_luminosity := Some [[fins [1; 2]; fins [3; 4]]; [fins [5; 6]; fins [7; 8]]] |}.
Lemma demo_names : field_names (map fst [("Ba_alpha_6563"%string, Fin 6563); ("Ba_beta_4861"%string, Fin 4861)]).
Proof.
  split; [apply no_duplicates_spec; reflexivity|]. repeat constructor; apply valid_field_spec; reflexivity.
Qed.
Definition demo_plain : SSPData := {|
  ssp_lgmet := D1 (fins [-2]); ssp_lg_age_gyr := D1 (fins [0]); ssp_wave := D1 (fins [100]); ssp_flux := D3 [[fins [1]]];
  ssp_emline_wave := None; ssp_emline_luminosity := None |}.

(** C82: which file is opened *)
Theorem C82_template_file_precedence {AR : Arith} : forall w fake bn,
  (forall fn drn, load_ssp_templates w fake fn drn bn true = Ok fake)
  /\ (forall f drn w' drn' bn', isfile w' f = isfile w f -> h5open w' f = h5open w f ->
        load_ssp_templates w' fake (Some f) drn' bn' false = load_ssp_templates w fake (Some f) drn bn false)
  /\ (forall d, load_ssp_templates w fake None (Some d) bn false
        = load_ssp_templates w fake (Some (os_path_join d bn)) None bn false)
  /\ (forall d, env_DSPS_DRN w = Some d ->
        load_ssp_templates w fake None None bn false = load_ssp_templates w fake None (Some d) bn false)
  /\ (env_DSPS_DRN w = None -> load_ssp_templates w fake None None bn false = Raise ValueError)
  /\ (forall f drn, isfile w f = false -> load_ssp_templates w fake (Some f) drn bn false = Raise AssertionError)
  /\ (forall f drn d, load_ssp_templates w fake (Some f) drn bn false = Ok d ->
        isfile w f = true /\ exists hdf, h5open w f = Some hdf
        /\ hdf "ssp_lgmet" = Some (ssp_lgmet d) /\ hdf "ssp_lg_age_gyr" = Some (ssp_lg_age_gyr d)
        /\ hdf "ssp_wave" = Some (ssp_wave d) /\ hdf "ssp_flux" = Some (ssp_flux d)
        /\ (hdf "ssp_emline_name" = None <-> ssp_emline_wave d = None)).
Proof. exact C82_lemma. Qed.
Print Assumptions C82_template_file_precedence.
Theorem C82_path_join : (forall a b, os_path_join a ("/" ++ b) = "/" ++ b)
  /\ (forall a b, is_abs b = false -> os_path_join (a ++ "/") b = a ++ "/" ++ b)
  /\ (forall a b, is_abs b = false -> a <> "" -> (forall a', a <> a' ++ "/") -> os_path_join a b = a ++ "/" ++ b)
  /\ (forall b, os_path_join "" b = b).
Proof. exact join_lemma. Qed.
Print Assumptions C82_path_join.
Example C82_nonvacuous : load_ssp_templates (one_file "/data/ssp.h5" (fst (write_ssp_data demo_plain))) demo_ssp None (Some "/data"%string) "ssp.h5" false
  = Ok demo_plain.
Proof. reflexivity. Qed.

(** C83: which transmission curve is opened *)
Theorem C83_unique_filter_file {AR : Arith} : forall w,
  (forall f bn_pat drn w' bn_pat' drn', isfile w' f = isfile w f -> h5open w' f = h5open w f ->
     load_transmission_curve w' (Some f) bn_pat' drn' = load_transmission_curve w (Some f) bn_pat drn)
  /\ (forall bn_pat drn tc, load_transmission_curve w None bn_pat drn = Ok tc ->
       exists d pat f, bn_pat = Some pat
         /\ (drn = Some d \/ drn = None /\ exists e, env_DSPS_DRN w = Some e /\ d = os_path_join e "filters" /\ isdir w d = true)
         /\ glob w (os_path_join d pat) = [f] /\ load_transmission_curve w (Some f) None None = Ok tc)
  /\ (forall pat d, (glob w (os_path_join d pat) = [] \/ exists f g l, glob w (os_path_join d pat) = f :: g :: l) ->
       load_transmission_curve w None (Some pat) (Some d) = Raise AssertionError)
  /\ (forall pat d f, glob w (os_path_join d pat) = [f] ->
       load_transmission_curve w None (Some pat) (Some d) = load_transmission_curve w (Some f) None None)
  /\ (forall pat e, env_DSPS_DRN w = Some e -> isdir w (os_path_join e "filters") = true ->
       load_transmission_curve w None (Some pat) None = load_transmission_curve w None (Some pat) (Some (os_path_join e "filters")))
  /\ (forall pat, env_DSPS_DRN w = None -> load_transmission_curve w None pat None = Raise ValueError)
  /\ (forall f bn_pat drn, isfile w f = false -> load_transmission_curve w (Some f) bn_pat drn = Raise AssertionError).
Proof. exact C83_lemma. Qed.
Print Assumptions C83_unique_filter_file.
Example C83_nonvacuous : load_transmission_curve {| env_DSPS_DRN := Some "/d"%string; isfile := fun _ => true; isdir := fun _ => true;
    glob := fun p => if String.eqb p "/d/filters/r*" then ["/d/filters/r.h5"%string] else [];
    h5open := fun p => if String.eqb p "/d/filters/r.h5"
      then Some (h5set (h5set h5empty "wave" (D1 (fins [1]))) "transmission" (D1 [PInf; NaN])) else None |}
    None (Some "r*"%string) None = Ok {| tc_wave := D1 (fins [1]); tc_transmission := [Fin 1; NaN] |}.
Proof.
  cbn. unfold validate_transmission, vmin. cbn. unfold nclip, nmin, nmax. cbn.
  reflexivity.
Qed.

(** C84: values of a loaded curve *)
Theorem C84_transmission_in_unit_interval : forall w f hdf wave t,
  isfile w f = true -> h5open w f = Some hdf -> hdf "wave"%string = Some wave ->
  hdf "transmission"%string = Some (D1 (fins t)) -> t <> [] ->
  ((exists x, In x t /\ x < -0.01) -> load_transmission_curve w (Some f) None None = Raise ValueError)
  /\ ((forall x, In x t -> -0.01 <= x) -> (exists x, In x t /\ x <= 1.01) ->
      exists t', load_transmission_curve w (Some f) None None = Ok {| tc_wave := wave; tc_transmission := fins t' |}
      /\ List.length t' = List.length t
      /\ forall i, (i < List.length t)%nat -> 0 <= ent t' i <= 1
         /\ (0 <= ent t i <= 1 -> ent t' i = ent t i) /\ (ent t i < 0 -> ent t' i = 0) /\ (1 < ent t i -> ent t' i = 1)).
Proof. exact C84_lemma. Qed.
Print Assumptions C84_transmission_in_unit_interval.
Theorem C84_any_arithmetic {AR : Arith} : forall w fn bn_pat drn tc, load_transmission_curve w fn bn_pat drn = Ok tc ->
  forall x, In x (tc_transmission tc) -> x = NaN \/ exists r, x = Fin r /\ 0 <= r <= 1.
Proof. exact C84_any_lemma. Qed.
Print Assumptions C84_any_arithmetic.
Example C84_nonvacuous : let hdf := h5set (h5set h5empty "wave" (D1 (fins [1; 2; 3]))) "transmission" (D1 (fins [-0.005; 0.5; 1.5])) in
  exists t', load_transmission_curve (one_file "f" hdf) (Some "f"%string) None None = Ok {| tc_wave := D1 (fins [1; 2; 3]); tc_transmission := fins t' |}
  /\ ent t' 0 = 0 /\ ent t' 1 = 0.5 /\ ent t' 2 = 1.
Proof.
  intros hdf. destruct (C84_transmission_in_unit_interval (one_file "f" hdf) "f" hdf (D1 (fins [1; 2; 3])) [-0.005; 0.5; 1.5]) as [_ H];
    try reflexivity; [discriminate|].
  destruct H as (t' & E & L & V); [intros x [<-|[<-|[<-|[]]]]; lra|exists 0.5; split; [right; now left|lra]|].
  exists t'. split; auto. unfold ent in V. repeat split.
  - apply (V 0%nat); [cbn; lia|cbn; lra].
  - apply (V 1%nat); [cbn; lia|cbn; lra].
  - apply (V 2%nat); [cbn; lia|cbn; lra].
Qed.

(** C85: the check against curves above unity looks at the minimum *)
Theorem C85_excess_transmission_refuted : ~ (forall w f hdf wave t,
  isfile w f = true -> h5open w f = Some hdf -> hdf "wave"%string = Some wave ->
  hdf "transmission"%string = Some (D1 (fins t)) -> t <> [] -> (exists x, In x t /\ 1.01 < x) ->
  load_transmission_curve w (Some f) None None = Raise ValueError).
Proof. exact C85_refuted_lemma. Qed.
Print Assumptions C85_excess_transmission_refuted.
Theorem C85_excess_check_needs_all_values : forall w f hdf wave t,
  isfile w f = true -> h5open w f = Some hdf -> hdf "wave"%string = Some wave ->
  hdf "transmission"%string = Some (D1 (fins t)) -> t <> [] -> (forall x, In x t -> -0.01 <= x) ->
  (load_transmission_curve w (Some f) None None = Raise ValueError <-> forall x, In x t -> 1.01 < x).
Proof. exact C85_iff_lemma. Qed.
Print Assumptions C85_excess_check_needs_all_values.

(** C86: random curves *)
Theorem C86_random_curve : forall draw lo hi scale, 0 < scale ->
  (forall c, c <= lo \/ hi <= c ->
     load_random_transmission_curve (Fin draw) (Some (Fin c)) (Fin lo) (Fin hi) (Fin scale) = Raise AssertionError)
  /\ (forall c, lo < c < hi -> exists wave trans,
       load_random_transmission_curve (Fin draw) (Some (Fin c)) (Fin lo) (Fin hi) (Fin scale)
         = Ok {| tc_wave := D1 (fins wave); tc_transmission := fins trans |}
       /\ List.length wave = 200%nat /\ List.length trans = 200%nat
       /\ (forall i, (i < 200)%nat -> ent wave i = lo + INR i / 199 * (hi - lo))
       /\ (forall i, (i < 200)%nat -> 0 < ent trans i <= 1)
       /\ (exists i, (i < 200)%nat /\ ent trans i = 1)
       /\ (forall i j, (i < 200)%nat -> (j < 200)%nat ->
             ent trans i = ent trans j * exp (((ent wave j - c) ^ 2 - (ent wave i - c) ^ 2) / (2 * scale ^ 2))))
  /\ (0 <= draw < 1 -> lo + 4 * scale <= hi ->
       load_random_transmission_curve (Fin draw) None (Fin lo) (Fin hi) (Fin scale)
       = load_random_transmission_curve (Fin draw)
           (Some (Fin (lo + 2 * scale + draw * (hi - lo - 4 * scale)))) (Fin lo) (Fin hi) (Fin scale)).
Proof. exact C86_lemma. Qed.
Print Assumptions C86_random_curve.
Theorem C86_narrow_range_centre_outside : forall draw lo hi scale, 0 < scale -> 0 <= draw < 1 -> lo < hi -> hi < lo + 2 * scale -> exists wave trans,
  load_random_transmission_curve (Fin draw) None (Fin lo) (Fin hi) (Fin scale)
    = Ok {| tc_wave := D1 (fins wave); tc_transmission := fins trans |}
  /\ List.length wave = 200%nat /\ List.length trans = 200%nat
  /\ ent wave 199 = hi /\ ent trans 199 = 1 /\ (forall i, (i < 199)%nat -> ent trans i < ent trans (S i)).
Proof. exact C86_narrow_lemma. Qed.
Print Assumptions C86_narrow_range_centre_outside.
Example C86_nonvacuous : exists c, 1000 < c < 10000 /\ load_random_transmission_curve (Fin 0.5) None (Fin 1000) (Fin 10000) (Fin 300)
  = load_random_transmission_curve (Fin 0.5) (Some (Fin c)) (Fin 1000) (Fin 10000) (Fin 300).
Proof.
  eexists. split; [|apply C86_random_curve; lra]. lra.
Qed.

(** C87: subsets of emission lines *)
Theorem C87_subset {AR : Arith} : forall d lines lum names,
  ssp_emline_wave d = Some lines -> ssp_emline_luminosity d = Some lum ->
  field_names (map fst lines) -> rows_of_length (List.length lines) lum ->
  names <> [] -> NoDup names -> incl names (map fst lines) ->
  exists lines' lum',
    get_subset_emline_data d names = Ok {| ssp_lgmet := ssp_lgmet d; ssp_lg_age_gyr := ssp_lg_age_gyr d;
      ssp_wave := ssp_wave d; ssp_flux := ssp_flux d;
      ssp_emline_wave := Some lines'; ssp_emline_luminosity := Some lum' |}
    /\ map fst lines' = names
    /\ incl lines' lines
    /\ same_rows lum' lum /\ rows_of_length (List.length names) lum'
    /\ (forall k j name, nth_error names k = Some name -> nth_error (map fst lines) j = Some name ->
          forall a b, cube_at lum' a b k = cube_at lum a b j).
Proof. exact C87_lemma. Qed.
Print Assumptions C87_subset.
Theorem C87_subset_raises {AR : Arith} : forall d,
  get_subset_emline_data d [] = Raise IndexError
  /\ (forall lines names, ssp_emline_wave d = Some lines -> names <> [] ->
       (~ incl names (map fst lines) \/ ~ NoDup names) -> get_subset_emline_data d names = Raise ValueError)
  /\ (forall names, names <> [] -> ssp_emline_wave d = None -> get_subset_emline_data d names = Raise AttributeError).
Proof. exact C87_raise_lemma. Qed.
Print Assumptions C87_subset_raises.
Theorem C87_subset_of_subset {AR : Arith} : forall d lines lum names names' d',
  ssp_emline_wave d = Some lines -> ssp_emline_luminosity d = Some lum ->
  field_names (map fst lines) -> rows_of_length (List.length lines) lum ->
  get_subset_emline_data d names = Ok d' -> names' <> [] -> NoDup names' -> incl names' names ->
  get_subset_emline_data d' names' = get_subset_emline_data d names'.
Proof. exact C87_compose_lemma. Qed.
Print Assumptions C87_subset_of_subset.
Example C87_nonvacuous : exists d', get_subset_emline_data demo_ssp ["Ba_beta_4861"%string] = Ok d'
  /\ ssp_emline_wave d' = Some [("Ba_beta_4861"%string, Fin 4861)]
  /\ ssp_emline_luminosity d' = Some [[fins [2]; fins [4]]; [fins [6]; fins [8]]].
Proof. eexists. split; [reflexivity|split; reflexivity]. Qed.
Example C87_demo_hypotheses : field_names (map fst [("Ba_alpha_6563"%string, Fin 6563); ("Ba_beta_4861"%string, Fin 4861)])
  /\ rows_of_length 2 [[fins [1; 2]; fins [3; 4]]; [fins [5; 6]; fins [7; 8]]].
Proof.
  split; [exact demo_names|]. intros m r [<-|[<-|[]]] [<-|[<-|[]]]; reflexivity.
Qed.

(** C88: names of the shipped lines *)
Theorem C88_shipped_names : (forall s, sanitize_read s = clean s /\ sanitize_retrieve s = clean s)
  /\ (forall parse, reads_decimals parse -> exists names waves,
        read_emlines_info_fsps parse emlines_info_dat = Ok (combine names (fins waves), fins waves)
        /\ List.length names = 166%nat /\ List.length waves = 166%nat /\ field_names names
        /\ forall i, (i < 166)%nat -> exists numeral name x, nth_error emlines_info_dat i = Some (numeral ++ "," ++ name)%string
             /\ nth_error names i = Some (clean name) /\ decimal numeral = Some x /\ Rabs (ent waves i - x) <= x / 10 ^ 7).
Proof. exact C88_lemma. Qed.
Print Assumptions C88_shipped_names.
Example C88_nonvacuous : exists parse, reads_decimals parse.
Proof. exists exact_float. exact exact_float_reads. Qed.

(** C89: matching wavelengths to names *)
Theorem C89_match_iff_unique : forall refs names x,
  List.length refs = List.length names ->
  (forall i, (close_to refs x i /\ forall j, close_to refs x j -> j = i) ->
     exists n, nth_error names i = Some n /\ get_matched_emline_name (fins refs) names (Fin x) = n)
  /\ (~ (exists i, close_to refs x i /\ forall j, close_to refs x j -> j = i) ->
     get_matched_emline_name (fins refs) names (Fin x) = ""%string).
Proof. exact C89_match. Qed.
Print Assumptions C89_match_iff_unique.
Theorem C89_unmatched_raises : forall refs names waves x, List.length refs = List.length names -> In x waves ->
  ~ (exists i, close_to refs x i /\ forall j, close_to refs x j -> j = i) ->
  get_emline_wave_namedtuple (fins refs) names (fins waves) = Raise ValueError.
Proof. exact C89_unmatched_lemma. Qed.
Print Assumptions C89_unmatched_raises.
Theorem C89_shipped_lines_recognised : forall parse, reads_decimals parse -> exists refs names,
  get_fsps_emline_info parse emlines_info_dat = Ok (fins refs, names)
  /\ forall waves, List.length waves = 166%nat ->
      (forall i, (i < 166)%nat -> exists numeral name x, nth_error emlines_info_dat i = Some (numeral ++ "," ++ name)%string
         /\ decimal numeral = Some x /\ Rabs (ent waves i - x) <= x * 5 / 10 ^ 7) ->
      exists lines, get_emline_wave_namedtuple (fins refs) names (fins waves) = Ok lines
        /\ List.length lines = 166%nat
        /\ forall i, (i < 166)%nat -> exists numeral name, nth_error emlines_info_dat i = Some (numeral ++ "," ++ name)%string
             /\ no_comma numeral /\ nth_error lines i = Some (clean name, Fin (ent waves i)).
Proof. exact C89_shipped_lemma. Qed.
Print Assumptions C89_shipped_lines_recognised.
Example C89_nonvacuous : get_matched_emline_name (fins [4861; 6563]) ["Hb"%string; "Ha"%string] (Fin 6563.001) = "Ha"%string
  /\ get_matched_emline_name (fins [4861; 6563]) ["Hb"%string; "Ha"%string] (Fin 6564) = ""%string.
Proof.
  split.
  - destruct (C89_match_iff_unique [4861; 6563] ["Hb"%string; "Ha"%string] 6563.001 eq_refl) as [H _].
    destruct (H 1%nat) as (n & E & Kn); [|rewrite Kn; cbn in E; congruence]. unfold close_to, ent. split.
    + cbn. split; [lia|]. rewrite (Rabs_right 6563.001) by lra. apply Rabs_le. lra.
    + intros [|[|j]] [L K]; auto; [|cbn in L; lia]. exfalso. cbn in K. rewrite (Rabs_right 6563.001) in K by lra.
      unfold Rabs in K. destruct (Rcase_abs _); lra.
  - apply C89_match_iff_unique; [reflexivity|]. intros ([|[|i]] & [L K] & _); [| |cbn in L; lia];
      unfold ent in K; cbn in K; rewrite (Rabs_right 6564) in K by lra; unfold Rabs in K; destruct (Rcase_abs _); lra.
Qed.

(** C90: writing then loading *)
Theorem C90_write_then_load {AR : Arith} : forall d lines lum,
  ssp_emline_wave d = Some lines -> ssp_emline_luminosity d = Some lum -> field_names (map fst lines) ->
  exists file, write_ssp_data d = (file, None)
  /\ (forall fake w path drn bn, isfile w path = true -> h5open w path = Some file ->
      load_ssp_templates w fake (Some path) drn bn false
      = Ok {| ssp_lgmet := ssp_lgmet d; ssp_lg_age_gyr := ssp_lg_age_gyr d; ssp_wave := ssp_wave d; ssp_flux := ssp_flux d;
              ssp_emline_wave := Some lines;
              ssp_emline_luminosity := Some (map (map (map (fun x => nmul x (lit (3.828 * 10 ^ 33)%R)))) lum) |}).
Proof. exact C90_lemma. Qed.
Print Assumptions C90_write_then_load.
Example C90_nonvacuous : exists file d', write_ssp_data demo_ssp = (file, None)
  /\ load_ssp_templates (one_file "f" file) demo_plain (Some "f"%string) None "" false = Ok d'
  /\ ssp_emline_wave d' = ssp_emline_wave demo_ssp.
Proof.
  edestruct (C90_write_then_load demo_ssp) as (file & E & L); [reflexivity|reflexivity|exact demo_names|].
  exists file. eexists. split; [exact E|]. split; [apply L; reflexivity|reflexivity].
Qed.

(** C91: the script without emission lines *)
Theorem C91_script_fails_without_lines {AR : Arith} : forall d, ssp_emline_wave d = None -> ssp_emline_luminosity d = None ->
  exists file, write_ssp_data d = (file, Some AttributeError)
  /\ (forall fake w path drn bn, isfile w path = true -> h5open w path = Some file -> load_ssp_templates w fake (Some path) drn bn false = Ok d).
Proof. exact C91_lemma. Qed.
Print Assumptions C91_script_fails_without_lines.
Example C91_nonvacuous : snd (write_ssp_data demo_plain) = Some AttributeError.
Proof. reflexivity. Qed.

(** C92: malformed line tables *)
Theorem C92_malformed_lines_refused {AR : Arith} : forall w fake path drn bn hdf names waves,
  h5open w path = Some hdf -> hdf "ssp_emline_name"%string = Some (DS names) -> hdf "ssp_emline_wave"%string = Some (D1 waves) ->
  (~ field_names names \/ List.length waves <> List.length names) ->
  forall d, load_ssp_templates w fake (Some path) drn bn false <> Ok d.
Proof. exact C92_lemma. Qed.
Print Assumptions C92_malformed_lines_refused.
Theorem C92_errors {AR : Arith} : forall w fake path drn bn hdf names waves lgmet lgage wave flux lum,
  isfile w path = true -> h5open w path = Some hdf ->
  hdf "ssp_lgmet"%string = Some lgmet -> hdf "ssp_lg_age_gyr"%string = Some lgage -> hdf "ssp_wave"%string = Some wave ->
  hdf "ssp_flux"%string = Some flux -> hdf "ssp_emline_name"%string = Some (DS names) ->
  hdf "ssp_emline_wave"%string = Some (D1 waves) -> hdf "ssp_emline_luminosity"%string = Some (D3 lum) ->
  (~ field_names names -> load_ssp_templates w fake (Some path) drn bn false = Raise ValueError)
  /\ (field_names names -> List.length waves <> List.length names ->
      load_ssp_templates w fake (Some path) drn bn false = Raise TypeError).
Proof. exact C92_errors_lemma. Qed.
Print Assumptions C92_errors.
Theorem C92_missing_dataset {AR : Arith} : forall w fake path drn bn hdf k,
  isfile w path = true -> h5open w path = Some hdf ->
  In k ["ssp_lgmet"; "ssp_lg_age_gyr"; "ssp_wave"; "ssp_flux"]%string -> hdf k = None ->
  load_ssp_templates w fake (Some path) drn bn false = Raise KeyError.
Proof. exact C92_missing_lemma. Qed.
Print Assumptions C92_missing_dataset.
Example C92_nonvacuous : ~ field_names ["Ha"%string; "Ha"%string] /\ ~ field_names ["4861"%string] /\ ~ field_names ["lambda"%string].
Proof.
  split; [|split]; intros [N F].
  - apply no_duplicates_spec in N. discriminate.
  - rewrite Forall_forall in F. specialize (F _ (or_introl eq_refl)). apply valid_field_spec in F. discriminate.
  - rewrite Forall_forall in F. specialize (F _ (or_introl eq_refl)). apply valid_field_spec in F. discriminate.
Qed.

(** C104: data from python-fsps *)
Theorem C104_retrieve_assembles : forall (AR : Arith) f ref_wave ref_name lines,
  let n := List.length (sp_zlegend f) in
  n <> 0%nat -> (forall i, (i <= n)%nat -> exists e, sp_emline f i = Some e) ->
  get_emline_wave_namedtuple ref_wave ref_name (sp_emline_wavelengths f) = Ok lines ->
  exists d flux lum, retrieve_ssp_data_from_fsps true f ref_wave ref_name = Ok d
  /\ ssp_lgmet d = D1 (map nlog10 (sp_zlegend f))
  /\ ssp_lg_age_gyr d = D1 (map (fun x => nsub x (Fin 9)) (sp_log_age f))
  /\ ssp_wave d = D1 (fst (sp_spectrum f n))
  /\ ssp_flux d = D3 flux /\ List.length flux = n
  /\ (forall i, (i < n)%nat -> nth_error flux i = Some (snd (sp_spectrum f (i + 1))))
  /\ ssp_emline_wave d = Some lines /\ map snd lines = sp_emline_wavelengths f /\ field_names (map fst lines)
  /\ ssp_emline_luminosity d = Some lum /\ List.length lum = n
  /\ (forall i, (i < n)%nat -> nth_error lum i = sp_emline f (i + 1)).
Proof. exact C104_lines_lemma. Qed.
Print Assumptions C104_retrieve_assembles.
Theorem C104_retrieve_without_lines : forall (AR : Arith) f ref_wave ref_name,
  let n := List.length (sp_zlegend f) in
  n <> 0%nat -> (forall i, (i <= n)%nat -> sp_emline f i = None) ->
  exists d flux, retrieve_ssp_data_from_fsps true f ref_wave ref_name = Ok d
  /\ ssp_lgmet d = D1 (map nlog10 (sp_zlegend f))
  /\ ssp_lg_age_gyr d = D1 (map (fun x => nsub x (Fin 9)) (sp_log_age f))
  /\ ssp_wave d = D1 (fst (sp_spectrum f n))
  /\ ssp_flux d = D3 flux /\ List.length flux = n
  /\ (forall i, (i < n)%nat -> nth_error flux i = Some (snd (sp_spectrum f (i + 1))))
  /\ ssp_emline_wave d = None /\ ssp_emline_luminosity d = None.
Proof. exact C104_plain_lemma. Qed.
Print Assumptions C104_retrieve_without_lines.
Theorem C104_retrieve_errors : forall (AR : Arith) f ref_wave ref_name,
  let n := List.length (sp_zlegend f) in
  retrieve_ssp_data_from_fsps false f ref_wave ref_name = Raise AssertionError
  /\ (n = 0%nat -> retrieve_ssp_data_from_fsps true f ref_wave ref_name = Raise UnboundLocalError)
  /\ (sp_emline f 0 = None -> (exists i e, (1 <= i <= n)%nat /\ sp_emline f i = Some e) ->
      retrieve_ssp_data_from_fsps true f ref_wave ref_name = Raise UnboundLocalError)
  /\ (n <> 0%nat -> (forall i, (i <= n)%nat -> exists e, sp_emline f i = Some e) ->
      forall e, get_emline_wave_namedtuple ref_wave ref_name (sp_emline_wavelengths f) = Raise e ->
      retrieve_ssp_data_from_fsps true f ref_wave ref_name = Raise e).
Proof. exact C104_raises_lemma. Qed.
Print Assumptions C104_retrieve_errors.
Theorem C104_fsps_to_user : forall parse f waves, reads_decimals parse ->
  let n := List.length (sp_zlegend f) in
  n <> 0%nat -> (forall i, (i <= n)%nat -> exists e, sp_emline f i = Some e) ->
  sp_emline_wavelengths f = fins waves -> List.length waves = 166%nat ->
  (forall i, (i < 166)%nat -> exists numeral name x, nth_error emlines_info_dat i = Some (numeral ++ "," ++ name)%string
     /\ decimal numeral = Some x /\ (Rabs (ent waves i - x) <= x * 5 / 10 ^ 7)%R) ->
  exists refs names d file, get_fsps_emline_info parse emlines_info_dat = Ok (refs, names)
  /\ retrieve_ssp_data_from_fsps true f refs names = Ok d
  /\ write_ssp_data d = (file, None)
  /\ forall fake w path drn bn, isfile w path = true -> h5open w path = Some file ->
     exists d', load_ssp_templates w fake (Some path) drn bn false = Ok d'
     /\ ssp_lgmet d' = D1 (map nlog10 (sp_zlegend f))
     /\ ssp_lg_age_gyr d' = D1 (map (fun x => nsub x (Fin 9)) (sp_log_age f))
     /\ ssp_wave d' = D1 (fst (sp_spectrum f n))
     /\ (exists flux, ssp_flux d' = D3 flux /\ List.length flux = n
         /\ forall i, (i < n)%nat -> nth_error flux i = Some (snd (sp_spectrum f (i + 1))))
     /\ (exists lines, ssp_emline_wave d' = Some lines /\ List.length lines = 166%nat
         /\ forall i, (i < 166)%nat -> exists numeral name,
              nth_error emlines_info_dat i = Some (numeral ++ "," ++ name)%string
              /\ no_comma numeral /\ nth_error lines i = Some (clean name, Fin (ent waves i)))
     /\ (exists lum, ssp_emline_luminosity d' = Some lum /\ List.length lum = n
         /\ forall i, (i < n)%nat -> exists e, sp_emline f (i + 1) = Some e
              /\ nth_error lum i = Some (map (map (fun x => nmul x (Fin (3.828 * 10 ^ 33)))) e)).
Proof. exact C104_pipeline_lemma. Qed.
Print Assumptions C104_fsps_to_user.
Definition demo_fsps (waves : list num) : Fsps := {|
  sp_zlegend := fins [0.001; 0.02]; sp_log_age := fins [6; 8; 10];
  sp_spectrum := fun i => (fins [100; 200], [fins [INR i; 1]; fins [2; INR i]; fins [3; 3]]);
  sp_emline := fun i => Some [repeat (Fin (INR i)) 166; repeat (Fin 1) 166; repeat (Fin 2) 166];
  sp_emline_wavelengths := waves |}.
(** a reader of decimals, and 166 wavelengths that meet the hypotheses of [C104_fsps_to_user] *)
Definition exact_reader (s : string) : res num := match decimal s with Some x => Ok (Fin x) | None => Raise ValueError end.
Example C104_nonvacuous : reads_decimals exact_reader
  /\ exists waves, List.length waves = 166%nat /\ sp_emline_wavelengths (demo_fsps (fins waves)) = fins waves
  /\ (forall i, (i < 166)%nat -> exists numeral name x, nth_error emlines_info_dat i = Some (numeral ++ "," ++ name)%string
       /\ decimal numeral = Some x /\ Rabs (ent waves i - x) <= x * 5 / 10 ^ 7)
  /\ (forall i, (i <= 2)%nat -> exists e, sp_emline (demo_fsps (fins waves)) i = Some e).
Proof.
  assert (R : reads_decimals exact_reader).
  { intros s x E. exists x. unfold exact_reader. rewrite E. split; [reflexivity|].
    rewrite Rminus_diag_eq, Rabs_R0 by reflexivity. apply Rmult_le_pos.
    - unfold decimal in E. destruct (decimal_parts s) as [[m k]|] eqn:P; [|discriminate]. injection E as <-.
      apply Rmult_le_pos; [|left; apply Rinv_0_lt_compat, pow_lt; lra]. apply IZR_le.
      assert (G : forall s m k m' k', decimal_aux s m k = Some (m', k') -> (0 <= m)%Z -> (0 <= m')%Z).
      { clear. induction s as [|c s IH]; cbn [decimal_aux]; intros m k m' k' E Hm; [injection E; intros; lia|].
        destruct (digit_of c) eqn:D.
        - eapply IH; [exact E|]. unfold digit_of in D. destruct (_ && _)%bool; [|discriminate]. injection D as <-. apply Z.add_nonneg_nonneg; [lia|apply Nat2Z.is_nonneg].
        - destruct (Ascii.eqb c "."); [|discriminate]. destruct k; [discriminate|]. eapply IH; eauto. }
      unfold decimal_parts in P. destruct s; [discriminate|]. destruct (digit_of a); [|discriminate].
      eapply G; [exact P|lia].
    - left. apply Rinv_0_lt_compat, pow_lt. lra. }
  split; [exact R|].
  destruct (reads_shipped _ R) as (ws & A & B & C). exists ws. split; [exact B|]. split; [reflexivity|]. split.
  - intros i Hi. destruct (nth_error shipped i) as [q|] eqn:E.
    2:{ apply nth_error_None in E. rewrite shipped_length in E. lia. }
    destruct (shipped_decimal i q E) as [D P]. exists (fst q), (snd q), (ent shipped_waves i).
    split; [rewrite shipped_lines, nth_error_map', E; reflexivity|]. split; [exact D|].
    pose proof (C i Hi) as Ci. set (x := ent shipped_waves i) in *. clearbody x.
    eapply Rle_trans; [exact Ci|]. unfold Rdiv. rewrite Rmult_assoc. apply Rmult_le_compat_l; [lra|].
    assert (0 < / 10 ^ 7) by (apply Rinv_0_lt_compat, pow_lt; lra). lra.
  - intros i _. eexists. reflexivity.
Qed.

(** C105: the dictionary of emission lines *)
Theorem C105_line_dictionary : forall (AR : Arith) parse lines pairs, Forall2 (line_gives parse) lines pairs ->
  exists d, read_emlines_info_fsps parse lines = Ok (d, map snd pairs)
  /\ map fst d = rev (nodup string_dec (rev (map fst pairs)))
  /\ (forall k v, In (k, v) d <->
        exists pre post, pairs = (pre ++ (k, v) :: post)%list /\ ~ In k (map fst post)).
Proof. exact C105_lemma. Qed.
Print Assumptions C105_line_dictionary.
Theorem C105_malformed_line_raises : forall (AR : Arith) parse lines pairs line rest, Forall2 (line_gives parse) lines pairs ->
  (forall numeral name, line = (numeral ++ "," ++ name) -> no_comma numeral -> ~ no_comma name) ->
  read_emlines_info_fsps parse (lines ++ line :: rest) = Raise ValueError.
Proof. exact C105_malformed_lemma. Qed.
Print Assumptions C105_malformed_line_raises.
Example C105_nonvacuous : exists d,
  read_emlines_info_fsps exact_reader ["6563,Ba-alpha"; "4861.3,Ba-beta"; "6562.8,Ba-alpha"]%string
  = Ok (d, fins [6563; 4861.3; 6562.8]) /\ map fst d = ["Ba_alpha"; "Ba_beta"]%string /\ In ("Ba_alpha"%string, Fin 6562.8) d.
Proof.
  destruct (C105_line_dictionary _ exact_reader ["6563,Ba-alpha"; "4861.3,Ba-beta"; "6562.8,Ba-alpha"]%string
    [("Ba_alpha"%string, Fin 6563); ("Ba_beta"%string, Fin 4861.3); ("Ba_alpha"%string, Fin 6562.8)]) as (d & E & K & L).
  - constructor; [|constructor; [|constructor; [|constructor]]].
    + exists "6563"%string, "Ba-alpha"%string. split; [reflexivity|]. split; [|split; [|split; [|reflexivity]]].
      * intros H; cbn in H; repeat (destruct H as [H|H]; [discriminate|]); exact H.
      * intros H; cbn in H; repeat (destruct H as [H|H]; [discriminate|]); exact H.
      * unfold exact_reader. change (decimal "6563") with (Some (IZR 6563 / 10 ^ 0)). cbn [snd]. do 2 f_equal. lra.
    + exists "4861.3"%string, "Ba-beta"%string. split; [reflexivity|]. split; [|split; [|split; [|reflexivity]]].
      * intros H; cbn in H; repeat (destruct H as [H|H]; [discriminate|]); exact H.
      * intros H; cbn in H; repeat (destruct H as [H|H]; [discriminate|]); exact H.
      * unfold exact_reader. change (decimal "4861.3") with (Some (IZR 48613 / 10 ^ 1)). cbn [snd]. do 2 f_equal. lra.
    + exists "6562.8"%string, "Ba-alpha"%string. split; [reflexivity|]. split; [|split; [|split; [|reflexivity]]].
      * intros H; cbn in H; repeat (destruct H as [H|H]; [discriminate|]); exact H.
      * intros H; cbn in H; repeat (destruct H as [H|H]; [discriminate|]); exact H.
      * unfold exact_reader. change (decimal "6562.8") with (Some (IZR 65628 / 10 ^ 1)). cbn [snd]. do 2 f_equal. lra.
  - exists d. split; [exact E|]. split; [exact K|]. apply L.
    exists [("Ba_alpha"%string, Fin 6563); ("Ba_beta"%string, Fin 4861.3)], []. split; [reflexivity|intros []].
Qed.

(** C106: the claim that writing loaded data and loading them again changes nothing is false *)
Theorem C106_rewriting_loaded_data_refuted : forall d lines lum, ssp_emline_wave d = Some lines ->
  ssp_emline_luminosity d = Some (map (map (map Fin)) lum) -> field_names (map fst lines) ->
  exists file d1, write_ssp_data d = (file, None)
  /\ (forall fake w path drn bn, isfile w path = true -> h5open w path = Some file ->
        load_ssp_templates w fake (Some path) drn bn false = Ok d1)
  /\ exists file2 d2, write_ssp_data d1 = (file2, None)
  /\ (forall fake w path drn bn, isfile w path = true -> h5open w path = Some file2 ->
        load_ssp_templates w fake (Some path) drn bn false = Ok d2)
  /\ ssp_emline_luminosity d1 = Some (map (map (map (fun x => Fin (x * (3.828 * 10 ^ 33))%R))) lum)
  /\ ssp_emline_luminosity d2 = Some (map (map (map (fun x => Fin (x * (3.828 * 10 ^ 33) * (3.828 * 10 ^ 33))%R))) lum)
  /\ (forall m r x, In m lum -> In r m -> In x r -> x <> 0%R -> d2 <> d1).
Proof. exact C106_lemma. Qed.
Print Assumptions C106_rewriting_loaded_data_refuted.
Example C106_nonvacuous : field_names (map fst [("Ba_alpha_6563"%string, Fin 6563); ("Ba_beta_4861"%string, Fin 4861)])
  /\ ssp_emline_luminosity demo_ssp = Some (map (map (map Fin)) [[[1; 2]; [3; 4]]; [[5; 6]; [7; 8]]]).
Proof. split; [exact demo_names|reflexivity]. Qed.
