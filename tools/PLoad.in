(** * Properties C82-C92, C104-C106: data loaders (dsps/data_loaders, scripts/write_fsps_data_to_disk.py).
    Any arithmetic, except C84-C86, C88, C89, the second part of C104 and C106 (exact real arithmetic). *)
From Coq Require Import Reals List Arith String Ascii ZArith Lra Lia.
From Verif Require Import Num Arr MUtils MLoaders EmlinesDat Spec SpecLoad RList LLoad LLoad2 LLoad3 LLoad4 LLoad5.
Import ListNotations.
Local Open Scope string_scope.
Open Scope R_scope.

(** example data used below *)
Definition demo_ssp : SSPData := {|
  ssp_lgmet := D1 (fins [-2; -1]); ssp_lg_age_gyr := D1 (fins [0; 1]); ssp_wave := D1 (fins [100; 200]);
  ssp_flux := D3 [[fins [1; 2]; fins [3; 4]]; [fins [5; 6]; fins [7; 8]]];
  ssp_emline_wave := Some [("Ba_alpha_6563"%string, Fin 6563); ("Ba_beta_4861"%string, Fin 4861)];
  ssp_emline_luminosity := Some [[fins [1; 2]; fins [3; 4]]; [fins [5; 6]; fins [7; 8]]] |}.
Lemma demo_names : field_names (map fst [("Ba_alpha_6563"%string, Fin 6563); ("Ba_beta_4861"%string, Fin 4861)]).
Proof.
  split; [apply no_duplicates_spec; reflexivity|]. repeat constructor; apply valid_field_spec; reflexivity.
Qed.
Definition demo_plain : SSPData := {|
  ssp_lgmet := D1 (fins [-2]); ssp_lg_age_gyr := D1 (fins [0]); ssp_wave := D1 (fins [100]); ssp_flux := D3 [[fins [1]]];
  ssp_emline_wave := None; ssp_emline_luminosity := None |}.

(** C82: which file is opened *)
@@C82_template_file_precedence = LLoad.C82_lemma
@@C82_path_join = LLoad.join_lemma
Example C82_nonvacuous : load_ssp_templates (one_file "/data/ssp.h5" (fst (write_ssp_data demo_plain))) demo_ssp None (Some "/data"%string) "ssp.h5" false
  = Ok demo_plain.
Proof. reflexivity. Qed.

(** C83: which transmission curve is opened *)
@@C83_unique_filter_file = LLoad.C83_lemma
Example C83_nonvacuous : load_transmission_curve {| env_DSPS_DRN := Some "/d"%string; isfile := fun _ => true; isdir := fun _ => true;
    glob := fun p => if String.eqb p "/d/filters/r*" then ["/d/filters/r.h5"%string] else [];
    h5open := fun p => if String.eqb p "/d/filters/r.h5"
      then Some (h5set (h5set h5empty "wave" (D1 (fins [1]))) "transmission" (D1 [PInf; NaN])) else None |}
    None (Some "r*"%string) None = Ok {| tc_wave := D1 (fins [1]); tc_transmission := [Fin 1; NaN] |}.
Proof.
  cbn. unfold validate_transmission, vmin. cbn. unfold nclip, nmin, nmax. cbn.
  reflexivity.
Qed.

(** C84: values of a loaded curve *)
@@C84_transmission_in_unit_interval = LLoad.C84_lemma
@@C84_any_arithmetic = LLoad.C84_any_lemma
Example C84_nonvacuous : let hdf := h5set (h5set h5empty "wave" (D1 (fins [1; 2; 3]))) "transmission" (D1 (fins [-0.005; 0.5; 1.5])) in
  exists t', load_transmission_curve (one_file "f" hdf) (Some "f"%string) None None = Ok {| tc_wave := D1 (fins [1; 2; 3]); tc_transmission := fins t' |}
  /\ ent t' 0 = 0 /\ ent t' 1 = 0.5 /\ ent t' 2 = 1.
Proof.
  intros hdf. destruct (C84_transmission_in_unit_interval (one_file "f" hdf) "f" hdf (D1 (fins [1; 2; 3])) [-0.005; 0.5; 1.5]) as [_ H];
    try reflexivity; [discriminate|].
  destruct H as (t' & E & L & V); [intros x [<-|[<-|[<-|[]]]]; lra|exists 0.5; split; [right; now left|lra]|].
  exists t'. split; auto. unfold ent in V. repeat split.
  - apply (V 0%nat); [cbn; lia|cbn; lra].
  - apply (V 1%nat); [cbn; lia|cbn; lra].
  - apply (V 2%nat); [cbn; lia|cbn; lra].
Qed.

(** C85: the check against curves above unity looks at the minimum *)
@@C85_excess_transmission_refuted = LLoad.C85_refuted_lemma
@@C85_excess_check_needs_all_values = LLoad.C85_iff_lemma

(** C86: random curves *)
@@C86_random_curve = LLoad2.C86_lemma
@@C86_narrow_range_centre_outside = LLoad2.C86_narrow_lemma
Example C86_nonvacuous : exists c, 1000 < c < 10000 /\ load_random_transmission_curve (Fin 0.5) None (Fin 1000) (Fin 10000) (Fin 300)
  = load_random_transmission_curve (Fin 0.5) (Some (Fin c)) (Fin 1000) (Fin 10000) (Fin 300).
Proof.
  eexists. split; [|apply C86_random_curve; lra]. lra.
Qed.

(** C87: subsets of emission lines *)
@@C87_subset = LLoad3.C87_lemma
@@C87_subset_raises = LLoad3.C87_raise_lemma
@@C87_subset_of_subset = LLoad3.C87_compose_lemma
Example C87_nonvacuous : exists d', get_subset_emline_data demo_ssp ["Ba_beta_4861"%string] = Ok d'
  /\ ssp_emline_wave d' = Some [("Ba_beta_4861"%string, Fin 4861)]
  /\ ssp_emline_luminosity d' = Some [[fins [2]; fins [4]]; [fins [6]; fins [8]]].
Proof. eexists. split; [reflexivity|split; reflexivity]. Qed.
Example C87_demo_hypotheses : field_names (map fst [("Ba_alpha_6563"%string, Fin 6563); ("Ba_beta_4861"%string, Fin 4861)])
  /\ rows_of_length 2 [[fins [1; 2]; fins [3; 4]]; [fins [5; 6]; fins [7; 8]]].
Proof.
  split; [exact demo_names|]. intros m r [<-|[<-|[]]] [<-|[<-|[]]]; reflexivity.
Qed.

(** C88: names of the shipped lines *)
@@C88_shipped_names = LLoad4.C88_lemma
Example C88_nonvacuous : exists parse, reads_decimals parse.
Proof. exists exact_float. exact exact_float_reads. Qed.

(** C89: matching wavelengths to names *)
@@C89_match_iff_unique = LLoad4.C89_match
@@C89_unmatched_raises = LLoad4.C89_unmatched_lemma
@@C89_shipped_lines_recognised = LLoad4.C89_shipped_lemma
Example C89_nonvacuous : get_matched_emline_name (fins [4861; 6563]) ["Hb"%string; "Ha"%string] (Fin 6563.001) = "Ha"%string
  /\ get_matched_emline_name (fins [4861; 6563]) ["Hb"%string; "Ha"%string] (Fin 6564) = ""%string.
Proof.
  split.
  - destruct (C89_match_iff_unique [4861; 6563] ["Hb"%string; "Ha"%string] 6563.001 eq_refl) as [H _].
    destruct (H 1%nat) as (n & E & Kn); [|rewrite Kn; cbn in E; congruence]. unfold close_to, ent. split.
    + cbn. split; [lia|]. rewrite (Rabs_right 6563.001) by lra. apply Rabs_le. lra.
    + intros [|[|j]] [L K]; auto; [|cbn in L; lia]. exfalso. cbn in K. rewrite (Rabs_right 6563.001) in K by lra.
      unfold Rabs in K. destruct (Rcase_abs _); lra.
  - apply C89_match_iff_unique; [reflexivity|]. intros ([|[|i]] & [L K] & _); [| |cbn in L; lia];
      unfold ent in K; cbn in K; rewrite (Rabs_right 6564) in K by lra; unfold Rabs in K; destruct (Rcase_abs _); lra.
Qed.

(** C90: writing then loading *)
@@C90_write_then_load = LLoad4.C90_lemma
Example C90_nonvacuous : exists file d', write_ssp_data demo_ssp = (file, None)
  /\ load_ssp_templates (one_file "f" file) demo_plain (Some "f"%string) None "" false = Ok d'
  /\ ssp_emline_wave d' = ssp_emline_wave demo_ssp.
Proof.
  edestruct (C90_write_then_load demo_ssp) as (file & E & L); [reflexivity|reflexivity|exact demo_names|].
  exists file. eexists. split; [exact E|]. split; [apply L; reflexivity|reflexivity].
Qed.

(** C91: the script without emission lines *)
@@C91_script_fails_without_lines = LLoad4.C91_lemma
Example C91_nonvacuous : snd (write_ssp_data demo_plain) = Some AttributeError.
Proof. reflexivity. Qed.

(** C92: malformed line tables *)
@@C92_malformed_lines_refused = LLoad4.C92_lemma
@@C92_errors = LLoad4.C92_errors_lemma
@@C92_missing_dataset = LLoad4.C92_missing_lemma
Example C92_nonvacuous : ~ field_names ["Ha"%string; "Ha"%string] /\ ~ field_names ["4861"%string] /\ ~ field_names ["lambda"%string].
Proof.
  split; [|split]; intros [N F].
  - apply no_duplicates_spec in N. discriminate.
  - rewrite Forall_forall in F. specialize (F _ (or_introl eq_refl)). apply valid_field_spec in F. discriminate.
  - rewrite Forall_forall in F. specialize (F _ (or_introl eq_refl)). apply valid_field_spec in F. discriminate.
Qed.

(** C104: data from python-fsps *)
@@C104_retrieve_assembles = LLoad5.C104_lines_lemma
@@C104_retrieve_without_lines = LLoad5.C104_plain_lemma
@@C104_retrieve_errors = LLoad5.C104_raises_lemma
@@C104_fsps_to_user = LLoad5.C104_pipeline_lemma
Definition demo_fsps (waves : list num) : Fsps := {|
  sp_zlegend := fins [0.001; 0.02]; sp_log_age := fins [6; 8; 10];
  sp_spectrum := fun i => (fins [100; 200], [fins [INR i; 1]; fins [2; INR i]; fins [3; 3]]);
  sp_emline := fun i => Some [repeat (Fin (INR i)) 166; repeat (Fin 1) 166; repeat (Fin 2) 166];
  sp_emline_wavelengths := waves |}.
(** a reader of decimals, and 166 wavelengths that meet the hypotheses of [C104_fsps_to_user] *)
Definition exact_reader (s : string) : res num := match decimal s with Some x => Ok (Fin x) | None => Raise ValueError end.
Example C104_nonvacuous : reads_decimals exact_reader
  /\ exists waves, List.length waves = 166%nat /\ sp_emline_wavelengths (demo_fsps (fins waves)) = fins waves
  /\ (forall i, (i < 166)%nat -> exists numeral name x, nth_error emlines_info_dat i = Some (numeral ++ "," ++ name)%string
       /\ decimal numeral = Some x /\ Rabs (ent waves i - x) <= x * 5 / 10 ^ 7)
  /\ (forall i, (i <= 2)%nat -> exists e, sp_emline (demo_fsps (fins waves)) i = Some e).
Proof.
  assert (R : reads_decimals exact_reader).
  { intros s x E. exists x. unfold exact_reader. rewrite E. split; [reflexivity|].
    rewrite Rminus_diag_eq, Rabs_R0 by reflexivity. apply Rmult_le_pos.
    - unfold decimal in E. destruct (decimal_parts s) as [[m k]|] eqn:P; [|discriminate]. injection E as <-.
      apply Rmult_le_pos; [|left; apply Rinv_0_lt_compat, pow_lt; lra]. apply IZR_le.
      assert (G : forall s m k m' k', decimal_aux s m k = Some (m', k') -> (0 <= m)%Z -> (0 <= m')%Z).
      { clear. induction s as [|c s IH]; cbn [decimal_aux]; intros m k m' k' E Hm; [injection E; intros; lia|].
        destruct (digit_of c) eqn:D.
        - eapply IH; [exact E|]. unfold digit_of in D. destruct (_ && _)%bool; [|discriminate]. injection D as <-. apply Z.add_nonneg_nonneg; [lia|apply Nat2Z.is_nonneg].
        - destruct (Ascii.eqb c "."); [|discriminate]. destruct k; [discriminate|]. eapply IH; eauto. }
      unfold decimal_parts in P. destruct s; [discriminate|]. destruct (digit_of a); [|discriminate].
      eapply G; [exact P|lia].
    - left. apply Rinv_0_lt_compat, pow_lt. lra. }
  split; [exact R|].
  destruct (reads_shipped _ R) as (ws & A & B & C). exists ws. split; [exact B|]. split; [reflexivity|]. split.
  - intros i Hi. destruct (nth_error shipped i) as [q|] eqn:E.
    2:{ apply nth_error_None in E. rewrite shipped_length in E. lia. }
    destruct (shipped_decimal i q E) as [D P]. exists (fst q), (snd q), (ent shipped_waves i).
    split; [rewrite shipped_lines, nth_error_map', E; reflexivity|]. split; [exact D|].
    pose proof (C i Hi) as Ci. set (x := ent shipped_waves i) in *. clearbody x.
    eapply Rle_trans; [exact Ci|]. unfold Rdiv. rewrite Rmult_assoc. apply Rmult_le_compat_l; [lra|].
    assert (0 < / 10 ^ 7) by (apply Rinv_0_lt_compat, pow_lt; lra). lra.
  - intros i _. eexists. reflexivity.
Qed.

(** C105: the dictionary of emission lines *)
@@C105_line_dictionary = LLoad5.C105_lemma
@@C105_malformed_line_raises = LLoad5.C105_malformed_lemma
Example C105_nonvacuous : exists d,
  read_emlines_info_fsps exact_reader ["6563,Ba-alpha"; "4861.3,Ba-beta"; "6562.8,Ba-alpha"]%string
  = Ok (d, fins [6563; 4861.3; 6562.8]) /\ map fst d = ["Ba_alpha"; "Ba_beta"]%string /\ In ("Ba_alpha"%string, Fin 6562.8) d.
Proof.
  destruct (C105_line_dictionary _ exact_reader ["6563,Ba-alpha"; "4861.3,Ba-beta"; "6562.8,Ba-alpha"]%string
    [("Ba_alpha"%string, Fin 6563); ("Ba_beta"%string, Fin 4861.3); ("Ba_alpha"%string, Fin 6562.8)]) as (d & E & K & L).
  - constructor; [|constructor; [|constructor; [|constructor]]].
    + exists "6563"%string, "Ba-alpha"%string. split; [reflexivity|]. split; [|split; [|split; [|reflexivity]]].
      * intros H; cbn in H; repeat (destruct H as [H|H]; [discriminate|]); exact H.
      * intros H; cbn in H; repeat (destruct H as [H|H]; [discriminate|]); exact H.
      * unfold exact_reader. change (decimal "6563") with (Some (IZR 6563 / 10 ^ 0)). cbn [snd]. do 2 f_equal. lra.
    + exists "4861.3"%string, "Ba-beta"%string. split; [reflexivity|]. split; [|split; [|split; [|reflexivity]]].
      * intros H; cbn in H; repeat (destruct H as [H|H]; [discriminate|]); exact H.
      * intros H; cbn in H; repeat (destruct H as [H|H]; [discriminate|]); exact H.
      * unfold exact_reader. change (decimal "4861.3") with (Some (IZR 48613 / 10 ^ 1)). cbn [snd]. do 2 f_equal. lra.
    + exists "6562.8"%string, "Ba-alpha"%string. split; [reflexivity|]. split; [|split; [|split; [|reflexivity]]].
      * intros H; cbn in H; repeat (destruct H as [H|H]; [discriminate|]); exact H.
      * intros H; cbn in H; repeat (destruct H as [H|H]; [discriminate|]); exact H.
      * unfold exact_reader. change (decimal "6562.8") with (Some (IZR 65628 / 10 ^ 1)). cbn [snd]. do 2 f_equal. lra.
  - exists d. split; [exact E|]. split; [exact K|]. apply L.
    exists [("Ba_alpha"%string, Fin 6563); ("Ba_beta"%string, Fin 4861.3)], []. split; [reflexivity|intros []].
Qed.

(** C106: the claim that writing loaded data and loading them again changes nothing is false *)
@@C106_rewriting_loaded_data_refuted = LLoad5.C106_lemma
Example C106_nonvacuous : field_names (map fst [("Ba_alpha_6563"%string, Fin 6563); ("Ba_beta_4861"%string, Fin 4861)])
  /\ ssp_emline_luminosity demo_ssp = Some (map (map (map Fin)) [[[1; 2]; [3; 4]]; [[5; 6]; [7; 8]]]).
Proof. split; [exact demo_names|reflexivity]. Qed.
