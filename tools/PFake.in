(** * Properties C107-C110: the dummy data (data_loaders/retrieve_fake_fsps_data.py).
    Exact real arithmetic.  Random draws and set iteration order are universally quantified. *)
From Coq Require Import Reals List Arith String Ascii ZArith Lra Lia Permutation.
From Verif Require Import Num Arr MUtils MSed MLoaders MFake Spec SpecApi SpecLoad RList LFake LFake2.
Import ListNotations.
Open Scope R_scope.

(** C107 *)
@@C107_dummy_line_names = LFake.C107_lemma
@@C107_too_many_lines_never_ends = LFake.C107_never_lemma
Example C107_nonvacuous :
  fake_emline_wave_namedtuple 3 [(0, 1, 2); (23, 23, 23); (0, 1, 2); (25, 0, 0)]%nat (@rev string)
  = Some (Ok [("ZAA"%string, Fin (pow10 3)); ("ABC"%string, Fin (pow10 4.5)); ("XXX"%string, Fin (pow10 6))])
  /\ fake_emline_wave_namedtuple 3 [(0, 1, 2); (23, 23, 23); (0, 1, 2)]%nat (@rev string) = None.
Proof.
  split; [|reflexivity].
  change (Some (Ok [("ZAA"%string, npow10 (Fin (INR 0) * ((Fin 6 - Fin 3) / Fin (INR (3 - 1))) + Fin 3)%num);
    ("ABC"%string, npow10 (Fin (INR 1) * ((Fin 6 - Fin 3) / Fin (INR (3 - 1))) + Fin 3)%num); ("XXX"%string, npow10 (Fin 6))])
    = Some (Ok [("ZAA"%string, Fin (pow10 3)); ("ABC"%string, Fin (pow10 4.5)); ("XXX"%string, Fin (pow10 6))])).
  simpl INR. rewrite nsub_fin, ndiv_fin, !nmul_fin, !nadd_fin, !npow10_fin by lra. repeat f_equal; lra.
Qed.

(** C108 *)
@@C108_dummy_grids = LFake.C108_grids_lemma
@@C108_dummy_weights_are_distributions = LFake.C108_weights_lemma
Example C108_nonvacuous : increasing (0.001 :: [0.1; 5; 13.8]) /\ ent [0.1; 5; 13.8] 0 + 0.0003 <= 13.8 <= 14.
Proof.
  split; [|unfold ent; simpl; lra].
  intros i j H. destruct i as [|[|[|[|]]]], j as [|[|[|[|]]]]; simpl in *; unfold ent; simpl; try lia; lra.
Qed.

(** C109 *)
@@C109_dummy_spectra = LFake2.C109_flux_lemma
@@C109_dummy_luminosities = LFake2.C109_lum_lemma
@@C109_dummy_data_assembled = LFake2.C109_lemma
Example C109_nonvacuous : is_matrix 2 3 [[-10; -11; -12]; [-9; -10; -11]] /\ (forall s : list string, Permutation s (rev s)).
Proof. split; [split; [reflexivity|repeat constructor]|intros; apply Permutation_rev]. Qed.

(** C110 *)
@@C110_dummy_bands = LFake2.C110_lemma
@@C110_dummy_curves = LFake2.C110_curves_lemma
@@C110_dummy_filter_tables = LFake2.C110_tables_lemma
