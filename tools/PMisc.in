(** * Properties C101-C103, C138: grid cells and time tables (utils.py, sed/stellar_age_weights.py),
    the Maiolino+08 relation (metallicity/mzr.py), tabulated cosmological dimming
    (photometry/photometry_kernels.py).  Exact real arithmetic unless stated. *)
From Coq Require Import Reals List Arith Lra Lia.
From Verif Require Import Num Arr MUtils MImf MDust MSed MMzr MCosmo MPhot Spec SpecApi RList LMisc LForms.
Import ListNotations.
Open Scope R_scope.

(** C101 *)
@@C101_cell_widths = LMisc.C101_cells_lemma
(** any arithmetic *)
@@C101_short_grid_raises = LMisc.C101_raises_lemma
@@C101_linspace_time_tables = LMisc.C101_tables_lemma
Example C101_nonvacuous :
  (3 <= length [1; 2; 4])%nat /\ increasing [1; 2; 4] /\ 0.001 < 13.8.
Proof.
  split; [simpl; lia|split; [|lra]].
  intros i j H. destruct i as [|[|[|]]], j as [|[|[|]]]; simpl in *; unfold ent; simpl; try lia; lra.
Qed.

(** C102 *)
@@C102_maiolino_relation = LMisc.C102_lemma

(** C103 *)
@@C103_dimming_table_agrees_at_nodes = LMisc.C103_lemma
Example C103_nonvacuous : increasing (0 :: [0.1; 0.5; 2]).
Proof.
  intros i j H. destruct i as [|[|[|[|]]]], j as [|[|[|[|]]]]; simpl in *; unfold ent; simpl; try lia; lra.
Qed.
(** a table that starts at redshift 0 is useless below its second node *)
@@C103_table_from_zero_is_nan = LMisc.C103_zero_lemma

(** C138 *)
@@C138_surviving_mass_fit = LForms.C138_surviving_lemma
@@C138_remnant_mass_fit = LForms.C138_remnant_lemma
@@C138_triweight_attenuation = LForms.C138_triweight_lemma
@@C138_maiolino_relation = LForms.C138_maiolino_lemma
@@C138_hubble_time_and_critical_density = LForms.C138_scales_lemma
Example C138_nonvacuous : surviving_mstar (Fin 8) SUR_KROUPA = Fin (1 - (0.005 + (0.211 - 0.005) * logistic (pow10 0.7 * 1.5))).
Proof.
  rewrite (C138_surviving_mass_fit SUR_KROUPA 0.211 0.13) by (simpl; auto). cbv zeta. replace (8 - 6.5) with 1.5 by lra. f_equal. replace (8 - 8) with 0 by ring. ring.
Qed.
