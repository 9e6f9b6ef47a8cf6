(** * Property C127: shapes alone decide whether a call raises.
    Every theorem holds for every arithmetic [AR] (exact or rounded) and for every value of the
    entries, NaN and infinities included.  Lengths are at least 3 because JAX silently broadcasts
    shorter arrays in some of these calls, which is not modelled. *)
From Coq Require Import Reals List Arith Lra Lia.
From Verif Require Import Num Arr MUtils MSed MDiffburst MEmlines MPhot Spec SpecApi LShape.
Import ListNotations.

(** C127 *)
@@C127_sed_shapes = LShape.C127_sed_lemma
@@C127_photometry_shapes = LShape.C127_phot_lemma
@@C127_population_shapes = LShape.C127_pop_lemma
@@C127_integral_and_burst_shapes = LShape.C127_misc_lemma
Example C127_nonvacuous : forall AR : Arith,
  (exists m, calc_rest_mag [NaN; Fin 1; PInf] [Fin 2; NaN; Fin 0] [Fin 1; Fin 2; Fin 3] [NaN; NaN; NaN] = Ok m)
  /\ ~ (exists m, calc_rest_mag [NaN; Fin 1; PInf] [Fin 2; NaN; Fin 0; Fin 1] [Fin 1; Fin 2; Fin 3] [NaN; NaN; NaN] = Ok m).
Proof.
  intros AR. split.
  - apply (C127_photometry_shapes AR _ _ _ _ NaN NaN NaN NaN NaN); simpl; lia.
  - intros H. apply (C127_photometry_shapes AR _ _ _ _ NaN NaN NaN NaN NaN) in H; simpl in *; lia.
Qed.
