(** * Vocabulary for the blackbody in double precision (C153) *)
From Coq Require Import Reals.
From Verif Require Import Num Float Spec SpecFloat.
Open Scope R_scope.

(** photon energy in units of k T *)
Definition photon_x (nu T : R) : R := h_planck * nu / (k_boltzmann * T).
(** condition number of the Planck function as coded: [exp x - 1] loses the leading digits of a small [x],
    and a large [x] amplifies the relative error of the exponent *)
Definition planck_amp (x : R) : R := (9 * x + 2) * (1 + 1 / x).
