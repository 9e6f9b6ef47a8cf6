(** * Specification vocabulary for rounding errors of dust attenuation *)
From Coq Require Import Reals List.
From Verif Require Import Num Float Spec Arr.
Open Scope R_scope.

(** a machine wavelength (micron) from 0.09 to 10 *)
Definition rounding_wave {AR : Arith} (w : R) : Prop := rnd w = Fin w /\ 0.09 <= w <= 10.
(** [w] is not the machine number nearest to the break point [b] of a curve *)
Definition off_break {AR : Arith} (b w : R) : Prop := rnd b <> Fin w.
(** machine parameters of a bump and power law: amplitude up to 1e6, slope between -5 and 5,
    centre from 0.01 to 10 micron, width from 0.001 to 10 micron *)
Definition rounding_bump {AR : Arith} (ampl slope centre width : R) : Prop :=
  rnd ampl = Fin ampl /\ rnd slope = Fin slope /\ rnd centre = Fin centre /\ rnd width = Fin width
  /\ Rabs ampl <= 10 ^ 6 /\ Rabs slope <= 5 /\ 0.01 <= centre <= 10 /\ 0.001 <= width <= 10.
(** amplification of the rounding error of the bump at wavelength [w] *)
Definition bump_amp (w centre width : R) : R := (w ^ 2 + centre ^ 2) / (w * width).
(** the power law that tilts the curve *)
Definition tilt (w slope : R) : R := Rpower (w / 0.55) slope.
