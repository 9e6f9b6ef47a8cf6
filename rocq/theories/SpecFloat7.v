(** * Vocabulary for the mass-metallicity relation in rounded arithmetic (C154) *)
From Coq Require Import Reals List.
From Verif Require Import Num Float SpecFloat.
Import ListNotations.
Open Scope R_scope.

(** a mass and a time, and parameters of the relation, all machine numbers: log10 of the stellar
    mass between 0 and 16, cosmic time in Gyr, present-day relation (offset, transition mass and
    rate, two slopes), amplitude [a + b m] and early slope [c + d m] of the evolution *)
Definition rounding_mzr {AR : Arith} (m t y x k lo hi a b c d : R) : Prop :=
  Forall machine_number [m; t; y; x; k; lo; hi; a; b; c; d]
  /\ 0 <= m <= 16 /\ 0 <= t <= 20 /\ Rabs y <= 2 /\ 8 <= x <= 12 /\ 0 <= k <= 2 /\ Rabs lo <= 2 /\ Rabs hi <= 2
  /\ Rabs a <= 4 /\ Rabs b <= 1/2 /\ Rabs c <= 3 /\ Rabs d <= 1/2.
