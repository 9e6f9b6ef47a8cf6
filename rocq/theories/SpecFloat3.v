(** * Specification vocabulary for rounding errors of burst weights *)
From Coq Require Import Reals List.
From Verif Require Import Num Float Spec Arr.
Import ListNotations.
Open Scope R_scope.

(** sum of the absolute differences of two lists of the same length *)
Definition sum_difference (a b : list R) : R := Rsum (map2 (fun x y => Rabs (x - y)) a b).
(** burst parameters for which a rounding error bound is stated: a burst fraction of at most 1,
    machine log10 ages in years between 0 and 16, the maximum age at least half a dex above the
    peak age *)
Definition rounding_burst {AR : Arith} (lgfb peak mx : R) : Prop :=
  lgfb <= 0 /\ rnd peak = Fin peak /\ rnd mx = Fin mx /\ 0 <= peak /\ mx <= 16 /\ peak + 1/2 <= mx.
(** some template age (log10 Gyr) is within half of the burst's half-width of the peak age *)
Definition burst_covered (peak mx : R) (ages : list R) : Prop :=
  exists a, In a ages /\ Rabs (a + 9 - peak) <= (mx - peak) / 2.
