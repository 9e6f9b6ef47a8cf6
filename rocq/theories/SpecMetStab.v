(** * Specification vocabulary for the sensitivity to the metallicity *)
From Coq Require Import Reals List.
From Verif Require Import Num Spec.
Import ListNotations.
Open Scope R_scope.

(** the metallicity distribution of centre [x] and scatter [h] lies inside [-10, 10] dex *)
Definition mdf_inside (x h : R) : Prop := 0 < h /\ -10 + 3 * h <= x <= 10 - 3 * h.
(** how far two distributions, of centres at most [dx] apart, can be from each other *)
Definition mdf_shift (dx h h' : R) : R := 35/96 * (dx + 3 * Rabs (h - h')) / Rmin h h'.
(** total variation of the templates of age [j] at wavelength [k] along the metallicity grid of [n] nodes *)
Definition met_variation (n : nat) (flux : list (list (list R))) (j k : nat) : R :=
  Rsum (map (fun i => Rabs (ent3 flux (S i) j k - ent3 flux i j k)) (seq 0 (n - 1))).
