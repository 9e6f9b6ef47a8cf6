(** * Specification vocabulary for rounding errors from the star formation history to the magnitude *)
From Coq Require Import Reals List.
From Verif Require Import Num Float Spec Arr.
Open Scope R_scope.

(** a wavelength table: machine wavelengths (Angstrom) from 0 to 1e10 at least 2^-20 apart *)
Definition rounding_wavelengths {AR : Arith} (ws : list R) : Prop :=
  ws <> nil
  /\ (forall i, (i < length ws)%nat -> rnd (ent ws i) = Fin (ent ws i) /\ 0 <= ent ws i <= 10 ^ 10)
  /\ (forall i, (S i < length ws)%nat -> / 2 ^ 20 <= ent ws (S i) - ent ws i).
(** [sed] agrees with [sed0] to a relative [eps] at every wavelength *)
Definition relatively_close (eps : R) (sed sed0 : list R) : Prop :=
  length sed = length sed0
  /\ forall k, (k < length sed0)%nat -> Rabs (ent sed k - ent sed0 k) <= eps * ent sed0 k.
(** the error bound [F M 2 bound + (3 N M + 1) u 2^-102] of a spectrum of mass [M] mixed from [N]
    templates bounded by [F], whose weights are accurate to [bound] *)
Definition sed_error (u F M bound : R) (N : nat) : R := F * M * (2 * bound) + (3 * INR N * M + 1) * (u / 2 ^ 102).
