(** * Specification vocabulary for rounding errors of photometry *)
From Coq Require Import Reals List.
From Verif Require Import Num Float Spec Arr.
Import ListNotations.
Open Scope R_scope.

(** a spectrum table: machine wavelengths (Angstrom) from 0 to 1e10 at least 2^-20 apart,
    and machine fluxes between 0 and [B] *)
Definition rounding_spectrum {AR : Arith} (B : R) (ws ls : list R) : Prop :=
  ws <> [] /\ length ws = length ls
  /\ (forall i, (i < length ws)%nat -> rnd (ent ws i) = Fin (ent ws i) /\ 0 <= ent ws i <= 10 ^ 10)
  /\ (forall i, (S i < length ws)%nat -> / 2 ^ 20 <= ent ws (S i) - ent ws i)
  /\ (forall i, (i < length ws)%nat -> rnd (ent ls i) = Fin (ent ls i) /\ 0 <= ent ls i <= B)
  /\ / 10 ^ 20 <= B <= 10 ^ 20.
(** a filter curve: at most 2^18 increasing machine wavelengths from 1 to 1e6 Angstrom,
    machine transmissions between 0 and 1, and an integral of T/lambda of at least 1e-4 *)
Definition rounding_filter {AR : Arith} (wf tf : list R) : Prop :=
  increasing wf /\ length wf = length tf /\ (length wf <= 2 ^ 18)%nat
  /\ (forall i, (i < length wf)%nat -> rnd (ent wf i) = Fin (ent wf i) /\ 1 <= ent wf i <= 10 ^ 6)
  /\ (forall i, (i < length tf)%nat -> rnd (ent tf i) = Fin (ent tf i) /\ 0 <= ent tf i <= 1)
  /\ 1 / 10 ^ 4 <= band_integral (fun _ => 1) wf tf.
(** a spectrum table of resolution at most [Res]: wavelengths from 1 to 1e8 Angstrom, each at
    least [1/Res] of its own value above its predecessor *)
Definition rounding_resolution (Res : R) (ws : list R) : Prop :=
  1 <= Res <= 10 ^ 5
  /\ (forall i, (i < length ws)%nat -> 1 <= ent ws i <= 10 ^ 8)
  /\ (forall i, (S i < length ws)%nat -> ent ws (S i) <= Res * (ent ws (S i) - ent ws i)).
(** the filter lies inside the redshifted spectrum, a relative 1/1000 away from its ends *)
Definition inside_spectrum (ws wf : list R) (z : R) : Prop :=
  forall x, In x wf -> 1.001 * (ent ws 0 * (1 + z)) <= x /\ 1.001 * x <= ent ws (length ws - 1) * (1 + z).
(** machine cosmological parameters in the ranges used in practice: redshift from 1e-6 to 20,
    matter density from 0.001 to 0.999, w0 from -2 to 2, wa from -1 to 1, h from 0.1 to 10 *)
Definition rounding_cosmology {AR : Arith} (z Om0 w0 wa h : R) : Prop :=
  rnd z = Fin z /\ rnd Om0 = Fin Om0 /\ rnd w0 = Fin w0 /\ rnd wa = Fin wa /\ rnd h = Fin h
  /\ 1 / 10 ^ 6 <= z <= 20 /\ 1 / 1000 <= Om0 <= 999 / 1000 /\ -2 <= w0 <= 2 /\ -1 <= wa <= 1
  /\ 1 / 10 <= h <= 10.
