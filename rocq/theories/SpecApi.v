(** * Specification vocabulary on API values

    Like Spec.v, for statements about functions of the API taking a scalar or an array
    ([arg]) and possibly raising. *)
From Coq Require Import Reals List Arith.
From Verif Require Import Num MCosmo MMzr Spec.
Import ListNotations.

(** [F] is the elementwise version of [f] in its first argument (four more are shared) and
    accepts arrays only *)
Definition pointwise (F : arg -> num -> num -> num -> num -> res (list num)) (f : num -> num -> num -> num -> num -> num) : Prop :=
  (forall zs Om0 w0 wa h, exists l, F (Vector zs) Om0 w0 wa h = Ok l /\ length l = length zs
     /\ forall i, (i < length zs)%nat -> nth i l NaN = f (nth i zs NaN) Om0 w0 wa h)
  /\ (forall z Om0 w0 wa h, F (Scalar z) Om0 w0 wa h = Raise ValueError).

(** an [MZRParams] (or [MZRUParams]) tuple of real numbers, in the order of its fields *)
Definition mzr_of (y x k lo hi a b c d : R) : MZRParams := {|
  mzr_t0_ytp := Fin y; mzr_t0_x0 := Fin x; mzr_t0_k := Fin k; mzr_t0_slope_lo := Fin lo; mzr_t0_slope_hi := Fin hi;
  c0_y_at_tlook_c := Fin a; c1_y_at_tlook_c := Fin b; c0_early_time_slope := Fin c; c1_early_time_slope := Fin d |}.
(** strictly inside the bounds of umzr.MZR_PBOUNDS (the bound 0.3 of mzr_t0_slope_hi replaced by
    mzr_t0_slope_lo) *)
Definition mzr_admissible (y x k lo hi a b c d : R) : Prop :=
  (-1 < y < 1/4 /\ 10.25 < x < 10.75 /\ 0.5 < k < 2 /\ 0.1 < lo < 1 /\ 0 < hi < lo
   /\ -2 < a < -1 /\ 0 < b < 0.5 /\ -1.5 < c < -0.5 /\ 0 < d < 0.5)%R.

(** ** Least squares in three unknowns *)
Definition dot3 (u v : R * R * R) : R :=
  (fst (fst u) * fst (fst v) + snd (fst u) * snd (fst v) + snd u * snd v)%R.
(** sum of the squared residuals of the system [A c = b] *)
Definition ssr (A : list (R * R * R)) (b : list R) (c : R * R * R) : R :=
  Rsum (map (fun p => (dot3 (fst p) c - snd p) ^ 2)%R (combine A b)).
(** the columns of [A] are linearly independent *)
Definition full_rank (A : list (R * R * R)) : Prop :=
  forall d, (forall r, In r A -> dot3 r d = 0%R) -> d = (0, 0, 0)%R.
Definition fin3 (t : R * R * R) : num * num * num := (Fin (fst (fst t)), Fin (snd (fst t)), Fin (snd t)).
(** [lstsq] returns a least-squares solution of every system with independent columns
    (nothing is assumed about other inputs) *)
Definition least_squares_solver (lstsq : list (num * num * num) -> list num -> num * num * num) : Prop :=
  forall A b, length A = length b -> full_rank A ->
  exists c, lstsq (map fin3 A) (fins b) = fin3 c /\ forall d, (ssr A b c <= ssr A b d)%R.

(** ** Equivalent widths *)
(** the quadratic with coefficients [c = (c2, c1, c0)] *)
Definition quadratic (c : R * R * R) (x : R) : R := (fst (fst c) * x ^ 2 + snd (fst c) * x + snd c)%R.
(** [x] is in one of the two continuum windows [a, b], [c, d] *)
Definition in_continuum (a b c d x : R) : Prop := (a <= x <= b \/ c <= x <= d)%R.
(** the continuum windows hold at least three different wavelengths *)
Definition three_continuum_points (a b c d : R) (wave : list R) : Prop :=
  exists x y z, In x wave /\ In y wave /\ In z wave /\ (x < y < z)%R
    /\ in_continuum a b c d x /\ in_continuum a b c d y /\ in_continuum a b c d z.
(** flux above the continuum inside the line window [lo, hi], 0 outside, at each wavelength *)
Definition line_excess (lo hi : R) (cont : R -> R) (wave flux : list R) : list R :=
  map (fun p => if Rle_dec lo (fst p) then if Rle_dec (fst p) hi then (snd p - cont (fst p))%R else 0%R else 0%R)
      (combine wave flux).
