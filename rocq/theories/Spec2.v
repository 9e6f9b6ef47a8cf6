(** * Specification vocabulary, continued

    As [Spec.v]: plain mathematics, no reference to the model of the code. *)
From Coq Require Import Reals List Arith.
From Coquelicot Require Import Coquelicot.
From Verif Require Import Num Spec.
Import ListNotations.
Open Scope R_scope.

(** the line through [(xtp, ytp)] whose slope slides from [lo] to [hi] around [x0], at rate
    [k] *)
Definition sigmoid_slope_line (xtp ytp x0 k lo hi x : R) : R :=
  ytp + (lo + (hi - lo) * logistic (k * (x - x0))) * (x - xtp).

(** ** Differentiability of vector-valued outputs along a curve *)
(** [P] holds in a neighbourhood of [s] *)
Definition near (s : R) (P : R -> Prop) : Prop := exists d, 0 < d /\ forall r, Rabs (r - s) < d -> P r.
(** the vectors [T r] have a common length and every entry is differentiable at [s] *)
Definition smooth_at (T : R -> list R) (s : R) : Prop :=
  (exists n, forall r, length (T r) = n) /\ forall i, ex_derive (fun r => ent (T r) i) s.
(** the matrices [T r] have a common shape and every entry is differentiable at [s] *)
Definition smooth2_at (T : R -> list (list R)) (s : R) : Prop :=
  (exists n k, forall r, is_matrix n k (T r)) /\ forall i j, ex_derive (fun r => ent2 (T r) i j) s.

(** seen at [t_obs], no star of one of the given (log10) ages was born exactly at one of the
    times [ts], or at 0.001 Gyr *)
Definition born_off_grid (ts : list R) (t_obs : R) (lg_ages : list R) : Prop :=
  List.Forall (fun a => t_obs - pow10 a <> 0.001 /\ ~ In (t_obs - pow10 a) ts) lg_ages.
(** no entry of [v] equals [c] *)
Definition avoids (c : R) (v : list R) : Prop := List.Forall (fun x => x <> c) v.
(** the cubes [T r] have a common shape and every entry is differentiable at [s] *)
Definition smooth3_at (T : R -> list (list (list R))) (s : R) : Prop :=
  (exists n k w, forall r, is_cube n k w (T r)) /\ forall i j k, ex_derive (fun r => ent3 (T r) i j k) s.

(** ** Mixtures *)
(** weighted sum of the numbers [F i j] with weight matrix [W] ([n] by [m]) *)
Definition mixture (n m : nat) (W : list (list R)) (F : nat -> nat -> R) : R :=
  Rsum (map (fun i => Rsum (map (fun j => ent2 W i j * F i j) (seq 0 m))) (seq 0 n)).
(** the relative brightness of a source of magnitude [mag], and back *)
Definition brightness (mag : R) : R := pow10 (-0.4 * mag).
Definition magnitude (b : R) : R := -2.5 * log10 b.
(** entry [(i, j, b)] of a table of numbers is the finite number [x] *)
Definition entry3 (tab : list (list (list num))) (i j b : nat) : num := nth b (nth j (nth i tab []) []) NaN.

(** ** Continuity of vector-valued outputs along a curve (as [smooth_at] etc. above) *)
Definition steady_at (T : R -> list R) (s : R) : Prop :=
  (exists n, forall r, length (T r) = n) /\ forall i, continuity_pt (fun r => ent (T r) i) s.
Definition steady2_at (T : R -> list (list R)) (s : R) : Prop :=
  (exists n k, forall r, is_matrix n k (T r)) /\ forall i j, continuity_pt (fun r => ent2 (T r) i j) s.
Definition steady3_at (T : R -> list (list (list R))) (s : R) : Prop :=
  (exists n k w, forall r, is_cube n k w (T r)) /\ forall i j k, continuity_pt (fun r => ent3 (T r) i j k) s.
