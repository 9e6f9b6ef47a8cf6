(** * Vocabulary for the remaining cosmological functions in rounded arithmetic (C155) *)
From Coq Require Import Reals List.
From Verif Require Import Num.
Import ListNotations.
Open Scope R_scope.

(** [x] is a finite number within the relative error [e] of the finite positive number [y] *)
Definition relatively_close (e : R) (x y : num) : Prop :=
  exists a b, x = Fin a /\ y = Fin b /\ 0 < b /\ Rabs (a - b) <= e * b.
(** [x] and [y] are finite numbers that differ by at most [e] *)
Definition absolutely_close (e : R) (x y : num) : Prop :=
  exists a b, x = Fin a /\ y = Fin b /\ Rabs (a - b) <= e.
(** [relatively_close], entry by entry *)
Definition all_relatively_close (e : R) (xs ys : res (list num)) : Prop :=
  exists l m, xs = Ok l /\ ys = Ok m /\ Forall2 (relatively_close e) l m.
