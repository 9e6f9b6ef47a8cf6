(** * Vocabulary for theorems about [jax.grad] (C159-C163) *)
From Coq Require Import Reals.
From Coquelicot Require Import Coquelicot.
From Verif Require Import Num MGrad Spec2.
Open Scope R_scope.

(** [jax.grad] of the function traced by [e] is right at [x]: near [x] the function has finite
    values [f y], and the gradient is a finite number, the derivative of [f] at [x]; when [e] is
    an intermediate value of a larger computation, the cotangent [c] of that value arrives at the
    input multiplied by the same derivative. *)
Definition right_gradient (e : trace) (x : R) : Prop :=
  exists f d, near x (fun y => eval (AR := exact) e (Fin y) = Fin (f y))
    /\ is_derive f x d
    /\ grad (AR := exact) e (Fin x) = Fin d
    /\ forall c, back (AR := exact) e (Fin x) (Fin c) = Fin (c * d).
(** the same for every entry of an array *)
Definition right_gradients (l : list trace) (x : R) : Prop := List.Forall (fun e => right_gradient e x) l.
