(** * Vocabulary of property C149: comparing two cosmologies. *)
From Coq Require Import Reals List.
From Verif Require Import Num.
Open Scope R_scope.

(** both numbers are finite and the first is smaller *)
Definition less (a b : num) : Prop := exists x y, a = Fin x /\ b = Fin y /\ x < y.

(** matter density, dark-energy equation of state today, and its evolution *)
Definition cosmology : Type := R * R * R.
(** [c'] differs from [c] only by having more of something: more matter, a larger [w0] or a larger
    [wa].  If it has more matter, its dark energy must be one that dilutes more slowly than matter
    ([w0 < 0] today and [w0 + wa <= 0] in the far past), as in every accelerating model. *)
Definition heavier (c c' : cosmology) : Prop :=
  let '(Om, w, a) := c in let '(Om', w', a') := c' in
  0 < Om < 1 /\ Om' <= 1 /\ Om <= Om' /\ w <= w' /\ a <= a' /\ c <> c'
  /\ (Om < Om' -> w' < 0 /\ w' + a' <= 0).
