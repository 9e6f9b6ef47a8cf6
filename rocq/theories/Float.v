(** * The IEEE-754 instances of the arithmetic of Num.v

    The result of an operation on finite numbers is the exact result rounded to nearest,
    ties to even, with gradual underflow; results that round to 2^emax or more become
    infinite.  [interp_eps] is numpy's [np.spacing(np.finfo(dtype).eps)], the threshold
    in jax/_src/numpy (jnp.interp). *)
From Coq Require Import Reals ZArith List.
From Flocq Require Import Core.Raux Core.Zaux Core.Generic_fmt Core.FLT Core.Round_NE.
From Verif Require Import Num.
Open Scope R_scope.

Definition round_ieee (prec emin emax : Z) (x : R) : num :=
  let r := round radix2 (FLT_exp emin prec) ZnearestE x in
  if Rlt_bool (Rabs r) (bpow radix2 emax) then Fin r
  else if Rlt_bool 0 r then PInf else NInf.

(** double precision (jax with x64 enabled, numpy) and single precision (jax's default), with
    reductions in the order [red] and the mathematical library [lib] *)
Definition double_precision (red : (num -> num -> num) -> list num -> num) (lib : elementary -> num) : Arith :=
  {| rnd := round_ieee 53 (-1074) 1024; interp_eps := bpow radix2 (-104); reduce := red; elem := lib |}.
Definition single_precision (red : (num -> num -> num) -> list num -> num) (lib : elementary -> num) : Arith :=
  {| rnd := round_ieee 24 (-149) 128; interp_eps := bpow radix2 (-46); reduce := red; elem := lib |}.
(** with sums taken from the first entry to the last and a correctly rounded library *)
Definition binary64 : Arith := double_precision left_to_right (fun f => round_ieee 53 (-1074) 1024 (elem_value f)).
Definition binary32 : Arith := single_precision left_to_right (fun f => round_ieee 24 (-149) 128 (elem_value f)).

(** The same precisions with every subnormal result flushed to zero: XLA's CPU backend runs in
    this mode.  (There it also reads subnormal inputs as zero; a subnormal is not a
    machine number of these arithmetics.) *)
Definition flushed (smallest_normal : R) (v : num) : num :=
  match v with
  | Fin r => if Rlt_bool (Rabs r) smallest_normal then Fin 0 else Fin r
  | v => v
  end.
Definition double_flushed (red : (num -> num -> num) -> list num -> num) (lib : elementary -> num) : Arith :=
  {| rnd := fun x => flushed (bpow radix2 (-1022)) (round_ieee 53 (-1074) 1024 x); interp_eps := bpow radix2 (-104); reduce := red; elem := lib |}.
Definition single_flushed (red : (num -> num -> num) -> list num -> num) (lib : elementary -> num) : Arith :=
  {| rnd := fun x => flushed (bpow radix2 (-126)) (round_ieee 24 (-149) 128 x); interp_eps := bpow radix2 (-46); reduce := red; elem := lib |}.

(** ** Mathematical libraries *)
(** the arguments at which the functions are called: a positive number for the logarithms, a
    positive base, or a negative base and an integer exponent, for pow *)
Definition in_domain (f : elementary) : Prop :=
  match f with
  | EXP _ => True
  | LN x | LOG10 x => 0 < x
  | POW x _ => 0 < x
  | POWZ x _ => x < 0
  end.
(** The library of [AR] has relative error at most [e]: the result is not NaN; a finite result
    is a machine number within a fraction [e] of the exact value (up to [e / 2^102], for results
    that underflow: 2^-126 for a single-precision library); exact values up to 1e38
    give a finite result; and no result is on the wrong side of 0 or 1.  (A library defines
    its functions at machine numbers only; off them any values will do.) *)
Definition accurate_library (AR : Arith) (e : R) : Prop :=
  forall f, in_domain f ->
    elem f <> NaN
    /\ (forall z, elem f = Fin z -> rnd z = Fin z /\ Rabs (z - elem_value f) <= e * Rabs (elem_value f) + e * / 2 ^ 102)
    /\ (Rabs (elem_value f) <= 10 ^ 38 -> exists z, elem f = Fin z)
    /\ forall m, m = 0 \/ m = 1 ->
         (m <= elem_value f -> nleb (Fin m) (elem f) = true) /\ (elem_value f <= m -> nleb (elem f) (Fin m) = true).
(** exp, ln, log10 and, for every base above 1, pow are nondecreasing *)
Definition monotone_library (AR : Arith) : Prop :=
  forall x y, x <= y ->
    nleb (elem (EXP x)) (elem (EXP y)) = true
    /\ (0 < x -> nleb (elem (LN x)) (elem (LN y)) = true /\ nleb (elem (LOG10 x)) (elem (LOG10 y)) = true)
    /\ forall b, 1 < b -> nleb (elem (POW b x)) (elem (POW b y)) = true.
