(** * Reverse-mode differentiation: what [jax.grad] returns

    dsps is written in JAX so that its outputs can be differentiated with [jax.grad].  This
    file models the derivative JAX computes, not the mathematical derivative: JAX traces a
    function to a program of primitive operations and multiplies, from the output back to the
    input, by the local derivative of every primitive, {e including the primitives that feed the
    branch of a [jnp.where] which was not selected} (that branch receives the cotangent 0, and
    0 * inf is NaN).

    [trace] is the traced program of a scalar function of one scalar input; arguments that are
    not differentiated are constants ([Cst]).  A value used twice appears twice in the tree: JAX
    adds the cotangents of the uses before it goes on, the tree goes on and adds afterwards,
    which is the same sum.  The local rules are those of [jax/_src/lax/lax.py]
    (neg, add, sub, mul, div, integer_pow, exp, log, logistic, sqrt, pow, select_n, reduce_sum);
    [jnp.log10(x)] is [log(x) / log(10)]. *)
From Coq Require Import Reals List Bool ZArith.
From Verif Require Import Num Arr.
Import ListNotations.
Local Open Scope num_scope.

Inductive trace : Type :=
| Arg                                    (* the input that is differentiated *)
| Cst (c : num)
| Neg (a : trace)
| Add (a b : trace)
| Sub (a b : trace)
| Mul (a b : trace)
| Div (a b : trace)
| IPow (a : trace) (p : positive)        (* a ** p, Python integer p >= 2 *)
| Exp (a : trace)
| Ln (a : trace)
| Log10 (a : trace)
| Pow10 (a : trace)                      (* 10 ** a *)
| Logistic (a : trace)                   (* jax.nn.sigmoid *)
| Sqrt (a : trace)
| Pow (a b : trace)                      (* a ** b, floating exponent *)
| Where (c : num -> bool) (p a b : trace) (* jnp.where(c(p), a, b) *)
| Sum (l : list trace).                  (* jnp.sum *)

(** does the input occur? (JAX computes no cotangent for the other values) *)
Fixpoint depends (e : trace) : bool :=
  match e with
  | Arg => true
  | Cst _ => false
  | Neg a | IPow a _ | Exp a | Ln a | Log10 a | Pow10 a | Logistic a | Sqrt a => depends a
  | Add a b | Sub a b | Mul a b | Div a b | Pow a b | Where _ _ a b => depends a || depends b
  | Sum l => existsb depends l
  end.

Section Grad.
  Context {AR : Arith}.

  Fixpoint eval (e : trace) (x : num) : num :=
    match e with
    | Arg => x
    | Cst c => c
    | Neg a => - eval a x
    | Add a b => eval a x + eval b x
    | Sub a b => eval a x - eval b x
    | Mul a b => eval a x * eval b x
    | Div a b => eval a x / eval b x
    | IPow a p => eval a x ^i p
    | Exp a => nexp (eval a x)
    | Ln a => nln (eval a x)
    | Log10 a => nlog10 (eval a x)
    | Pow10 a => npow10 (eval a x)
    | Logistic a => nlogistic (eval a x)
    | Sqrt a => nsqrt (eval a x)
    | Pow a b => npow (eval a x) (eval b x)
    | Where c p a b => nwhere (c (eval p x)) (eval a x) (eval b x)
    | Sum l => vsum (map (fun a => eval a x) l)
    end.

  (** the contributions of the two operands of a binary operation *)
  Definition both (da db : bool) (ga gb : num) : num :=
    match da, db with
    | true, true => ga + gb
    | true, false => ga
    | false, true => gb
    | false, false => Fin 0
    end.

  (** the cotangent of the input when the output has cotangent [ct] *)
  Fixpoint back (e : trace) (x ct : num) : num :=
    match e with
    | Arg => ct
    | Cst _ => Fin 0
    | Neg a => back a x (- ct)
    | Add a b => both (depends a) (depends b) (back a x ct) (back b x ct)
    | Sub a b => both (depends a) (depends b) (back a x ct) (back b x (- ct))
    | Mul a b => both (depends a) (depends b) (back a x (ct * eval b x)) (back b x (eval a x * ct))
    | Div a b => both (depends a) (depends b) (back a x (ct / eval b x))
                      (back b x (- ct * eval a x * (Fin 1 / (eval b x * eval b x))))
    | IPow a p => back a x (ct * (Fin (IZR (Zpos p)) * eval a x ^i Pos.pred p))
    | Exp a => back a x (ct * nexp (eval a x))
    | Ln a => back a x (ct / eval a x)
    | Log10 a => back a x (ct / nln (Fin 10) / eval a x)
    | Pow10 a => back a x (ct * (nln (Fin 10) * npow10 (eval a x)))
    | Logistic a => back a x (ct * nlogistic (eval a x) * (Fin 1 - nlogistic (eval a x)))
    | Sqrt a => back a x (ct * (Fin (1/2)%R / nsqrt (eval a x)))
    | Pow a b =>
        let va := eval a x in
        let vb := eval b x in
        both (depends a) (depends b)
          (back a x (ct * nwhere (vb =? Fin 0) (Fin 0) (vb * npow va (nwhere (vb =? Fin 0) (Fin 1) (vb - Fin 1)))))
          (back b x (ct * (nln (nwhere (va =? Fin 0) (Fin 1) va) * npow va vb)))
    | Where c p a b => both (depends a) (depends b)
                            (back a x (nwhere (c (eval p x)) ct (Fin 0)))
                            (back b x (nwhere (c (eval p x)) (Fin 0) ct))
    | Sum l => (fix go l := match l with
                            | [] => Fin 0
                            | a :: l => both (depends a) (existsb depends l) (back a x ct) (go l)
                            end) l
    end.

  (** [jax.grad] of the traced function *)
  Definition grad (e : trace) (x : num) : num := if depends e then back e x (Fin 1) else Fin 0.
End Grad.
