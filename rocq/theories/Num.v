(** * Numbers: the arithmetic the modelled code runs on.

    dsps is numerical code on JAX/numpy floating-point arrays.  A model number is
    either a finite real or one of the IEEE-754 special values, so that a division
    0/0, a logarithm of zero or an unselected overflowing branch of [jnp.where]
    behaves in the model as it does in the code (NaN and infinities are values
    here, not Coq's totalised [/ 0] or [ln] of a negative number).

    Every arithmetic operation on finite arguments is "exact result, then [rnd]".
    The class [Arith] holds [rnd], the knot-equality threshold of [jnp.interp]
    ([np.spacing(eps)], 2^-104 in double precision; 0 in exact arithmetic: the
    logarithms of two different doubles never differ by less than that) and [reduce],
    the order in which a reduction ([jnp.sum]) combines the entries of an array (XLA
    chooses it; floating-point theorems hold for every choice, see [any_order]) and
    [elem], the results of the mathematical library (exp, ln, log10, pow; floating-point
    theorems hold for every library of a stated accuracy, see Float.v):
      - instance [exact]    : no rounding, no overflow (most theorems);
      - double and single precision (file Float.v): IEEE round-to-nearest-even with
        overflow to infinity, and with gradual underflow ([binary64], [binary32], ...) or
        with subnormal results flushed to zero ([double_flushed], [single_flushed]).
    Simplifications (stated here once, they hold for the whole model):
      - there is a single zero, read as +0: [x/0] is +inf for x>0, -inf for x<0;
      - no fused multiply-add. *)
From Coq Require Import Reals Lra Lia ZArith List Bool Permutation.
From Flocq Require Import Core.Raux.
Import ListNotations.
Open Scope R_scope.

Inductive num : Type :=
| Fin (x : R)
| PInf
| NInf
| NaN.

(** A call of the mathematical library at finite arguments, and its exact value. *)
Inductive elementary : Type :=
| EXP (x : R)
| LN (x : R)
| LOG10 (x : R)
| POW (x y : R)      (* positive base *)
| POWZ (x : R) (n : Z).  (* negative base, integer exponent *)
Definition elem_value (f : elementary) : R :=
  match f with
  | EXP x => exp x
  | LN x => ln x
  | LOG10 x => ln x / ln 10
  | POW x y => Rpower x y
  | POWZ x n => powerRZ x n
  end.

Class Arith := {
  rnd : R -> num;
  interp_eps : R;  (* threshold under which jnp.interp treats two knots as equal *)
  reduce : (num -> num -> num) -> list num -> num;  (* combines the entries of a non-empty array *)
  elem : elementary -> num  (* what the mathematical library returns *)
}.

(** [combines f l v]: [v] is the result of combining all entries of the non-empty array [l]
    with the binary operation [f], in some order and with some bracketing. *)
Inductive combines (f : num -> num -> num) : list num -> num -> Prop :=
| combines_entry x : combines f [x] x
| combines_parts l l1 l2 v1 v2 :
    Permutation l (l1 ++ l2) -> combines f l1 v1 -> combines f l2 v2 -> combines f l (f v1 v2).
Definition any_order (red : (num -> num -> num) -> list num -> num) : Prop :=
  forall f l, l <> [] -> combines f l (red f l).
(** first to last *)
Definition left_to_right (f : num -> num -> num) (l : list num) : num :=
  match l with [] => NaN | x :: xs => fold_left f xs x end.

Definition exact : Arith := {| rnd := Fin; interp_eps := 0; reduce := left_to_right; elem := fun f => Fin (elem_value f) |}.

(** ** Comparisons: false as soon as one side is NaN. *)
Definition nltb (a b : num) : bool :=
  match a, b with
  | Fin x, Fin y => Rlt_bool x y
  | NaN, _ | _, NaN => false
  | NInf, NInf => false
  | NInf, _ => true
  | _, NInf => false
  | PInf, _ => false
  | _, PInf => true
  end.
Definition ngtb (a b : num) : bool := nltb b a.
Definition neqb (a b : num) : bool :=
  match a, b with
  | Fin x, Fin y => Req_bool x y
  | PInf, PInf | NInf, NInf => true
  | _, _ => false
  end.
Definition nleb (a b : num) : bool :=
  match a, b with
  | NaN, _ | _, NaN => false
  | _, _ => negb (nltb b a)
  end.
Definition ngeb (a b : num) : bool := nleb b a.
Definition nisnan (a : num) : bool := match a with NaN => true | _ => false end.

(** ** [jnp.where(c, a, b)], elementwise. *)
Definition nwhere {A : Type} (c : bool) (a b : A) : A := if c then a else b.

Section Ops.
  Context {AR : Arith}.

  (** A decimal literal of the source. *)
  Definition lit (x : R) : num := rnd x.

  Definition nopp (a : num) : num :=
    match a with Fin x => Fin (- x) | PInf => NInf | NInf => PInf | NaN => NaN end.
  Definition nabs (a : num) : num :=
    match a with Fin x => Fin (Rabs x) | PInf | NInf => PInf | NaN => NaN end.

  Definition nadd (a b : num) : num :=
    match a, b with
    | Fin x, Fin y => rnd (x + y)
    | NaN, _ | _, NaN => NaN
    | PInf, NInf | NInf, PInf => NaN
    | PInf, _ | _, PInf => PInf
    | NInf, _ | _, NInf => NInf
    end.
  Definition nsub (a b : num) : num := nadd a (nopp b).

  (** infinity with the sign of [s] times the infinity [i]; NaN when [s] is 0 *)
  Definition inf_times (i : num) (s : R) : num :=
    if Rlt_bool 0 s then i else if Rlt_bool s 0 then nopp i else NaN.

  Definition nmul (a b : num) : num :=
    match a, b with
    | Fin x, Fin y => rnd (x * y)
    | NaN, _ | _, NaN => NaN
    | Fin x, i => inf_times i x
    | i, Fin y => inf_times i y
    | PInf, i => i
    | NInf, i => nopp i
    end.

  Definition ndiv (a b : num) : num :=
    match a, b with
    | NaN, _ | _, NaN => NaN
    | Fin x, Fin y =>
        if Req_bool y 0
        then (if Rlt_bool 0 x then PInf else if Rlt_bool x 0 then NInf else NaN)
        else rnd (x / y)
    | Fin _, _ => Fin 0
    | i, Fin y => if Rlt_bool y 0 then nopp i else i
    | _, _ => NaN
    end.

  Definition nexp (a : num) : num :=
    match a with Fin x => elem (EXP x) | PInf => PInf | NInf => Fin 0 | NaN => NaN end.
  Definition nln (a : num) : num :=
    match a with
    | Fin x => if Rlt_bool 0 x then elem (LN x) else if Req_bool x 0 then NInf else NaN
    | PInf => PInf
    | _ => NaN
    end.
  Definition nlog10 (a : num) : num :=
    match a with
    | Fin x => if Rlt_bool 0 x then elem (LOG10 x)
               else if Req_bool x 0 then NInf else NaN
    | PInf => PInf
    | _ => NaN
    end.
  Definition nsqrt (a : num) : num :=
    match a with
    | Fin x => if Rlt_bool x 0 then NaN else rnd (sqrt x)
    | PInf => PInf
    | _ => NaN
    end.

  (** [x ** y] with a floating exponent (C99 [pow]). *)
  Definition is_integer (y : R) : bool := Req_bool (IZR (Zfloor y)) y.
  Definition npow (a b : num) : num :=
    match a, b with
    | _, Fin y =>
        if Req_bool y 0 then Fin 1 else
        match a with
        | NaN => NaN
        | Fin x =>
            if Rlt_bool 0 x then elem (POW x y)
            else if Req_bool x 0 then (if Rlt_bool 0 y then Fin 0 else PInf)
            else if is_integer y then elem (POWZ x (Zfloor y))
            else NaN
        | PInf => if Rlt_bool 0 y then PInf else Fin 0
        | NInf =>
            let odd := is_integer y && Z.odd (Zfloor y) in
            if Rlt_bool 0 y then (if odd then NInf else PInf) else Fin 0
        end
    | Fin x, PInf =>
        if Rlt_bool (Rabs x) 1 then Fin 0
        else if Req_bool (Rabs x) 1 then Fin 1 else PInf
    | Fin x, NInf =>
        if Rlt_bool (Rabs x) 1 then PInf
        else if Req_bool (Rabs x) 1 then Fin 1 else Fin 0
    | Fin x, NaN => if Req_bool x 1 then Fin 1 else NaN
    | NaN, _ => NaN
    | _, PInf => PInf
    | _, NInf => Fin 0
    | _, NaN => NaN
    end.
  Definition npow10 (b : num) : num := npow (Fin 10) b.

  (** [x ** n] with a Python integer exponent: JAX lowers it to [integer_pow],
      binary exponentiation by repeated multiplication. *)
  Fixpoint ipow_acc (acc : option num) (x : num) (p : positive) : num :=
    let acc_mul y := match acc with None => y | Some z => nmul z y end in
    match p with
    | xH => acc_mul x
    | xO q => ipow_acc acc (nmul x x) q
    | xI q => ipow_acc (Some (acc_mul x)) (nmul x x) q
    end.
  Definition ipow (x : num) (p : positive) : num := ipow_acc None x p.

  (** [jax.nn.sigmoid] = logistic function 1 / (1 + exp(-x)). *)
  Definition nlogistic (x : num) : num :=
    ndiv (Fin 1) (nadd (Fin 1) (nexp (nopp x))).
End Ops.

Declare Scope num_scope.
Delimit Scope num_scope with num.
Bind Scope num_scope with num.
Infix "+" := nadd : num_scope.
Infix "-" := nsub : num_scope.
Infix "*" := nmul : num_scope.
Infix "/" := ndiv : num_scope.
Notation "- x" := (nopp x) : num_scope.
Infix "<?" := nltb : num_scope.
Infix ">?" := ngtb : num_scope.
Infix "<=?" := nleb : num_scope.
Infix ">=?" := ngeb : num_scope.
Infix "=?" := neqb : num_scope.
Notation "x ^i p" := (ipow x p%positive) (at level 30) : num_scope.

(** ** Exceptions as values. *)
Inductive exn : Type :=
| ShapeError        (* incompatible array shapes (TypeError/ValueError from JAX) *)
| IndexError
| ValueError
| AssertionError
| KeyError
| AttributeError
| TypeError
| OSError           (* unreadable file *)
| UnboundLocalError.
Inductive res (A : Type) : Type :=
| Ok (a : A)
| Raise (e : exn).
Arguments Ok {A} a.
Arguments Raise {A} e.
Definition bind {A B} (x : res A) (f : A -> res B) : res B :=
  match x with Ok a => f a | Raise e => Raise e end.
Definition check {A} (c : bool) (e : exn) (k : res A) : res A :=
  if c then k else Raise e.
Notation "'let*' x := a 'in' b" := (bind a (fun x => b))
  (at level 200, x name, a at level 100, b at level 200).
