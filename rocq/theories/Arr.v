(** * Arrays: the jnp / numpy array primitives used by dsps, on lists.

    The JAX and numpy sources are not part of /repo; these definitions follow the
    documented behaviour of the library routines (listed in DESIGN.md as part of
    the trusted base).  Kernels here are unchecked: [map2] truncates.  The public
    functions of the model check shapes first and return [Raise ShapeError], so
    truncation is never reached through them, except for a single filter wavelength (MPhot). *)
From Coq Require Import Reals List Bool Arith.
From Flocq Require Import Core.Raux.
From Verif Require Import Num.
Import ListNotations.
Local Open Scope num_scope.

Fixpoint map2 {A B C : Type} (f : A -> B -> C) (l1 : list A) (l2 : list B) : list C :=
  match l1, l2 with
  | x :: xs, y :: ys => f x y :: map2 f xs ys
  | _, _ => []
  end.

Definition same_len {A B} (a : list A) (b : list B) : bool := (length a =? length b)%nat.

(** ** Broadcasting of one-dimensional arrays: an array of length 1 stands for an array of any
    length with that entry everywhere. *)
(** can be broadcast to length [n]; the result *)
Definition fits {A} (n : nat) (l : list A) : bool := ((length l =? n) || (length l =? 1))%nat%bool.
Definition stretch {A} (n : nat) (l : list A) : list A :=
  match l with [x] => repeat x n | _ => l end.
(** an elementwise operation of two arrays, each of which can be broadcast to the other *)
Definition bmap2 {A B C : Type} (f : A -> B -> C) (l1 : list A) (l2 : list B) : res (list C) :=
  if same_len l1 l2 then Ok (map2 f l1 l2)
  else match l1, l2 with
       | [x], _ => Ok (map (f x) l2)
       | _, [y] => Ok (map (fun x => f x y) l1)
       | _, _ => Raise ShapeError
       end.

(** [a[i]] for an index inside the array (the default is never used by callers
    that respect the bounds; an out-of-range read of the model gives NaN). *)
Definition at_ (l : list num) (i : nat) : num := nth i l NaN.
Definition first (l : list num) : num := at_ l 0.
Definition last_ (l : list num) : num := at_ l (length l - 1).

Section Arr.
  Context {AR : Arith}.

  (** [jnp.sum(a)]: 0 for an empty array, otherwise the entries are added in the order
      chosen by the backend *)
  Definition vsum (l : list num) : num :=
    match l with [] => Fin 0 | _ => reduce nadd l end.

  (** [jnp.diff(a)] *)
  Definition diff (l : list num) : list num := map2 (fun a b => b - a) l (tl l).

  (** [jnp.trapezoid(y, x)] = 0.5 * (diff(x) * (y[1:] + y[:-1])).sum() *)
  Definition trapz_k (x y : list num) : num :=
    Fin (1/2) * vsum (map2 nmul (diff x) (map2 nadd (tl y) y)).

  (** [jnp.searchsorted(xp, x, side='right')] on a sorted array: the number of
      entries <= x. *)
  Definition searchsorted_right (xp : list num) (x : num) : nat :=
    length (filter (fun e => e <=? x) xp).

  (** [jnp.clip(i, 1, n - 1)] = minimum(maximum(i, 1), n - 1) *)
  Definition clip_index (i n : nat) : nat := Nat.min (Nat.max i 1) (n - 1).

  (** [jnp.interp(x, xp, fp, left, right)] *)
  Definition interp_core (x : num) (xp fp : list num) : num :=
    let i := clip_index (searchsorted_right xp x) (length xp) in
    let df := at_ fp i - at_ fp (i - 1) in
    let dx := at_ xp i - at_ xp (i - 1) in
    let delta := x - at_ xp (i - 1) in
    let dx0 := nabs dx <=? Fin interp_eps in
    nwhere dx0 (at_ fp (i - 1))
      (at_ fp (i - 1) + (delta / nwhere dx0 (Fin 1) dx) * df).
  Definition interp_lr (left right x : num) (xp fp : list num) : num :=
    let f := interp_core x xp fp in
    let f := nwhere (x <? first xp) left f in
    nwhere (x >? last_ xp) right f.
  Definition interp (x : num) (xp fp : list num) : num :=
    interp_lr (first fp) (last_ fp) x xp fp.

  (** [jnp.linspace(start, stop, n)] for n >= 2 *)
  Definition linspace (start stop : num) (n : nat) : list num :=
    map (fun i => let step := Fin (INR i) / Fin (INR (n - 1)) in
                  start * (Fin 1 - step) + stop * step) (seq 0 (n - 1)) ++ [stop].
  (** [jnp.logspace(start, stop, n)] = 10 ** linspace(start, stop, n) *)
  Definition logspace (start stop : num) (n : nat) : list num :=
    map npow10 (linspace start stop n).

  (** [a.min()], [a.max()] (NaN propagates, as in numpy) *)
  Definition nmin (a b : num) : num :=
    if (nisnan a || nisnan b)%bool then NaN else if b <? a then b else a.
  Definition nmax (a b : num) : num :=
    if (nisnan a || nisnan b)%bool then NaN else if a <? b then b else a.
  Definition vmin (l : list num) : num :=
    match l with [] => NaN | x :: xs => fold_left nmin xs x end.
  Definition vmax (l : list num) : num :=
    match l with [] => NaN | x :: xs => fold_left nmax xs x end.
  (** [np.clip(a, lo, hi)] *)
  Definition nclip (lo hi a : num) : num := nmin (nmax a lo) hi.

  (** [numpy.linspace(start, stop, n)]: start + i * step, last entry forced to stop *)
  Definition np_linspace (start stop : num) (n : nat) : list num :=
    match n with
    | O => []
    | S O => [start]
    | _ =>
      let step := (stop - start) / Fin (INR (n - 1)) in
      map (fun i => Fin (INR i) * step + start) (seq 0 (n - 1)) ++ [stop]
    end.

  (** [numpy.interp(x, xp, fp)]: constant outside, knots exact, linear between. *)
  Definition np_interp (x : num) (xp fp : list num) : num :=
    if nisnan x then NaN else
    let n := length xp in
    let j := searchsorted_right xp x in
    if (j =? 0)%nat then first fp
    else if (j =? n)%nat then last_ fp
    else
      let j := (j - 1)%nat in
      if at_ xp j =? x then at_ fp j
      else
        let slope := (at_ fp (S j) - at_ fp j) / (at_ xp (S j) - at_ xp j) in
        slope * (x - at_ xp j) + at_ fp j.
End Arr.
