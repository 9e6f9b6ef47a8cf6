(** * Properties C79-C81: equivalent widths (em_lines/equivalent_width.py).  Exact real
    arithmetic and any least-squares solver, except C80 which holds in any arithmetic for any
    solver. *)
From Coq Require Import Reals List Arith Lra Lia.
From Verif Require Import Num Arr MUtils MEmlines Spec SpecApi RList LEmline.
Import ListNotations.
Open Scope R_scope.

(** C79 *)
Theorem C79_line_on_quadratic_continuum : forall lstsq, least_squares_solver lstsq -> forall wave flux ll lm lh a b c d q,
  length wave = length flux -> three_continuum_points a b c d wave ->
  (forall i, (i < length wave)%nat -> in_continuum a b c d (ent wave i) -> ent flux i = quadratic q (ent wave i)) ->
  quadratic q lm <> 0 ->
  let line := trapezoid wave (line_excess ll lh (quadratic q) wave flux) in
  continuum_line_decomp_kern lstsq (fins wave) (fins flux) (Fin ll) (Fin lm) (Fin lh) (Fin a) (Fin b) (Fin c) (Fin d)
    = Ok (Fin (line / quadratic q lm), Fin line, Fin (quadratic q lm), fin3 q)
  /\ ew_kernel lstsq (fins wave) (fins flux) (Fin ll) (Fin lm) (Fin lh) (Fin a) (Fin b) (Fin c) (Fin d)
    = Ok (Fin (line / quadratic q lm), Fin line).
Proof. exact C79_lemma. Qed.
Print Assumptions C79_line_on_quadratic_continuum.
(** least-squares solvers exist, and a flat continuum of 1 with a line of height 2 at
    wavelength 3 has an equivalent width of 1 *)
Example C79_nonvacuous : exists lstsq, least_squares_solver lstsq
  /\ ew_kernel lstsq (fins [1; 2; 3; 4; 5]) (fins [1; 1; 2; 1; 1]) (Fin 2.5) (Fin 3) (Fin 3.5) (Fin 1) (Fin 2) (Fin 4) (Fin 5)
     = Ok (Fin 1, Fin 1).
Proof.
  exists cramer_solver. split; [exact solver_exists|].
  destruct (C79_line_on_quadratic_continuum _ solver_exists [1; 2; 3; 4; 5] [1; 1; 2; 1; 1] 2.5 3 3.5 1 2 4 5 (0, 0, 1)) as [_ E].
  - reflexivity.
  - exists 1, 2, 4. unfold in_continuum. simpl. repeat split; auto; lra.
  - intros i Hi Hc. unfold quadratic, ent, in_continuum in *. simpl in *.
    destruct i as [|[|[|[|[|i]]]]]; simpl in *; try lia; lra.
  - unfold quadratic. simpl. lra.
  - rewrite E. unfold line_excess, quadratic. simpl combine. cbn [map fst snd].
    repeat (destruct (Rle_dec _ _); [|try (exfalso; lra)] || idtac); try (exfalso; lra).
    all: cbn [trapezoid]; f_equal; f_equal; f_equal; lra.
Qed.

(** C80: any arithmetic *)
Theorem C80_kernels_agree {AR : Arith} : forall lstsq wave flux ll lm lh a b c d,
  ew_kernel lstsq wave flux ll lm lh a b c d
  = match continuum_line_decomp_kern lstsq wave flux ll lm lh a b c d with
    | Ok (ew, line, cont, coeffs) => Ok (ew, line)
    | Raise e => Raise e
    end.
Proof. exact C80_lemma. Qed.
Print Assumptions C80_kernels_agree.

(** C81 *)
Theorem C81_equivalent_width_scale_invariant : forall lstsq, least_squares_solver lstsq -> forall wave flux ll lm lh a b c d s,
  length wave = length flux -> three_continuum_points a b c d wave -> s <> 0 ->
  let kern f := continuum_line_decomp_kern lstsq (fins wave) (fins f) (Fin ll) (Fin lm) (Fin lh) (Fin a) (Fin b) (Fin c) (Fin d) in
  exists ew ew' line cont co co', kern flux = Ok (ew, Fin line, Fin cont, co)
   /\ kern (map (Rmult s) flux) = Ok (ew', Fin (s * line), Fin (s * cont), co')
   /\ (cont <> 0 -> ew = Fin (line / cont) /\ ew' = ew).
Proof. exact C81_lemma. Qed.
Print Assumptions C81_equivalent_width_scale_invariant.
Theorem C81_line_flux_linear : forall lstsq, least_squares_solver lstsq -> forall wave flux flux' ll lm lh a b c d s t,
  length wave = length flux -> length wave = length flux' -> three_continuum_points a b c d wave ->
  let kern f := continuum_line_decomp_kern lstsq (fins wave) (fins f) (Fin ll) (Fin lm) (Fin lh) (Fin a) (Fin b) (Fin c) (Fin d) in
  exists ew ew' ew'' line line' cont cont' co co' co'',
    kern flux = Ok (ew, Fin line, Fin cont, co) /\ kern flux' = Ok (ew', Fin line', Fin cont', co')
    /\ kern (map2 (fun y z => s * y + t * z) flux flux') = Ok (ew'', Fin (s * line + t * line'), Fin (s * cont + t * cont'), co'').
Proof. exact C81_lin_lemma. Qed.
Print Assumptions C81_line_flux_linear.
