(** * Properties C79-C81: equivalent widths (em_lines/equivalent_width.py).  Exact real
    arithmetic and any least-squares solver, except C80 which holds in any arithmetic for any
    solver. *)
From Coq Require Import Reals List Arith Lra Lia.
From Verif Require Import Num Arr MUtils MEmlines Spec SpecApi RList LEmline.
Import ListNotations.
Open Scope R_scope.

(** C79 *)
@@C79_line_on_quadratic_continuum = LEmline.C79_lemma
(** least-squares solvers exist, and a flat continuum of 1 with a line of height 2 at
    wavelength 3 has an equivalent width of 1 *)
Example C79_nonvacuous : exists lstsq, least_squares_solver lstsq
  /\ ew_kernel lstsq (fins [1; 2; 3; 4; 5]) (fins [1; 1; 2; 1; 1]) (Fin 2.5) (Fin 3) (Fin 3.5) (Fin 1) (Fin 2) (Fin 4) (Fin 5)
     = Ok (Fin 1, Fin 1).
Proof.
  exists cramer_solver. split; [exact solver_exists|].
  destruct (C79_line_on_quadratic_continuum _ solver_exists [1; 2; 3; 4; 5] [1; 1; 2; 1; 1] 2.5 3 3.5 1 2 4 5 (0, 0, 1)) as [_ E].
  - reflexivity.
  - exists 1, 2, 4. unfold in_continuum. simpl. repeat split; auto; lra.
  - intros i Hi Hc. unfold quadratic, ent, in_continuum in *. simpl in *.
    destruct i as [|[|[|[|[|i]]]]]; simpl in *; try lia; lra.
  - unfold quadratic. simpl. lra.
  - rewrite E. unfold line_excess, quadratic. simpl combine. cbn [map fst snd].
    repeat (destruct (Rle_dec _ _); [|try (exfalso; lra)] || idtac); try (exfalso; lra).
    all: cbn [trapezoid]; f_equal; f_equal; f_equal; lra.
Qed.

(** C80: any arithmetic *)
@@C80_kernels_agree = LEmline.C80_lemma

(** C81 *)
@@C81_equivalent_width_scale_invariant = LEmline.C81_lemma
@@C81_line_flux_linear = LEmline.C81_lin_lemma
