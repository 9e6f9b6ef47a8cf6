(** * Model of dsps/em_lines/equivalent_width.py

    [jnp.linalg.lstsq] (a singular-value decomposition) is not modelled: it is the
    section variable [lstsq], and the theorems about the fit assume only that it
    returns a least-squares solution (Spec of lstsq in SpecApi.v `least_squares_solver`). *)
From Coq Require Import Reals List Bool Arith.
From Verif Require Import Num Arr MUtils.
Import ListNotations.
Local Open Scope num_scope.

Section Emlines.
  Context {AR : Arith}.
  Variable lstsq : list (num * num * num) -> list num -> num * num * num.

  (** equivalent_width.py:10-14 [_get_quadfit_weights], one element *)
  Definition get_quadfit_weights (x x1 x2 x3 x4 : num) : num :=
    let msk_lo := ((x >=? x1) && (x <=? x2))%bool in
    let msk_hi := ((x >=? x3) && (x <=? x4))%bool in
    let msk := (msk_lo || msk_hi)%bool in
    nwhere msk (Fin 1) (Fin 0).

  (** equivalent_width.py:18-20 [_get_integration_weights], one element *)
  Definition get_integration_weights (x x2 x3 : num) : num :=
    let msk := ((x >=? x2) && (x <=? x3))%bool in
    nwhere msk (Fin 1) (Fin 0).

  (** equivalent_width.py:24-39 [_weighted_quadratic_fit]; a row of the n x 3 matrix
      is a triple, [jnp.vander(x, 3)] has the columns x^2, x, 1 *)
  Definition weighted_quadratic_fit (x y w : list num) : num * num * num :=
    let lhs := map2 (fun x w => (x ^i 2 * w, x * w, Fin 1 * w)) x w in
    let rhs := map2 nmul y w in
    let col f := nsqrt (vsum (map (fun r => f r * f r) lhs)) in
    let p2 (r : num * num * num) := fst (fst r) in
    let p1 (r : num * num * num) := snd (fst r) in
    let p0 (r : num * num * num) := snd r in
    let s2 := col p2 in
    let s1 := col p1 in
    let s0 := col p0 in
    let lhs := map (fun r => (p2 r / s2, p1 r / s1, p0 r / s0)) lhs in
    let c := lstsq lhs rhs in
    (p2 c / s2, p1 c / s1, p0 c / s0).

  (** equivalent_width.py:75-103 [_continuum_line_decomp_kern].  A flux of length 1 is
      broadcast to the wavelengths; [lstsq] refuses the other mismatches. *)
  Definition continuum_line_decomp_kern_k (wave flux : list num)
    (line_lo line_mid line_hi cont_lo_lo cont_lo_hi cont_hi_lo cont_hi_hi : num)
    : num * num * num * (num * num * num) :=
    let quadfit_w :=
      map (fun x => get_quadfit_weights x cont_lo_lo cont_lo_hi cont_hi_lo cont_hi_hi) wave in
    let coeffs := weighted_quadratic_fit wave flux quadfit_w in
    let '(c2, c1, c0) := coeffs in
    let continuum_strength_at_line := c0 + c1 * line_mid + c2 * line_mid ^i 2 in
    let int_w := map (fun x => get_integration_weights x line_lo line_hi) wave in
    let continuum_integrand :=
      map2 (fun i x => i * (c0 + c1 * x + c2 * x * x)) int_w wave in
    let spec_integrand := map2 nmul int_w flux in
    let continuum_flux_integral := trapz_k wave continuum_integrand in
    let spec_flux_integral := trapz_k wave spec_integrand in
    let total_line_flux := spec_flux_integral - continuum_flux_integral in
    let equivalent_width := total_line_flux / continuum_strength_at_line in
    (equivalent_width, total_line_flux, continuum_strength_at_line, coeffs).
  Definition continuum_line_decomp_kern (wave flux : list num)
    (line_lo line_mid line_hi cont_lo_lo cont_lo_hi cont_hi_lo cont_hi_hi : num)
    : res (num * num * num * (num * num * num)) :=
    check (fits (length wave) flux) ShapeError
      (Ok (continuum_line_decomp_kern_k wave (stretch (length wave) flux) line_lo line_mid line_hi
             cont_lo_lo cont_lo_hi cont_hi_lo cont_hi_hi)).

  (** equivalent_width.py:43-71 [_ew_kernel] *)
  Definition ew_kernel_k (wave flux : list num)
    (line_lo line_mid line_hi cont_lo_lo cont_lo_hi cont_hi_lo cont_hi_hi : num)
    : num * num :=
    let quadfit_w :=
      map (fun x => get_quadfit_weights x cont_lo_lo cont_lo_hi cont_hi_lo cont_hi_hi) wave in
    let '(c2, c1, c0) := weighted_quadratic_fit wave flux quadfit_w in
    let continuum_strength_at_line := c0 + c1 * line_mid + c2 * line_mid ^i 2 in
    let int_w := map (fun x => get_integration_weights x line_lo line_hi) wave in
    let continuum_integrand :=
      map2 (fun i x => i * (c0 + c1 * x + c2 * x * x)) int_w wave in
    let spec_integrand := map2 nmul int_w flux in
    let continuum_flux_integral := trapz_k wave continuum_integrand in
    let spec_flux_integral := trapz_k wave spec_integrand in
    let total_line_flux := spec_flux_integral - continuum_flux_integral in
    let equivalent_width := total_line_flux / continuum_strength_at_line in
    (equivalent_width, total_line_flux).
  Definition ew_kernel (wave flux : list num)
    (line_lo line_mid line_hi cont_lo_lo cont_lo_hi cont_hi_lo cont_hi_hi : num)
    : res (num * num) :=
    check (fits (length wave) flux) ShapeError
      (Ok (ew_kernel_k wave (stretch (length wave) flux) line_lo line_mid line_hi
             cont_lo_lo cont_lo_hi cont_hi_lo cont_hi_hi)).
End Emlines.
