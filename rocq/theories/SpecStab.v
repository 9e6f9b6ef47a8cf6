(** * Specification vocabulary for the sensitivity to the star formation history *)
From Coq Require Import Reals List.
From Verif Require Import Num MUtils MPhot Spec RList.
Open Scope R_scope.

(** [x] and [y] agree up to a factor [L] *)
Definition within_factor (L x y : R) : Prop := y <= L * x /\ x <= L * y.
(** two histories agree at every time up to a factor [L] *)
Definition tables_within (L : R) (l l' : list R) : Prop :=
  length l = length l' /\ forall i, (i < length l)%nat -> within_factor L (ent l i) (ent l' i).
(** a template cube of non-negative fluxes *)
Definition nonneg_cube (n k w : nat) (f : list (list (list R))) : Prop :=
  is_cube n k w f /\ forall i j l, (i < n)%nat -> (j < k)%nat -> (l < w)%nat -> 0 <= ent3 f i j l.
(** the magnitudes of two spectra on the wavelengths [ws], in every filter and in the rest frame as
    well as at every redshift in every cosmology, differ by [shift] up to [tol] *)
Definition mags_shifted (ws sed sed' : list R) (shift tol : R) : Prop :=
  forall wf tf, good_filter wf tf -> increasing wf -> List.Forall (fun t => 0 <= t) tf ->
    (0 < band_flux (spectrum_at ws sed) wf tf -> exists m m',
       calc_rest_mag (fins ws) (fins sed) (fins wf) (fins tf) = Ok (Fin m)
       /\ calc_rest_mag (fins ws) (fins sed') (fins wf) (fins tf) = Ok (Fin m')
       /\ Rabs (m' - (m + shift)) <= tol)
    /\ (forall z Om0 w0 wa h, 0 < z -> 0 < Om0 <= 1 -> 0 < h ->
       0 < band_flux (fun x => spectrum_at ws sed (x / (1 + z))) wf tf -> exists m m',
       calc_obs_mag (fins ws) (fins sed) (fins wf) (fins tf) (Fin z) (Fin Om0) (Fin w0) (Fin wa) (Fin h) = Ok (Fin m)
       /\ calc_obs_mag (fins ws) (fins sed') (fins wf) (fins tf) (Fin z) (Fin Om0) (Fin w0) (Fin wa) (Fin h) = Ok (Fin m')
       /\ Rabs (m' - (m + shift)) <= tol).
