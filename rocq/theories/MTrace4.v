(** * Traces of interpolation at moving positions: redshift of a spectrum, time of observation

    [jnp.interp] finds the interval with [jnp.searchsorted], which has no derivative (its result is an
    integer), and reads the two ends of the interval with an index operation, whose cotangent goes to
    the entry that was read and is 0 for the others. *)
From Coq Require Import Reals List Bool Arith ZArith.
From Verif Require Import Num Arr MUtils MSed MCosmo MPhot MGrad MTrace MTrace2 MTrace3.
Import ListNotations.

Section Traces4.
  Context {AR : Arith}.
  Local Notation C r := (Cst (Fin r%R)).

  (** [l[idx(p)]]: entry number [idx(p)], a selection by [where] *)
  Fixpoint pick_from (k : nat) (idx : num -> nat) (p : trace) (l : list trace) : trace :=
    match l with
    | [] => Cst NaN
    | [a] => a
    | a :: l => Where (fun v => idx v =? k)%nat p a (pick_from (S k) idx p l)
    end.
  Definition pick := pick_from 0.
  (** [jnp.interp(x, xp, fp, left, right)].  The interval [idx], and the tests [lo] and [hi] whether [x]
      is below or above the table, are functions of the value of [p] *)
  Definition interp_moving (left right : trace) (idx : num -> nat) (lo hi : num -> bool) (p x : trace) (xp fp : list trace) : trace :=
    let idx' v := (idx v - 1)%nat in
    let df := Sub (pick idx p fp) (pick idx' p fp) in
    let dx := Sub (pick idx p xp) (pick idx' p xp) in
    let delta := Sub x (pick idx' p xp) in
    let dx0 v := (nabs v <=? Fin interp_eps)%num in
    let f := Where dx0 dx (pick idx' p fp) (Add (pick idx' p fp) (Mul (Div delta (Where dx0 dx (C 1) dx)) df)) in
    let f := Where lo p left f in
    Where hi p right f.

  (** the spectrum redshifted to [z], at the wavelength [x] (photometry_kernels.py:127-129) *)
  Definition redshifted_trace (wave : list num) (lum : list trace) (z : trace) (x : num) : trace :=
    let shifted v := map (fun w => w * (Fin 1 + v))%num wave in
    interp_moving (C 0) (C 0) (fun v => clip_index (searchsorted_right (shifted v) x) (length wave))
      (fun v => x <? first (shifted v))%num (fun v => x >? last_ (shifted v))%num z (Cst x)
      (map (fun w => Mul (Cst w) (Add (C 1) z)) wave) lum.
  (** photometry_kernels.py:126-132 [_obs_flux_ssp] *)
  Definition obs_flux_z_trace (wave : list num) (lum : list trace) (wf tf : list num) (z : trace) : trace :=
    trapz_trace wf (map2 (fun a w => Div a (Cst w)) (map2 (fun t l => Mul (Cst t) l) tf (map (redshifted_trace wave lum z) wf)) wf).
  (** photometry_kernels.py:16-53 [calc_obs_mag]: spectrum, redshift and cosmology differentiated *)
  Definition obs_mag_z_trace (wave : list num) (lum : list trace) (wf tf : list num) (z Om0 w0 wa h : trace) : trace :=
    Add (Mul (Cst (lit (-2.5)%R)) (Log10 (Div (obs_flux_z_trace wave lum wf tf z) (Cst (flux_ab0_at_10pc wf tf))))) (dimming_trace z Om0 w0 wa h).

  (** interpolation in a fixed table at a moving position *)
  Definition interp_x_trace (x : trace) (xp : list num) (fp : list trace) : trace :=
    interp_moving (entry fp 0) (entry fp (length fp - 1)) (fun v => clip_index (searchsorted_right xp v) (length xp))
      (fun v => v <? first xp)%num (fun v => v >? last_ xp)%num x x (map Cst xp) fp.
  (** stellar_age_weights.py:118-125 [_get_lgt_birth] *)
  Definition lgt_birth_trace (t_obs : trace) (lg_age : num) : trace :=
    let t := Sub t_obs (Cst (npow10 lg_age)) in
    Log10 (Where (fun v => v <? T_BIRTH_MIN)%num t (Cst T_BIRTH_MIN) t).
  (** stellar_age_weights.py:18-88 [calc_age_weights_from_sfh_table]: rates and time of observation differentiated *)
  Definition bin_mass_t_traces (ts : list num) (sfrs : list trace) (ages : list num) (t_obs : trace) (sfr_min : num) : list trace :=
    let sm := map (fun a => Pow10 (interp_x_trace (lgt_birth_trace t_obs a) (map nlog10 ts) (logsm_traces ts sfrs sfr_min))) (get_lg_age_bin_edges_k ages) in
    map Neg (map2 (fun a b => Sub b a) sm (tl sm)).
  Definition age_weight_t_traces (ts : list num) (sfrs : list trace) (ages : list num) (t_obs : trace) (sfr_min : num) : list trace :=
    shares (bin_mass_t_traces ts sfrs ages t_obs sfr_min).
  (** stellar_sed.py:120-124 *)
  Definition mstar_t_trace (ts : list num) (sfrs : list trace) (t_obs : trace) (sfr_min : num) : trace :=
    Pow10 (interp_x_trace (Log10 t_obs) (map nlog10 ts) (logsm_traces ts sfrs sfr_min)).
End Traces4.
