(** * Specification vocabulary

    The words used by the property theorems, on plain real numbers and lists of reals.
    Nothing here refers to the model of the code (only [fins] mentions its number
    type, to inject real lists). *)
From Coq Require Import Reals List Arith.
From Verif Require Import Num.
Import ListNotations.
Open Scope R_scope.

(** a list of finite numbers *)
Definition fins (l : list R) : list num := map Fin l.

Fixpoint Rsum (l : list R) : R :=
  match l with [] => 0 | x :: r => x + Rsum r end.

(** entry [i] of a list of reals *)
Definition ent (l : list R) (i : nat) : R := nth i l 0.

Definition increasing (l : list R) : Prop :=
  forall i j, (i < j < length l)%nat -> ent l i < ent l j.
Definition nondecreasing (l : list R) : Prop :=
  forall i j, (i < j < length l)%nat -> ent l i <= ent l j.

(** a discrete probability distribution *)
Definition distribution (w : list R) : Prop :=
  Forall (fun x => 0 <= x) w /\ Rsum w = 1.

(** all weight on entry [k] of [n] *)
Definition unit_vec (n k : nat) : list R :=
  map (fun i => if (i =? k)%nat then 1 else 0) (seq 0 n).

Definition log10 (x : R) : R := ln x / ln 10.
Definition pow10 (x : R) : R := Rpower 10 x.

(** the piecewise-linear function through the points [(x0,y0), (x1,y1), ...] with
    increasing abscissae, constant outside *)
Fixpoint pwlin (pts : list (R * R)) (x : R) : R :=
  match pts with
  | [] => 0
  | (x0, y0) :: r =>
      match r with
      | [] => y0
      | (x1, y1) :: _ =>
          if Rle_dec x x0 then y0
          else if Rlt_dec x x1 then y0 + (x - x0) / (x1 - x0) * (y1 - y0)
          else pwlin r x
      end
  end.

(** the trapezoid rule on the points [(x_i, y_i)] *)
Fixpoint trapezoid (xs ys : list R) : R :=
  match xs, ys with
  | x0 :: ((x1 :: _) as xr), y0 :: ((y1 :: _) as yr) =>
      (x1 - x0) * (y0 + y1) / 2 + trapezoid xr yr
  | _, _ => 0
  end.

(** total of a matrix / cube given as nested lists *)
Definition Rsum2 (m : list (list R)) : R := Rsum (map Rsum m).
Definition ent2 (m : list (list R)) (i j : nat) : R := ent (nth i m []) j.
(** an [n] by [k] matrix *)
Definition is_matrix {A} (n k : nat) (m : list (list A)) : Prop :=
  length m = n /\ Forall (fun r => length r = k) m.

(** ** Bins around the nodes of a grid (both age and metallicity grids).
    Interior nodes have a bin of width half the distance between their two
    neighbours, centred on the node as far as its lower edge is concerned. *)
Definition node_width (a : list R) (i : nat) : R :=
  let n := length a in
  if (i =? 0)%nat then ent a 1 - ent a 0
  else if (i =? n - 1)%nat
       then (ent a i - ent a (i - 1)) / 2 + (ent a i - ent a (i - 2)) / 4
  else (ent a (i + 1) - ent a (i - 1)) / 2.
(** lower edge of bin [i] for [0 <= i < n], upper edge of the last bin for [i = n] *)
Definition age_edge (a : list R) (i : nat) : R :=
  let n := length a in
  if (i =? n)%nat then ent a (n - 1) + node_width a (n - 1) / 2
  else ent a i - node_width a i / 2.
Definition age_edges (a : list R) : list R := map (age_edge a) (seq 0 (S (length a))).
(** metallicity bins: the same inside, outermost edges at -10 and 10 *)
Definition met_edge (a : list R) (i : nat) : R :=
  if (i =? 0)%nat then -10
  else if (i =? length a)%nat then 10
  else ent a i - node_width a i / 2.
Definition met_edges (a : list R) : list R := map (met_edge a) (seq 0 (S (length a))).

(** spacing of a grid *)
Definition gap (a : list R) (i : nat) : R := ent a (S i) - ent a i.

(** ** Stellar mass *)
(** cumulative mass formed (in Msun) at each table time: trapezoid rule on the table
    preceded by the point (0.001 Gyr, 1e-14 Msun/yr), times 1e9 yr/Gyr *)
Definition cumulative_mass (ts sfrs : list R) : list R :=
  map (fun i => 10 ^ 9 * trapezoid (0.001 :: firstn (S i) ts)
                                   (1 / 10 ^ 14 :: firstn (S i) sfrs))
      (seq 0 (length ts)).
(** the star-formation history with a floor *)
Definition floored (sfr_min : R) (sfrs : list R) : list R := map (Rmax sfr_min) sfrs.
(** mass formed by time [t]: log-log interpolation of the cumulative mass *)
Definition mass_formed_by (ts sfrs : list R) (t : R) : R :=
  pow10 (pwlin (combine (map log10 ts) (map log10 (cumulative_mass ts sfrs))) (log10 t)).
(** cosmic time of birth of a star of log10 age [lg_age] seen at [t_obs], clipped at
    0.001 Gyr *)
Definition birth_time (t_obs lg_age : R) : R := Rmax 0.001 (t_obs - pow10 lg_age).

(** metallicity of the gas from which stars of log10 age [lg_age] formed *)
Definition lgmet_at_birth (ts ms : list R) (t_obs lg_age : R) : R :=
  pwlin (combine (map log10 ts) ms) (log10 (birth_time t_obs lg_age)).

(** [sfrs] and [sfrs'] agree at every table time up to and including the first one at
    or after [t] *)
Definition same_past (ts : list R) (t : R) (sfrs sfrs' : list R) : Prop :=
  forall i, (i < length ts)%nat -> i = O \/ ent ts (i - 1) < t -> ent sfrs i = ent sfrs' i.

(** ** Triweight kernel with half-width 3h *)
Definition triweight_cdf (z : R) : R :=
  if Rle_dec z (-3) then 0 else if Rle_dec 3 z then 1
  else 1/2 + 35/96 * (z - z ^ 3 / 9 + z ^ 5 / 135 - z ^ 7 / 5103).

(** the logistic function *)
Definition logistic (x : R) : R := 1 / (1 + exp (- x)).

(** ** Joint template weights and SED *)
(** common hypotheses of the SED functions: a galaxy history and template grids *)
Definition good_grids ts (sfrs : list R) h lgmets ages t_obs : Prop :=
  length ts = length sfrs /\ ts <> [] /\ increasing (0.001 :: ts) /\
  (3 <= length ages)%nat /\ nondecreasing (age_edges ages) /\
  0 < h /\ (3 <= length lgmets)%nat /\ nondecreasing (met_edges lgmets) /\
  (let formed lg_age := mass_formed_by ts (floored (1 / 10 ^ 14) sfrs) (birth_time t_obs lg_age) in
   formed (age_edge ages 0) <> formed (age_edge ages (length ages))).

(** flux cube of shape (n_met, n_age, n_wave) *)
Definition is_cube (n k w : nat) (f : list (list (list R))) : Prop :=
  length f = n /\ Forall (is_matrix k w) f.
Definition fins3 (f : list (list (list R))) : list (list (list num)) := map (map fins) f.
Definition ent3 (f : list (list (list R))) (i j k : nat) : R := ent2 (nth i f []) j k.

(** weighted sum of the templates at wavelength [k] *)
Definition template_mix (n m : nat) (W : list (list R)) (f : list (list (list R))) (k : nat) : R :=
  Rsum (map (fun i => Rsum (map (fun j => ent2 W i j * ent3 f i j k) (seq 0 m))) (seq 0 n)).

(** an array axis of length [m] can stand where one of length [n] is expected: it has that
    length, or it has length 1 and its only entry is repeated *)
Definition stands_for (m n : nat) : Prop := m = n \/ m = 1%nat.
(** [cube] has [m] planes of [j] spectra, all of the same length, and can stand where [n] planes
    of [k] spectra are expected *)
Definition has_shape (n k : nat) (cube : list (list (list num))) : Prop :=
  exists m j w, stands_for m n /\ stands_for j k /\ length cube = m /\ Forall (fun plane =>
    length plane = j /\ Forall (fun spec => length spec = w) plane) cube.

(** one-sided limits *)
Definition left_limit (f : R -> R) (x L : R) : Prop :=
  forall eps, 0 < eps -> exists d, 0 < d /\ forall w, x - d < w < x -> Rabs (f w - L) < eps.
Definition right_limit (f : R -> R) (x L : R) : Prop :=
  forall eps, 0 < eps -> exists d, 0 < d /\ forall w, x < w < x + d -> Rabs (f w - L) < eps.

(** ** Planck's law (SI units: W m^-2 sr^-1 Hz^-1 and W m^-2 sr^-1 m^-1) *)
Definition h_planck : R := 6.62607015 / 10 ^ 34.
Definition k_boltzmann : R := 1.380649 / 10 ^ 23.
Definition c_light : R := 299792458.
Definition watts_per_lsun : R := 3.828 * 10 ^ 26.
Definition planck_freq (nu T : R) : R :=
  2 * h_planck * nu ^ 3 / c_light ^ 2 / (exp (h_planck * nu / (k_boltzmann * T)) - 1).
Definition planck_wave (lambda T : R) : R :=
  2 * h_planck * c_light ^ 2 / lambda ^ 5 / (exp (h_planck * c_light / (lambda * k_boltzmann * T)) - 1).

(** ** Flat wCDM cosmology *)
(** dark energy density relative to today, w(a) = w0 + wa (1 - a) *)
Definition dark_energy (w0 wa z : R) : R :=
  Rpower (1 + z) (3 * (1 + w0 + wa)) * exp (- 3 * wa * (z / (1 + z))).
(** expansion rate relative to today *)
Definition expansion (Om0 w0 wa z : R) : R :=
  sqrt (Om0 * (1 + z) ^ 3 + (1 - Om0) * dark_energy w0 wa z).
(** age of a flat Lambda-CDM universe at redshift [z], in units of the Hubble time *)
Definition lcdm_age (Om0 z : R) : R :=
  if Rlt_dec Om0 1 then
    2 / (3 * sqrt (1 - Om0))
    * ln ((sqrt (1 - Om0) + sqrt (Om0 * (1 + z) ^ 3 + (1 - Om0))) / sqrt (Om0 * (1 + z) ^ 3))
  else 2 / 3 / sqrt ((1 + z) ^ 3).
(** Hubble distance in Mpc: c / (100 h km/s/Mpc) *)
Definition hubble_dist (h : R) : R := c_light / 10 ^ 5 / h.

(** ** Photometry *)
(** a tabulated spectrum: linear between its wavelengths, 0 outside *)
Definition spectrum_at (ws ls : list R) (x : R) : R :=
  if Rlt_dec x (ent ws 0) then 0
  else if Rlt_dec (ent ws (length ws - 1)) x then 0
  else pwlin (combine ws ls) x.
(** AB zero point (Lsun/Hz at 10 pc) *)
Definition ab0 : R := 1.13492 / 10 ^ 13.
(** photon-weighted band integral of a spectral density [S] through a filter *)
Definition band_integral (S : R -> R) (wf tf : list R) : R :=
  trapezoid wf (map (fun i => ent tf i * S (ent wf i) / ent wf i) (seq 0 (length wf))).
(** flux through the filter relative to the AB zero point *)
Definition band_flux (S : R -> R) (wf tf : list R) : R :=
  band_integral S wf tf / band_integral (fun _ => ab0) wf tf.
(** a spectrum table and a filter *)
Definition good_spectrum (ws ls : list R) : Prop :=
  increasing ws /\ length ws = length ls /\ ws <> [].
Definition good_filter (wf tf : list R) : Prop :=
  length wf = length tf /\ Forall (fun w => 0 < w) wf /\ 0 < band_integral (fun _ => ab0) wf tf.
(** [n] is the length of the shortest of the lists *)
Definition shortest (n : nat) (waves : list (list R)) : Prop :=
  (forall w, In w waves -> (n <= length w)%nat) /\ exists w, In w waves /\ length w = n.
