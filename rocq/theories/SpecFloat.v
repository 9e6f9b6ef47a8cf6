(** * Specification vocabulary for floating-point statements *)
From Coq Require Import Reals List.
From Verif Require Import Num MMzr Float Spec Arr.
Import ListNotations.

(** IEEE-754 arithmetic with reductions [red] and library [lib], in double or in single
    precision, with gradual underflow or with subnormal results flushed to zero *)
Definition double_arithmetic (AR : Arith) red lib : Prop := AR = double_precision red lib \/ AR = double_flushed red lib.
Definition single_arithmetic (AR : Arith) red lib : Prop := AR = single_precision red lib \/ AR = single_flushed red lib.
(** double or single precision, with either treatment of subnormals, sums taken in any order
    and a mathematical library of relative error at most 2^-22 *)
Definition ieee_arithmetic (AR : Arith) : Prop :=
  (exists red lib, any_order red /\ (double_arithmetic AR red lib \/ single_arithmetic AR red lib))
  /\ accurate_library AR (/ 2 ^ 22).
(** the real [x] is a finite floating-point number of the arithmetic *)
Definition machine_number {AR : Arith} (x : R) : Prop := rnd x = Fin x.
(** no field is NaN (fields may be infinite) *)
Definition not_nan_params (u : MZRParams) : Prop :=
  mzr_t0_ytp u <> NaN /\ mzr_t0_x0 u <> NaN /\ mzr_t0_k u <> NaN /\ mzr_t0_slope_lo u <> NaN /\ mzr_t0_slope_hi u <> NaN
  /\ c0_y_at_tlook_c u <> NaN /\ c1_y_at_tlook_c u <> NaN /\ c0_early_time_slope u <> NaN /\ c1_early_time_slope u <> NaN.
(** every entry is NaN / is a finite number between 0 and 1 *)
Definition all_nan (w : list num) : Prop := Forall (fun v => v = NaN) w.
Definition all_unit (w : list num) : Prop := Forall (fun v => exists x, v = Fin x /\ (0 <= x <= 1)%R) w.
(** Double or single precision, with gradual underflow or subnormals flushed to zero, sums
    taken in any order and a mathematical library of relative error at most [u]; [u] is at least the unit roundoff of the precision (half the
    spacing of machine numbers just above 1: 2^-53 or 2^-24) and at most 2^-22. *)
Definition accurate_to (AR : Arith) (u : R) : Prop :=
  (exists red lib, any_order red
     /\ ((double_arithmetic AR red lib /\ / 2 ^ 53 <= u <= / 2 ^ 22) \/ (single_arithmetic AR red lib /\ / 2 ^ 24 <= u <= / 2 ^ 22)))%R
  /\ accurate_library AR u.

(** ** Tables for which a rounding error bound is stated *)
(** times (Gyr): machine numbers from 0.003 to 1000, each at least 1.00001 times its
    predecessor *)
Definition times_ok {AR : Arith} (ts : list R) : Prop :=
  (ts <> [] /\ 0.003 <= ent ts 0 /\ (forall i, (i < length ts)%nat -> rnd (ent ts i) = Fin (ent ts i) /\ ent ts i <= 1000)
  /\ (forall i, (S i < length ts)%nat -> 1.00001 * ent ts i <= ent ts (S i)))%R.
(** star-formation rates (Msun/yr) and their floor: machine numbers up to 1e20 *)
Definition sfr_ok {AR : Arith} (smin : R) (ss : list R) : Prop :=
  (0 < smin /\ rnd smin = Fin smin /\ smin <= 10 ^ 20 /\ Forall (fun s => rnd s = Fin s /\ s <= 10 ^ 20) ss)%R.
(** [K] bounds the slope d(log10 mass)/d(log10 time) of the mass history *)
Definition slope_ok (K : R) (ts sfrs : list R) : Prop :=
  (0 <= K /\ forall i, (S i < length ts)%nat ->
    log10 (ent (cumulative_mass ts sfrs) (S i)) - log10 (ent (cumulative_mass ts sfrs) i) <= K * (log10 (ent ts (S i)) - log10 (ent ts i)))%R.
(** amplification factor of the rounding error of a mass read off the mass history, for
    a table [ts] of slope at most [K] observed at [t_obs] with [n] templates *)
Definition mass_amp (K : R) (ts : list R) (t_obs : R) (n : nat) : R :=
  (2 * INR (length ts) + 2 * INR n + 740 + 321 * (K + 1) * (t_obs / ent ts 0))%R.
(** a star-formation history, its floor [sfr_min] and a slope bound [K] *)
Definition rounding_history {AR : Arith} (K : R) (ts sfrs : list R) (sfr_min : R) : Prop :=
  (times_ok ts /\ length ts = length sfrs /\ (length ts <= 2 ^ 17)%nat
  /\ Forall (fun s => rnd s = Fin s /\ s <= 10 ^ 20) sfrs /\ 1 / 10 ^ 20 <= sfr_min <= 10 ^ 19
  /\ slope_ok K ts (floored sfr_min sfrs))%R.
(** log10 ages (Gyr) of the templates: between -4 and 4, with nondecreasing bin edges *)
Definition rounding_ages (ages : list R) : Prop :=
  ((3 <= length ages <= 2 ^ 18)%nat /\ (forall i, (i < length ages)%nat -> -4 <= ent ages i <= 4) /\ nondecreasing (age_edges ages))%R.
(** metallicities of the templates: between -4 and 4, with nondecreasing bin edges *)
Definition rounding_lgmets (lgmets : list R) : Prop :=
  ((3 <= length lgmets <= 2 ^ 18)%nat /\ (forall i, (i < length lgmets)%nat -> -4 <= ent lgmets i <= 4) /\ nondecreasing (met_edges lgmets))%R.
(** at least half of the mass formed by the birth time of the youngest bin edge was formed
    after the birth time of the oldest bin edge *)
Definition half_in_bins (ts sfrs : list R) (sfr_min t_obs : R) (ages : list R) : Prop :=
  (let formed lg_age := mass_formed_by ts (floored sfr_min sfrs) (birth_time t_obs lg_age) in
   formed (age_edge ages (length ages)) <= formed (age_edge ages 0) / 2)%R.
(** the metallicity table: machine numbers between -5 and 5 of slope at most [K] against
    log10 time *)
Definition rounding_lgmet_table {AR : Arith} (K : R) (ts lgmet_table : list R) : Prop :=
  (length ts = length lgmet_table /\ 0 <= K /\ (forall i, (i < length ts)%nat -> rnd (ent lgmet_table i) = Fin (ent lgmet_table i) /\ -5 <= ent lgmet_table i <= 5)
   /\ forall i, (S i < length ts)%nat -> Rabs (ent lgmet_table (S i) - ent lgmet_table i) <= K * (log10 (ent ts (S i)) - log10 (ent ts i)))%R.
(** sum over all entries of the absolute differences of two matrices of the same shape *)
Definition total_difference (W W0 : list (list R)) : R :=
  Rsum (map2 (fun x y => Rabs (x - y)) (concat W) (concat W0)).
(** amplification factor of the rounding error of joint weights: [K] as above, [n_age] and
    [n_met] templates, metallicity scatter [h], error [c] (in units of the roundoff) of the
    galaxy metallicity *)
Definition joint_amp (K : R) (ts : list R) (t_obs : R) (n_age n_met : nat) (h c : R) : R :=
  (100 * INR n_age * mass_amp K ts t_obs n_age + 26 * INR n_met * ((130 + 8 * INR n_met + c) / h) + 10 * INR (n_met * n_age))%R.
(** error of the metallicity at birth in units of the roundoff *)
Definition lgmet_amp (K : R) (ts : list R) (t_obs : R) : R := (100 + 321 * K * (t_obs / ent ts 0))%R.
