(** * Specification vocabulary for the convergence of tabulated star formation histories *)
From Coq Require Import Reals List.
From Coquelicot Require Import Coquelicot.
From Verif Require Import Num Spec.
Import ListNotations.
Open Scope R_scope.

(** a star formation history: a function of cosmic time (Gyr), between 0 and [F] (Msun/yr), that
    changes by at most [K] Msun/yr per Gyr *)
Definition smooth_history (K F : R) (f : R -> R) : Prop :=
  (forall t, 0 <= f t <= F) /\ (forall s t, Rabs (f s - f t) <= K * Rabs (s - t)).
(** the times of a table that starts within [h] of 0.001 Gyr, ends between [t_obs] and [T] and has no
    step longer than [h] *)
Definition resolves (h t_obs T : R) (ts : list R) : Prop :=
  ts <> [] /\ increasing (0.001 :: ts) /\ t_obs <= ent ts (length ts - 1) <= T
  /\ forall i, (i < length ts)%nat -> gap (0.001 :: ts) i <= h.
(** mass (in units of 1e9 Msun) really formed in the [j]-th age bin, and in all of them *)
Definition mass_in_bin (f : R -> R) (t_obs : R) (ages : list R) (j : nat) : R :=
  RInt f (birth_time t_obs (age_edge ages (S j))) (birth_time t_obs (age_edge ages j)).
Definition mass_in_range (f : R -> R) (t_obs : R) (ages : list R) : R :=
  RInt f (birth_time t_obs (age_edge ages (length ages))) (birth_time t_obs (age_edge ages 0)).
(** error of the mass history read off a table of step [h] up to the time [T]; [d] is the largest
    amount by which the floor lifts the history *)
Definition table_error (K F h d T : R) : R := (K * T + 3 * F) / 2 * h + d * T.
(** the spectrum of the continuous history: every age bin contributes its true share of the mass *)
Definition synthesis (f : R -> R) (t_obs : R) (n : nat) (ages : list R) (q : list R) (flux : list (list (list R))) (k : nat) : R :=
  10 ^ 9 * RInt f 0.001 t_obs
  * Rsum (map (fun i => Rsum (map (fun j => ent q i * (mass_in_bin f t_obs ages j / mass_in_range f t_obs ages) * ent3 flux i j k)
                                  (seq 0 (length ages)))) (seq 0 n)).
(** the same for a galaxy whose metallicity changes with time: [q j] is the metallicity distribution of
    the stars of the [j]-th template age *)
Definition synthesis_history (f : R -> R) (t_obs : R) (n : nat) (ages : list R) (q : nat -> list R) (flux : list (list (list R))) (k : nat) : R :=
  10 ^ 9 * RInt f 0.001 t_obs
  * Rsum (map (fun j => mass_in_bin f t_obs ages j / mass_in_range f t_obs ages
                        * Rsum (map (fun i => ent (q j) i * ent3 flux i j k) (seq 0 n))) (seq 0 (length ages))).
