(** * Properties C37-C39: the IMF fits (imf/surviving_mstar.py, imf/remnant_mass.py), in
    exact real arithmetic, for the four published calibrations. *)
From Coq Require Import Reals List Arith Lra Lia.
From Verif Require Import Num Arr MUtils MImf Spec LKern2 LImf.
Import ListNotations.
Open Scope R_scope.

(** C37 *)
Theorem C37_surviving_fraction : forall p, In p [SUR_CHABRIER; SUR_SALPETER; SUR_KROUPA; SUR_VAN_DOKKUM] ->
  exists f : R -> R,
    (forall lg_age, surviving_mstar (Fin lg_age) p = Fin (f lg_age))
    /\ (forall lg_age, f lg_age < 1)
    /\ (forall lg_age, lg_age <= 10.5 -> 0.4 < f lg_age).
Proof. exact C37_lemma. Qed.
Print Assumptions C37_surviving_fraction.
Example C37_nonvacuous : exists s, surviving_mstar (Fin 8) SUR_KROUPA = Fin s /\ 0.4 < s < 1.
Proof.
  destruct (C37_surviving_fraction SUR_KROUPA) as (f & E & H1 & H2); [simpl; auto|].
  exists (f 8). split; [apply E|]. specialize (H1 8). specialize (H2 8). lra.
Qed.

(** C38: the claim that the surviving fraction never increases with age is false *)
Theorem C38_surviving_fraction_can_increase : exists s5 s59,
  surviving_mstar (Fin 5) SUR_CHABRIER = Fin s5 /\ surviving_mstar (Fin 5.9) SUR_CHABRIER = Fin s59
  /\ s5 < s59.
Proof. exact C38_lemma. Qed.
Print Assumptions C38_surviving_fraction_can_increase.

(** C39 *)
Theorem C39_remnant_fraction_grows : forall p, In p [REM_CHABRIER; REM_SALPETER; REM_KROUPA; REM_VAN_DOKKUM] ->
  exists (a : R) (f : R -> R),
    rem_a p = Fin a
    /\ (forall lg_age, remnant_mass (Fin lg_age) p = Fin (f lg_age))
    /\ (forall lg_age, 0 < f lg_age) /\ f 7 = pow10 a
    /\ (forall x y, x < y -> f x < f y)
    /\ (forall lg_age, lg_age <= 13 -> f lg_age < 1).
Proof. exact C39_lemma. Qed.
Print Assumptions C39_remnant_fraction_grows.
Example C39_nonvacuous : exists r1 r2,
  remnant_mass (Fin 6) REM_CHABRIER = Fin r1 /\ remnant_mass (Fin 9) REM_CHABRIER = Fin r2 /\ 0 < r1 < r2.
Proof.
  destruct (C39_remnant_fraction_grows REM_CHABRIER) as (a & f & _ & E & P & _ & M & _); [simpl; auto|].
  exists (f 6), (f 9). split; [apply E|]. split; [apply E|]. split; [apply P|apply M; lra].
Qed.
