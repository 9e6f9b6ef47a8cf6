(** * Properties C37-C39: the IMF fits (imf/surviving_mstar.py, imf/remnant_mass.py), in
    exact real arithmetic, for the four published calibrations. *)
From Coq Require Import Reals List Arith Lra Lia.
From Verif Require Import Num Arr MUtils MImf Spec LKern2 LImf.
Import ListNotations.
Open Scope R_scope.

(** C37 *)
@@C37_surviving_fraction = LImf.C37_lemma
Example C37_nonvacuous : exists s, surviving_mstar (Fin 8) SUR_KROUPA = Fin s /\ 0.4 < s < 1.
Proof.
  destruct (C37_surviving_fraction SUR_KROUPA) as (f & E & H1 & H2); [simpl; auto|].
  exists (f 8). split; [apply E|]. specialize (H1 8). specialize (H2 8). lra.
Qed.

(** C38: the claim that the surviving fraction never increases with age is false *)
@@C38_surviving_fraction_can_increase = LImf.C38_lemma

(** C39 *)
@@C39_remnant_fraction_grows = LImf.C39_lemma
Example C39_nonvacuous : exists r1 r2,
  remnant_mass (Fin 6) REM_CHABRIER = Fin r1 /\ remnant_mass (Fin 9) REM_CHABRIER = Fin r2 /\ 0 < r1 < r2.
Proof.
  destruct (C39_remnant_fraction_grows REM_CHABRIER) as (a & f & _ & E & P & _ & M & _); [simpl; auto|].
  exists (f 6), (f 9). split; [apply E|]. split; [apply E|]. split; [apply P|apply M; lra].
Qed.
