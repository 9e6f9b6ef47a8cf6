(** * Properties C40-C47, C137: dust (dust/att_curves.py, dust/utils.py).  Exact real arithmetic,
    except C41 which holds in any arithmetic (any rounding) and for any numbers. *)
From Coq Require Import Reals List Arith Lra Lia.
From Verif Require Import Num Arr MUtils MDust Spec RList LDust LDust2 LDust3.
Import ListNotations.
Open Scope R_scope.

(** C40 *)
@@C40_transmission_is_a_fraction = LDust.C40_lemma
Example C40_nonvacuous : exists t, frac_transmission_from_k_lambda (Fin 4.05) (Fin 2.5) (Fin 0) = Fin t /\ t = 1/10.
Proof.
  destruct C40_transmission_is_a_fraction as (t & E & _ & _ & _ & _ & _ & _ & H).
  exists (t 4.05 2.5 0). split; [apply E|]. rewrite H by lra.
  replace (-0.4 * (2.5 * 4.05 / 4.05)) with (- (1)) by lra.
  unfold pow10. rewrite Rpower_Ropp, Rpower_1 by lra. lra.
Qed.

(** C41: never negative, in any arithmetic and for any arguments (NaN is not negative) *)
@@C41_attenuation_never_negative = LDust.C41_lemma
(** and finite for finite arguments, in exact arithmetic *)
@@C41_attenuation_finite_nonnegative = LDust.C41_finite_lemma
Example C41_nonvacuous : exists a1 a2 a3 a4,
  noll09_k_att_curve (Fin 0.2175) (Fin (-1)) (Fin (-300)) (Fin 5) (Fin 0.2175) (Fin 0.035) = Fin a1
  /\ sbl18_k_att_curve (Fin 0.2175) (Fin (-1)) (Fin (-300)) (Fin 5) (Fin 0.2175) (Fin 0.035) = Fin a2
  /\ calzetti00_att_curve (Fin 0.2175) (Fin (-1)) = Fin a3
  /\ leitherer02_att_curve (Fin 0.2175) (Fin (-1)) = Fin a4
  /\ 0 <= a1 /\ 0 <= a2 /\ 0 <= a3 /\ 0 <= a4.
Proof. apply C41_attenuation_finite_nonnegative; lra. Qed.

(** C42 *)
@@C42_bump_amplitude_from_slope = LDust2.C42_eb_lemma
@@C42_drude_bump = LDust.C42_lemma
Example C42_nonvacuous : drude_bump (Fin 0.2175) (Fin 0.2175) (Fin 0.035) (Fin 3) = Fin 3.
Proof.
  destruct (C42_drude_bump 0.2175 0.035 3) as (b & E & _ & H & _); try lra.
  rewrite E by lra. f_equal. apply H; lra.
Qed.

(** C43 *)
@@C43_power_law_normalised_at_V = LDust.C43_lemma
@@C43_noll09_and_sbl18_agree_at_V = LDust.C43_agree_lemma

(** C44 *)
@@C44_calzetti_decreasing = LDust.C44_lemma

(** C45: the claim that the curves are continuous at their joints is false *)
@@C45_curves_jump_at_joints = LDust.C45_lemma

(** C46 *)
@@C46_effective_wavelength_in_filter = LDust.C46_lemma
Example C46_nonvacuous : exists l,
  get_filter_effective_wavelength (fins [4000; 5000; 7000]) (fins [0; 1; 0]) (Fin 1) = Ok (Fin l)
  /\ 4000 <= l * (1 + 1) <= 7000.
Proof.
  destruct (C46_effective_wavelength_in_filter [4000; 5000; 7000] [0; 1; 0] 1) as (l & E & B & _);
    try reflexivity; try discriminate; try lra.
  - apply increasing_step. intros [|[|i]] Hi; simpl in Hi; try lia; unfold ent; simpl; lra.
  - repeat constructor; lra.
  - simpl. lra.
  - exists l. split; [exact E|exact B].
Qed.

(** C47 *)
@@C47_triweight_curve = LDust.C47_lemma
@@C47_triweight_default_decreasing = LDust.C47_default_lemma

(** C137 *)
@@C137_published_curves = LDust3.C137_curves_lemma
@@C137_default_bump = LDust3.C137_bump_lemma
Example C137_nonvacuous : exists b b0, sbl18_k_lambda (Fin 0.2175) (Fin 3) (Fin (-0.5)) UV_BUMP_W0 UV_BUMP_DW = Fin b
  /\ sbl18_k_lambda (Fin 0.2175) (Fin 0) (Fin (-0.5)) UV_BUMP_W0 UV_BUMP_DW = Fin b0 /\ b - b0 = 3.
Proof.
  destruct C137_default_bump as (D & _ & D1 & _ & _ & H). destruct (H 0.2175 3 (-0.5)) as (n & n0 & b & b0 & _ & _ & E & E0 & _ & _ & Q & _); try lra.
  exists b, b0. split; auto. split; auto. rewrite Q, D1. ring.
Qed.
