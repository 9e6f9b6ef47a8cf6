(** * Properties C63-C71: photometry.  Exact real arithmetic, except C70 which holds in any
    arithmetic (any rounding). *)
From Coq Require Import Reals List Arith Lra Lia.
From Verif Require Import Num Arr MUtils MCosmo MPhot Spec RList LPhot.
Import ListNotations.
Open Scope R_scope.

(** C63 *)
@@C63_flux_scaling_shifts_magnitudes = LPhot.C63_lemma
@@C63_rest_flux_additive = LPhot.C63_add_lemma
(** a spectrum and a filter meeting the hypotheses of this file *)
Example C63_nonvacuous : good_spectrum [1; 2; 3] [1; 4; 2] /\ good_filter [1.5; 2; 2.5] [0.1; 1; 0.2].
Proof.
  split; [split; [|split; [reflexivity|discriminate]]|split; [reflexivity|split]].
  - intros i j H. destruct i as [|[|[|]]], j as [|[|[|]]]; simpl in *; unfold ent; simpl; try lia; lra.
  - repeat constructor; lra.
  - unfold band_integral, ab0, ent. simpl. lra.
Qed.

(** C64 *)
@@C64_ab_zero_point = LPhot.C64_lemma
Example C64_nonvacuous : calc_rest_mag (fins [1; 2; 3]) (fins [ab0; ab0; ab0]) (fins [1.5; 2; 2.5]) (fins [0.1; 1; 0.2]) = Ok (Fin 0).
Proof.
  destruct C63_nonvacuous as [(I & _ & N) F]. apply (C64_ab_zero_point [1; 2; 3] _ _ 1 I N F); [lra|].
  intros w Hw. unfold ent. simpl in *. lra.
Qed.

(** C65 *)
@@C65_filter_normalisation_cancels = LPhot.C65_lemma

(** C66 *)
@@C66_brighter_spectrum_smaller_magnitude = LPhot.C66_lemma
Example C66_nonvacuous : good_spectrum [1; 2; 3] [1; 5; 2] /\ increasing [1.5; 2; 2.5]
  /\ Forall (fun t => 0 <= t) [0.1; 1; 0.2] /\ (forall i, (i < 3)%nat -> ent [1; 4; 2] i <= ent [1; 5; 2] i).
Proof.
  split; [split; [apply C63_nonvacuous|split; [reflexivity|discriminate]]|]. split.
  - intros i j H. destruct i as [|[|[|]]], j as [|[|[|]]]; simpl in *; unfold ent; simpl; try lia; lra.
  - split; [repeat constructor; lra|]. intros i H. destruct i as [|[|[|]]]; unfold ent; simpl; try lia; lra.
Qed.

(** C67 *)
@@C67_no_overlap = LPhot.C67_lemma
Example C67_nonvacuous : good_filter [5; 6] [1; 1] /\ forall w, In w [5; 6] -> w < ent [1; 2; 3] 0 \/ ent [1; 2; 3] (3 - 1) < w.
Proof.
  split; [split; [reflexivity|split]|].
  - repeat constructor; lra.
  - unfold band_integral, ab0, ent. simpl. lra.
  - intros w Hw. unfold ent. simpl in *. lra.
Qed.

(** C68 *)
@@C68_observed_magnitude_decomposition = LPhot.C68_lemma

(** C69 *)
@@C69_redshift_is_blueshifted_filter = LPhot.C69_lemma

(** C70: any arithmetic *)
@@C70_observed_magnitude_table = LPhot.C70_obs_lemma
@@C70_rest_magnitude_table = LPhot.C70_rest_lemma
@@C70_kcorrected_magnitude_table = LPhot.C70_kcorrect_lemma

(** C71 *)
@@C71_filter_resampling = LPhot.C71_lemma
Example C71_nonvacuous : shortest 3 [[1; 2; 3]; [1; 2; 4; 5]] /\ increasing [1; 2; 4; 5].
Proof.
  split; [split|].
  - intros w [<-|[<-|[]]]; simpl; lia.
  - exists [1; 2; 3]. simpl. auto.
  - intros i j H. destruct i as [|[|[|[|]]]], j as [|[|[|[|]]]]; simpl in *; unfold ent; simpl; try lia; lra.
Qed.
