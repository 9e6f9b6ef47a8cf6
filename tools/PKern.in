(** * Properties C22-C30: triweight kernel and the other helpers of utils.py.  Exact real arithmetic. *)
From Coq Require Import Reals List Arith Lra Lia.
From Coquelicot Require Import Coquelicot.
From Verif Require Import Num Arr MUtils Spec RList LUtils LKern LKern2 Demo.
Import ListNotations.
Open Scope R_scope.

(** C22 *)
@@C22_triweight_cdf = LKern.C22_lemma
(** the hypothesis is just [0 < h]; two values of the function *)
Example C22_nonvacuous : exists cdf : R -> R,
  (forall x, tw_cuml_kern (Fin x) (Fin 2) (Fin (1/2)) = Fin (cdf x)) /\ cdf 2 = 1/2 /\ cdf 7 = 1.
Proof.
  destruct (C22_triweight_cdf 2 (1/2)) as (c & E & _ & H1 & H2 & _); [lra|].
  exists c. split; [exact E|]. split; [exact H2|apply H1; lra].
Qed.

(** C23 *)
@@C23_triweight_density = LKern.C23_lemma
Example C23_nonvacuous : exists dens : R -> R,
  (forall x, triweight_gaussian (Fin x) (Fin 2) (Fin (1/2)) = Fin (dens x)) /\ is_RInt dens 0 10 1.
Proof.
  destruct (C23_triweight_density 2 (1/2)) as (c & d & _ & E & _ & _ & _ & H); [lra|].
  exists d. split; [exact E|apply H; lra].
Qed.

(** C24 *)
@@C24_histogram_conserves_probability = LKern.C24_lemma
Example C24_nonvacuous : exists w,
  triweighted_histogram (Fin 0) (Fin 1) (fins [-4; -1; 0; 2; 5]) = fins w /\ Rsum w = 1.
Proof.
  destruct (C24_histogram_conserves_probability 0 1 [-4; -1; 0; 2; 5]) as (w & E & _ & _ & _ & H).
  - lra.
  - simpl; lia.
  - apply increasing_nondecreasing.
    apply increasing_step. intros i Hi. simpl in Hi.
    destruct i as [|[|[|[|i]]]]; try lia; unfold ent; simpl; lra.
  - exists w. split; [exact E|]. apply H; unfold ent; simpl; lra.
Qed.

(** C25 *)
@@C25_sigmoid_bijection = LKern2.C25_lemma
Example C25_nonvacuous :
  inverse_sigmoid (sigmoid (Fin 3) (Fin 1) (Fin (1/10)) (Fin (-8)) (Fin (-1)))
    (Fin 1) (Fin (1/10)) (Fin (-8)) (Fin (-1)) = Fin 3.
Proof. destruct (C25_sigmoid_bijection 1 (1/10) (-8) (-1)) as (f & H & _); try lra. apply H. Qed.

(** C26 *)
@@C26_cumtrapz_and_trapz_agree = LKern2.C26_lemma
Example C26_nonvacuous : exists c, cumtrapz (fins [0; 1; 3]) (fins [2; 2; 4]) = Ok (fins c)
  /\ length c = 3%nat.
Proof.
  destruct (C26_cumtrapz_and_trapz_agree [0; 1; 3] [2; 2; 4]) as (c & E & L & _); eauto. discriminate.
Qed.

(** C27 *)
@@C27_trapz_is_an_integral = LKern2.C27_integral_lemma
@@C27_trapz_linear_monotone_odd = LKern2.C27_algebra_lemma
Example C27_nonvacuous : exists a, trapz (fins [0; 1; 3]) (fins [2; 2; 4]) = Ok (Fin a)
    /\ is_RInt (pwlin [(0, 2); (1, 2); (3, 4)]) 0 3 a.
Proof.
  apply (C27_trapz_is_an_integral [0; 1; 3] [2; 2; 4]); [reflexivity|discriminate|].
  apply increasing_step. intros i Hi. simpl in Hi.
  destruct i as [|[|i]]; try lia; unfold ent; simpl; lra.
Qed.

(** C28 *)
@@C28_weight_matrices_2d = LKern2.C28_lemma
@@C28_weight_matrices_3d = LKern2.C28_3d_lemma
Example C28_nonvacuous :
  length [[1; 2]; [3; 4]] = length [[5; 6; 7]; [8; 9; 10]].
Proof. reflexivity. Qed.

(** C29 *)
@@C29_powerlaw_sampler = LKern2.C29_lemma
@@C29_powerlaw_zero_index_is_nan = LKern2.C29_zero_lemma
Example C29_nonvacuous : exists pdf rvs : R -> R,
  is_RInt pdf 1 3 1 /\ 1 <= rvs (1/2) < 3
  /\ powerlaw_rvs (Fin (1/2)) (Fin 1) (Fin 3) (Fin (-2)) = Fin (rvs (1/2)).
Proof.
  destruct (C29_powerlaw_sampler 1 3 (-2)) as (p & r & _ & I & H & _); try lra.
  exists p, r. split; [exact I|]. destruct (H (1/2)) as (E & B & _); [lra|]. auto.
Qed.

(** C30 *)
@@C30_bin_edges = LKern2.C30_lemma
@@C30_short_grid_raises = LKern2.C30_raises_lemma
Example C30_nonvacuous : exists e,
  get_bin_edges (fins [0; 1; 2; 3]) (Fin (-10)) (Fin 10) = Ok (fins e) /\ ent e 2 = 3/2.
Proof.
  destruct (C30_bin_edges [0; 1; 2; 3] (-10) 10) as (e & E & _ & _ & _ & H); [simpl; lia|].
  exists e. split; [exact E|]. rewrite (H 1).
  - unfold ent; simpl; lra.
  - intros j Hj. simpl in Hj. destruct j as [|[|[|j]]]; try lia; unfold ent; simpl; lra.
  - simpl; lia.
Qed.
