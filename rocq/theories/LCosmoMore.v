(** * C56 with the age at z, C60 with the elementwise values *)
From Coq Require Import Reals List Arith Lra Lia.
From Verif Require Import Num Arr MUtils MCosmo Spec SpecApi RList LCosmo.
Import ListNotations.
Open Scope R_scope.
Lemma C56_age_lemma : forall z Om0 w0 wa, -1 < z -> 0 < Om0 <= 1 ->
  exists dC tL t0 tz rho, forall h, 0 < h ->
    comoving_distance_to_z (Fin z) (Fin Om0) (Fin w0) (Fin wa) (Fin h) = Fin (dC / h)
    /\ lookback_to_z (Fin z) (Fin Om0) (Fin w0) (Fin wa) (Fin h) = Fin (tL / h)
    /\ age_at_z0 (Fin Om0) (Fin w0) (Fin wa) (Fin h) = Fin (t0 / h)
    /\ age_at_z (Scalar (Fin z)) (Fin Om0) (Fin w0) (Fin wa) (Fin h) = [Fin (tz / h)]
    /\ rho_crit (Fin z) (Fin Om0) (Fin w0) (Fin wa) (Fin h) = Fin (rho * h ^ 2).
Proof.
  intros z Om0 w0 wa Hz HO. destruct (C56_lemma z Om0 w0 wa Hz HO) as (dC & tL & t0 & rho & H). exists dC, tL, t0, (t0 - tL), rho.
  intros h Hh. destruct (H h Hh) as (A & B & C & D). split; [exact A|]. split; [exact B|]. split; [exact C|]. split; [|exact D].
  destruct (C57_lemma Om0 w0 wa h HO Hh) as (t & lk & ag & E0 & E1 & E2 & _ & _ & S & _). rewrite E2 by exact Hz.
  rewrite E0 in C. rewrite (E1 z Hz) in B. injection C as C. injection B as B. pose proof (S z Hz) as Sz. f_equal. apply f_equal. rewrite C, B in Sz. unfold Rdiv in *. lra.
Qed.
Lemma map2_map_self {A B C} (f : A -> B -> C) (g : A -> B) l : map2 f l (map g l) = map (fun x => f x (g x)) l.
Proof. induction l; simpl; congruence. Qed.
Lemma C60_elementwise {AR : Arith} : forall z Om0 w0 wa h,
  virial_dynamical_time (Scalar z) Om0 w0 wa h = Raise ValueError
  /\ (exists t : num -> num, forall zs, virial_dynamical_time (Vector zs) Om0 w0 wa h = Ok (map t zs)).
Proof.
  intros z Om0 w0 wa h. split; [reflexivity|]. eexists. intros zs. unfold virial_dynamical_time, delta_vir, Om. cbn [vmap0 bind atleast_1d].
  rewrite map_map. rewrite map2_map_self. reflexivity.
Qed.
