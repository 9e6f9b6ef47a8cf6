(** * Convergence of the tabulated mass history to the integral of the star formation history *)
From Coq Require Import Reals List Arith Lra Lia.
From Coquelicot Require Import Coquelicot.
From Verif Require Import Num MUtils MSed Spec SpecConv RList LUtils LCalc LAge LMet LJoint.
Import ListNotations.
Open Scope R_scope.

Lemma lip_cont K (f : R -> R) : (forall s t, Rabs (f s - f t) <= K * Rabs (s - t)) -> forall x, continuous f x.
Proof.
  intros H x. apply continuity_pt_filterlim. intros e He.
  assert (HK : 0 <= K). { pose proof (H 1 0) as Q. rewrite Rminus_0_r, (Rabs_right 1) in Q by lra. pose proof (Rabs_pos (f 1 - f 0)). lra. }
  exists (e / (K + 1)). split; [apply Rdiv_lt_0_compat; lra|]. intros y [_ Hy]. simpl in *. unfold R_dist in *.
  eapply Rle_lt_trans; [apply H|]. apply Rle_lt_trans with (K * (e / (K + 1))); [apply Rmult_le_compat_l; lra|].
  assert (K * (e / (K + 1)) = e - e / (K + 1)) by (field; lra). assert (0 < e / (K + 1)) by (apply Rdiv_lt_0_compat; lra). lra.
Qed.
Lemma lip_ex K (f : R -> R) a b : (forall s t, Rabs (f s - f t) <= K * Rabs (s - t)) -> ex_RInt f a b.
Proof. intros H. apply (ex_RInt_continuous (V := R_CompleteNormedModule)). intros. eapply lip_cont; eauto. Qed.
Lemma lip_K K (f : R -> R) : (forall s t, Rabs (f s - f t) <= K * Rabs (s - t)) -> 0 <= K.
Proof. intros H. pose proof (H 1 0) as Q. rewrite Rminus_0_r, (Rabs_right 1) in Q by lra. pose proof (Rabs_pos (f 1 - f 0)). lra. Qed.

(** one panel of the trapezoid rule *)
Lemma panel_error K (f : R -> R) a b : (forall s t, Rabs (f s - f t) <= K * Rabs (s - t)) -> a <= b ->
  Rabs ((b - a) * (f a + f b) / 2 - RInt f a b) <= K * (b - a) * (b - a) / 2.
Proof.
  intros H Hab. pose proof (lip_ex K f a b H) as E. pose proof (lip_K K f H) as HK.
  set (c := (f a + f b) / 2).
  assert (Q : RInt (fun x => f x - c) a b = RInt f a b - (b - a) * c).
  { apply is_RInt_unique. apply (is_RInt_minus (V := R_NormedModule) f (fun _ => c)).
    - exact (RInt_correct (V := R_CompleteNormedModule) f a b E).
    - exact (is_RInt_const (V := R_NormedModule) a b c). }
  replace ((b - a) * (f a + f b) / 2 - RInt f a b) with (- (RInt f a b - (b - a) * c)) by (unfold c; field).
  rewrite Rabs_Ropp, <- Q. replace (K * (b - a) * (b - a) / 2) with ((b - a) * (K * (b - a) / 2)) by field.
  apply (abs_RInt_le_const (fun x => f x - c)); [exact Hab| |].
  - exists (RInt f a b - (b - a) * c). apply (is_RInt_minus (V := R_NormedModule) f (fun _ => c)).
    + exact (RInt_correct (V := R_CompleteNormedModule) f a b E).
    + exact (is_RInt_const (V := R_NormedModule) a b c).
  - intros t Ht. unfold c.
    pose proof (H t a) as H1. pose proof (H t b) as H2. rewrite (Rabs_right (t - a)) in H1 by lra. rewrite (Rabs_left1 (t - b)) in H2 by lra.
    replace (f t - (f a + f b) / 2) with ((f t - f a) / 2 + (f t - f b) / 2) by field.
    apply Rabs_le_between in H1. apply Rabs_le_between in H2. apply Rabs_le_between. lra.
Qed.
Lemma RInt_range (f : R -> R) F a b : (forall t, 0 <= f t <= F) -> ex_RInt f a b -> a <= b -> 0 <= RInt f a b <= F * (b - a).
Proof.
  intros H E Hab. split.
  - apply RInt_ge_0; auto. intros; apply H.
  - replace (F * (b - a)) with (RInt (fun _ => F) a b) by (rewrite RInt_const; unfold scal; simpl; unfold mult; simpl; ring).
    apply RInt_le; auto; [apply ex_RInt_const|]. intros; apply H.
Qed.
