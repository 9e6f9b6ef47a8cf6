(** * Dust: the bump amplitude of the slope *)
From Coq Require Import Reals List Arith Lra Lia Bool.
From Coquelicot Require Import Coquelicot.
From Flocq Require Import Core.Raux.
From Verif Require Import Num Arr MUtils MDust Spec RList LUtils LCalc LKern LKern2 LBurst LDust.
Import ListNotations.
Open Scope R_scope.

Lemma C42_eb_lemma : exists eb : R -> R,
  (forall delta, get_eb_from_delta (Fin delta) = Fin (eb delta))
  /\ eb 0 = 0.85 /\ (forall d d', eb d' - eb d = - 1.9 * (d' - d))
  /\ (forall d, 0 <= eb d <-> d <= 0.85 / 1.9).
Proof.
  exists (fun d => - 1.9 * d + 0.85). split; [|repeat split; intros; lra].
  intros. unfold get_eb_from_delta. unlit. rewrite nmul_fin, nadd_fin. reflexivity.
Qed.
