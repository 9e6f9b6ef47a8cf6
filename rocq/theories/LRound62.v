(** * C175: a sample drawn in rounded arithmetic leaves [a, b] by at most the rounding error *)
From Coq Require Import Reals List Arith Lra Lia.
From Flocq Require Import Core.Raux.
From Verif Require Import Num Arr MUtils Float Spec SpecApi SpecFloat SpecFloat2 SpecFloat8 LKern2 LFloat10 LRound61.
Import ListNotations.
Open Scope R_scope.
Lemma C175_range : forall AR u, accurate_to AR u -> forall r a b g, @machine_number AR r -> @machine_number AR a -> @machine_number AR b -> @machine_number AR g ->
  0 <= r < 1 -> / 100 <= a -> a < b -> b <= 100 -> / 10 <= g <= 5 ->
  exists x, @powerlaw_rvs AR (Fin r) (Fin a) (Fin b) (Fin g) = Fin x /\ a * (1 - 350 * u) <= x <= b * (1 + 350 * u).
Proof.
  intros AR u A r a b g Mr Ma Mb Mg Br Ba Bab Bb Bg.
  assert (U : 0 <= u <= / 1000). { destruct A as [(rd & lb & _ & [[_ A1]|[_ A1]]) _]; simpl in A1; lra. }
  destruct (C175_sampler AR u A r a b g Mr Ma Mb Mg Br Ba Bab Bb ltac:(rewrite Rabs_right; lra)) as [H _].
  destruct (H ltac:(lra)) as (x & y & E & E0 & P & B). exists x. split; [exact E|].
  destruct (C29_lemma a b g ltac:(lra) ltac:(lra)) as (pdf & rvs & _ & _ & R & _). destruct (R r Br) as (E1 & R2 & _).
  rewrite E0 in E1. injection E1 as ->.
  apply Raux.Rabs_le_inv in B.
  assert (0 <= 1 - 350 * u) by lra. assert (0 <= 350 * u) by lra.
  pose proof (Rmult_le_compat_r (1 - 350 * u) a (rvs r) ltac:(lra) ltac:(lra)).
  pose proof (Rmult_le_compat_r (1 + 350 * u) (rvs r) b ltac:(lra) ltac:(lra)). lra.
Qed.
