(** * The mass history as an integral (uses Coquelicot) *)
From Coq Require Import Reals List Arith Lra Lia.
From Coquelicot Require Import Coquelicot.
From Verif Require Import Num Arr Spec RList MUtils LBcast LUtils LCalc.
Import ListNotations.
Open Scope R_scope.

Lemma C09_lemma : forall ts sfrs,
  length ts = length sfrs -> increasing (0.001 :: ts) ->
  exists m, cumulative_mstar_formed (fins ts) (fins sfrs) = Ok (fins m)
    /\ length m = length ts
    /\ forall i, (i < length ts)%nat ->
       is_RInt (pwlin (combine (0.001 :: ts) (1 / 10 ^ 14 :: sfrs))) 0.001 (ent ts i)
               (ent m i / 10 ^ 9).
Proof.
  intros ts sfrs Hl Hi. exists (cumulative_mass ts sfrs).
  unfold cumulative_mstar_formed, check.
  rewrite fits_same by (now rewrite !fins_length).
  rewrite cumulative_mass_fins by auto. split; [auto|]. split; [apply cumulative_mass_length|].
  intros i H. rewrite cumulative_mass_ent by auto.
  pose proof (is_RInt_pwlin_prefix (0.001 :: ts) (1 / 10 ^ 14 :: sfrs) (S i) Hi
    ltac:(simpl; lia) ltac:(simpl; lia)) as HI.
  rewrite ent_0, ent_cons_S in HI.
  rewrite (firstn_cons (S i)), (firstn_cons (S i) (1 / 10 ^ 14)) in HI.
  replace (10 ^ 9 * _ / 10 ^ 9)
    with (trapezoid (0.001 :: firstn (S i) ts) (1 / 10 ^ 14 :: firstn (S i) sfrs)) by (field; lra).
  exact HI.
Qed.
