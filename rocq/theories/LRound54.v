(** * C154: the mass-metallicity relation in rounded arithmetic, closed statements *)
From Coq Require Import Reals List Arith Lra Lia ZArith Bool.
From Flocq Require Import Core.Raux.
From Verif Require Import Num Arr MUtils MSed MMzr Float Spec SpecFloat SpecFloat7 RList LUtils LMzr LMzr2 LFloat LFloat2 LFloat10 LRound1 LRound2 LRound6 LRound21 LRound23 LRound24 LRound35 LRound38 LRound52 LRound53.
From Verif Require Import SpecApi.
From Verif Require Spec2.
Import ListNotations.
Open Scope R_scope.

Lemma C154_umzr AR u : accurate_to AR u -> forall m t y x k lo hi a b c d, rounding_mzr (AR := AR) m t y x k lo hi a b c d ->
  exists z z0, @umzr_model AR (Fin m) (Fin t) (mzr_of y x k lo hi a b c d) = Fin z
    /\ @umzr_model exact (Fin m) (Fin t) (mzr_of y x k lo hi a b c d) = Fin z0 /\ Rabs (z - z0) <= 10300 * u.
Proof.
  intros U m t y x k lo hi a b c d (M & Bm & Bt & By & Bx & Bk & Blo & Bhi & Ba & Bb & Bc & Bd). pose proof (rel_err_unit _ _ U) as H.
  repeat match goal with Q : Forall _ (_ :: _) |- _ => inversion Q; clear Q; subst end. unfold machine_number in *. pose proof (re_good _ _ H) as G.
  assert (E105 : @MZR_T0_XTP AR = Fin 10.5) by (unfold MZR_T0_XTP, lit; apply (rnd_dy G 21 1); [lia|lia|simpl; lra]).
  assert (T : near (AR := AR) u (@umzr_model_t0 AR (Fin m) (Fin y) (Fin x) (Fin k) (Fin lo) (Fin hi)) (Spec2.sigmoid_slope_line 10.5 y x k lo hi m + log10 0.012) 1383 76).
  { unfold umzr_model_t0. rewrite E105. eapply (near_add u H) with (B := 76.1); [apply t0_line; auto; try lra; try (apply (rnd_dy G 21 1); [lia|lia|simpl; lra])|apply solar; auto|nm..]. }
  assert (Tc : near (AR := AR) u (@TLOOK_C AR) 8.44 9 13) by (eapply near_weaken; [exact H|apply (near_lit u H 8.44 8.44); [rewrite Rabs_right; lra|simpl; lra]|lra|lra]).
  pose proof (evol_line u H m t a b c d _ 8.44 ltac:(auto) ltac:(auto) ltac:(auto) ltac:(auto) ltac:(auto) ltac:(auto) Tc ltac:(lra) ltac:(lra) ltac:(auto) ltac:(auto) ltac:(auto) ltac:(auto) ltac:(lra)) as V.
  pose proof (near_add u H _ _ _ _ _ _ _ _ 310 10300 309 T V ltac:(nm) ltac:(nm) ltac:(nm) ltac:(nm) ltac:(nm) ltac:(nm)) as (z & Ez & _ & Dz & _).
  eexists z, _. split; [exact Ez|]. split; [apply C114_umzr_lemma|]. replace (log10 0.012 + Spec2.sigmoid_slope_line 10.5 y x k lo hi m) with (Spec2.sigmoid_slope_line 10.5 y x k lo hi m + log10 0.012) by ring. exact Dz.
Qed.
Lemma C154_mzr AR u : accurate_to AR u -> forall m t y x k lo hi a b c d tc, rounding_mzr (AR := AR) m t y x k lo hi a b c d -> machine_number (AR := AR) tc -> 4 <= tc <= 13 ->
  exists z z0, @mzr_model AR (Fin m) (Fin t) (Fin y) (Fin x) (Fin k) (Fin lo) (Fin hi) (Fin a) (Fin b) (Fin tc) (Fin c) (Fin d) = Fin z
    /\ @mzr_model exact (Fin m) (Fin t) (Fin y) (Fin x) (Fin k) (Fin lo) (Fin hi) (Fin a) (Fin b) (Fin tc) (Fin c) (Fin d) = Fin z0 /\ Rabs (z - z0) <= 10300 * u.
Proof.
  intros U m t y x k lo hi a b c d tc (M & Bm & Bt & By & Bx & Bk & Blo & Bhi & Ba & Bb & Bc & Bd) Mtc Btc. pose proof (rel_err_unit _ _ U) as H.
  repeat match goal with Q : Forall _ (_ :: _) |- _ => inversion Q; clear Q; subst end. unfold machine_number in *. pose proof (re_good _ _ H) as G.
  assert (T : near (AR := AR) u (@mzr_model_t0 AR (Fin m) (Fin y) (Fin x) (Fin k) (Fin lo) (Fin hi)) (Spec2.sigmoid_slope_line x y x k lo hi m + log10 0.012) 1383 76).
  { unfold mzr_model_t0. eapply (near_add u H) with (B := 76.1); [apply t0_line; auto; lra|apply solar; auto|nm..]. }
  assert (Ez0 : nadd (AR := AR) (Fin tc) (Fin 0) = Fin tc) by (cbn [nadd]; rewrite Rplus_0_r; auto).
  assert (Tc : near (AR := AR) u (nadd (AR := AR) (Fin tc) (Fin 0)) tc 9 13) by (rewrite Ez0; eapply near_weaken; [exact H|apply near_rep with (M := 13); [exact Mtc|rewrite Rabs_right; lra]|lra|lra]).
  pose proof (evol_line u H m t a b c d _ tc ltac:(auto) ltac:(auto) ltac:(auto) ltac:(auto) ltac:(auto) ltac:(auto) Tc ltac:(lra) ltac:(lra) ltac:(auto) ltac:(auto) ltac:(auto) ltac:(auto) ltac:(lra)) as V.
  pose proof (near_add u H _ _ _ _ _ _ _ _ 310 10300 309 T V ltac:(nm) ltac:(nm) ltac:(nm) ltac:(nm) ltac:(nm) ltac:(nm)) as (z & Ez & _ & Dz & _).
  eexists z, _. split; [exact Ez|]. split; [apply C114_mzr_lemma; lra|]. replace (log10 0.012 + Spec2.sigmoid_slope_line x y x k lo hi m) with (Spec2.sigmoid_slope_line x y x k lo hi m + log10 0.012) by ring. exact Dz.
Qed.
(** a galaxy of 2^10... solar masses: parameters close to the published ones, in binary fractions *)
Lemma e154 : rounding_mzr (AR := binary64) 10 6 (3/64) 10.5 1 (3/8) (1/8) (-3/2) (1/8) (-1) (1/16).
Proof.
  split; [|repeat split; try (apply Rabs_le); lra].
  assert (D : forall n k x, (Z.abs n <= 2 ^ 24)%Z -> (k <= 100)%nat -> x = IZR n / 2 ^ k -> machine_number (AR := binary64) x) by (intros; now apply (rnd_dy good_binary64 n k)).
  repeat constructor; [apply (D 10%Z 0%nat)|apply (D 6%Z 0%nat)|apply (D 3%Z 6%nat)|apply (D 21%Z 1%nat)|apply (D 1%Z 0%nat)|apply (D 3%Z 3%nat)|apply (D 1%Z 3%nat)|apply (D (-3)%Z 1%nat)|apply (D 1%Z 3%nat)|apply (D (-1)%Z 0%nat)|apply (D 1%Z 4%nat)]; try lia; simpl; lra.
Qed.
Lemma e154_tc : machine_number (AR := binary64) 8.
Proof. apply (rnd_dy good_binary64 8 0); [lia|lia|simpl; lra]. Qed.
