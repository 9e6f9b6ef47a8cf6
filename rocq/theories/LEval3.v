(** * C142: metallicity weights in floating point are not exactly a distribution, but nearly so *)
From Coq Require Import Reals List Arith Lra Lia ZArith Bool.
From Flocq Require Import Core.Raux.
From Verif Require Import Num Arr MUtils MSed Float Spec SpecFloat SpecFloat3 RList LMet LJoint LFloat LFloat9 LRound12 LEval LEval2.
Import ListNotations.
Open Scope R_scope.

Lemma dn_mach (F : fmt) x q : x = rat q -> rqok (fp F) q = true -> rat (rq (fp F) q) = x -> machine_number (AR := far F) x.
Proof. intros -> O E. unfold machine_number. rewrite rnd_rat by exact O. now rewrite E. Qed.
Lemma lgs_rounding : rounding_lgmets lgs.
Proof.
  split; [|split].
  - cbn [length]. split; [lia|]. apply Nat.le_trans with (2 ^ 2)%nat; [simpl; lia|apply Nat.pow_le_mono_r; lia].
  - intros i Hi. destruct i as [|[|[|i]]]; unfold ent; simpl in *; try lia; lra.
  - unfold met_edges, node_width, ent. intros i j [Hij Hj]. cbn in Hj. destruct j as [|[|[|[|j]]]]; [| | | |lia]; destruct i as [|[|[|[|i]]]]; try lia; unfold ent; cbn; lra.
Qed.
Lemma C142_refuted_lemma : forall AR, AR = binary32 \/ AR = binary64 ->
  ~ (forall lgmet scatter lgmets w, machine_number lgmet -> machine_number scatter -> Forall machine_number lgmets ->
       Rabs lgmet <= 5 -> 1/1000 <= scatter <= 1 -> rounding_lgmets lgmets ->
       calc_lgmet_weights_from_lognormal_mdf (AR := AR) (Fin lgmet) (Fin scatter) (fins lgmets) = Ok (fins w) ->
       Forall (fun x => 0 <= x) w \/ Forall (fun x => x <= 1) w).
Proof.
  intros AR A H.
  assert (B : exists x w, machine_number (AR := AR) x /\ machine_number (AR := AR) (1/8) /\ Forall (machine_number (AR := AR)) lgs /\ Rabs x <= 5 /\
     calc_lgmet_weights_from_lognormal_mdf (AR := AR) (Fin x) (Fin (1/8)) (fins lgs) = Ok (fins w) /\ ent w 2 < 0 /\ 1 < ent w 1 /\ length w = 3%nat).
  { destruct A as [-> | ->].
    - destruct bad32 as (w & E & W). exists (-(114673/131072)), w.
      split; [apply (dn_mach f32 _ ((-114673)%Z, 131072%positive)); [unfold rat; cbn [fst snd]; lra|vmr|unfold rat; cbn -[IZR]; lra]|].
      split; [apply (dn_mach f32 _ (1%Z, 8%positive)); [unfold rat; cbn [fst snd]; lra|vmr|unfold rat; cbn -[IZR]; lra]|].
      split; [repeat constructor|].
      + apply (dn_mach f32 _ ((-2)%Z, 1%positive)); [unfold rat; cbn [fst snd]; lra|vmr|unfold rat; cbn -[IZR]; lra].
      + apply (dn_mach f32 _ ((-1)%Z, 1%positive)); [unfold rat; cbn [fst snd]; lra|vmr|unfold rat; cbn -[IZR]; lra].
      + apply (dn_mach f32 _ (0%Z, 1%positive)); [unfold rat; cbn [fst snd]; lra|vmr|unfold rat; cbn -[IZR]; lra].
      + split; [rewrite Rabs_left; lra|]. split; [exact E|]. exact W.
    - destruct bad64 as (w & E & W). exists (-(917483/1048576)), w.
      split; [apply (dn_mach f64 _ ((-917483)%Z, 1048576%positive)); [unfold rat; cbn [fst snd]; lra|vmr|unfold rat; cbn -[IZR]; lra]|].
      split; [apply (dn_mach f64 _ (1%Z, 8%positive)); [unfold rat; cbn [fst snd]; lra|vmr|unfold rat; cbn -[IZR]; lra]|].
      split; [repeat constructor|].
      + apply (dn_mach f64 _ ((-2)%Z, 1%positive)); [unfold rat; cbn [fst snd]; lra|vmr|unfold rat; cbn -[IZR]; lra].
      + apply (dn_mach f64 _ ((-1)%Z, 1%positive)); [unfold rat; cbn [fst snd]; lra|vmr|unfold rat; cbn -[IZR]; lra].
      + apply (dn_mach f64 _ (0%Z, 1%positive)); [unfold rat; cbn [fst snd]; lra|vmr|unfold rat; cbn -[IZR]; lra].
      + split; [rewrite Rabs_left; lra|]. split; [exact E|]. exact W. }
  destruct B as (x & w & M1 & M2 & M3 & Bx & E & W2 & W1 & L).
  destruct (H x (1/8) lgs w M1 M2 M3 Bx ltac:(lra) lgs_rounding E) as [Q|Q]; rewrite Forall_ent in Q.
  - specialize (Q 2%nat ltac:(lia)). cbv beta in Q. lra.
  - specialize (Q 1%nat ltac:(lia)). cbv beta in Q. lra.
Qed.

Lemma ent_le_Rsum l i : Forall (fun x => 0 <= x) l -> (i < length l)%nat -> ent l i <= Rsum l.
Proof.
  revert i. induction l as [|a l IH]; intros i F Hi; [simpl in Hi; lia|]. inversion F; subst. cbn [Rsum].
  assert (0 <= Rsum l). { clear - H2. induction l; cbn [Rsum]; [lra|]. inversion H2; subst. specialize (IHl H3). lra. }
  destruct i as [|i]; unfold ent in *; cbn [nth]; [lra|]. specialize (IH i H2 ltac:(simpl in Hi; lia)). lra.
Qed.
Lemma Rsum_close e : forall w w0, length w = length w0 -> (forall i, (i < length w)%nat -> Rabs (ent w i - ent w0 i) <= e) -> Rabs (Rsum w - Rsum w0) <= INR (length w) * e.
Proof.
  induction w as [|a w IH]; intros [|b w0] L H; try discriminate.
  - cbn [Rsum length INR]. rewrite Rminus_diag_eq, Rabs_R0 by reflexivity. simpl; lra.
  - cbn [Rsum]. change (length (a :: w)) with (S (length w)). rewrite S_INR. pose proof (H 0%nat ltac:(simpl; lia)) as H0. unfold ent in H0; cbn [nth] in H0.
    assert (T : Rabs (Rsum w - Rsum w0) <= INR (length w) * e) by (apply IH; [now injection L|]; intros i Hi; apply (H (S i)); simpl; lia).
    apply Rabs_le_inv in H0, T. apply Rabs_le. lra.
Qed.
Lemma C142_near_lemma : forall AR u, accurate_to AR u -> forall lgmet scatter lgmets,
  Rabs lgmet <= 5 -> machine_number scatter -> 1/1000 <= scatter <= 1 -> rounding_lgmets lgmets ->
  let eta := (130 + 8 * INR (length lgmets)) * u / scatter in INR (length lgmets) * eta <= 1/25 ->
  exists w, calc_lgmet_weights_from_lognormal_mdf (AR := AR) (Fin lgmet) (Fin scatter) (fins lgmets) = Ok (fins w) /\ length w = length lgmets
    /\ Forall (fun x => - (10 * eta) <= x <= 1 + 10 * eta) w /\ Rabs (Rsum w - 1) <= INR (length lgmets) * (10 * eta).
Proof.
  intros AR u U x h a Bx Rh Bh RM eta HN.
  destruct (C132_met_lemma AR u U x h a Bx Rh Bh RM HN) as (w & w0 & E & E0 & L & L0 & V). fold eta in V.
  pose proof RM as (La & _ & ND). rewrite lognormal_fins in E0 by (auto; try lra; lia). injection E0 as E0. apply fins_inj in E0.
  destruct (met_weights_dist_met x h a) as [[D1 D2] _]; auto; try lra; try lia. rewrite E0 in D1, D2.
  exists w. split; auto. split; auto. split.
  - apply Forall_ent. rewrite L. intros i Hi. specialize (V i Hi). apply Rabs_le_inv in V.
    assert (ent w0 i <= 1) by (rewrite <- D2; apply ent_le_Rsum; auto; lia).
    rewrite Forall_ent in D1. specialize (D1 i ltac:(lia)). cbv beta in D1. lra.
  - rewrite <- D2, <- L. apply Rsum_close; [lia|]. now rewrite L.
Qed.
