(** * Critical density, matter fraction, virial time, volume in rounded arithmetic: the public statements *)
From Coq Require Import Reals List Arith Lra Lia ZArith Bool.
From Coquelicot Require Import Coquelicot.
From Flocq Require Import Core.Raux.
From Verif Require Import Num Arr MUtils MSed MCosmo MPhot Float Spec SpecFloat SpecFloat2 SpecFloat8 RList LUtils LFloat LFloat2 LFloat10 LRound1 LRound2 LRound3 LRound6 LRound14 LRound15 LRound19 LRound21 LRound22 LRound23 LRound24 LRound25 LRound35 LRound55 LBurst LCosmo LCosmoPar2 LPhot LImf.
Import ListNotations.
Open Scope R_scope.

Lemma pub55 {AR : Arith} u (H : rel_err AR u) k k' v w X : npos u k v X -> w = Fin X -> 0 <= k <= 3000 -> 1.002 * k <= k' -> relatively_close (k' * u) v w.
Proof. intros N -> K K'. destruct (npos_pub u H k k' v X N K K') as (d & E & P & D). exists d, X. auto. Qed.
Lemma ht_fin z Om0 w0 wa h : -1 < z -> 0 < Om0 <= 1 -> h <> 0 -> hubble_time (AR := exact) (Fin z) (Fin Om0) (Fin w0) (Fin wa) (Fin h) = Fin (tH h / expansion Om0 w0 wa z).
Proof. intros. now apply hubble_time_fin. Qed.
Lemma hd_fin h : h <> 0 -> hubble_distance_mpc (AR := exact) (Fin h) = Fin (hubble_dist h).
Proof. intros Hh. unfold hubble_distance_mpc. unlit. rewrite nmul_fin, !ndiv_fin by lra. f_equal. unfold hubble_dist, c_light. field. auto. Qed.

Lemma C155_scalar_lemma : forall AR u, accurate_to AR u -> forall z Om0 w0 wa h, rounding_cosmology (AR := AR) z Om0 w0 wa h ->
  relatively_close (198 * u) (rho_crit (AR := AR) (Fin z) (Fin Om0) (Fin w0) (Fin wa) (Fin h))
                             (rho_crit (AR := exact) (Fin z) (Fin Om0) (Fin w0) (Fin wa) (Fin h))
  /\ relatively_close (100 * u) (hubble_time (AR := AR) (Fin z) (Fin Om0) (Fin w0) (Fin wa) (Fin h))
                                (hubble_time (AR := exact) (Fin z) (Fin Om0) (Fin w0) (Fin wa) (Fin h))
  /\ relatively_close (4 * u) (hubble_distance_mpc (AR := AR) (Fin h)) (hubble_distance_mpc (AR := exact) (Fin h))
  /\ (forall d0, comoving_distance_to_z (AR := exact) (Fin z) (Fin Om0) (Fin w0) (Fin wa) (Fin h) = Fin d0 -> 1 / 10 ^ 8 <= d0 ->
      relatively_close (3000 * u) (differential_comoving_volume_at_z (AR := AR) (Fin z) (Fin Om0) (Fin w0) (Fin wa) (Fin h))
                                  (differential_comoving_volume_at_z (AR := exact) (Fin z) (Fin Om0) (Fin w0) (Fin wa) (Fin h))).
Proof.
  intros AR u U z Om0 w0 wa h RC. pose proof (rel_err_unit _ _ U) as H. destruct (RC_om _ _ _ _ _ RC) as (Z0 & Z1 & HO & Hh & H0).
  split; [eapply (pub55 u H); [apply (rho55 u H z Om0 w0 wa h RC)|apply rho_fin; lra|lra|lra]|].
  split; [eapply (pub55 u H); [apply (th55 u H z Om0 w0 wa h RC)|apply ht_fin; auto; lra|lra|lra]|].
  split; [eapply (pub55 u H); [apply (dh55 u H z Om0 w0 wa h RC)|apply hd_fin; auto|lra|lra]|].
  intros d0 E D. rewrite dc_fin in E by auto. injection E as <-.
  eapply (pub55 u H); [apply (vol55 u H z Om0 w0 wa h RC); lra|apply dv_fin; auto|lra|lra].
Qed.
Lemma C155_vector_lemma : forall AR u, accurate_to AR u -> forall zs Om0 w0 wa h, List.Forall (fun z => rounding_cosmology (AR := AR) z Om0 w0 wa h) zs ->
  all_relatively_close (200 * u) (Om (AR := AR) (Vector (fins zs)) (Fin Om0) (Fin w0) (Fin wa))
                                 (Om (AR := exact) (Vector (fins zs)) (Fin Om0) (Fin w0) (Fin wa))
  /\ all_relatively_close (700 * u) (delta_vir (AR := AR) (Vector (fins zs)) (Fin Om0) (Fin w0) (Fin wa))
                                    (delta_vir (AR := exact) (Vector (fins zs)) (Fin Om0) (Fin w0) (Fin wa))
  /\ all_relatively_close (510 * u) (virial_dynamical_time (AR := AR) (Vector (fins zs)) (Fin Om0) (Fin w0) (Fin wa) (Fin h))
                                    (virial_dynamical_time (AR := exact) (Vector (fins zs)) (Fin Om0) (Fin w0) (Fin wa) (Fin h)).
Proof.
  intros AR u U zs Om0 w0 wa h F. pose proof (rel_err_unit _ _ U) as H.
  assert (Z : List.Forall (fun z => -1 < z) zs) by (eapply List.Forall_impl; [|exact F]; intros z RC; apply (RC_om _ _ _ _ _ RC)).
  destruct zs as [|z0 zs']. { repeat split; exists [], []; repeat split; constructor. }
  assert (HO : 0 < Om0 <= 1 /\ 0 < h). { inversion F as [|? ? RC ?]. destruct (RC_om _ _ _ _ _ RC) as (_ & _ & ? & _ & ?). auto. } destruct HO as [HO H0].
  set (zs := z0 :: zs') in *. clearbody zs. split; [|split].
  - exists (map (fun z => Om_at_z (AR := AR) z (Fin Om0) (Fin w0) (Fin wa)) (fins zs)), (map (fun z => Om_at_z (AR := exact) z (Fin Om0) (Fin w0) (Fin wa)) (fins zs)). split; [reflexivity|]. split; [reflexivity|].
    clear z0 zs'. induction zs as [|z zs IH]; cbn [fins map]; constructor.
    + inversion F as [|? ? RC ?]; subst. inversion Z; subst. eapply (pub55 u H); [apply (om55 u H z Om0 w0 wa h RC)|apply om_fin; auto|lra|lra].
    + inversion F; inversion Z; subst. auto.
  - rewrite delta_vir_fin by auto. unfold delta_vir, Om, vmap0. cbn [bind]. eexists _, _. split; [reflexivity|]. split; [reflexivity|].
    clear z0 zs'. induction zs as [|z zs IH]; cbn [fins map]; constructor.
    + inversion F as [|? ? RC ?]; subst. inversion Z; subst. eapply (pub55 u H); [|reflexivity| |]. { destruct (delta55 u H z Om0 w0 wa h RC) as (om & E & D). rewrite E. exact D. } lra. lra.
    + inversion F; inversion Z; subst. apply IH; auto.
  - rewrite virial_fin by auto. unfold virial_dynamical_time, delta_vir, Om, vmap0. cbn [bind atleast_1d]. eexists _, _. split; [reflexivity|]. split; [reflexivity|].
    clear z0 zs'. induction zs as [|z zs IH]; cbn [fins map map2]; constructor.
    + inversion F as [|? ? RC ?]; subst. inversion Z; subst. eapply (pub55 u H); [apply (vir55 u H z Om0 w0 wa h RC)|reflexivity|lra|lra].
    + inversion F; inversion Z; subst. apply IH; auto.
Qed.
Lemma e155 : exists d0, comoving_distance_to_z (AR := exact) (Fin (1/2)) (Fin (1/4)) (Fin (-1)) (Fin 0) (Fin (3/4)) = Fin d0 /\ 1 / 10 ^ 8 <= d0.
Proof.
  exists (dc (1/4) (-1) 0 (3/4) (1/2)). split; [apply dc_fin; lra|]. unfold dc.
  destruct (quad_bounds 256 (f1 (1/4) (-1) 0) (1/2) (/ 10 ^ 10) 100 ltac:(lia) ltac:(lra)) as [A _].
  { intros x Hx. unfold f1, Rdiv. rewrite Rmult_1_l. pose proof (E_range (1/4) (-1) 0 x ltac:(lra) ltac:(rewrite Rabs_left; lra) ltac:(rewrite Rabs_R0; lra) ltac:(lra)) as SR. split; [apply Rinv_le_contravar; lra|]. rewrite <- (Rinv_inv 100). apply Rinv_le_contravar; lra. }
  apply Rle_trans with (300 * (/ 10 ^ 10 * (1/2))); [simpl; lra|]. apply Rmult_le_compat; try lra; unfold hubble_dist, c_light; simpl; lra.
Qed.
