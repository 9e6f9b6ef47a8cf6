(** * Normalised differences of approximately known values, in rounded arithmetic *)
From Coq Require Import Reals List Arith Lra Lia ZArith Bool.
From Coquelicot Require Import Rcomplements.
From Flocq Require Import Core.Raux.
From Coq Require Import Permutation.
From Verif Require Import Num Arr MUtils MSed Float Spec SpecFloat LOrder RList LUtils LAge LFloat LFloat2 LFloat3 LFloat4 LFloat5 LFloat10 LFloat11 LRound1 LRound2 LRound3.
Import ListNotations.
Open Scope R_scope.

Section F.
Context {AR : Arith} (u : R) (H : rel_err AR u).
Let G := re_good _ _ H.
Definition Rsuma (l : list R) : R := Rsum (map Rabs l).
Lemma Rsuma_pos l : 0 <= Rsuma l.
Proof. apply Rsum_nonneg. apply Forall_map, Forall_forall. intros. apply Rabs_pos. Qed.

(** recursive summation of numbers of any sign *)
Lemma vsum_err l : l <> [] -> Forall (fun x => rnd x = Fin x) l -> (Rsuma l + INR (length l) * (u * / 2 ^ 102)) * (1 + u) ^ length l <= 10 ^ 38 ->
  exists r, vsum (fins l) = Fin r /\ Rabs (r - Rsum l) <= ((1 + u) ^ length l - 1) * Rsuma l + (INR (length l) - 1) * (u * / 2 ^ 102) * (1 + u) ^ length l.
Proof.
  pose proof (u_le u H) as Hu. assert (U0 : 0 < u) by lra. clear Hu. assert (T0 : 0 < u * / 2 ^ 102) by (apply Rmult_lt_0_compat; [lra|]; apply Rinv_0_lt_compat, pow_lt; lra). revert T0. generalize (re_any _ _ H). generalize (u * / 2 ^ 102). intros tau AN T0 NE.
  destruct l as [|x0 l0]; [congruence|]. clear NE.
  assert (C : combines nadd (fins (x0 :: l0)) (vsum (fins (x0 :: l0)))) by (apply vsum_comb; [exact (sum_order _ G)|discriminate]).
  revert C. generalize (x0 :: l0), (vsum (fins (x0 :: l0))).
  cut (forall l v, combines nadd (fins l) v -> Forall (fun x => rnd x = Fin x) l -> (Rsuma l + INR (length l) * tau) * (1 + u) ^ length l <= 10 ^ 38 ->
    exists r, v = Fin r /\ rnd r = Fin r /\ Rabs (r - Rsum l) <= ((1 + u) ^ length l - 1) * Rsuma l + (INR (length l) - 1) * tau * (1 + u) ^ length l).
  { intros K l v C F B. destruct (K l v C F B) as (r & E & _ & D). eauto. }
  apply (combines_fins_ind nadd (fun l v => Forall (fun x => rnd x = Fin x) l -> (Rsuma l + INR (length l) * tau) * (1 + u) ^ length l <= 10 ^ 38 ->
    exists r, v = Fin r /\ rnd r = Fin r /\ Rabs (r - Rsum l) <= ((1 + u) ^ length l - 1) * Rsuma l + (INR (length l) - 1) * tau * (1 + u) ^ length l)).
  - intros x F _. apply Forall_cons_iff in F. destruct F as [F _]. exists x. split; auto. split; auto. unfold Rsuma. cbn [map Rsum length pow]. replace (x - (x + 0)) with 0 by lra. rewrite Rabs_R0. simpl (INR 1). pose proof (Rabs_pos x). replace ((1 - 1) * tau * ((1 + u) * 1)) with 0 by ring. rewrite Rplus_0_r. apply Rmult_le_pos; lra.
  - intros l a b va vb P La Lb IA IB F B.
    assert (F' : Forall (fun x => rnd x = Fin x) (a ++ b)) by (apply Forall_forall; intros y Hy; rewrite Forall_forall in F; apply F; apply Permutation_sym in P; eapply Permutation_in; eauto).
    apply Forall_app in F'. destruct F' as [Fa Fb]. pose proof (Rsuma_pos a) as A0. pose proof (Rsuma_pos b) as B0.
    assert (SP : Rsuma l = Rsuma a + Rsuma b) by (unfold Rsuma; rewrite (Rsum_perm _ _ (Permutation_map Rabs P)), map_app; apply Rsum_app'). rewrite SP in *.
    rewrite (Permutation_length P), (Rsum_perm _ _ P), app_length, Rsum_app', plus_INR in *.
    destruct (pow_parts H (length a) (length b) Lb) as [PA _]. destruct (pow_parts H (length b) (length a) La) as [PB _]. rewrite (Nat.add_comm (length b)) in PB.
    set (p := (1 + u) ^ (length a + length b)) in *.
    assert (pa1 : 1 <= (1 + u) ^ length a) by (apply pow_R1_Rle; lra). assert (pb1 : 1 <= (1 + u) ^ length b) by (apply pow_R1_Rle; lra).
    set (pa := (1 + u) ^ length a) in *. set (pb := (1 + u) ^ length b) in *. set (A := Rsuma a) in *. set (Bb := Rsuma b) in *.
    assert (IA1 : 1 <= INR (length a)) by (apply (le_INR 1); lia). assert (IB1 : 1 <= INR (length b)) by (apply (le_INR 1); lia).
    set (na := INR (length a)) in *. set (nb := INR (length b)) in *.
    assert (p1 : 1 <= p) by (apply pow_R1_Rle; lra).
    assert (ta0 : 0 <= (na - 1) * tau) by (apply Rmult_le_pos; lra). assert (tb0 : 0 <= (nb - 1) * tau) by (apply Rmult_le_pos; lra).
    assert (Ta : (na - 1) * tau * pa * (1 + u) <= (na - 1) * tau * p) by (rewrite Rmult_assoc; apply Rmult_le_compat_l; lra). assert (Tb : (nb - 1) * tau * pb * (1 + u) <= (nb - 1) * tau * p) by (rewrite Rmult_assoc; apply Rmult_le_compat_l; lra).
    assert (ta1 : 0 <= (na - 1) * tau * pa) by (apply Rmult_le_pos; lra). assert (tb1 : 0 <= (nb - 1) * tau * pb) by (apply Rmult_le_pos; lra).
    assert (uta : 0 <= u * ((na - 1) * tau * pa)) by (apply Rmult_le_pos; lra). assert (utb : 0 <= u * ((nb - 1) * tau * pb)) by (apply Rmult_le_pos; lra).
    assert (tp : tau <= tau * p) by (rewrite <- (Rmult_1_r tau) at 1; apply Rmult_le_compat_l; lra).
    assert (Ga : A * pa * (1 + u) <= A * p) by (rewrite Rmult_assoc; apply Rmult_le_compat_l; lra). assert (Gb : Bb * pb * (1 + u) <= Bb * p) by (rewrite Rmult_assoc; apply Rmult_le_compat_l; lra).
    assert (a0 : 0 <= A * pa) by (apply Rmult_le_pos; lra). assert (b0 : 0 <= Bb * pb) by (apply Rmult_le_pos; lra).
    assert (ua : 0 <= u * (A * pa)) by (apply Rmult_le_pos; lra). assert (ub : 0 <= u * (Bb * pb)) by (apply Rmult_le_pos; lra).
    assert (TPa : tau * pa * (1 + u) <= tau * p) by (rewrite Rmult_assoc; apply Rmult_le_compat_l; lra). assert (TPb : tau * pb * (1 + u) <= tau * p) by (rewrite Rmult_assoc; apply Rmult_le_compat_l; lra).
    assert (tpa : 0 <= tau * pa) by (apply Rmult_le_pos; lra). assert (tpb : 0 <= tau * pb) by (apply Rmult_le_pos; lra). assert (utpa : 0 <= u * (tau * pa)) by (apply Rmult_le_pos; lra). assert (utpb : 0 <= u * (tau * pb)) by (apply Rmult_le_pos; lra).
    destruct (IA Fa ltac:(lra)) as (x & -> & Rx & BX). destruct (IB Fb ltac:(lra)) as (y & -> & Ry & BY).
    assert (TA : Rabs (Rsum a) <= A) by apply Rsum_abs_le. assert (TB : Rabs (Rsum b) <= Bb) by apply Rsum_abs_le.
    assert (XA : Rabs x <= A * pa + (na - 1) * tau * pa) by (replace x with ((x - Rsum a) + Rsum a) by lra; eapply Rle_trans; [apply Rabs_triang|]; lra).
    assert (YB : Rabs y <= Bb * pb + (nb - 1) * tau * pb) by (replace y with ((y - Rsum b) + Rsum b) by lra; eapply Rle_trans; [apply Rabs_triang|]; lra).
    pose proof (Rabs_triang x y) as TR.
    cbn [nadd]. destruct (rnd_range _ G (x + y)) as (t & Et); [lra|]. pose proof (AN _ _ Et) as E.
    exists t. split; auto. split; [eapply (rnd_idem _ G); eauto|].
    assert (u * Rabs (x + y) <= u * (A * pa + Bb * pb + (na - 1) * tau * pa + (nb - 1) * tau * pb)) by (apply Rmult_le_compat_l; lra).
    replace (t - (Rsum a + Rsum b)) with ((t - (x + y)) + ((x - Rsum a) + (y - Rsum b))) by lra. eapply Rle_trans; [apply Rabs_triang|].
    pose proof (Rabs_triang (x - Rsum a) (y - Rsum b)). lra.
Qed.
Lemma Rsuma_err (f g : nat -> R) a n e : (forall i, (a <= i < a + n)%nat -> Rabs (f i - g i) <= e) ->
  Rabs (Rsum (map f (seq a n)) - Rsum (map g (seq a n))) <= INR n * e.
Proof.
  revert a. induction n as [|n IH]; intros a F; [simpl; rewrite Rminus_0_r, Rabs_R0; lra|]. cbn [seq map Rsum]. rewrite S_INR.
  specialize (IH (S a) ltac:(intros; apply F; lia)). specialize (F a ltac:(lia)).
  replace (f a + Rsum (map f (seq (S a) n)) - (g a + Rsum (map g (seq (S a) n)))) with ((f a - g a) + (Rsum (map f (seq (S a) n)) - Rsum (map g (seq (S a) n)))) by lra.
  eapply Rle_trans; [apply Rabs_triang|]. lra.
Qed.
Lemma Rsum_seq_abs (f g : nat -> R) a n c : (forall i, (a <= i < a + n)%nat -> Rabs (f i) <= c * g i) -> Rabs (Rsum (map f (seq a n))) <= c * Rsum (map g (seq a n)).
Proof.
  revert a. induction n as [|n IH]; intros a F; [simpl; rewrite Rabs_R0; lra|]. cbn [seq map Rsum].
  specialize (IH (S a) ltac:(intros; apply F; lia)). specialize (F a ltac:(lia)). eapply Rle_trans; [apply Rabs_triang|]. lra.
Qed.
Lemma Rsum_minus_seq (f g : nat -> R) l : Rsum (map f l) - Rsum (map g l) = Rsum (map (fun i => f i - g i) l).
Proof. induction l; simpl; lra. Qed.
Lemma mono_le (P : nat -> R) n : (forall i, (i < n)%nat -> P (S i) <= P i) -> forall i j, (i <= j <= n)%nat -> P j <= P i.
Proof. intros M i j Hij. replace j with (i + (j - i))%nat by lia. assert (Hk : (i + (j - i) <= n)%nat) by lia. revert Hk. generalize (j - i)%nat as k. induction k as [|k IH]; intros Hk; [rewrite Nat.add_0_r; lra|]. rewrite Nat.add_succ_r in *. specialize (M (i + k)%nat ltac:(lia)). specialize (IH ltac:(lia)). lra. Qed.

Lemma Rsum_seq_shift (f : nat -> R) c a n : Rsum (map (fun i => f i + c) (seq a n)) = Rsum (map f (seq a n)) + INR n * c.
Proof. revert a. induction n as [|n IH]; intros a; [simpl; lra|]. cbn [seq map Rsum]. rewrite S_INR, IH. lra. Qed.
Lemma normalise_err n (P : nat -> R) (p : list R) eta : length p = S n -> (1 <= n <= 2 ^ 18)%nat ->
  (forall i, (i <= n)%nat -> rnd (ent p i) = Fin (ent p i) /\ Rabs (ent p i - P i) <= eta * P 0%nat) ->
  (forall i, (i < n)%nat -> P (S i) <= P i) -> 0 <= P n -> / 10 ^ 20 <= P 0%nat <= 10 ^ 34 -> P n <= P 0%nat / 2 ->
  8 * INR n * u <= eta -> 100 * u <= eta -> INR n * eta <= 1/25 -> eta <= 1/75 ->
  let D := map nopp (diff (fins p)) in
  exists x, map (fun d => ndiv d (vsum D)) D = fins x /\ length x = n
    /\ forall i, (i < n)%nat -> rnd (ent x i) = Fin (ent x i) /\ Rabs (ent x i - (P i - P (S i)) / (P 0%nat - P n)) <= 10 * eta.
Proof.
  intros Lp Hn V MO Pn P0 HF E1 E2 E3 E4 D. pose proof (u_le u H) as Hu. set (M := P 0%nat) in *. pose proof (mono_le P n MO) as ML.
  assert (M0 : 0 < M). { eapply Rlt_le_trans; [|apply P0]. apply Rinv_0_lt_compat, pow_lt; lra. }
  assert (T0 : 0 < / 2 ^ 102) by (apply Rinv_0_lt_compat, pow_lt; lra).
  assert (NT0 : INR n * / 2 ^ 102 <= 0.001 * M).
  { destruct Hn as [_ Hn]. apply le_INR in Hn. rewrite pow_INR in Hn. change (INR 2) with 2 in Hn. apply Rle_trans with (2 ^ 18 * / 2 ^ 102); [apply Rmult_le_compat_r; lra|].
    replace (2 ^ 102) with (2 ^ 18 * 2 ^ 84) by (rewrite <- pow_add; reflexivity). rewrite Rinv_mult, <- Rmult_assoc, Rinv_r, Rmult_1_l by (apply pow_nonzero; lra).
    apply Rle_trans with (/ 10 ^ 24); [apply Rinv_le; [apply pow_lt; lra|]; rewrite (pow_IZR 10 24), (pow_IZR 2 84); apply IZR_le; vm_compute; discriminate|].
    apply Rle_trans with (0.001 * / 10 ^ 20); [|apply Rmult_le_compat_l; lra]. simpl. lra. }
  assert (NU : INR n * u <= / 16) by (apply n_u; [apply (re_u _ _ H)|lia]).
  assert (N1 : 1 <= INR n) by (change 1 with (INR 1); apply le_INR; lia).
  assert (eM : 0 < eta * M) by (apply Rmult_lt_0_compat; lra). assert (eM1 : eta * M <= 1/75 * M) by (apply Rmult_le_compat_r; lra).
  assert (uM : 0 < u * M) by (apply Rmult_lt_0_compat; lra). assert (uM1 : 100 * u * M <= eta * M) by (apply Rmult_le_compat_r; lra).
  (* differences of the approximate values *)
  set (d := fun i => ent p i - ent p (S i)). set (g := fun i => P i - P (S i)).
  assert (G0 : forall i, (i < n)%nat -> 0 <= g i <= M).
  { intros i Hi. unfold g. specialize (MO i Hi). pose proof (ML 0%nat i ltac:(lia)). pose proof (ML (S i) n ltac:(lia)). unfold M. lra. }
  assert (DG : forall i, (i < n)%nat -> Rabs (d i - g i) <= 2 * (eta * M)).
  { intros i Hi. unfold d, g. destruct (V i ltac:(lia)) as [_ A]. destruct (V (S i) ltac:(lia)) as [_ B]. apply Rabs_le_inv in A, B. apply Rabs_le. lra. }
  assert (SG : Rsum (map g (seq 0 n)) = M - P n).
  { unfold g. rewrite (Rsum_telescope P n 0). reflexivity. }
  assert (SD : Rsum (map d (seq 0 n)) = ent p 0 - ent p n).
  { unfold d. rewrite (Rsum_telescope (ent p) n 0). reflexivity. }
  assert (SDA : Rsum (map (fun i => Rabs (d i)) (seq 0 n)) <= 1.1 * M).
  { apply Rle_trans with (Rsum (map g (seq 0 n)) + INR n * (2 * (eta * M))).
    - pose proof (Rsuma_err (fun i => Rabs (d i)) g 0 n (2 * (eta * M))) as A. assert (Rabs (Rsum (map (fun i => Rabs (d i)) (seq 0 n)) - Rsum (map g (seq 0 n))) <= INR n * (2 * (eta * M))) as W.
      { apply A. intros i Hi. specialize (DG i ltac:(lia)). destruct (G0 i ltac:(lia)) as [Q _]. rewrite <- (Rabs_right (g i)) by lra. eapply Rle_trans; [apply Rabs_triang_inv2|exact DG]. }
      apply Rabs_le_inv in W. lra.
    - rewrite SG. assert (INR n * eta * M <= 1/25 * M) by (apply Rmult_le_compat_r; lra). lra. }
  (* the computed differences *)
  assert (NEG : forall z, rnd z = Fin z -> rnd (- z) = Fin (- z)). { intros z Hz. rewrite (rnd_opp _ G z), Hz. reflexivity. }
  assert (PB : forall i, (i <= n)%nat -> Rabs (ent p i) <= 1.1 * M).
  { intros i Hi. destruct (V i Hi) as [_ A]. apply Rabs_le_inv in A. pose proof (ML 0%nat i ltac:(lia)) as Q. pose proof (ML i n ltac:(lia)). fold M in Q. apply Rabs_le. lra. }
  assert (BIG : 10 ^ 35 <= 10 ^ 38) by (apply Rle_pow; [lra|lia]). assert (B34 : 10 ^ 35 = 10 * 10 ^ 34) by reflexivity.
  assert (DV : forall i, (i < n)%nat -> exists y, at_ D i = Fin y /\ rnd y = Fin y /\ Rabs (y - d i) <= u * Rabs (d i) + u * / 2 ^ 102).
  { intros i Hi. unfold D. rewrite at_map by (unfold diff; rewrite map2_length, tl_length, fins_length; lia).
    unfold diff, at_. rewrite (map2_nth _ _ _ _ NaN NaN) by (rewrite ?tl_length, ?fins_length; lia). rewrite tl_nth. fold (at_ (fins p) i). fold (at_ (fins p) (S i)). rewrite !at_fins by lia.
    destruct (V i ltac:(lia)) as [R0 _]. destruct (V (S i) ltac:(lia)) as [R1 _]. unfold nsub. cbn [nopp nadd].
    destruct (rnd_range _ G (ent p (S i) + - ent p i)) as (z & Ez).
    { eapply Rle_trans; [apply Rabs_triang|]. rewrite Rabs_Ropp. pose proof (PB i ltac:(lia)). pose proof (PB (S i) ltac:(lia)). lra. }
    rewrite Ez. exists (- z). split; auto. split; [apply NEG; eapply (rnd_idem _ G); eauto|]. pose proof (re_any _ _ H _ _ Ez) as A.
    replace (- z - d i) with (- (z - (ent p (S i) + - ent p i))) by (unfold d; lra). rewrite Rabs_Ropp. replace (ent p (S i) + - ent p i) with (- d i) in A by (unfold d; lra). rewrite Rabs_Ropp in A. replace (ent p (S i) + - ent p i) with (- d i) by (unfold d; lra). exact A. }
  assert (LD : length D = n) by (unfold D, diff; rewrite map_length, map2_length, tl_length, fins_length; lia).
  destruct (cases_fins D) as (y & ED & Ly & Ay).
  { intros v Hv. apply (In_nth _ _ NaN) in Hv. destruct Hv as (i & Hi & <-). rewrite LD in Hi. destruct (DV i Hi) as (z & Ez & _). exists z. exact Ez. }
  rewrite LD in Ly, Ay.
  assert (YV : forall i, (i < n)%nat -> rnd (ent y i) = Fin (ent y i) /\ Rabs (ent y i - d i) <= u * Rabs (d i) + u * / 2 ^ 102).
  { intros i Hi. destruct (DV i Hi) as (z & Ez & B). rewrite Ay in Ez by auto. injection Ez as ->. exact B. }
  assert (YS : y = map (ent y) (seq 0 n)). { apply list_eq_ent; [now rewrite map_length, seq_length|]. intros i Hi. rewrite ent_map_seq by lia. reflexivity. }
  assert (SYA : Rsuma y <= 1.102 * M).
  { unfold Rsuma. rewrite YS, map_map. apply Rle_trans with (1.0001 * Rsum (map (fun i => Rabs (d i) + / 2 ^ 102) (seq 0 n))); [|rewrite Rsum_seq_shift; lra].
    rewrite <- Rsum_map_mult. apply Rsum_map_le. intros i Hi. apply in_seq in Hi. destruct (YV i ltac:(lia)) as [_ A].
    replace (ent y i) with ((ent y i - d i) + d i) by lra. eapply Rle_trans; [apply Rabs_triang|]. assert (u * (Rabs (d i) + / 2 ^ 102) <= 0.0001 * (Rabs (d i) + / 2 ^ 102)) by (apply Rmult_le_compat_r; [pose proof (Rabs_pos (d i)); lra|simpl in Hu; lra]). lra. }
  assert (SYD : Rabs (Rsum y - (ent p 0 - ent p n)) <= 1.11 * (u * M)).
  { rewrite <- SD, YS at 1. rewrite Rsum_minus_seq. eapply Rle_trans; [apply (Rsum_seq_abs _ (fun i => Rabs (d i) + / 2 ^ 102) 0 n u)|].
    - intros i Hi. rewrite Rmult_plus_distr_l. apply YV. lia.
    - rewrite Rsum_seq_shift. assert (u * (Rsum (map (fun i => Rabs (d i)) (seq 0 n)) + INR n * / 2 ^ 102) <= u * (1.11 * M)) by (apply Rmult_le_compat_l; lra). lra. }
  destruct (pow_1pu u n ltac:(lra) NU) as [PU PL].
  assert (NT1 : INR n * (u * / 2 ^ 102) <= 0.001 * (u * M)) by (replace (INR n * (u * / 2 ^ 102)) with (u * (INR n * / 2 ^ 102)) by ring; replace (0.001 * (u * M)) with (u * (0.001 * M)) by ring; apply Rmult_le_compat_l; lra).
  assert (UM1 : u * M <= M) by (rewrite <- (Rmult_1_l M) at 2; apply Rmult_le_compat_r; [lra|simpl in Hu; lra]).
  destruct (vsum_err y) as (S' & ES & BS).
  { intros ->. simpl in Ly. lia. }
  { apply Forall_ent. intros i Hi. apply YV. lia. }
  { rewrite Ly. pose proof (Rsuma_pos y). assert (0 <= INR n * (u * / 2 ^ 102)) by (apply Rmult_le_pos; [lra|apply Rmult_le_pos; lra]). apply Rle_trans with (1.103 * M * (1 + 16 / 15 * / 16)); [apply Rmult_le_compat; [lra|apply pow_le; lra|lra|lra]|]. lra. }
  assert (BS' : Rabs (S' - Rsum y) <= 0.16 * (eta * M)).
  { rewrite Ly in BS. eapply Rle_trans; [exact BS|]. pose proof (Rsuma_pos y). apply Rle_trans with (16 / 15 * (INR n * u) * (1.102 * M) + 0.002 * (u * M)); [apply Rplus_le_compat; [apply Rmult_le_compat; lra|]; apply Rle_trans with (0.001 * (u * M) * 2); [|lra]; apply Rmult_le_compat; [apply Rmult_le_pos; [lra|apply Rmult_le_pos; lra]|apply pow_le; lra| |lra]; apply Rle_trans with (INR n * (u * / 2 ^ 102)); [apply Rmult_le_compat_r; [apply Rmult_le_pos; lra|lra]|lra]|].
    assert (INR n * u * M <= eta / 8 * M) by (apply Rmult_le_compat_r; lra). lra. }
  set (S := M - P n). assert (SB : M / 2 <= S <= M) by (unfold S; lra).
  assert (SS : Rabs (S' - S) <= 2.2 * (eta * M)).
  { destruct (V 0%nat ltac:(lia)) as [_ A]. destruct (V n ltac:(lia)) as [_ B]. fold M in A. apply Rabs_le_inv in A, B, BS', SYD. apply Rabs_le. unfold S. lra. }
  apply Rabs_le_inv in SS. assert (SP : 0.47 * M <= S') by lra.
  assert (EV : vsum D = Fin S') by (rewrite ED; exact ES).
  assert (W : forall i, (i < n)%nat -> exists x, ndiv (Fin (ent y i)) (Fin S') = Fin x /\ rnd x = Fin x /\ Rabs (x - g i / S) <= 10 * eta).
  { intros i Hi. cbn [ndiv]. rewrite Req_bool_false by lra. destruct (YV i Hi) as [_ A]. specialize (DG i Hi). destruct (G0 i Hi) as [g0 g1]. 
    assert (GS : g i <= S). { unfold g, S. pose proof (ML 0%nat i ltac:(lia)) as Q1. pose proof (ML (Datatypes.S i) n ltac:(lia)). fold M in Q1. lra. }
    assert (DB : Rabs (d i) <= 1.1 * M) by (apply Rabs_le_inv in DG; apply Rabs_le; lra).
    assert (T1 : / 2 ^ 102 <= 0.001 * M) by (eapply Rle_trans; [|exact NT0]; rewrite <- (Rmult_1_l (/ 2 ^ 102)) at 1; apply Rmult_le_compat_r; lra).
    assert (UD : u * (Rabs (d i) + / 2 ^ 102) <= u * (1.11 * M)) by (apply Rmult_le_compat_l; lra).
    assert (YG : Rabs (ent y i - g i) <= 2.1 * (eta * M)). { apply Rabs_le_inv in A, DG. apply Rabs_le. lra. }
    assert (QE : Rabs (ent y i / S' - g i / S) <= 9.2 * eta).
    { replace (ent y i / S' - g i / S) with (((ent y i - g i) - (g i / S) * (S' - S)) / S') by (field; lra).
      unfold Rdiv at 1. rewrite Rabs_mult, (Rabs_right (/ S')) by (apply Rle_ge, Rlt_le, Rinv_0_lt_compat; lra). apply Rmult_le_reg_r with S'; [lra|]. rewrite Rmult_assoc, Rinv_l, Rmult_1_r by lra.
      assert (R1 : 0 <= g i / S <= 1) by (split; [apply Rdiv_le_0_compat'; lra|apply Rdiv_le_1'; lra]).
      assert (R2 : Rabs (g i / S * (S' - S)) <= 1 * (2.2 * (eta * M))) by (rewrite Rabs_mult; apply Rmult_le_compat; try apply Rabs_pos; apply Rabs_le; lra).
      assert (9.2 * eta * (0.47 * M) <= 9.2 * eta * S') by (apply Rmult_le_compat_l; lra).
      eapply Rle_trans; [apply Rabs_triang|]. rewrite Rabs_Ropp. lra. }
    assert (R1 : 0 <= g i / S <= 1) by (split; [apply Rdiv_le_0_compat'; lra|apply Rdiv_le_1'; lra]). apply Rabs_le_inv in QE.
    destruct (rnd_err_B u H (ent y i / S') 2) as (x & Ex & Ax & Rx); [apply Rabs_le; lra|simpl; lra|]. apply Rabs_le_inv in Ax. exists x. split; auto. split; auto. apply Rabs_le. lra. }
  destruct (cases_fins (map (fun d => ndiv d (vsum D)) D)) as (x & EX & LX & AX).
  { intros v Hv. apply (In_nth _ _ NaN) in Hv. destruct Hv as (i & Hi & <-). rewrite map_length, LD in Hi. fold (at_ (map (fun d0 => ndiv d0 (vsum D)) D) i). rewrite at_map by lia. rewrite EV, Ay by auto. destruct (W i Hi) as (z & Ez & _). eauto. }
  rewrite map_length, LD in LX, AX. exists x. split; auto. split; auto. intros i Hi. destruct (W i Hi) as (z & Ez & B). specialize (AX i Hi). rewrite at_map, EV, Ay, Ez in AX by lia. injection AX as <-. exact B.
Qed.
End F.
