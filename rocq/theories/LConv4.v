(** * C146: the property lemmas *)
From Coq Require Import Reals List Arith Lra Lia.
From Coquelicot Require Import Coquelicot.
From Verif Require Import Num MUtils MSed Spec SpecConv RList LUtils LCalc LAge LMet LJoint LConv1 LConv2 LConv3.
Import ListNotations.
Open Scope R_scope.

Lemma C146_weights_lemma : forall K F f h d T ts ages t_obs sfr_min,
  smooth_history K F f -> 1 / 10 ^ 14 <= F -> 0 < sfr_min <= F -> 0 <= d -> (forall t, sfr_min <= f t + d) ->
  resolves h t_obs T ts -> (3 <= length ages)%nat -> nondecreasing (age_edges ages) ->
  let e := table_error K F h d T in
  2 * e < mass_in_range f t_obs ages ->
  exists w,
    calc_age_weights_from_sfh_table (fins ts) (fins (map f ts)) (fins ages) (Fin t_obs) (Fin sfr_min) = Ok (fins w)
    /\ length w = length ages
    /\ forall j, (j < length ages)%nat ->
       Rabs (ent w j - mass_in_bin f t_obs ages j / mass_in_range f t_obs ages) <= 4 * e / mass_in_range f t_obs ages.
Proof.
  intros K F f h d T ts ages t_obs m Hf H14 Hm Hd Hdf Hr Ha He e HR.
  exact (proj2 (conv_weights K F h d m T t_obs f ts Hf H14 Hm Hd Hdf Hr ages Ha He HR)).
Qed.

(** the mesh that brings the error below [x] *)
Lemma mesh_small K F T x : 0 <= K -> 0 < F -> 0 <= T -> 0 < x -> exists h, 0 < h /\ table_error K F h 0 T <= x.
Proof.
  intros HK HF HT Hx. pose proof (Rmult_le_pos K T HK HT). exists (2 * x / (K * T + 3 * F)).
  split; [apply Rdiv_lt_0_compat; lra|]. unfold table_error. right. field. lra.
Qed.
Lemma resolves_T h t_obs T ts : resolves h t_obs T ts -> 0 < T.
Proof.
  intros (Hn & Hi & HT & _). assert (0.001 < ent ts (length ts - 1)); [|lra].
  apply (proj1 (proj1 (increasing_cons _ _) Hi)). apply ent_In. destruct ts; simpl; [congruence|lia].
Qed.
Lemma C146_limit_lemma : forall K F f T ages t_obs sfr_min eps,
  smooth_history K F f -> 1 / 10 ^ 14 <= F -> 0 < sfr_min -> (forall t, sfr_min <= f t) -> 0 <= T ->
  (3 <= length ages)%nat -> nondecreasing (age_edges ages) -> 0 < mass_in_range f t_obs ages -> 0 < eps ->
  exists h, 0 < h /\ forall ts, resolves h t_obs T ts -> exists w,
    calc_age_weights_from_sfh_table (fins ts) (fins (map f ts)) (fins ages) (Fin t_obs) (Fin sfr_min) = Ok (fins w)
    /\ length w = length ages
    /\ forall j, (j < length ages)%nat -> Rabs (ent w j - mass_in_bin f t_obs ages j / mass_in_range f t_obs ages) <= eps.
Proof.
  intros K F f T ages t_obs m eps Hf H14 Hm Hmf HT Ha He HP Heps. set (P := mass_in_range f t_obs ages) in *.
  destruct (mesh_small K F T (Rmin (P / 3) (eps * P / 4))) as (h & Hh & E).
  - eapply lip_K. apply Hf.
  - lra.
  - exact HT.
  - apply Rmin_glb_lt; [lra|]. pose proof (Rmult_lt_0_compat _ _ Heps HP). lra.
  - exists h. split; [exact Hh|]. intros ts Hr. pose proof (Rmin_l (P / 3) (eps * P / 4)). pose proof (Rmin_r (P / 3) (eps * P / 4)).
    destruct (C146_weights_lemma K F f h 0 T ts ages t_obs m) as (w & E1 & L & W); auto; try lra.
    + split; [lra|]. destruct Hf as [HF _]. specialize (HF 0). specialize (Hmf 0). lra.
    + intros t. specialize (Hmf t). lra.
    + fold P. lra.
    + exists w. split; [exact E1|]. split; [exact L|]. intros j Hj. eapply Rle_trans; [apply W; auto|]. fold P.
      apply (Rmult_le_reg_r P); [lra|]. unfold Rdiv. rewrite Rmult_assoc, Rinv_l by lra. lra.
Qed.

Lemma mix_close n m (q w p : list R) flux k B e : (forall i, (i < n)%nat -> 0 <= ent q i) -> Rsum (map (ent q) (seq 0 n)) = 1 ->
  (forall i j, (i < n)%nat -> (j < m)%nat -> Rabs (ent3 flux i j k) <= B) -> 0 <= B ->
  (forall j, (j < m)%nat -> Rabs (ent w j - ent p j) <= e) ->
  Rabs (Rsum (map (fun i => Rsum (map (fun j => ent q i * ent w j * ent3 flux i j k) (seq 0 m))) (seq 0 n))
        - Rsum (map (fun i => Rsum (map (fun j => ent q i * ent p j * ent3 flux i j k) (seq 0 m))) (seq 0 n))) <= INR m * e * B.
Proof.
  intros Hq Sq HB HB0 He.
  assert (S1 : forall (g g' : nat -> R) c l, (forall j, In j l -> Rabs (g j - g' j) <= c) -> Rabs (Rsum (map g l) - Rsum (map g' l)) <= INR (length l) * c).
  { intros g g' c l. induction l as [|x l IH]; intros H; [simpl; rewrite Rminus_0_r, Rabs_R0; lra|].
    cbn [map Rsum length]. rewrite S_INR. pose proof (H x ltac:(now left)) as A. pose proof (IH ltac:(intros; apply H; now right)) as C.
    apply Rabs_le_between in A. apply Rabs_le_between in C. apply Rabs_le_between. lra. }
  assert (S2 : forall (g g' c : nat -> R) l, (forall j, In j l -> Rabs (g j - g' j) <= c j) -> Rabs (Rsum (map g l) - Rsum (map g' l)) <= Rsum (map c l)).
  { intros g g' c l. induction l as [|x l IH]; intros H; [simpl; rewrite Rminus_0_r, Rabs_R0; lra|].
    cbn [map Rsum]. pose proof (H x ltac:(now left)) as A. pose proof (IH ltac:(intros; apply H; now right)) as C.
    apply Rabs_le_between in A. apply Rabs_le_between in C. apply Rabs_le_between. lra. }
  eapply Rle_trans; [apply (S2 _ _ (fun i => ent q i * (INR m * e * B)))|].
  - intros i Hi. apply in_seq in Hi. pose proof (Hq i ltac:(lia)) as Qi.
    replace (ent q i * (INR m * e * B)) with (INR (length (seq 0 m)) * (ent q i * (e * B))) by (rewrite seq_length; ring). apply S1.
    intros j Hj. apply in_seq in Hj.
    replace (ent q i * ent w j * ent3 flux i j k - ent q i * ent p j * ent3 flux i j k) with (ent q i * ((ent w j - ent p j) * ent3 flux i j k)) by ring.
    rewrite !Rabs_mult, (Rabs_right (ent q i)) by lra. apply Rmult_le_compat_l; [exact Qi|].
    apply Rmult_le_compat; try apply Rabs_pos; [apply He|apply HB]; lia.
  - rewrite <- (map_map (ent q) (fun x => x * (INR m * e * B))), Rsum_scal_r, Sq. lra.
Qed.

Lemma C146_sed_lemma : forall K F f h d T ts lgmet scatter ssp_lgmet ages n_wave flux B t_obs sfr_min,
  smooth_history K F f -> 1 / 10 ^ 14 <= F -> 0 < sfr_min <= F -> 0 <= d -> (forall t, sfr_min <= f t + d /\ 1 / 10 ^ 14 <= f t + d) ->
  resolves h t_obs T ts -> (3 <= length ages)%nat -> nondecreasing (age_edges ages) -> 0.001 <= t_obs ->
  0 < scatter -> (3 <= length ssp_lgmet)%nat -> nondecreasing (met_edges ssp_lgmet) ->
  is_cube (length ssp_lgmet) (length ages) n_wave flux ->
  (forall i j k, (i < length ssp_lgmet)%nat -> (j < length ages)%nat -> (k < n_wave)%nat -> Rabs (ent3 flux i j k) <= B) -> 0 <= B ->
  let e := table_error K F h d T in
  2 * e < mass_in_range f t_obs ages ->
  exists r sed q,
    calc_lgmet_weights_from_lognormal_mdf (Fin lgmet) (Fin scatter) (fins ssp_lgmet) = Ok (fins q) /\ distribution q
    /\ calc_rest_sed_sfh_table_lognormal_mdf (fins ts) (fins (map f ts)) (Fin lgmet) (Fin scatter) (fins ssp_lgmet) (fins ages) (fins3 flux) (Fin t_obs) (Fin sfr_min) = Ok r
    /\ rest_sed r = fins sed /\ length sed = n_wave
    /\ forall k, (k < n_wave)%nat ->
       Rabs (ent sed k - synthesis f t_obs (length ssp_lgmet) ages q flux k)
       <= 10 ^ 9 * B * e * (1 + 4 * INR (length ages) * (RInt f 0.001 t_obs / mass_in_range f t_obs ages)).
Proof.
  intros K F f h d T ts lgmet sc lgmets ages n_wave flux B t_obs m Hf H14 Hm Hd Hdf Hr Ha He Ht Hsc Hlm Hme Hc HB HB0 e HR.
  assert (Hd1 : forall t, m <= f t + d) by (intros; apply Hdf). assert (Hd2 : forall t, 1 / 10 ^ 14 <= f t + d) by (intros; apply Hdf).
  destruct (conv_weights K F h d (1 / 10 ^ 14) T t_obs f ts Hf H14 ltac:(lra) Hd Hd2 Hr ages Ha He HR) as (Hff & w & Ew & Lw & Ww).
  pose proof Hr as (Hn & Hi & HT & Hg). assert (Hl : length ts = length (map f ts)) by now rewrite map_length.
  assert (G : good_grids ts (map f ts) sc lgmets ages t_obs) by (repeat split; auto).
  destruct (C15_lemma ts (map f ts) lgmet sc lgmets ages t_obs G) as (W & mw & aw & EJ & EA & EM & SW & HW & HS & _).
  rewrite Ew in EA. injection EA as EA. apply fins_inj in EA. subst aw.
  destruct (C10_lemma lgmet sc lgmets Hsc Hlm Hme) as [q [E2 [L2 D2]]]. rewrite EM in E2. injection E2 as E2. apply fins_inj in E2. subst q.
  destruct (sed_lognormal_fins ts (map f ts) lgmet sc lgmets ages flux n_wave t_obs m G ltac:(lra) ltac:(lra) Hc) as (W2 & mw2 & aw2 & EJ2 & _ & _ & _ & ES).
  rewrite EJ in EJ2. injection EJ2 as EQ _ _.
  assert (FI2 : forall A B : list (list R), map fins A = map fins B -> A = B).
  { induction A as [|x A IH]; intros [|y B'] E; try discriminate; auto. cbn [map] in E. injection E as Q1 Q2. f_equal; auto. now apply fins_inj. }
  apply FI2 in EQ. subst W2.
  eexists. exists (map (fun k => template_mix (length lgmets) (length ages) W flux k * mass_formed_by ts (floored m (map f ts)) t_obs) (seq 0 n_wave)), mw.
  split; [exact EM|]. split; [exact D2|]. split; [exact ES|]. split; [reflexivity|]. split; [now rewrite map_length, seq_length|].
  intros k Hk. unfold ent at 1. rewrite nth_map' with (d := 0%nat) by (now rewrite seq_length). rewrite seq_nth by auto. rewrite Nat.add_0_l.
  pose proof (conv_mass K F h d m T t_obs f ts Hf H14 Hm Hd Hd1 Hr t_obs Ht ltac:(left; lra)) as CM. fold e in CM.
  set (M := mass_formed_by ts (floored m (map f ts)) t_obs) in *.
  pose proof D2 as [P2 S2]. rewrite Forall_ent in P2. rewrite Rsum_ent, L2 in S2.
  set (p := map (fun j => mass_in_bin f t_obs ages j / mass_in_range f t_obs ages) (seq 0 (length ages))).
  assert (Hp : forall j, (j < length ages)%nat -> ent p j = mass_in_bin f t_obs ages j / mass_in_range f t_obs ages).
  { intros j Hj. unfold p, ent. rewrite nth_map' with (d := 0%nat) by (now rewrite seq_length). now rewrite seq_nth by auto. }
  set (S0 := Rsum (map (fun i => Rsum (map (fun j => ent mw i * (mass_in_bin f t_obs ages j / mass_in_range f t_obs ages) * ent3 flux i j k) (seq 0 (length ages)))) (seq 0 (length lgmets)))).
  set (S := template_mix (length lgmets) (length ages) W flux k).
  assert (SS : Rabs (S - S0) <= INR (length ages) * (4 * e / mass_in_range f t_obs ages) * B).
  { pose proof (mix_close (length lgmets) (length ages) mw w p flux k B (4 * e / mass_in_range f t_obs ages)) as MC.
    replace S with (Rsum (map (fun i => Rsum (map (fun j => ent mw i * ent w j * ent3 flux i j k) (seq 0 (length ages)))) (seq 0 (length lgmets)))).
    - replace S0 with (Rsum (map (fun i => Rsum (map (fun j => ent mw i * ent p j * ent3 flux i j k) (seq 0 (length ages)))) (seq 0 (length lgmets)))).
      + apply MC; auto.
        * intros i Hii. apply P2. lia.
        * intros j Hj. rewrite Hp by auto. now apply Ww.
      + unfold S0. apply Rsum_map_ext. intros i Hii. apply Rsum_map_ext. intros j Hj. apply in_seq in Hj. rewrite Hp by lia. reflexivity.
    - unfold S, template_mix. apply Rsum_map_ext. intros i Hii. apply in_seq in Hii. apply Rsum_map_ext. intros j Hj. apply in_seq in Hj.
      destruct (HW i j ltac:(lia) ltac:(lia)) as [-> _]. reflexivity. }
  assert (SB : Rabs S <= B).
  { apply Rabs_le_between. unfold S. apply (template_mix_bounds (length lgmets) (length ages) W flux k (- B) B); auto.
    - intros. now apply HW.
    - intros i j Hii Hj. apply Rabs_le_between. now apply HB. }
  unfold synthesis. fold S0. set (I := RInt f 0.001 t_obs) in *. set (P := mass_in_range f t_obs ages) in *.
  assert (I0 : 0 <= I). { unfold I. destruct Hf as [HF HK]. exact (proj1 (RInt_range f F 0.001 t_obs HF (lip_ex K f _ _ HK) Ht)). }
  assert (e0 : 0 <= e). { pose proof (Rabs_pos (M - 10 ^ 9 * I)). lra. }
  assert (HP : 0 < P) by lra.
  replace (S * M - 10 ^ 9 * I * S0) with ((M - 10 ^ 9 * I) * S + 10 ^ 9 * I * (S - S0)) by ring.
  eapply Rle_trans; [apply Rabs_triang|]. rewrite !Rabs_mult, (Rabs_right (10 ^ 9)), (Rabs_right I) by lra.
  assert (A1 : Rabs (M - 10 ^ 9 * I) * Rabs S <= 10 ^ 9 * e * B) by (apply Rmult_le_compat; auto; apply Rabs_pos).
  assert (A2 : 10 ^ 9 * I * Rabs (S - S0) <= 10 ^ 9 * I * (INR (length ages) * (4 * e / P) * B)) by (apply Rmult_le_compat_l; [lra|exact SS]).
  replace (10 ^ 9 * B * e * (1 + 4 * INR (length ages) * (I / P))) with (10 ^ 9 * e * B + 10 ^ 9 * I * (INR (length ages) * (4 * e / P) * B)) by (field; lra).
  lra.
Qed.
