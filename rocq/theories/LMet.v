(** * Metallicity weights (dsps/sed/metallicity_weights.py) *)
From Coq Require Import Reals List Arith Lra Lia Bool.
From Flocq Require Import Core.Raux.
From Verif Require Import Num Arr MUtils MSed Spec LOrder RList LUtils LAge LKern.
Import ListNotations.
Open Scope R_scope.

Lemma one_hot_fins n k : one_hot n k = fins (unit_vec n k).
Proof.
  unfold one_hot, unit_vec, fins. rewrite map_map. apply map_ext. intros i.
  destruct (i =? k)%nat; reflexivity.
Qed.
Lemma unit_vec_length n k : length (unit_vec n k) = n.
Proof. unfold unit_vec. now rewrite map_length, seq_length. Qed.
Lemma unit_vec_ent n k i : (i < n)%nat -> ent (unit_vec n k) i = if (i =? k)%nat then 1 else 0.
Proof. intros. unfold unit_vec. now rewrite ent_map_seq. Qed.
Lemma unit_vec_sum_aux k n : forall a, 
  Rsum (map (fun i => if (i =? k)%nat then 1 else 0) (seq a n)) =
  if ((a <=? k) && (k <? a + n))%nat then 1 else 0.
Proof.
  induction n; intros a; cbn [seq map Rsum].
  - destruct (Nat.leb_spec a k); destruct (Nat.ltb_spec k (a + 0)); simpl; lra || lia.
  - rewrite IHn. destruct (Nat.eqb_spec a k); destruct (Nat.leb_spec a k); destruct (Nat.leb_spec (S a) k);
      destruct (Nat.ltb_spec k (a + S n)); destruct (Nat.ltb_spec k (S a + n)); simpl; try lra; lia.
Qed.
Lemma unit_vec_distribution n k : (k < n)%nat -> distribution (unit_vec n k).
Proof.
  intros H. split.
  - apply Forall_ent. rewrite unit_vec_length. intros i Hi. rewrite unit_vec_ent by auto.
    destruct (i =? k)%nat; lra.
  - unfold unit_vec. rewrite unit_vec_sum_aux. destruct (Nat.leb_spec 0 k); [|lia].
    destruct (Nat.ltb_spec k (0 + n)); [reflexivity|lia].
Qed.

Lemma forallb_zero_fins w : forallb (fun w => neqb w (Fin 0)) (fins w) = true <->
  List.Forall (fun x => x = 0) w.
Proof.
  induction w; simpl; [split; auto|].
  rewrite andb_true_iff. rewrite IHw. split.
  - intros [H1 H2]. constructor; auto. destruct (Req_bool_spec a 0); congruence.
  - intros H. inversion H; subst. split; auto. now apply Req_bool_true.
Qed.
Lemma Rsum_zeros w : List.Forall (fun x => x = 0) w -> Rsum w = 0.
Proof. induction 1; simpl; lra. Qed.
Lemma forallb_zero_false w : Rsum w <> 0 -> forallb (fun w => neqb w (Fin 0)) (fins w) = false.
Proof.
  intros H. destruct (forallb _ _) eqn:E; auto. apply forallb_zero_fins in E.
  apply Rsum_zeros in E. congruence.
Qed.

(** sum of the histogram *)
Definition hist_sum (x h : R) (edges : list R) : R := Rsum (tw_hist x h edges).

Definition met_weights (x h : R) (edges : list R) : list R :=
  if Req_EM_T (hist_sum x h edges) 0 then
    if Rlt_dec x (ent edges 0) then unit_vec (length edges - 1) 0
    else if Rlt_dec (ent edges (length edges - 1)) x
         then unit_vec (length edges - 1) (length edges - 1 - 1)
         else tw_hist x h edges
  else map (fun w => w / hist_sum x h edges) (tw_hist x h edges).

Lemma singlegal_fins x h edges : h <> 0 -> edges <> [] ->
  ent edges 0 <= ent edges (length edges - 1) ->
  (hist_sum x h edges = 0 -> List.Forall (fun v => v = 0) (tw_hist x h edges)) ->
  get_lgmet_weights_singlegal (Fin x) (Fin h) (fins edges) = fins (met_weights x h edges).
Proof.
  intros Hh Hn Hfl Hz. unfold get_lgmet_weights_singlegal.
  rewrite tw_hist_fins, vsum_fins, neqb_fin by auto. fold (hist_sum x h edges).
  unfold met_weights, fill_empty_weights_singlepoint.
  rewrite first_fins, last_fins by auto. unfold ngtb. rewrite !nltb_fin, !one_hot_fins.
  rewrite fins_length.
  destruct (Req_EM_T (hist_sum x h edges) 0) as [E|E].
  - rewrite Req_bool_true by auto. unfold nwhere.
    rewrite (map_fins _ (fun w => w)) by (intros; rewrite ndiv_fin by lra; f_equal; lra).
    rewrite map_id.
    replace (forallb _ _) with true by (symmetry; apply forallb_zero_fins; auto).
    cbn [andb].
    destruct (Rlt_dec x (ent edges 0)).
    + rewrite (Rlt_bool_true x) by auto. rewrite Rlt_bool_false by lra. reflexivity.
    + rewrite (Rlt_bool_false x) by lra.
      destruct (Rlt_dec (ent edges (length edges - 1)) x).
      * rewrite Rlt_bool_true by auto. reflexivity.
      * rewrite Rlt_bool_false by lra. reflexivity.
  - rewrite Req_bool_false by auto. unfold nwhere.
    rewrite (map_fins _ (fun w => w / hist_sum x h edges)) by (intros; now apply ndiv_fin).
    rewrite forallb_zero_false; [reflexivity|].
    rewrite Rsum_div. fold (hist_sum x h edges). unfold Rdiv. rewrite Rinv_r by auto. lra.
Qed.

Lemma hist_sum_zero x h edges : 0 < h -> nondecreasing edges ->
  hist_sum x h edges = 0 -> List.Forall (fun v => v = 0) (tw_hist x h edges).
Proof.
  intros Hh Hi. apply Rsum_nonneg_zero. eapply Forall_impl; [|now apply tw_hist_nonneg].
  simpl. intros; lra.
Qed.

Lemma hist_sum_pos_in x h edges : 0 < h -> edges <> [] ->
  ent edges 0 < ent edges (length edges - 1) ->
  ent edges 0 <= x <= ent edges (length edges - 1) -> 0 < hist_sum x h edges.
Proof.
  intros Hh Hn Hfl Hx. unfold hist_sum. rewrite tw_hist_sum by auto.
  assert (triweight_cdf ((x - ent edges (length edges - 1)) / h) < triweight_cdf ((x - ent edges 0) / h)).
  { apply tw_strict.
    - apply div_lt_mono; lra.
    - apply lt_div_iff; lra.
    - apply div_lt_iff; lra. }
  lra.
Qed.

Lemma met_weights_distribution x h edges : 0 < h -> (2 <= length edges)%nat ->
  nondecreasing edges -> ent edges 0 < ent edges (length edges - 1) ->
  distribution (met_weights x h edges) /\ length (met_weights x h edges) = (length edges - 1)%nat.
Proof.
  intros Hh Hl Hi Hfl. unfold met_weights.
  assert (Hn : edges <> []) by (apply nil_neq_len; lia).
  destruct (Req_EM_T (hist_sum x h edges) 0) as [E|E].
  - destruct (Rlt_dec x (ent edges 0)).
    { split; [apply unit_vec_distribution; lia|apply unit_vec_length]. }
    destruct (Rlt_dec (ent edges (length edges - 1)) x).
    { split; [apply unit_vec_distribution; lia|apply unit_vec_length]. }
    pose proof (hist_sum_pos_in x h edges Hh Hn Hfl ltac:(lra)). lra.
  - split; [|now rewrite map_length, tw_hist_length].
    assert (F : List.Forall (fun x => 0 <= x) (tw_hist x h edges)).
    { eapply Forall_impl; [|now apply tw_hist_nonneg]. simpl; intros; lra. }
    apply normalised_distribution; auto. pose proof (Rsum_nonneg _ F). unfold hist_sum in *. lra.
Qed.

Lemma met_edges_first a : ent (met_edges a) 0 = -10.
Proof. rewrite met_edges_ent by lia. reflexivity. Qed.
Lemma met_edges_last a : (1 <= length a)%nat -> ent (met_edges a) (length (met_edges a) - 1) = 10.
Proof.
  intros. rewrite met_edges_length, Nat.sub_succ, Nat.sub_0_r, met_edges_ent by lia.
  unfold met_edge. destruct (Nat.eqb_spec (length a) 0); [lia|]. now rewrite Nat.eqb_refl.
Qed.

Lemma lgmet_edges_k a : (3 <= length a)%nat ->
  get_bin_edges_k (fins a) LGMET_LO LGMET_HI = fins (met_edges a).
Proof. intros. rewrite met_edges_eq. apply get_bin_edges_fins. auto. Qed.

Lemma lognormal_ok x h a : (3 <= length a)%nat ->
  calc_lgmet_weights_from_lognormal_mdf (Fin x) (Fin h) (fins a) =
  Ok (get_lgmet_weights_singlegal (Fin x) (Fin h) (fins (met_edges a))).
Proof.
  intros Ha. unfold calc_lgmet_weights_from_lognormal_mdf, check_templates, check.
  rewrite fins_length. destruct (Nat.leb_spec 3 (length a)); [|lia].
  unfold calc_lgmet_weights_from_lognormal_mdf_k. rewrite lgmet_edges_k by auto. reflexivity.
Qed.

Lemma met_edges_facts a : (3 <= length a)%nat ->
  met_edges a <> [] /\ (2 <= length (met_edges a))%nat /\
  ent (met_edges a) 0 < ent (met_edges a) (length (met_edges a) - 1).
Proof.
  intros. rewrite met_edges_first, met_edges_last, met_edges_length by lia.
  repeat split; try lia; try lra. apply nil_neq_len. rewrite met_edges_length. lia.
Qed.

Lemma singlegal_met x h a : 0 < h -> (3 <= length a)%nat -> nondecreasing (met_edges a) ->
  get_lgmet_weights_singlegal (Fin x) (Fin h) (fins (met_edges a)) = fins (met_weights x h (met_edges a)).
Proof.
  intros Hh Ha Hi. destruct (met_edges_facts a Ha) as [H1 [H2 H3]].
  apply singlegal_fins; auto; [lra|lra|]. now apply hist_sum_zero.
Qed.

Lemma lognormal_fins x h a : 0 < h -> (3 <= length a)%nat -> nondecreasing (met_edges a) ->
  calc_lgmet_weights_from_lognormal_mdf (Fin x) (Fin h) (fins a) =
  Ok (fins (met_weights x h (met_edges a))).
Proof. intros. rewrite lognormal_ok, singlegal_met by auto. reflexivity. Qed.

Lemma met_weights_dist_met x h a : 0 < h -> (3 <= length a)%nat -> nondecreasing (met_edges a) ->
  distribution (met_weights x h (met_edges a)) /\ length (met_weights x h (met_edges a)) = length a.
Proof.
  intros Hh Ha Hi. destruct (met_edges_facts a Ha) as [H1 [H2 H3]].
  destruct (met_weights_distribution x h (met_edges a)) as [D L]; auto.
  split; auto. rewrite L, met_edges_length. lia.
Qed.

(** ** C10 *)
Lemma C10_lemma : forall lgmet scatter ssp_lgmet,
  0 < scatter -> (3 <= length ssp_lgmet)%nat -> nondecreasing (met_edges ssp_lgmet) ->
  exists w,
    calc_lgmet_weights_from_lognormal_mdf (Fin lgmet) (Fin scatter) (fins ssp_lgmet) = Ok (fins w)
    /\ length w = length ssp_lgmet /\ distribution w.
Proof.
  intros x h a Hh Ha Hi. exists (met_weights x h (met_edges a)).
  destruct (met_weights_dist_met x h a Hh Ha Hi). split; auto. now apply lognormal_fins.
Qed.

(** ** C11: ordered edges, and a negative weight otherwise *)
Lemma met_edge_mid a i : (0 < i)%nat -> (i < length a)%nat ->
  met_edge a i = ent a i - node_width a i / 2.
Proof.
  intros. unfold met_edge. destruct (Nat.eqb_spec i 0); [lia|].
  destruct (Nat.eqb_spec i (length a)); [lia|reflexivity].
Qed.
Lemma met_edge_age a i : (0 < i)%nat -> (i < length a)%nat -> met_edge a i = age_edge a i.
Proof. intros. rewrite met_edge_mid, age_edge_lt by auto. reflexivity. Qed.

Lemma mid_edge_step a i : (1 <= i)%nat -> (i + 3 <= length a)%nat ->
  age_edge a (S i) - age_edge a i = (4 * gap a i + gap a (i - 1) - gap a (S i)) / 4.
Proof.
  intros H1 H2. rewrite !age_edge_lt by lia.
  rewrite (node_width_mid a i), (node_width_mid a (S i)) by lia.
  replace (S i - 1)%nat with i by lia. unfold gap at 3. unfold gap. lra.
Qed.
Lemma last_edge_step a : (3 <= length a)%nat -> increasing a ->
  0 <= age_edge a (length a - 1) - age_edge a (length a - 2).
Proof.
  intros Hn Hi. rewrite !age_edge_lt by lia. rewrite node_width_last by auto.
  rewrite (node_width_mid a (length a - 2)) by lia.
  replace (length a - 2 - 1)%nat with (length a - 3)%nat by lia.
  assert (G : forall i, (S i < length a)%nat -> 0 < gap a i).
  { intros i H. unfold gap. assert (ent a i < ent a (S i)) by (apply Hi; lia). lra. }
  pose proof (G (length a - 2)%nat ltac:(lia)). pose proof (G (length a - 3)%nat ltac:(lia)).
  assert (E : gap a (length a - 2) = ent a (length a - 1) - ent a (length a - 2))
    by (unfold gap; replace (S (length a - 2)) with (length a - 1)%nat by lia; reflexivity).
  lra.
Qed.

Lemma met_edges_ordered_iff a : (3 <= length a)%nat -> increasing a ->
  (nondecreasing (met_edges a) <->
   -10 <= met_edge a 1 /\ met_edge a (length a - 1) <= 10 /\
   (forall i, (1 <= i)%nat -> (i + 3 <= length a)%nat -> gap a (S i) <= 4 * gap a i + gap a (i - 1))).
Proof.
  intros Hn Hi.
  assert (E0 : met_edge a 0 = -10) by reflexivity.
  assert (En : met_edge a (length a) = 10).
  { unfold met_edge. destruct (Nat.eqb_spec (length a) 0); [lia|]. now rewrite Nat.eqb_refl. }
  assert (S1 : nondecreasing (met_edges a) -> forall i, (i < length a)%nat -> met_edge a i <= met_edge a (S i)).
  { intros H i Hlt. rewrite <- !met_edges_ent by lia. apply H. rewrite met_edges_length. lia. }
  split.
  - intros H. specialize (S1 H). split; [rewrite <- E0; apply S1; lia|]. split.
    + rewrite <- En. replace (length a) with (S (length a - 1)) at 2 by lia. apply S1. lia.
    + intros i H1 H2. specialize (S1 i ltac:(lia)). rewrite !met_edge_age in S1 by lia.
      pose proof (mid_edge_step a i H1 H2). lra.
  - intros [H0 [H1 H2]]. apply nondecreasing_step. rewrite met_edges_length. intros i Hlt.
    rewrite !met_edges_ent by lia.
    destruct (Nat.eq_dec i 0) as [->|]; [rewrite E0; auto|].
    destruct (Nat.eq_dec i (length a - 1)) as [->|].
    { replace (S (length a - 1)) with (length a) by lia. now rewrite En. }
    rewrite !met_edge_age by lia.
    destruct (Nat.eq_dec i (length a - 2)) as [->|].
    { replace (S (length a - 2)) with (length a - 1)%nat by lia. pose proof (last_edge_step a Hn Hi). lra. }
    pose proof (mid_edge_step a i ltac:(lia) ltac:(lia)). specialize (H2 i ltac:(lia) ltac:(lia)). lra.
Qed.

Lemma C11_lemma : forall lgmet scatter ssp_lgmet,
  0 < scatter -> (4 <= length ssp_lgmet)%nat -> increasing ssp_lgmet ->
  4 * gap ssp_lgmet 1 + gap ssp_lgmet 0 < gap ssp_lgmet 2 ->
  -10 <= lgmet <= 10 ->
  met_edge ssp_lgmet 2 - 3 * scatter < lgmet < met_edge ssp_lgmet 1 + 3 * scatter ->
  exists w,
    calc_lgmet_weights_from_lognormal_mdf (Fin lgmet) (Fin scatter) (fins ssp_lgmet) = Ok (fins w)
    /\ ent w 1 < 0.
Proof.
  intros x h a Hh Ha Hi Hg Hx Hx'. destruct (met_edges_facts a ltac:(lia)) as [H1 [H2 H3]].
  assert (HS : 0 < hist_sum x h (met_edges a)).
  { apply hist_sum_pos_in; auto. rewrite met_edges_first, met_edges_last by lia. lra. }
  exists (met_weights x h (met_edges a)). split.
  - rewrite lognormal_ok by lia. f_equal. apply singlegal_fins; auto; [lra|lra|]. intros; lra.
  - unfold met_weights. destruct (Req_EM_T (hist_sum x h (met_edges a)) 0) as [E|E]; [lra|].
    rewrite ent_map by (rewrite tw_hist_length, met_edges_length; lia).
    rewrite tw_hist_ent by (rewrite met_edges_length; lia). rewrite !met_edges_ent by lia.
    assert (met_edge a 2 < met_edge a 1).
    { rewrite !met_edge_age by lia. pose proof (mid_edge_step a 1 ltac:(lia) ltac:(lia)).
      cbn [Nat.sub] in *. lra. }
    assert (triweight_cdf ((x - met_edge a 1) / h) < triweight_cdf ((x - met_edge a 2) / h)).
    { apply tw_strict.
      - apply div_lt_mono; lra.
      - apply lt_div_iff; lra.
      - apply div_lt_iff; lra. }
    apply Ropp_lt_cancel. rewrite Ropp_0.
    replace (- _) with ((triweight_cdf ((x - met_edge a 2) / h) - triweight_cdf ((x - met_edge a 1) / h))
      / hist_sum x h (met_edges a)) by (field; lra).
    apply Rdiv_lt_0_compat; lra.
Qed.

(** ** C12 *)
Lemma C12_lemma : forall lgmet scatter ssp_lgmet,
  0 < scatter -> (3 <= length ssp_lgmet)%nat -> nondecreasing (met_edges ssp_lgmet) ->
  -10 <= lgmet <= 10 ->
  exists w,
    calc_lgmet_weights_from_lognormal_mdf (Fin lgmet) (Fin scatter) (fins ssp_lgmet) = Ok (fins w)
    /\ (forall k, (k < length ssp_lgmet)%nat ->
        lgmet + 3 * scatter <= met_edge ssp_lgmet k
        \/ met_edge ssp_lgmet (S k) <= lgmet - 3 * scatter -> ent w k = 0)
    /\ (-10 <= lgmet - 3 * scatter -> lgmet + 3 * scatter <= 10 ->
        forall k, (k < length ssp_lgmet)%nat ->
        ent w k = triweight_cdf ((lgmet - met_edge ssp_lgmet k) / scatter)
                  - triweight_cdf ((lgmet - met_edge ssp_lgmet (S k)) / scatter)).
Proof.
  intros x h a Hh Ha Hi Hx. destruct (met_edges_facts a ltac:(lia)) as [H1 [H2 H3]].
  assert (HS : 0 < hist_sum x h (met_edges a)).
  { apply hist_sum_pos_in; auto. rewrite met_edges_first, met_edges_last by lia. lra. }
  exists (met_weights x h (met_edges a)). split; [now apply lognormal_fins|].
  assert (W : forall k, (k < length a)%nat -> ent (met_weights x h (met_edges a)) k =
    (triweight_cdf ((x - met_edge a k) / h) - triweight_cdf ((x - met_edge a (S k)) / h))
    / hist_sum x h (met_edges a)).
  { intros k Hk. unfold met_weights.
    destruct (Req_EM_T (hist_sum x h (met_edges a)) 0) as [E|E]; [lra|].
    rewrite ent_map by (rewrite tw_hist_length, met_edges_length; lia).
    rewrite tw_hist_ent by (rewrite met_edges_length; lia). now rewrite !met_edges_ent by lia. }
  assert (O : forall k, (k < length a)%nat -> met_edge a k <= met_edge a (S k)).
  { intros k Hk. rewrite <- !met_edges_ent by lia. apply Hi. rewrite met_edges_length. lia. }
  split.
  - intros k Hk Hd. rewrite W by auto. specialize (O k Hk). destruct Hd as [Hd|Hd].
    + rewrite !tw_lo by (apply div_le_iff; lra). unfold Rdiv. ring.
    + rewrite !tw_hi by (apply le_div_iff; lra). unfold Rdiv. ring.
  - intros Ha1 Ha2 k Hk. rewrite W by auto.
    assert (E : hist_sum x h (met_edges a) = 1).
    { unfold hist_sum. rewrite tw_hist_sum by auto. rewrite met_edges_first, met_edges_last by lia.
      rewrite tw_hi by (apply le_div_iff; lra). rewrite tw_lo by (apply div_le_iff; lra). lra. }
    rewrite E. field.
Qed.

(** ** C13: zero scatter *)
Lemma step_hist x edges k :
  nondecreasing edges -> (S k < length edges)%nat -> ent edges k < x < ent edges (S k) ->
  triweighted_histogram (Fin x) (Fin 0) (fins edges) = fins (unit_vec (length edges - 1) k).
Proof.
  intros Hi Hk Hx.
  assert (K : forall i, (i < length edges)%nat ->
    tw_cuml_kern (Fin x) (Fin (ent edges i)) (Fin 0) = Fin (if (i <=? k)%nat then 1 else 0)).
  { intros i Hlt. destruct (Nat.leb_spec i k).
    - apply tw_kern_0_gt. assert (ent edges i <= ent edges k) by (apply nondecreasing_le; auto; lia). lra.
    - apply tw_kern_0_lt. assert (ent edges (S k) <= ent edges i) by (apply nondecreasing_le; auto; lia). lra. }
  unfold triweighted_histogram. apply nth_ext with (d := NaN) (d' := NaN).
  - rewrite map2_length, tl_length, !fins_length, unit_vec_length. lia.
  - rewrite map2_length, tl_length, !fins_length. intros i Hlt.
    rewrite map2_nth with (d1 := NaN) (d2 := NaN) by (rewrite ?tl_length, fins_length; lia).
    rewrite tl_nth. fold (at_ (fins edges) i). fold (at_ (fins edges) (S i)).
    rewrite !at_fins by lia. unfold triweighted_histogram_kernel. rewrite !K by lia.
    change (nth i (fins (unit_vec (length edges - 1) k)) NaN) with (at_ (fins (unit_vec (length edges - 1) k)) i).
    rewrite at_fins by (rewrite unit_vec_length; lia). rewrite unit_vec_ent by lia.
    rewrite nsub_fin. f_equal.
    destruct (Nat.leb_spec i k); destruct (Nat.leb_spec (S i) k); destruct (Nat.eqb_spec i k); lra || lia.
Qed.

Lemma map_div_one l : map (fun w => ndiv w (Fin 1)) (fins l) = fins l.
Proof.
  rewrite (map_fins _ (fun w => w)) by (intros; rewrite ndiv_fin by lra; f_equal; lra).
  now rewrite map_id.
Qed.

Lemma C13_inside_lemma : forall lgmet ssp_lgmet k,
  (3 <= length ssp_lgmet)%nat -> nondecreasing (met_edges ssp_lgmet) ->
  (k < length ssp_lgmet)%nat -> met_edge ssp_lgmet k < lgmet < met_edge ssp_lgmet (S k) ->
  calc_lgmet_weights_from_lognormal_mdf (Fin lgmet) (Fin 0) (fins ssp_lgmet)
  = Ok (fins (unit_vec (length ssp_lgmet) k)).
Proof.
  intros x a k Ha Hi Hk Hx. rewrite lognormal_ok by auto. f_equal.
  unfold get_lgmet_weights_singlegal.
  rewrite (step_hist x (met_edges a) k) by
    (auto; rewrite ?met_edges_length; try lia; rewrite !met_edges_ent by lia; auto).
  rewrite met_edges_length, Nat.sub_succ, Nat.sub_0_r.
  rewrite vsum_fins. destruct (unit_vec_distribution (length a) k Hk) as [_ E]. rewrite E.
  rewrite neqb_fin, Req_bool_false by lra. unfold nwhere. rewrite map_div_one.
  unfold fill_empty_weights_singlepoint. rewrite forallb_zero_false by lra. reflexivity.
Qed.

Lemma fold_nadd_nan l : fold_left nadd l NaN = NaN.
Proof. induction l; simpl; auto. Qed.
Lemma nadd_nan_r a : nadd a NaN = NaN.
Proof. destruct a; reflexivity. Qed.
Lemma vsum_nan l : In NaN l -> vsum l = NaN.
Proof.
  intros I. assert (C : combines nadd l (vsum l)) by (apply vsum_comb; [exact left_to_right_any_order|destruct l; [destruct I|congruence]]).
  revert I. induction C as [x|l l1 l2 v1 v2 P A IA B IB]; intros I.
  - destruct I as [I|[]]. exact I.
  - apply (Permutation.Permutation_in _ P) in I. apply in_app_or in I. destruct I as [I|I]; [rewrite (IA I); reflexivity|rewrite (IB I); apply nadd_nan_r].
Qed.
Lemma ndiv_nan_r a : ndiv a NaN = NaN.
Proof. destruct a; reflexivity. Qed.

Lemma C13_edge_lemma : forall lgmet ssp_lgmet k,
  (3 <= length ssp_lgmet)%nat ->
  (k <= length ssp_lgmet)%nat -> lgmet = met_edge ssp_lgmet k ->
  calc_lgmet_weights_from_lognormal_mdf (Fin lgmet) (Fin 0) (fins ssp_lgmet)
  = Ok (repeat NaN (length ssp_lgmet)).
Proof.
  intros x a k Ha Hk Hx. rewrite lognormal_ok by auto. f_equal.
  unfold get_lgmet_weights_singlegal.
  set (hist := triweighted_histogram (Fin x) (Fin 0) (fins (met_edges a))).
  assert (L : length hist = length a).
  { unfold hist, triweighted_histogram. rewrite map2_length, tl_length, !fins_length, met_edges_length. lia. }
  assert (Hin : In NaN hist).
  { set (j := Nat.min k (length a - 1)).
    assert (Hj : (j < length a)%nat) by (unfold j; lia).
    replace NaN with (nth j hist (Fin 0)); [apply nth_In; lia|].
    unfold hist, triweighted_histogram.
    rewrite map2_nth with (d1 := NaN) (d2 := NaN) by (rewrite ?tl_length, fins_length, met_edges_length; lia).
    rewrite tl_nth. fold (at_ (fins (met_edges a)) j). fold (at_ (fins (met_edges a)) (S j)).
    rewrite !at_fins by (rewrite met_edges_length; lia). rewrite !met_edges_ent by lia.
    unfold triweighted_histogram_kernel.
    destruct (Nat.eq_dec k j) as [E|E].
    - rewrite <- E, <- Hx, tw_kern_0_eq. reflexivity.
    - assert (E' : k = S j) by (unfold j in *; lia). rewrite <- E', <- Hx, tw_kern_0_eq.
      unfold nsub. apply nadd_nan_r. }
  rewrite (vsum_nan hist Hin). cbv zeta. change (neqb NaN (Fin 0)) with false. unfold nwhere at 1.
  replace (map (fun w => ndiv w NaN) hist) with (repeat NaN (length a)).
  2:{ rewrite <- L. clear. induction hist as [|h l IH]; cbn [length repeat map]; [auto|]. now rewrite ndiv_nan_r, IH. }
  unfold fill_empty_weights_singlepoint.
  replace (forallb _ (repeat NaN (length a))) with false; [reflexivity|].
  destruct (length a); [lia|reflexivity].
Qed.

(** ** C14: metallicity table *)
Lemma check_gal_ok {A} ts (vs : list R) (k : res A) : length ts = length vs -> ts <> [] ->
  check_gal_tables (fins ts) (fins vs) k = k.
Proof.
  intros Hl Hn. unfold check_gal_tables, check.
  replace (same_len (fins ts) (fins vs)) with true
    by (symmetry; apply same_len_true; now rewrite !fins_length).
  rewrite fins_length. destruct (Nat.eqb_spec (length ts) 0); [destruct ts; [congruence|discriminate]|].
  reflexivity.
Qed.
Lemma check_templates_ok {A} a (k : res A) : (3 <= length a)%nat -> check_templates (fins a) k = k.
Proof.
  intros. unfold check_templates, check. rewrite fins_length.
  destruct (Nat.leb_spec 3 (length a)); [auto|lia].
Qed.

Lemma lgmet_table_fins ts ms ages t_obs :
  length ts = length ms -> ts <> [] -> (forall t, In t ts -> 0 < t) -> increasing ts ->
  calc_lgmet_at_ssp_lgage_table (fins ts) (fins ms) (fins ages) (Fin t_obs) =
  fins (map (lgmet_at_birth ts ms t_obs) ages).
Proof.
  intros Hl Hn Hp Hi. unfold calc_lgmet_at_ssp_lgage_table.
  rewrite log10_table_fins by auto.
  rewrite (map_fins (get_lgt_birth (Fin t_obs)) (fun a => log10 (birth_time t_obs a)))
    by (intros; apply get_lgt_birth_fin).
  rewrite (map_fins _ (pwlin (combine (map log10 ts) ms))).
  - now rewrite map_map.
  - intros x _. apply interp_fins.
    + now apply log10_increasing.
    + now rewrite map_length.
    + now apply map_neq_nil.
Qed.

Definition fins2 (m : list (list R)) : list (list num) := map fins m.

Definition met_matrix ts ms h lgmets ages t_obs : list (list R) :=
  map (fun i => map (fun a => ent (met_weights (lgmet_at_birth ts ms t_obs a) h (met_edges lgmets)) i
                              / INR (length ages)) ages)
      (seq 0 (length lgmets)).

Lemma lgmet_table_weights_fins ts ms h lgmets ages t_obs :
  length ts = length ms -> ts <> [] -> (forall t, In t ts -> 0 < t) -> increasing ts ->
  0 < h -> (3 <= length lgmets)%nat -> nondecreasing (met_edges lgmets) ->
  calc_lgmet_weights_from_lgmet_table (fins ts) (fins ms) (Fin h) (fins lgmets) (fins ages) (Fin t_obs)
  = Ok (fins2 (met_matrix ts ms h lgmets ages t_obs)).
Proof.
  intros Hl Hn Hp Hi Hh Ha He. unfold calc_lgmet_weights_from_lgmet_table.
  rewrite check_gal_ok, check_templates_ok by auto. f_equal.
  unfold calc_lgmet_weights_from_lgmet_table_k.
  rewrite lgmet_table_fins, lgmet_edges_k by auto. rewrite !fins_length.
  unfold fins at 1. rewrite !map_map.
  unfold transpose, fins2, met_matrix. rewrite map_map. apply map_ext_in. intros i Hii.
  apply in_seq in Hii. unfold fins. rewrite !map_map. apply map_ext_in. intros a Hain.
  assert (Hne : INR (length ages) <> 0).
  { apply not_0_INR. destruct ages; [destruct Hain|discriminate]. }
  fold (fins (met_edges lgmets)). rewrite singlegal_met by auto.
  rewrite (map_fins _ (fun w => w / INR (length ages))) by (intros; now apply ndiv_fin).
  destruct (met_weights_dist_met (lgmet_at_birth ts ms t_obs a) h lgmets Hh Ha He) as [_ L].
  rewrite at_fins by (rewrite map_length, L; lia).
  rewrite ent_map by (rewrite L; lia). reflexivity.
Qed.

Lemma Rsum_ent l : Rsum l = Rsum (map (ent l) (seq 0 (length l))).
Proof.
  f_equal. apply list_eq_ent; [now rewrite map_length, seq_length|].
  intros i Hi. rewrite ent_map_seq by auto. reflexivity.
Qed.

Lemma met_matrix_shape ts ms h lgmets ages t_obs :
  is_matrix (length lgmets) (length ages) (met_matrix ts ms h lgmets ages t_obs).
Proof.
  unfold met_matrix. split; [now rewrite map_length, seq_length|].
  apply Forall_map, Forall_forall. intros i _. now rewrite map_length.
Qed.
Lemma met_matrix_ent ts ms h lgmets ages t_obs i j :
  (i < length lgmets)%nat -> (j < length ages)%nat ->
  ent2 (met_matrix ts ms h lgmets ages t_obs) i j =
  ent (met_weights (lgmet_at_birth ts ms t_obs (ent ages j)) h (met_edges lgmets)) i / INR (length ages).
Proof.
  intros Hi Hj. unfold ent2, met_matrix. rewrite nth_map' with (d := O) by now rewrite seq_length.
  rewrite seq_nth by auto. cbn [Nat.add]. rewrite ent_map; auto.
Qed.

(** column sum of a matrix *)
Lemma met_matrix_column ts ms h lgmets ages t_obs j :
  0 < h -> (3 <= length lgmets)%nat -> nondecreasing (met_edges lgmets) -> (j < length ages)%nat ->
  Rsum (map (fun i => ent2 (met_matrix ts ms h lgmets ages t_obs) i j) (seq 0 (length lgmets)))
  = 1 / INR (length ages).
Proof.
  intros Hh Ha He Hj.
  destruct (met_weights_dist_met (lgmet_at_birth ts ms t_obs (ent ages j)) h lgmets Hh Ha He) as [[_ S] L].
  set (W := met_weights _ _ _) in *. rewrite <- S. rewrite (Rsum_ent W), L.
  unfold Rdiv. rewrite <- Rsum_scal_r, map_map.
  apply Rsum_map_ext. intros i Hi. apply in_seq in Hi. rewrite met_matrix_ent by lia. reflexivity.
Qed.

(** sum over a matrix by columns *)
Lemma Rsum_swap (f : nat -> nat -> R) n k :
  Rsum (map (fun i => Rsum (map (f i) (seq 0 k))) (seq 0 n)) =
  Rsum (map (fun j => Rsum (map (fun i => f i j) (seq 0 n))) (seq 0 k)).
Proof.
  generalize (seq 0 n) as l. intros l. generalize (seq 0 k) as m. intros m.
  induction l as [|i l IH]; cbn [map Rsum].
  - rewrite Rsum_map_const. lra.
  - rewrite IH, <- Rsum_map_plus. reflexivity.
Qed.
Lemma Rsum2_ent n k m : is_matrix n k m ->
  Rsum2 m = Rsum (map (fun i => Rsum (map (ent2 m i) (seq 0 k))) (seq 0 n)).
Proof.
  intros [Hn Hk]. unfold Rsum2. f_equal. apply list_eq_ent.
  - now rewrite !map_length, seq_length.
  - rewrite map_length. intros i Hi. rewrite ent_map_seq by lia. cbn [Nat.add].
    unfold ent at 1. rewrite nth_map' with (d := []) by auto.
    rewrite Forall_forall in Hk. specialize (Hk (nth i m []) (nth_In _ _ Hi)).
    rewrite Rsum_ent, Hk. reflexivity.
Qed.
Lemma Rsum2_columns n k m : is_matrix n k m ->
  Rsum2 m = Rsum (map (fun j => Rsum (map (fun i => ent2 m i j) (seq 0 n))) (seq 0 k)).
Proof. intros H. rewrite (Rsum2_ent n k m H). apply Rsum_swap. Qed.

Lemma C14_lemma : forall ts lgmet_table scatter ssp_lgmet ages t_obs,
  length ts = length lgmet_table -> ts <> [] -> (forall t, In t ts -> 0 < t) -> increasing ts ->
  0 < scatter -> (3 <= length ssp_lgmet)%nat -> nondecreasing (met_edges ssp_lgmet) ->
  ages <> [] ->
  exists w,
    calc_lgmet_weights_from_lgmet_table (fins ts) (fins lgmet_table) (Fin scatter)
      (fins ssp_lgmet) (fins ages) (Fin t_obs) = Ok (map fins w)
    /\ is_matrix (length ssp_lgmet) (length ages) w
    /\ (forall i j, (i < length ssp_lgmet)%nat -> (j < length ages)%nat -> 0 <= ent2 w i j)
    /\ (forall j, (j < length ages)%nat ->
        Rsum (map (fun i => ent2 w i j) (seq 0 (length ssp_lgmet))) = 1 / INR (length ages))
    /\ Rsum2 w = 1.
Proof.
  intros ts ms h lgmets ages t_obs Hl Hn Hp Hi Hh Ha He Hna.
  assert (Hpos : 0 < INR (length ages)) by (apply lt_0_INR; destruct ages; simpl; [congruence|lia]).
  exists (met_matrix ts ms h lgmets ages t_obs).
  split; [now apply lgmet_table_weights_fins|].
  split; [apply met_matrix_shape|]. split.
  - intros i j H1 H2. rewrite met_matrix_ent by auto. apply Rdiv_le_0_compat'; auto.
    destruct (met_weights_dist_met (lgmet_at_birth ts ms t_obs (ent ages j)) h lgmets Hh Ha He) as [[F _] L].
    rewrite Forall_ent in F. apply F. lia.
  - split; [intros; now apply met_matrix_column|].
    rewrite (Rsum2_columns _ _ _ (met_matrix_shape ts ms h lgmets ages t_obs)).
    rewrite (Rsum_map_ext _ (fun _ => 1 / INR (length ages))).
    + rewrite Rsum_map_const, seq_length. field. lra.
    + intros j Hj. apply in_seq in Hj. apply met_matrix_column; auto; lia.
Qed.
