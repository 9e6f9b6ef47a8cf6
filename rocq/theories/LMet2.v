(** * More on metallicity weights: closed form, columns of the table weights, ordering *)
From Coq Require Import Reals List Arith Lra Lia Bool.
From Verif Require Import Num Arr MUtils MSed Spec RList LUtils LAge LKern LMet.
Import ListNotations.
Open Scope R_scope.

Lemma triweights_same {AR : Arith} x h edges :
  get_triweights_singlepoint x h edges = get_lgmet_weights_singlegal x h edges.
Proof. reflexivity. Qed.

Lemma C100_lemma : forall x sig edges,
  0 < sig -> (2 <= length edges)%nat -> nondecreasing edges ->
  ent edges 0 < ent edges (length edges - 1) ->
  exists w,
    get_triweights_singlepoint (Fin x) (Fin sig) (fins edges) = fins w
    /\ length w = (length edges - 1)%nat /\ distribution w
    /\ (x <= ent edges 0 - 3 * sig -> w = unit_vec (length edges - 1) 0)
    /\ (ent edges (length edges - 1) + 3 * sig <= x ->
        w = unit_vec (length edges - 1) (length edges - 2))
    /\ (ent edges 0 - 3 * sig < x < ent edges (length edges - 1) + 3 * sig ->
        forall k, (k < length edges - 1)%nat ->
        ent w k =
        (triweight_cdf ((x - ent edges k) / sig) - triweight_cdf ((x - ent edges (S k)) / sig))
        / (triweight_cdf ((x - ent edges 0) / sig)
           - triweight_cdf ((x - ent edges (length edges - 1)) / sig))).
Proof.
  intros x h edges Hh Hl Hi Hfl.
  assert (Hn : edges <> []) by (apply nil_neq_len; lia).
  exists (met_weights x h edges).
  rewrite triweights_same, singlegal_fins; auto; [|lra|lra|now apply hist_sum_zero].
  destruct (met_weights_distribution x h edges) as [D L]; auto.
  split; [reflexivity|]. split; [exact L|]. split; [exact D|].
  assert (HS : hist_sum x h edges = triweight_cdf ((x - ent edges 0) / h)
           - triweight_cdf ((x - ent edges (length edges - 1)) / h)).
  { unfold hist_sum. now apply tw_hist_sum. }
  assert (Lo : forall z, z <= -3 -> triweight_cdf z = 0).
  { intros z Hz. unfold triweight_cdf. destruct (Rle_dec z (-3)); [auto|lra]. }
  assert (Hi3 : forall z, 3 <= z -> triweight_cdf z = 1).
  { intros z Hz. unfold triweight_cdf. destruct (Rle_dec z (-3)); [lra|].
    destruct (Rle_dec 3 z); [auto|lra]. }
  assert (DL : forall a, x - a <= -3 * h -> (x - a) / h <= -3).
  { intros a Ha. apply Rmult_le_reg_r with h; auto. unfold Rdiv. rewrite Rmult_assoc, Rinv_l; lra. }
  assert (DH : forall a, 3 * h <= x - a -> 3 <= (x - a) / h).
  { intros a Ha. apply Rmult_le_reg_r with h; auto. unfold Rdiv. rewrite Rmult_assoc, Rinv_l; lra. }
  split; [|split].
  - intros Hx. unfold met_weights.
    assert (Z : hist_sum x h edges = 0) by (rewrite HS, !Lo; [lra|apply DL; lra|apply DL; lra]).
    destruct (Req_EM_T (hist_sum x h edges) 0); [|contradiction].
    destruct (Rlt_dec x (ent edges 0)); [reflexivity|lra].
  - intros Hx. unfold met_weights.
    assert (Z : hist_sum x h edges = 0) by (rewrite HS, !Hi3; [lra|apply DH; lra|apply DH; lra]).
    destruct (Req_EM_T (hist_sum x h edges) 0); [|contradiction].
    destruct (Rlt_dec x (ent edges 0)); [lra|].
    destruct (Rlt_dec (ent edges (length edges - 1)) x); [|lra].
    f_equal. lia.
  - intros Hx k Hk.
    assert (P : 0 < hist_sum x h edges).
    { rewrite HS.
      assert (triweight_cdf ((x - ent edges (length edges - 1)) / h) < triweight_cdf ((x - ent edges 0) / h)); [|lra].
      apply tw_strict.
      - apply div_lt_mono; lra.
      - apply lt_div_iff; lra.
      - apply div_lt_iff; lra. }
    unfold met_weights. destruct (Req_EM_T (hist_sum x h edges) 0); [lra|].
    rewrite ent_map by (rewrite tw_hist_length; lia).
    rewrite HS. f_equal. rewrite tw_hist_ent by lia. reflexivity.
Qed.

(** closed form for the template weights, for every galaxy metallicity *)
Lemma C10_closed_form_lemma : forall lgmet scatter ssp_lgmet,
  0 < scatter -> (3 <= length ssp_lgmet)%nat -> nondecreasing (met_edges ssp_lgmet) ->
  let n := length ssp_lgmet in
  let F k := triweight_cdf ((lgmet - met_edge ssp_lgmet k) / scatter) in
  exists w,
    calc_lgmet_weights_from_lognormal_mdf (Fin lgmet) (Fin scatter) (fins ssp_lgmet) = Ok (fins w)
    /\ (lgmet <= -10 - 3 * scatter -> w = unit_vec n 0)
    /\ (10 + 3 * scatter <= lgmet -> w = unit_vec n (n - 1))
    /\ (-10 - 3 * scatter < lgmet < 10 + 3 * scatter ->
        forall k, (k < n)%nat -> ent w k = (F k - F (S k)) / (F 0%nat - F n)).
Proof.
  intros x h a Hh Ha Hi n F.
  destruct (met_edges_facts a Ha) as [H1 [H2 H3]].
  destruct (C100_lemma x h (met_edges a) Hh H2 Hi H3) as (w & E & L & _ & A & B & C).
  exists w. rewrite lognormal_ok by auto. rewrite <- triweights_same, E.
  rewrite met_edges_first, met_edges_last in * by lia.
  rewrite met_edges_length in *.
  replace (S (length a) - 1)%nat with n in * by (unfold n; lia).
  replace (S (length a) - 2)%nat with (n - 1)%nat in * by (unfold n; lia).
  split; [reflexivity|]. split; [exact A|]. split; [exact B|].
  intros Hx k Hk. rewrite C by auto. unfold F.
  rewrite !met_edges_ent by (unfold n in *; lia).
  replace (met_edge a 0) with (-10) by reflexivity.
  replace (met_edge a n) with 10; [reflexivity|].
  unfold met_edge, n. destruct (Nat.eqb_spec (length a) 0); [lia|]. now rewrite Nat.eqb_refl.
Qed.

(** columns of the table weights *)
Lemma C14_columns_lemma : forall ts lgmet_table scatter ssp_lgmet ages t_obs,
  length ts = length lgmet_table -> ts <> [] -> (forall t, In t ts -> 0 < t) -> increasing ts ->
  0 < scatter -> (3 <= length ssp_lgmet)%nat -> nondecreasing (met_edges ssp_lgmet) ->
  exists w,
    calc_lgmet_weights_from_lgmet_table (fins ts) (fins lgmet_table) (Fin scatter)
      (fins ssp_lgmet) (fins ages) (Fin t_obs) = Ok (map fins w)
    /\ forall j, (j < length ages)%nat -> exists v,
        calc_lgmet_weights_from_lognormal_mdf
          (Fin (lgmet_at_birth ts lgmet_table t_obs (ent ages j))) (Fin scatter) (fins ssp_lgmet)
          = Ok (fins v)
        /\ forall i, (i < length ssp_lgmet)%nat -> ent2 w i j = ent v i / INR (length ages).
Proof.
  intros ts ms h lgmets ages t_obs Hl Hn Hp Hi Hh Ha He.
  exists (met_matrix ts ms h lgmets ages t_obs).
  split; [now apply lgmet_table_weights_fins|].
  intros j Hj. eexists. split; [now apply lognormal_fins|].
  intros i Hii. now apply met_matrix_ent.
Qed.

(** richer galaxies put less weight on the metal-poor templates *)
Lemma firstn_S_ent (l : list R) j : (j < length l)%nat -> firstn (S j) l = firstn j l ++ [ent l j].
Proof.
  revert j; induction l; intros j Hj; simpl in Hj; [lia|].
  destruct j; [reflexivity|]. rewrite !firstn_cons, IHl by lia. reflexivity.
Qed.
Lemma firstn_sum_telescope (F : nat -> R) w n j : length w = n -> (j <= n)%nat ->
  (forall k, (k < n)%nat -> ent w k = F k - F (S k)) ->
  Rsum (firstn j w) = F 0%nat - F j.
Proof.
  intros L Hj H. induction j.
  - cbn [firstn Rsum]. lra.
  - rewrite firstn_S_ent by lia. rewrite Rsum_app. cbn [Rsum]. rewrite IHj by lia.
    rewrite H by lia. lra.
Qed.

Lemma C12_order_lemma : forall lgmet lgmet' scatter ssp_lgmet,
  0 < scatter -> (3 <= length ssp_lgmet)%nat -> nondecreasing (met_edges ssp_lgmet) ->
  -10 + 3 * scatter <= lgmet -> lgmet <= lgmet' -> lgmet' <= 10 - 3 * scatter ->
  exists w w',
    calc_lgmet_weights_from_lognormal_mdf (Fin lgmet) (Fin scatter) (fins ssp_lgmet) = Ok (fins w)
    /\ calc_lgmet_weights_from_lognormal_mdf (Fin lgmet') (Fin scatter) (fins ssp_lgmet) = Ok (fins w')
    /\ forall j, (j <= length ssp_lgmet)%nat -> Rsum (firstn j w') <= Rsum (firstn j w).
Proof.
  intros x x' h a Hh Ha Hi H1 H2 H3.
  assert (K : forall y, -10 + 3 * h <= y <= 10 - 3 * h -> exists w,
    calc_lgmet_weights_from_lognormal_mdf (Fin y) (Fin h) (fins a) = Ok (fins w)
    /\ forall j, (j <= length a)%nat ->
       Rsum (firstn j w) = 1 - triweight_cdf ((y - met_edge a j) / h)).
  { intros y Hy.
    destruct (C12_lemma y h a Hh Ha Hi) as (w & E & _ & W); [lra|].
    specialize (W ltac:(lra) ltac:(lra)).
    exists w. split; [exact E|]. intros j Hj.
    assert (L : length w = length a).
    { destruct (C10_lemma y h a Hh Ha Hi) as (w' & E' & L & _).
      rewrite E in E'. injection E' as E'. rewrite <- L. apply (f_equal (@length num)) in E'.
      now rewrite !fins_length in E'. }
    rewrite (firstn_sum_telescope (fun k => triweight_cdf ((y - met_edge a k) / h)) w (length a)); auto.
    f_equal. unfold met_edge. rewrite Nat.eqb_refl.
    assert (3 <= (y - -10) / h).
    { apply Rmult_le_reg_r with h; auto. unfold Rdiv. rewrite Rmult_assoc, Rinv_l; lra. }
    unfold triweight_cdf. destruct (Rle_dec ((y - -10) / h) (-3)); [lra|].
    destruct (Rle_dec 3 ((y - -10) / h)); [reflexivity|contradiction]. }
  destruct (K x) as (w & E & S); [lra|]. destruct (K x') as (w' & E' & S'); [lra|].
  exists w, w'. split; [exact E|]. split; [exact E'|].
  intros j Hj. rewrite S, S' by auto.
  assert (triweight_cdf ((x - met_edge a j) / h) <= triweight_cdf ((x' - met_edge a j) / h)); [|lra].
  apply tw_mono. apply Rmult_le_compat_r; [|lra]. left. now apply Rinv_0_lt_compat.
Qed.
