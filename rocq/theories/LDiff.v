(** * Differentiability of the outputs along curves of inputs: tools and metallicity weights *)
From Coq Require Import Reals List Arith Lra Lia Bool.
From Coquelicot Require Import Coquelicot.
From Flocq Require Import Core.Raux.
From Verif Require Import Num Arr MUtils MSed Spec Spec2 RList LUtils LCalc LAge LKern LMet.
Import ListNotations.
Open Scope R_scope.

Lemma ent_out l i : (length l <= i)%nat -> ent l i = 0.
Proof. intros. unfold ent. now apply nth_overflow. Qed.
Lemma ex_derive_const0 (c s : R) : ex_derive (fun _ : R => c) s.
Proof. exists 0. apply is_derive_const0. Qed.
Lemma ex_derive_plus' (f g : R -> R) s : ex_derive f s -> ex_derive g s -> ex_derive (fun r => f r + g r) s.
Proof. intros A B. exact (ex_derive_plus f g s A B). Qed.
Lemma ex_derive_minus' (f g : R -> R) s : ex_derive f s -> ex_derive g s -> ex_derive (fun r => f r - g r) s.
Proof. intros A B. exact (ex_derive_minus f g s A B). Qed.
Lemma ex_derive_mult' (f g : R -> R) s : ex_derive f s -> ex_derive g s -> ex_derive (fun r => f r * g r) s.
Proof. intros A B. exact (ex_derive_mult f g s A B). Qed.
Lemma ex_derive_div' (f g : R -> R) s : ex_derive f s -> ex_derive g s -> g s <> 0 -> ex_derive (fun r => f r / g r) s.
Proof. intros [a A] [b B] H. eexists. apply is_derive_div; eauto. Qed.
Lemma ex_derive_comp' (f g : R -> R) s : ex_derive f (g s) -> ex_derive g s -> ex_derive (fun r => f (g r)) s.
Proof. intros A B. exact (ex_derive_comp f g s A B). Qed.
Lemma ex_derive_eq (f g : R -> R) s : (forall r, f r = g r) -> ex_derive f s -> ex_derive g s.
Proof. intros H. apply ex_derive_ext. exact H. Qed.
Lemma ex_derive_near (f g : R -> R) s : locally s (fun r => f r = g r) -> ex_derive f s -> ex_derive g s.
Proof. intros H. apply ex_derive_ext_loc. exact H. Qed.
Lemma locally_lt (f g : R -> R) s : ex_derive f s -> ex_derive g s -> f s < g s -> locally s (fun r => f r < g r).
Proof.
  intros F G H.
  assert (C : continuous (fun r => g r - f r) s).
  { apply (ex_derive_continuous (fun r => g r - f r)). now apply ex_derive_minus'. }
  assert (L : locally (g s - f s) (fun y => 0 < y)).
  { assert (P : 0 < g s - f s) by lra. exists (mkposreal _ P). intros y Hy. unfold ball in Hy; simpl in Hy.
    unfold AbsRing_ball, abs, minus, plus, opp in Hy; simpl in Hy.
    assert (Q := Rabs_def2 _ _ Hy). simpl in Q. lra. }
  specialize (C _ L). unfold filtermap in C. eapply filter_imp; [|exact C]. simpl. intros; lra.
Qed.
Lemma locally_neq (f g : R -> R) s : ex_derive f s -> ex_derive g s -> f s <> g s -> locally s (fun r => f r <> g r).
Proof.
  intros F G H. destruct (Rlt_dec (f s) (g s)).
  - eapply filter_imp; [|apply (locally_lt f g s F G); auto]. simpl; intros; lra.
  - eapply filter_imp; [|apply (locally_lt g f s G F); lra]. simpl; intros; lra.
Qed.
Lemma ex_derive_Rsum {A} (f : A -> R -> R) l s : (forall i, In i l -> ex_derive (f i) s) ->
  ex_derive (fun r => Rsum (map (fun i => f i r) l)) s.
Proof.
  induction l as [|a l IH]; intros H; [exact (ex_derive_const0 0 s)|].
  simpl. apply ex_derive_plus'; [apply H; simpl; auto|]. apply IH. intros. apply H. simpl; auto.
Qed.
Lemma ex_derive_log10 (f : R -> R) s : ex_derive f s -> 0 < f s -> ex_derive (fun r => log10 (f r)) s.
Proof.
  intros F P. unfold log10. apply ex_derive_div'; [|apply ex_derive_const0|pose proof ln10_pos; lra].
  apply (ex_derive_comp' ln); auto. eexists. apply is_derive_ln. auto.
Qed.
Lemma ex_derive_pow10 (f : R -> R) s : ex_derive f s -> ex_derive (fun r => pow10 (f r)) s.
Proof.
  intros F. unfold pow10, Rpower. apply (ex_derive_comp' exp (fun r => f r * ln 10)); [eexists; apply is_derive_exp|].
  apply ex_derive_mult'; auto. apply ex_derive_const0.
Qed.
Lemma ex_derive_tw (f : R -> R) s : ex_derive f s -> ex_derive (fun r => triweight_cdf (f r)) s.
Proof. intros F. apply (ex_derive_comp' triweight_cdf); auto. eexists. apply tw_derive. Qed.

(** smooth vectors *)
Lemma smooth_sum (T : R -> list R) s : smooth_at T s -> ex_derive (fun r => Rsum (T r)) s.
Proof.
  intros [[n L] D]. apply (ex_derive_eq (fun r => Rsum (map (fun i => ent (T r) i) (seq 0 n)))).
  - intros r. rewrite (Rsum_ent (T r)), L. reflexivity.
  - apply (ex_derive_Rsum (fun i r => ent (T r) i)). intros; apply D.
Qed.
Lemma smooth_intro (T : R -> list R) n s : (forall r, length (T r) = n) ->
  (forall i, (i < n)%nat -> ex_derive (fun r => ent (T r) i) s) -> smooth_at T s.
Proof.
  intros L D. split; [now exists n|]. intros i. destruct (Nat.lt_ge_cases i n); [now apply D|].
  apply (ex_derive_eq (fun _ => 0)); [|apply ex_derive_const0]. intros r. rewrite ent_out; auto. now rewrite L.
Qed.
Lemma smooth_len (T : R -> list R) s n : smooth_at T s -> length (T s) = n -> forall r, length (T r) = n.
Proof. intros [[m L] _] E r. rewrite L in *. auto. Qed.
Lemma smooth_near (T U : R -> list R) n s : (forall r, length (U r) = n) -> smooth_at T s ->
  locally s (fun r => T r = U r) -> smooth_at U s.
Proof.
  intros L [_ D] E. split; [now exists n|]. intros i. apply (ex_derive_near (fun r => ent (T r) i)); auto.
  eapply filter_imp; [|exact E]. simpl. now intros r ->.
Qed.

(** ** metallicity weights *)
Lemma tw_hist_smooth (x h : R -> R) edges s : ex_derive x s -> ex_derive h s -> 0 < h s ->
  smooth_at (fun r => tw_hist (x r) (h r) edges) s.
Proof.
  intros X H P. apply (smooth_intro _ (length edges - 1)); [intros; apply tw_hist_length|]. intros i Hi.
  apply (ex_derive_eq (fun r => triweight_cdf ((x r - ent edges i) / h r) - triweight_cdf ((x r - ent edges (S i)) / h r))).
  { intros r. rewrite tw_hist_ent by lia. reflexivity. }
  apply ex_derive_minus'; apply ex_derive_tw; (apply ex_derive_div'; auto; [|lra]);
    apply ex_derive_minus'; auto; apply ex_derive_const0.
Qed.
Lemma unit_lo_hist x h edges : 0 < h -> (2 <= length edges)%nat -> nondecreasing edges ->
  ent edges 0 < ent edges (length edges - 1) -> x < ent edges 1 - 3 * h ->
  met_weights x h edges = unit_vec (length edges - 1) 0.
Proof.
  intros Hh Hl Hi Hfl Hx.
  assert (Hn : edges <> []) by (apply nil_neq_len; lia).
  assert (Z : forall k, (1 <= k < length edges)%nat -> triweight_cdf ((x - ent edges k) / h) = 0).
  { intros k Hk. apply tw_lo. apply div_le_iff; auto. pose proof (nondecreasing_le edges 1 k Hi ltac:(lia)). lra. }
  unfold met_weights. destruct (Req_EM_T (hist_sum x h edges) 0) as [E|E].
  - destruct (Rlt_dec x (ent edges 0)); auto.
    pose proof (nondecreasing_le edges 1 (length edges - 1) Hi ltac:(lia)).
    pose proof (hist_sum_pos_in x h edges Hh Hn Hfl ltac:(lra)). lra.
  - apply list_eq_ent; [now rewrite map_length, tw_hist_length, unit_vec_length|].
    rewrite map_length, tw_hist_length. intros i Hi2. rewrite ent_map by (rewrite tw_hist_length; lia).
    rewrite tw_hist_ent, unit_vec_ent by lia. unfold hist_sum in *. rewrite tw_hist_sum in * by auto.
    rewrite (Z (length edges - 1)%nat) in * by lia. rewrite (Z (S i)) by lia.
    destruct i; [simpl; field; lra|]. rewrite (Z (S i)) by lia. simpl. unfold Rdiv. lra.
Qed.
Lemma unit_hi_hist x h edges : 0 < h -> (2 <= length edges)%nat -> nondecreasing edges ->
  ent edges 0 < ent edges (length edges - 1) -> ent edges (length edges - 2) + 3 * h < x ->
  met_weights x h edges = unit_vec (length edges - 1) (length edges - 2).
Proof.
  intros Hh Hl Hi Hfl Hx.
  assert (Hn : edges <> []) by (apply nil_neq_len; lia).
  assert (Z : forall k, (k < length edges - 1)%nat -> triweight_cdf ((x - ent edges k) / h) = 1).
  { intros k Hk. apply tw_hi. apply le_div_iff; auto.
    pose proof (nondecreasing_le edges k (length edges - 2) Hi ltac:(lia)). lra. }
  pose proof (nondecreasing_le edges 0 (length edges - 2) Hi ltac:(lia)).
  unfold met_weights. destruct (Req_EM_T (hist_sum x h edges) 0) as [E|E].
  - destruct (Rlt_dec x (ent edges 0)); [lra|]. destruct (Rlt_dec _ x); [f_equal; lia|].
    pose proof (hist_sum_pos_in x h edges Hh Hn Hfl ltac:(lra)). lra.
  - apply list_eq_ent; [now rewrite map_length, tw_hist_length, unit_vec_length|].
    rewrite map_length, tw_hist_length. intros i Hi2. rewrite ent_map by (rewrite tw_hist_length; lia).
    rewrite tw_hist_ent, unit_vec_ent by lia. unfold hist_sum in *. rewrite tw_hist_sum in * by auto.
    rewrite (Z O) in * by lia. rewrite (Z i) by lia.
    destruct (Nat.eqb_spec i (length edges - 2)).
    + subst i. replace (S (length edges - 2)) with (length edges - 1)%nat by lia. field. lra.
    + rewrite (Z (S i)) by lia. unfold Rdiv. lra.
Qed.
Lemma met_weights_len x h edges : length (met_weights x h edges) = (length edges - 1)%nat.
Proof.
  unfold met_weights. destruct (Req_EM_T _ _); [destruct (Rlt_dec _ _); [|destruct (Rlt_dec _ _)]|];
    rewrite ?unit_vec_length, ?map_length, ?tw_hist_length; auto.
Qed.
Lemma smooth_const l s : smooth_at (fun _ => l) s.
Proof. split; [now exists (length l)|]. intros. apply ex_derive_const0. Qed.
Lemma met_weights_smooth (x h : R -> R) edges s : ex_derive x s -> ex_derive h s -> 0 < h s ->
  (3 <= length edges)%nat -> increasing edges -> smooth_at (fun r => met_weights (x r) (h r) edges) s.
Proof.
  intros X H P Hl Hi. pose proof (increasing_nondecreasing _ Hi) as Hnd.
  assert (Hn : edges <> []) by (apply nil_neq_len; lia).
  assert (Hfl : ent edges 0 < ent edges (length edges - 1)) by (apply Hi; lia).
  pose proof (tw_hist_smooth x h edges s X H P) as TS.
  assert (SS : ex_derive (fun r => hist_sum (x r) (h r) edges) s) by (apply smooth_sum, TS).
  destruct (Req_EM_T (hist_sum (x s) (h s) edges) 0) as [E|E].
  - pose proof (locally_lt (fun _ => 0) h s (ex_derive_const0 _ _) H P) as Q.
    assert (D : x s <= ent edges 0 - 3 * h s \/ ent edges (length edges - 1) + 3 * h s <= x s).
    { unfold hist_sum in E. rewrite tw_hist_sum in E by auto.
      destruct (Rle_lt_dec (x s) (ent edges 0 - 3 * h s)); [auto|]. right.
      destruct (Rle_lt_dec (ent edges (length edges - 1) + 3 * h s) (x s)); [auto|].
      exfalso. assert (triweight_cdf ((x s - ent edges (length edges - 1)) / h s) < triweight_cdf ((x s - ent edges 0) / h s)).
      { apply tw_strict; [apply div_lt_mono; lra|apply lt_div_iff; lra|apply div_lt_iff; lra]. }
      lra. }
    destruct D as [D|D].
    + apply (smooth_near (fun _ => unit_vec (length edges - 1) 0) _ (length edges - 1)); [intros; apply met_weights_len|apply smooth_const|].
      assert (ent edges 0 < ent edges 1) by (apply Hi; lia).
      eapply filter_imp; [|apply filter_and; [exact Q|apply (locally_lt x (fun r => ent edges 1 - 3 * h r) s X)]].
      * simpl. intros r [Hp Hr]. symmetry. apply unit_lo_hist; auto; lia.
      * apply ex_derive_minus'; [apply ex_derive_const0|]. apply ex_derive_mult'; auto. apply ex_derive_const0.
      * lra.
    + apply (smooth_near (fun _ => unit_vec (length edges - 1) (length edges - 2)) _ (length edges - 1)); [intros; apply met_weights_len|apply smooth_const|].
      assert (ent edges (length edges - 2) < ent edges (length edges - 1)) by (apply Hi; lia).
      eapply filter_imp; [|apply filter_and; [exact Q|apply (locally_lt (fun r => ent edges (length edges - 2) + 3 * h r) x s)]].
      * simpl. intros r [Hp Hr]. symmetry. apply unit_hi_hist; auto; lia.
      * apply ex_derive_plus'; [apply ex_derive_const0|]. apply ex_derive_mult'; auto. apply ex_derive_const0.
      * auto.
      * lra.
  - apply (smooth_near (fun r => map (fun w => w / hist_sum (x r) (h r) edges) (tw_hist (x r) (h r) edges)) _ (length edges - 1)).
    + intros; apply met_weights_len.
    + apply (smooth_intro _ (length edges - 1)); [intros; now rewrite map_length, tw_hist_length|]. intros i Hi2.
      apply (ex_derive_eq (fun r => ent (tw_hist (x r) (h r) edges) i / hist_sum (x r) (h r) edges)).
      * intros r. rewrite ent_map by (rewrite tw_hist_length; lia). reflexivity.
      * apply ex_derive_div'; auto. apply TS.
    + eapply filter_imp; [|apply (locally_neq (fun r => hist_sum (x r) (h r) edges) (fun _ => 0) s SS (ex_derive_const0 _ _) E)].
      simpl. intros r Hr. unfold met_weights. destruct (Req_EM_T _ _); [contradiction|reflexivity].
Qed.
Lemma near_locally s (P : R -> Prop) : locally s P -> near s P.
Proof.
  intros [e H]. exists e. split; [apply cond_pos|]. intros r Hr. apply H. unfold ball; simpl.
  unfold AbsRing_ball, abs, minus, plus, opp; simpl. exact Hr.
Qed.
Lemma C115_lemma : forall (lgmet scatter : R -> R) ssp_lgmet s,
  ex_derive lgmet s -> ex_derive scatter s -> 0 < scatter s ->
  (3 <= length ssp_lgmet)%nat -> increasing (met_edges ssp_lgmet) ->
  exists w : R -> list R,
    near s (fun r => calc_lgmet_weights_from_lognormal_mdf (Fin (lgmet r)) (Fin (scatter r)) (fins ssp_lgmet)
                     = Ok (fins (w r)))
    /\ smooth_at w s.
Proof.
  intros x h a s X H P Ha Hi. exists (fun r => met_weights (x r) (h r) (met_edges a)). split.
  - apply near_locally. eapply filter_imp; [|exact (locally_lt (fun _ => 0) h s (ex_derive_const0 _ _) H P)].
    simpl. intros r Hr. apply lognormal_fins; auto. now apply increasing_nondecreasing.
  - apply met_weights_smooth; auto. rewrite met_edges_length. lia.
Qed.
