(** * C146: convergence of the age weights and of the SED *)
From Coq Require Import Reals List Arith Lra Lia.
From Coquelicot Require Import Coquelicot.
From Verif Require Import Num MUtils MSed Spec SpecConv RList LUtils LCalc LAge LMet LJoint LConv1 LConv2.
Import ListNotations.
Open Scope R_scope.

Lemma table_error_mono K F h d T T' : 0 <= K -> 0 <= h -> 0 <= d -> T <= T' -> table_error K F h d T <= table_error K F h d T'.
Proof.
  intros HK Hh Hd HT. unfold table_error.
  assert ((K * T + 3 * F) / 2 * h <= (K * T' + 3 * F) / 2 * h).
  { apply Rmult_le_compat_r; auto. pose proof (Rmult_le_compat_l K T T' HK HT). lra. }
  pose proof (Rmult_le_compat_l d T T' Hd HT). lra.
Qed.

Lemma ent_le_Rsum l i : List.Forall (fun x => 0 <= x) l -> (i < length l)%nat -> ent l i <= Rsum l.
Proof.
  revert i. induction l as [|a l IH]; intros i F Hi; [simpl in Hi; lia|]. inversion F; subst. cbn [Rsum].
  assert (0 <= Rsum l). { clear - H2. induction l; cbn [Rsum]; [lra|]. inversion H2; subst. specialize (IHl H3). lra. }
  destruct i as [|i]; unfold ent in *; cbn [nth]; [lra|]. specialize (IH i H2 ltac:(simpl in Hi; lia)). lra.
Qed.
Section Conv.
  Variables (K F h d m T t_obs : R) (f : R -> R) (ts : list R).
  Hypotheses (Hf : smooth_history K F f) (H14 : 1 / 10 ^ 14 <= F) (Hm : 0 < m <= F) (Hd : 0 <= d) (Hdf : forall t, m <= f t + d)
    (Hr : resolves h t_obs T ts).

  Lemma conv_h : 0 < h.
  Proof.
    destruct Hr as (Hn & Hi & HT & Hg). assert (L0 : (0 < length ts)%nat) by (destruct ts; simpl; [congruence|lia]).
    specialize (Hg 0%nat L0). unfold gap in Hg. rewrite ent_cons_S, ent_0 in Hg.
    pose proof (proj1 (proj1 (increasing_cons _ _) Hi) (ent ts 0) (ent_In ts 0 L0)). lra.
  Qed.
  Lemma conv_mass t : 0.001 <= t -> t <= t_obs \/ t <= ent ts (length ts - 1) ->
    Rabs (mass_formed_by ts (floored m (map f ts)) t - 10 ^ 9 * RInt f 0.001 t) <= 10 ^ 9 * table_error K F h d T.
  Proof.
    intros H1 H2. pose proof conv_h as Hh. destruct Hr as (Hn & Hi & HT & Hg). destruct Hf as [HF HK].
    eapply Rle_trans; [apply (history_error_floored K F f h d m); auto; lra|].
    apply Rmult_le_compat_l; [lra|]. apply table_error_mono; auto; try lra. eapply lip_K; eauto.
  Qed.
  Lemma birth_le e : birth_time t_obs e <= ent ts (length ts - 1).
  Proof.
    destruct Hr as (Hn & Hi & HT & Hg). unfold birth_time. apply Rmax_lub.
    - left. apply (proj1 (proj1 (increasing_cons _ _) Hi)). apply ent_In. destruct ts; simpl; [congruence|lia].
    - pose proof (pow10_pos e). lra.
  Qed.
  Lemma conv_edge e : Rabs (edge_mass ts (map f ts) m t_obs e - 10 ^ 9 * RInt f 0.001 (birth_time t_obs e)) <= 10 ^ 9 * table_error K F h d T.
  Proof. unfold edge_mass. apply conv_mass; [apply Rmax_l|right; apply birth_le]. Qed.
  Lemma conv_bin a b : Rabs (edge_mass ts (map f ts) m t_obs a - edge_mass ts (map f ts) m t_obs b
      - 10 ^ 9 * RInt f (birth_time t_obs b) (birth_time t_obs a)) <= 10 ^ 9 * (2 * table_error K F h d T).
  Proof.
    pose proof (conv_edge a) as A. pose proof (conv_edge b) as B. destruct Hf as [_ HK].
    pose proof (chasles f K 0.001 (birth_time t_obs b) (birth_time t_obs a) HK) as C.
    apply Rabs_le_between in A. apply Rabs_le_between in B. apply Rabs_le_between. lra.
  Qed.

  Lemma ratio_close a A p P e : 0 < P -> 0 < A -> 0 <= a <= A -> Rabs (a - p) <= e -> Rabs (A - P) <= e -> Rabs (a / A - p / P) <= 2 * e / P.
  Proof.
    intros HP HA Ha H1 H2.
    assert (Q : 0 <= a / A <= 1).
    { split; [apply Rdiv_le_0_compat; lra|]. apply (Rmult_le_reg_r A); [lra|]. replace (a / A * A) with a by (field; lra). lra. }
    replace (a / A - p / P) with (((a - p) - a / A * (A - P)) * / P) by (field; lra). set (q := a / A) in *.
    rewrite Rabs_mult, (Rabs_right (/ P)) by (left; now apply Rinv_0_lt_compat).
    unfold Rdiv. apply Rmult_le_compat_r; [left; now apply Rinv_0_lt_compat|].
    eapply Rle_trans; [apply Rabs_triang|]. rewrite Rabs_Ropp, Rabs_mult, (Rabs_right q) by lra.
    pose proof (Rabs_pos (A - P)). assert (q * Rabs (A - P) <= 1 * Rabs (A - P)) by (apply Rmult_le_compat_r; lra). lra.
  Qed.

  Lemma conv_weights ages : (3 <= length ages)%nat -> nondecreasing (age_edges ages) ->
    2 * table_error K F h d T < mass_in_range f t_obs ages ->
    (let formed lg_age := mass_formed_by ts (floored m (map f ts)) (birth_time t_obs lg_age) in formed (age_edge ages 0) <> formed (age_edge ages (length ages)))
    /\ exists w, calc_age_weights_from_sfh_table (fins ts) (fins (map f ts)) (fins ages) (Fin t_obs) (Fin m) = Ok (fins w)
      /\ length w = length ages
      /\ forall j, (j < length ages)%nat ->
         Rabs (ent w j - mass_in_bin f t_obs ages j / mass_in_range f t_obs ages) <= 4 * table_error K F h d T / mass_in_range f t_obs ages.
  Proof.
    intros Ha He HR. pose proof conv_h as Hh. pose proof Hr as (Hn & Hi & HT & Hg). pose proof Hf as [HF HK].
    assert (Hl : length ts = length (map f ts)) by now rewrite map_length.
    set (e := table_error K F h d T) in *. set (P := mass_in_range f t_obs ages) in *.
    assert (He0 : 0 <= e).
    { pose proof (conv_edge 0) as Q. fold e in Q. pose proof (Rabs_pos (edge_mass ts (map f ts) m t_obs 0 - 10 ^ 9 * RInt f 0.001 (birth_time t_obs 0))). lra. }
    assert (HP : 0 < P) by lra.
    pose proof (conv_bin (age_edge ages 0) (age_edge ages (length ages))) as HT0. fold e in HT0.
    change (RInt f (birth_time t_obs (age_edge ages (length ages))) (birth_time t_obs (age_edge ages 0))) with P in HT0.
    assert (TP : 0 < total_mass ts (map f ts) m t_obs ages) by (unfold total_mass; apply Rabs_le_between in HT0; lra).
    split.
    - cbv zeta. unfold total_mass, edge_mass in TP. lra.
    - exists (map (fun x => x / total_mass ts (map f ts) m t_obs ages) (bin_masses ts (map f ts) m t_obs ages)).
      split; [apply age_weights_fins_ok; auto; try lra|]. split; [now rewrite map_length, bin_masses_length|].
      intros j Hj. rewrite ent_map by (now rewrite bin_masses_length).
      pose proof (bin_masses_nonneg ts (map f ts) m t_obs ages) as NN.
      assert (BN : List.Forall (fun x => 0 <= x) (bin_masses ts (map f ts) m t_obs ages)) by (apply NN; auto; lra).
      set (bm := bin_masses ts (map f ts) m t_obs ages) in *.
      assert (Bj : ent bm j = edge_mass ts (map f ts) m t_obs (age_edge ages j) - edge_mass ts (map f ts) m t_obs (age_edge ages (S j))).
      { unfold bm, bin_masses. unfold ent at 1. rewrite nth_map' with (d := 0%nat) by (now rewrite seq_length). rewrite !seq_nth by auto. reflexivity. }
      pose proof (bin_masses_sum ts (map f ts) m t_obs ages) as SM. fold bm in SM.
      assert (B0 : 0 <= ent bm j <= total_mass ts (map f ts) m t_obs ages).
      { rewrite <- SM. rewrite Forall_ent in BN. split; [apply BN; unfold bm; now rewrite bin_masses_length|].
        apply ent_le_Rsum; [now apply Forall_ent|]. unfold bm. now rewrite bin_masses_length. }
      pose proof (conv_bin (age_edge ages j) (age_edge ages (S j))) as Hb. rewrite <- Bj in Hb. fold e in Hb.
      change (RInt f (birth_time t_obs (age_edge ages (S j))) (birth_time t_obs (age_edge ages j))) with (mass_in_bin f t_obs ages j) in Hb.
      fold (total_mass ts (map f ts) m t_obs ages) in HT0.
      replace (mass_in_bin f t_obs ages j / P) with (10 ^ 9 * mass_in_bin f t_obs ages j / (10 ^ 9 * P)) by (field; lra).
      replace (4 * e / P) with (2 * (10 ^ 9 * (2 * e)) / (10 ^ 9 * P)) by (field; lra).
      apply ratio_close; auto. apply Rmult_lt_0_compat; lra.
  Qed.
End Conv.
