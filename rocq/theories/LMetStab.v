(** * C148: sensitivity to the metallicity *)
From Coq Require Import Reals List Arith Lra Lia.
From Coquelicot Require Import Coquelicot.
From Verif Require Import Num Arr MUtils MSed Spec SpecMetStab RList LUtils LCalc LKern LAge LMet LJoint.
Import ListNotations.
Open Scope R_scope.

Lemma tw_dens_bound z : -3 < z < 3 -> tw_dens z <= 35/96.
Proof.
  intros Hz. unfold tw_dens. assert (0 <= (z / 3) ^ 2 <= 1) by (simpl; split; nra). set (w := (z / 3) ^ 2) in *.
  assert ((1 - w) ^ 3 <= 1 ^ 3) by (apply pow_incr; lra). rewrite pow1 in *. lra.
Qed.
Lemma tw_slope0 a b : a < b -> triweight_cdf b - triweight_cdf a <= 35/96 * (b - a).
Proof.
  intros Hab. destruct (MVT_gen triweight_cdf a b tw_density) as (c & _ & E).
  - intros. apply tw_derive.
  - intros x _. apply continuity_pt_filterlim. apply (ex_derive_continuous (K := R_AbsRing) (V := R_NormedModule)). exists (tw_density x). apply tw_derive.
  - rewrite E. apply Rmult_le_compat_r; [lra|]. unfold tw_density. destruct (Rlt_dec (-3) c); [destruct (Rlt_dec c 3)|]; try lra. apply tw_dens_bound. lra.
Qed.
Lemma tw_slope a b : Rabs (triweight_cdf a - triweight_cdf b) <= 35/96 * Rabs (a - b).
Proof.
  destruct (Rtotal_order a b) as [Hab|[->|Hab]].
  - pose proof (tw_slope0 a b Hab). pose proof (tw_mono a b ltac:(lra)). rewrite (Rabs_left (a - b)) by lra. rewrite Rabs_left1; lra.
  - rewrite !Rminus_eq_0, Rabs_R0. lra.
  - pose proof (tw_slope0 b a Hab). pose proof (tw_mono b a ltac:(lra)). rewrite (Rabs_right (a - b)) by lra. rewrite Rabs_right; lra.
Qed.
(** change of scatter *)
Lemma tw_scatter0 a h h' : 0 < h -> h <= h' -> Rabs (triweight_cdf (a / h) - triweight_cdf (a / h')) <= 35/96 * (3 * (h' - h) / h).
Proof.
  intros Hh Hle.
  assert (B0 : 0 <= 3 * (h' - h) / h) by (apply Rdiv_le_0_compat; lra).
  assert (E : a / h - a / h' = a / h' * ((h' - h) / h)) by (field; lra).
  assert (P0 : 0 <= (h' - h) / h) by (apply Rdiv_le_0_compat; lra).
  destruct (Rle_dec 3 (a / h')) as [C|C].
  { assert (3 <= a / h). { assert (0 <= a / h' * ((h' - h) / h)) by (apply Rmult_le_pos; lra). lra. }
    rewrite !tw_hi by lra. rewrite Rminus_eq_0, Rabs_R0. lra. }
  destruct (Rle_dec (a / h') (-3)) as [D|D].
  { assert (a / h <= -3). { assert (0 <= (- (a / h')) * ((h' - h) / h)) by (apply Rmult_le_pos; lra). lra. }
    rewrite !tw_lo by lra. rewrite Rminus_eq_0, Rabs_R0. lra. }
  eapply Rle_trans; [apply tw_slope|]. apply Rmult_le_compat_l; [lra|]. rewrite E, Rabs_mult, (Rabs_right ((h' - h) / h)) by lra.
  replace (3 * (h' - h) / h) with (3 * ((h' - h) / h)) by (field; lra). apply Rmult_le_compat_r; [lra|]. apply Rabs_le. lra.
Qed.
Lemma tw_scatter a h h' : 0 < h -> 0 < h' -> Rabs (triweight_cdf (a / h) - triweight_cdf (a / h')) <= 35/96 * (3 * Rabs (h - h') / Rmin h h').
Proof.
  intros Hh Hh'. destruct (Rle_dec h h') as [C|C].
  - rewrite Rmin_left, (Rabs_left1 (h - h')) by lra. replace (- (h - h')) with (h' - h) by ring. now apply tw_scatter0.
  - rewrite Rmin_right, (Rabs_right (h - h')) by lra. rewrite Rabs_minus_sym. apply tw_scatter0; lra.
Qed.
Lemma tw_shift e x h x' h' dx : 0 < h -> 0 < h' -> Rabs (x - x') <= dx ->
  Rabs (triweight_cdf ((x - e) / h) - triweight_cdf ((x' - e) / h')) <= mdf_shift dx h h'.
Proof.
  intros Hh Hh' Hx. assert (Hm : 0 < Rmin h h') by (apply Rmin_glb_lt; lra). pose proof (Rmin_l h h') as ML.
  pose proof (tw_slope ((x - e) / h) ((x' - e) / h)) as A. pose proof (tw_scatter (x' - e) h h' Hh Hh') as B.
  assert (Q : Rabs ((x - e) / h - (x' - e) / h) <= dx / Rmin h h').
  { replace ((x - e) / h - (x' - e) / h) with ((x - x') * / h) by (field; lra). rewrite Rabs_mult, (Rabs_right (/ h)) by (left; now apply Rinv_0_lt_compat).
    unfold Rdiv. apply Rmult_le_compat; [apply Rabs_pos|left; now apply Rinv_0_lt_compat|exact Hx|]. apply Rinv_le_contravar; lra. }
  unfold mdf_shift. replace (35/96 * (dx + 3 * Rabs (h - h')) / Rmin h h') with (35/96 * (dx / Rmin h h') + 35/96 * (3 * Rabs (h - h') / Rmin h h')) by (field; lra).
  apply Rabs_le_between in A. apply Rabs_le_between in B. apply Rabs_le_between. lra.
Qed.

(** the weights of a distribution inside [-10, 10] are increments of its cumulative distribution *)
Definition tail_frac (x h : R) (a : list R) (i : nat) : R := triweight_cdf ((x - met_edge a i) / h).
Lemma inside_ends x h a : (3 <= length a)%nat -> mdf_inside x h -> tail_frac x h a 0 = 1 /\ tail_frac x h a (length a) = 0.
Proof.
  intros Ha [Hh Hx]. unfold tail_frac. split.
  - unfold met_edge. simpl. apply tw_hi. apply Rle_div_r; lra.
  - unfold met_edge. rewrite Nat.eqb_refl. destruct (length a =? 0)%nat eqn:Q; [apply Nat.eqb_eq in Q; lia|]. apply tw_lo. apply Rle_div_l; lra.
Qed.
Lemma inside_weights x h a i : (3 <= length a)%nat -> mdf_inside x h -> (i < length a)%nat ->
  ent (met_weights x h (met_edges a)) i = tail_frac x h a i - tail_frac x h a (S i).
Proof.
  intros Ha In Hi. destruct (inside_ends x h a Ha In) as [E0 En]. destruct In as [Hh _].
  assert (ME : forall j, (j <= length a)%nat -> ent (met_edges a) j = met_edge a j) by (intros j Hj; unfold met_edges; rewrite ent_map_seq by lia; reflexivity).
  assert (LE : length (met_edges a) = S (length a)) by apply met_edges_length.
  assert (HS : hist_sum x h (met_edges a) = 1).
  { unfold hist_sum. rewrite tw_hist_sum by (intro Q; rewrite Q in LE; discriminate). rewrite LE. replace (S (length a) - 1)%nat with (length a) by lia.
    rewrite !ME by lia. fold (tail_frac x h a 0) (tail_frac x h a (length a)). lra. }
  unfold met_weights. rewrite HS. destruct (Req_EM_T 1 0); [lra|]. rewrite ent_map by (rewrite tw_hist_length; lia).
  rewrite tw_hist_ent by lia. rewrite !ME by lia. unfold tail_frac. lra.
Qed.

(** summation by parts *)
Lemma abel (c S : nat -> R) n :
  Rsum (map (fun i => (c i - c (Datatypes.S i)) * S i) (seq 0 (Datatypes.S n)))
  = c 0%nat * S 0%nat - c (Datatypes.S n) * S n + Rsum (map (fun i => c (Datatypes.S i) * (S (Datatypes.S i) - S i)) (seq 0 n)).
Proof.
  induction n as [|n IH]; [simpl; ring|]. rewrite seq_S, map_app, Rsum_app, IH. rewrite (seq_S n 0), (map_app _ (seq 0 n)), Rsum_app. simpl. ring.
Qed.
Lemma abel_diff (c c' S : nat -> R) n e : c 0%nat = c' 0%nat -> c (Datatypes.S n) = c' (Datatypes.S n) ->
  (forall i, (i <= n)%nat -> Rabs (c i - c' i) <= e) -> 0 <= e ->
  Rabs (Rsum (map (fun i => (c i - c (Datatypes.S i)) * S i) (seq 0 (Datatypes.S n))) - Rsum (map (fun i => (c' i - c' (Datatypes.S i)) * S i) (seq 0 (Datatypes.S n))))
  <= e * Rsum (map (fun i => Rabs (S (Datatypes.S i) - S i)) (seq 0 n)).
Proof.
  intros H0 Hn He He0. rewrite !abel, H0, Hn.
  match goal with |- Rabs (?p + ?A - (?p + ?B)) <= _ => replace (p + A - (p + B)) with (A - B) by ring end.
  assert (G : forall m, (m <= n)%nat -> Rabs (Rsum (map (fun i => c (Datatypes.S i) * (S (Datatypes.S i) - S i)) (seq 0 m)) - Rsum (map (fun i => c' (Datatypes.S i) * (S (Datatypes.S i) - S i)) (seq 0 m)))
     <= e * Rsum (map (fun i => Rabs (S (Datatypes.S i) - S i)) (seq 0 m))); [|apply G; lia].
  induction m as [|m IH]; intros Hm; [simpl; rewrite Rminus_0_r, Rabs_R0; lra|].
  specialize (IH ltac:(lia)). rewrite !seq_S, !map_app, !Rsum_app. cbn [map Rsum]. rewrite !Nat.add_0_l.
  specialize (He (Datatypes.S m) ltac:(lia)). set (D := S (Datatypes.S m) - S m) in *.
  match goal with |- Rabs (?A + (?a * D + 0) - (?B + (?b * D + 0))) <= _ => replace (A + (a * D + 0) - (B + (b * D + 0))) with ((A - B) + (a - b) * D) by ring end.
  eapply Rle_trans; [apply Rabs_triang|]. rewrite Rabs_mult.
  assert (Rabs (c (Datatypes.S m) - c' (Datatypes.S m)) * Rabs D <= e * Rabs D) by (apply Rmult_le_compat_r; [apply Rabs_pos|exact He]). lra.
Qed.
Lemma column_diff x h x' h' dx a S : (3 <= length a)%nat -> mdf_inside x h -> mdf_inside x' h' -> Rabs (x - x') <= dx ->
  Rabs (Rsum (map (fun i => ent (met_weights x h (met_edges a)) i * S i) (seq 0 (length a)))
        - Rsum (map (fun i => ent (met_weights x' h' (met_edges a)) i * S i) (seq 0 (length a))))
  <= mdf_shift dx h h' * Rsum (map (fun i => Rabs (S (Datatypes.S i) - S i)) (seq 0 (length a - 1))).
Proof.
  intros Ha I I' Hx. destruct (inside_ends x h a Ha I) as [E0 En]. destruct (inside_ends x' h' a Ha I') as [E0' En'].
  rewrite (Rsum_map_ext _ (fun i => (tail_frac x h a i - tail_frac x h a (Datatypes.S i)) * S i)) by (intros i Hi; apply in_seq in Hi; rewrite inside_weights by (auto; lia); reflexivity).
  rewrite (Rsum_map_ext (fun i => ent (met_weights x' h' (met_edges a)) i * S i) (fun i => (tail_frac x' h' a i - tail_frac x' h' a (Datatypes.S i)) * S i)) by (intros i Hi; apply in_seq in Hi; rewrite inside_weights by (auto; lia); reflexivity).
  assert (L : length a = Datatypes.S (length a - 1)) by lia. rewrite L at 1 2. 
  apply abel_diff.
  - congruence.
  - rewrite <- L. congruence.
  - intros i Hi. destruct I, I'. unfold tail_frac. now apply tw_shift.
  - destruct I, I'. eapply Rle_trans; [apply Rabs_pos|apply (tw_shift 0 x h x' h' dx); auto].
Qed.
