(** * Sensitivity to the star formation history: weights and SEDs *)
From Coq Require Import Reals List Arith Lra Lia.
From Coquelicot Require Import Coquelicot.
From Verif Require Import Num MUtils MSed Spec SpecStab RList LUtils LAge LJoint LPhot LStab1 LStab2.
Import ListNotations.
Open Scope R_scope.

Definition formed_within ts s m t_obs ages : Prop :=
  mass_formed_by ts (floored m s) (birth_time t_obs (age_edge ages 0))
  <> mass_formed_by ts (floored m s) (birth_time t_obs (age_edge ages (length ages))).

Lemma total_follows ts s s' m c L t_obs : length ts = length s -> length ts = length s' -> ts <> [] -> increasing (0.001 :: ts) ->
  0 < m -> 0 < c -> 1 <= L -> sfr_follows c L (floored m s) (floored m s') -> forall a b, a <= b ->
  edge_mass ts s' m t_obs a - edge_mass ts s' m t_obs b <= c * L ^ 5 * (edge_mass ts s m t_obs a - edge_mass ts s m t_obs b)
  /\ edge_mass ts s m t_obs a - edge_mass ts s m t_obs b <= / c * L ^ 5 * (edge_mass ts s' m t_obs a - edge_mass ts s' m t_obs b).
Proof.
  intros Hl Hl' Hn Hi Hm Hc HL F a b Hab. pose proof (birth_time_anti t_obs a b Hab). pose proof (birth_time_pos t_obs b).
  unfold edge_mass. split.
  - apply (core_incr ts (floored m s) (floored m s')); auto using floored_pos, floored_len_eq.
  - apply (core_incr ts (floored m s') (floored m s)); auto using floored_pos, floored_len_eq, Rinv_0_lt_compat, sfr_follows_sym.
Qed.

Lemma ratio_le b T b' T' K : 0 <= b -> 0 < T -> 0 < T' -> 0 < K -> b' <= K * b -> K <> 0 -> forall K2, 0 < K2 -> T <= K2 * T' -> b' / T' <= (K * K2) * (b / T).
Proof.
  intros Hb HT HT' HK H _ K2 HK2 H2. apply Rle_trans with (K * b / T').
  - unfold Rdiv. apply Rmult_le_compat_r; [apply Rlt_le, Rinv_0_lt_compat; auto|auto].
  - replace (K * K2 * (b / T)) with (K * b * (K2 * / T)) by (field; lra). unfold Rdiv. apply Rmult_le_compat_l; [apply Rmult_le_pos; lra|].
    apply Rmult_le_reg_r with (T * T'); [now apply Rmult_lt_0_compat|]. replace (/ T' * (T * T')) with T by (field; lra). replace (K2 * / T * (T * T')) with (K2 * T') by (field; lra). auto.
Qed.

Lemma weights_core ts s s' m c L t_obs ages : length ts = length s -> length ts = length s' -> ts <> [] -> increasing (0.001 :: ts) ->
  0 < m -> 0 < c -> 1 <= L -> sfr_follows c L (floored m s) (floored m s') -> (3 <= length ages)%nat -> nondecreasing (age_edges ages) ->
  formed_within ts s m t_obs ages ->
  formed_within ts s' m t_obs ages /\ exists w w',
    calc_age_weights_from_sfh_table (fins ts) (fins s) (fins ages) (Fin t_obs) (Fin m) = Ok (fins w)
    /\ calc_age_weights_from_sfh_table (fins ts) (fins s') (fins ages) (Fin t_obs) (Fin m) = Ok (fins w')
    /\ length w = length ages /\ length w' = length ages /\ distribution w /\ distribution w'
    /\ forall j, (j < length ages)%nat -> within_factor (L ^ 10) (ent w j) (ent w' j).
Proof.
  intros Hl Hl' Hn Hi Hm Hc HL F Ha He Hf. pose proof (total_follows ts s s' m c L t_obs Hl Hl' Hn Hi Hm Hc HL F) as TF.
  assert (L5 : 0 < L ^ 5) by (apply pow_lt; lra). assert (IC : 0 < / c) by now apply Rinv_0_lt_compat.
  assert (E0n : age_edge ages 0 <= age_edge ages (length ages)).
  { rewrite <- !age_edges_ent by lia. apply (nondecreasing_le (age_edges ages)); auto; rewrite ?age_edges_length; lia. }
  assert (T : 0 < total_mass ts s m t_obs ages).
  { pose proof (total_mass_nonneg ts s m t_obs ages Hl Hi Hm He). unfold formed_within in Hf. unfold total_mass, edge_mass in *. lra. }
  destruct (TF _ _ E0n) as [U1 U2]. fold (total_mass ts s m t_obs ages) in U1, U2. fold (total_mass ts s' m t_obs ages) in U1, U2.
  assert (T' : 0 < total_mass ts s' m t_obs ages).
  { apply Rmult_lt_reg_l with (/ c * L ^ 5); [now apply Rmult_lt_0_compat|]. lra. }
  assert (Hf' : formed_within ts s' m t_obs ages) by (unfold formed_within; unfold total_mass, edge_mass in T'; lra).
  split; [exact Hf'|]. do 2 eexists. split; [apply age_weights_fins_ok; auto; lra|]. split; [apply age_weights_fins_ok; auto; lra|].
  split; [rewrite map_length; apply bin_masses_length|]. split; [rewrite map_length; apply bin_masses_length|].
  split; [apply normalised_distribution; auto using bin_masses_nonneg, bin_masses_sum|]. split; [apply normalised_distribution; auto using bin_masses_nonneg, bin_masses_sum|].
  intros j Hj. pose proof (age_edge_le ages j He Hj) as EJ. destruct (TF _ _ EJ) as [V1 V2].
  pose proof (edge_mass_anti ts s m t_obs _ _ Hl Hi Hm EJ). pose proof (edge_mass_anti ts s' m t_obs _ _ Hl' Hi Hm EJ).
  rewrite !ent_map by (rewrite bin_masses_length; auto). unfold bin_masses. rewrite !ent_map_seq by auto. cbn [Nat.add].
  replace (L ^ 10) with ((c * L ^ 5) * (/ c * L ^ 5)) by (field; lra). assert (0 < c * L ^ 5) by (apply Rmult_lt_0_compat; auto). assert (0 < / c * L ^ 5) by (apply Rmult_lt_0_compat; auto).
  split.
  - apply ratio_le; auto; lra.
  - rewrite (Rmult_comm (c * L ^ 5)). apply ratio_le; auto; lra.
Qed.

Lemma template_mix_scale n m W W' f k K : (forall i j, (i < n)%nat -> (j < m)%nat -> ent2 W' i j <= K * ent2 W i j) ->
  (forall i j, (i < n)%nat -> (j < m)%nat -> 0 <= ent3 f i j k) -> template_mix n m W' f k <= K * template_mix n m W f k.
Proof.
  intros HW Hf. unfold template_mix. rewrite <- Rsum_scal, map_map. apply Rsum_map_le. intros i Hi. rewrite <- Rsum_scal, map_map. apply Rsum_map_le. intros j Hj.
  apply in_seq in Hi. apply in_seq in Hj. rewrite <- Rmult_assoc. apply Rmult_le_compat_r; [apply Hf; lia|apply HW; lia].
Qed.
Lemma template_mix_nonneg n m W f k : (forall i j, (i < n)%nat -> (j < m)%nat -> 0 <= ent2 W i j) ->
  (forall i j, (i < n)%nat -> (j < m)%nat -> 0 <= ent3 f i j k) -> 0 <= template_mix n m W f k.
Proof.
  intros HW Hf. unfold template_mix. apply Rsum_nonneg, Forall_map, Forall_forall. intros i Hi. apply Rsum_nonneg, Forall_map, Forall_forall. intros j Hj.
  apply in_seq in Hi. apply in_seq in Hj. apply Rmult_le_pos; [apply HW; lia|apply Hf; lia].
Qed.


(** what both SED functions have in common *)
Lemma sed_scale n m W W' f k M M' K c L : 0 < c -> 1 <= L -> 0 <= M -> 0 <= M' -> M' <= c * L * M -> M <= / c * L * M' ->
  (forall i j, (i < n)%nat -> (j < m)%nat -> 0 <= ent2 W i j) -> (forall i j, (i < n)%nat -> (j < m)%nat -> 0 <= ent2 W' i j) -> 0 <= K ->
  (forall i j, (i < n)%nat -> (j < m)%nat -> within_factor K (ent2 W i j) (ent2 W' i j)) ->
  (forall i j, (i < n)%nat -> (j < m)%nat -> 0 <= ent3 f i j k) ->
  within_factor (L * K) (c * (M * template_mix n m W f k)) (M' * template_mix n m W' f k).
Proof.
  intros Hc HL HM HM' H1 H2 P P' HK HW Hf. pose proof (template_mix_nonneg n m W f k P Hf). pose proof (template_mix_nonneg n m W' f k P' Hf).
  pose proof (template_mix_scale n m W W' f k K ltac:(intros; now apply HW) Hf). pose proof (template_mix_scale n m W' W f k K ltac:(intros; now apply HW) Hf).
  set (x := template_mix n m W f k) in *. set (y := template_mix n m W' f k) in *. clearbody x y. split.
  - replace (L * K * (c * (M * x))) with ((c * L * M) * (K * x)) by ring. apply Rmult_le_compat; auto.
  - replace (L * K * (M' * y)) with ((L * M') * (K * y)) by ring. replace (c * (M * x)) with ((c * M) * x) by ring. apply Rmult_le_compat; auto.
    + apply Rmult_le_pos; lra.
    + apply Rmult_le_compat_l with (r := c) in H2; [|lra]. replace (c * (/ c * L * M')) with (L * M') in H2 by (field; lra). lra.
Qed.
