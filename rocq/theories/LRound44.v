(** * A concrete galaxy meeting the hypotheses of C152 *)
From Coq Require Import Reals List Arith Lra Lia ZArith.
From Verif Require Import Num Arr MUtils MSed MCosmo MPhot Float Spec SpecFloat SpecFloat2 SpecFloat5 RList LJoint LFloat LFloat2 LFloat9 LRound10 LRound12 LRound19 LRound20 LRound42.
Import ListNotations.
Open Scope R_scope.

Definition e2_flux : list (list (list R)) := repeat (repeat [1/2; 1; 1; 1/2] 3) 4.
Lemma e2_cube : is_cube (length rd_lgmets) (length rd_ages) 4 e2_flux.
Proof. split; [reflexivity|]. unfold e2_flux. simpl. repeat constructor. Qed.
Lemma e2_flux_range i j k : (i < 4)%nat -> (j < 3)%nat -> (k < 4)%nat -> 1/2 <= ent3 e2_flux i j k <= 1.
Proof.
  intros Hi Hj Hk. destruct i as [|[|[|[|i]]]]; try lia; destruct j as [|[|[|j]]]; try lia; destruct k as [|[|[|[|k]]]]; try lia; unfold ent3, ent2, ent, e2_flux; simpl; lra.
Qed.
Lemma e2_flux_le i j k : (i < 4)%nat -> (j < 3)%nat -> (k < 4)%nat -> Rabs (ent3 e2_flux i j k) <= 1.
Proof. intros A B C. pose proof (e2_flux_range i j k A B C). rewrite Rabs_right; lra. Qed.
Lemma e2_M : 10 ^ 8 <= mass_formed_by rd_t (floored (1 / 10 ^ 14) rd_sfr) 4 <= 10 ^ 10.
Proof.
  pose proof e14_range as E14. split; [|apply rd_M; lra]. rewrite rd_floored by lra. destruct rd_mass as (m1 & m2 & E & B1 & B2 & B3). simpl in B1. unfold mass_formed_by. rewrite E. unfold rd_t. cbn [map combine pwlin].
  pose proof (log10_lt 1 4 ltac:(lra) ltac:(lra)) as L1. pose proof (log10_lt 2 4 ltac:(lra) ltac:(lra)) as L2. 
  destruct (Rle_dec _ _); [lra|]. destruct (Rlt_dec _ _); [lra|]. rewrite pow10_log10 by lra. simpl. lra.
Qed.
Lemma e2_grids : good_grids rd_t rd_sfr (1/4) rd_lgmets rd_ages 4.
Proof.
  pose proof e14_range as E14. pose proof e14_ok. apply (rounding_grids (AR := binary64) 2); [apply rd_history; lra|apply rd_rages|apply rd_rlgmets|lra|apply rd_half; lra].
Qed.
Lemma e2_wavelengths : rounding_wavelengths (AR := binary64) ph_ws.
Proof. destruct ph_spectrum as (N & _ & W & G & _). split; auto. Qed.
(** the spectrum of the galaxy, exactly *)
Definition e2_exact (sed0 : list R) : Prop := length sed0 = 4%nat /\ forall k, (k < 4)%nat -> 10 ^ 8 / 2 <= ent sed0 k <= 10 ^ 10
   /\ (forall u bound, 0 <= u <= 1 -> bound <= 1 / 10 ^ 6 -> sed_error u 1 (mass_formed_by rd_t (floored (1 / 10 ^ 14) rd_sfr) 4) bound (4 * 3) <= 1/1000 * ent sed0 k).
Lemma e2_102 : / 2 ^ 102 <= / 10 ^ 9.
Proof. apply Rinv_le_contravar; [apply pow_lt; lra|]. apply Rle_trans with (2 ^ 30); [simpl; lra|apply Rle_pow; [lra|lia]]. Qed.
Lemma e2_of_mass sed0 : length sed0 = 4%nat -> (forall k, (k < 4)%nat -> mass_formed_by rd_t (floored (1 / 10 ^ 14) rd_sfr) 4 * (1/2) <= ent sed0 k <= mass_formed_by rd_t (floored (1 / 10 ^ 14) rd_sfr) 4 * 1) -> e2_exact sed0.
Proof.
  intros L R. split; auto. pose proof e2_M as M. set (m := mass_formed_by _ _ _) in *. clearbody m. intros k K. specialize (R k K). split; [lra|].
  intros u b Hu Hb. unfold sed_error, Rdiv. pose proof e2_102 as T. assert (P0 : 0 < / 2 ^ 102) by (apply Rinv_0_lt_compat, pow_lt; lra). set (t := / 2 ^ 102) in *. clearbody t. assert (UT : 0 <= u * t <= / 10 ^ 9) by (split; [apply Rmult_le_pos; lra|apply Rle_trans with (1 * t); [apply Rmult_le_compat_r; lra|lra]]). change (4 * 3)%nat with 12%nat. simpl (INR 12). simpl in M, Hb, UT.
  assert (m * (2 * b) <= m * (2 * (1 / 1000000))) by (apply Rmult_le_compat_l; lra). assert ((3 * 12 * m + 1) * (u * t) <= (3 * 12 * m + 1) * / 1000000000) by (apply Rmult_le_compat_l; lra). lra.
Qed.
Lemma e2_sed : exists r0 sed0, calc_rest_sed_sfh_table_lognormal_mdf (fins rd_t) (fins rd_sfr) (Fin (-3/2)) (Fin (1/4)) (fins rd_lgmets) (fins rd_ages) (fins3 e2_flux) (Fin 4) (Fin (1 / 10 ^ 14)) = Ok r0
  /\ rest_sed r0 = fins sed0 /\ e2_exact sed0.
Proof.
  pose proof e14_range as E14. destruct (C17_lemma rd_t rd_sfr (-3/2) (1/4) rd_lgmets rd_ages 4 4 (1 / 10 ^ 14) e2_grids ltac:(lra) ltac:(lra)) as (W & SW & HS & HP & HF).
  destruct (HF _ e2_cube) as (r & sed & E & Es & _ & L & V). exists r, sed. split; auto. split; auto. apply e2_of_mass; auto. intros k K. rewrite V by auto.
  destruct (template_mix_bounds (length rd_lgmets) (length rd_ages) W e2_flux k (1/2) 1 SW HS HP) as [B1 B2]; [intros i j Hi Hj; now apply e2_flux_range|].
  pose proof (pow10_pos (pwlin (combine (map log10 rd_t) (map log10 (cumulative_mass rd_t (floored (1 / 10 ^ 14) rd_sfr)))) (log10 4))) as P. fold (mass_formed_by rd_t (floored (1 / 10 ^ 14) rd_sfr) 4) in P.
  split; apply Rmult_le_compat_l; lra.
Qed.
Lemma e2_sed_met : exists r0 sed0, calc_rest_sed_sfh_table_met_table (fins rd_t) (fins rd_sfr) (fins rd_table) (Fin (1/4)) (fins rd_lgmets) (fins rd_ages) (fins3 e2_flux) (Fin 4) (Fin (1 / 10 ^ 14)) = Ok r0
  /\ rest_sed r0 = fins sed0 /\ e2_exact sed0.
Proof.
  pose proof e14_range as E14. destruct (C17_met_lemma rd_t rd_sfr rd_table (1/4) rd_lgmets rd_ages 4 4 (1 / 10 ^ 14) e2_grids eq_refl ltac:(lra) ltac:(lra)) as (W & SW & HS & HP & HF).
  destruct (HF _ e2_cube) as (r & sed & E & Es & _ & L & V). exists r, sed. split; auto. split; auto. apply e2_of_mass; auto. intros k K. rewrite V by auto.
  destruct (template_mix_bounds (length rd_lgmets) (length rd_ages) W e2_flux k (1/2) 1 SW HS HP) as [B1 B2]; [intros i j Hi Hj; now apply e2_flux_range|].
  pose proof (pow10_pos (pwlin (combine (map log10 rd_t) (map log10 (cumulative_mass rd_t (floored (1 / 10 ^ 14) rd_sfr)))) (log10 4))) as P. fold (mass_formed_by rd_t (floored (1 / 10 ^ 14) rd_sfr) 4) in P.
  split; apply Rmult_le_compat_l; lra.
Qed.
Lemma e2_at sed0 x : e2_exact sed0 -> 1000 <= x <= 8000 -> 10 ^ 8 / 2 <= spectrum_at ph_ws sed0 x.
Proof.
  intros (L & V) [H1 H2]. unfold spectrum_at. destruct (Rlt_dec _ _) as [B|_]; [unfold ph_ws, ent in B; cbn [nth] in B; lra|]. destruct (Rlt_dec _ _) as [B|_]; [unfold ph_ws, ent in B; simpl in B; lra|].
  destruct (spectrum_split _ _ _ ph_spectrum) as (_ & _ & I & _). apply (pwlin_range ph_ws sed0 x I) with (hi := 10 ^ 10); [rewrite L; reflexivity|discriminate|]. apply Forall_ent. rewrite L. intros k K. apply (V k K).
Qed.
Lemma e2_flux_S S : 10 ^ 8 / 2 <= S 3000 -> 10 ^ 8 / 2 <= S 4000 -> 10 ^ 8 / 2 <= S 5000 -> 10 ^ 10 <= 200 * (ab0 * band_flux S ph_wf ph_tf).
Proof.
  intros H1 H2 H3. set (c := 10 ^ 8 / 2) in *. assert (C : 0 < c) by (unfold c; simpl; lra). assert (I : forall y, c <= y -> 1 <= / c * y). { intros y Y. apply Rmult_le_reg_l with c; auto. rewrite <- Rmult_assoc, Rinv_r by lra. lra. }
  pose proof (ph_flux (fun x => / c * S x) (I _ H1) (I _ H2) (I _ H3)) as F. rewrite LPhot.flux_scal in F. set (f := ab0 * band_flux S ph_wf ph_tf) in *.
  replace (ab0 * (/ c * band_flux S ph_wf ph_tf)) with (/ c * f) in F by (unfold f; ring). apply (Rmult_le_compat_l c) in F; [|lra]. rewrite <- Rmult_assoc, Rinv_r, Rmult_1_l in F by lra. unfold c in F. simpl in F |- *. lra.
Qed.
Lemma e2_BI : 1 / 10 ^ 18 <= 10 ^ 10 * band_integral (fun _ => 1) ph_wf ph_tf.
Proof. eapply Rle_trans; [apply ph_BI|]. apply Rmult_le_compat_r; [rewrite ph_integral; lra|simpl; lra]. Qed.
Lemma e2_B : / 10 ^ 20 <= 10 ^ 10 <= 10 ^ 19.
Proof. split; [|apply Rle_pow; [lra|lia]]. apply Rle_trans with 1; [|apply pow_R1_Rle; lra]. rewrite <- Rinv_1. apply Rinv_le_contravar; [lra|apply pow_R1_Rle; lra]. Qed.
