(** * Concrete double-precision weights and SEDs *)
From Coq Require Import Reals List Arith Lra Lia ZArith Bool.
From Coquelicot Require Import Rcomplements.
From Flocq Require Import Core.Raux.
From Verif Require Import Num Arr MUtils MSed Float Spec SpecFloat RList LKern LBcast LUtils LAge LMet LJoint LFloat LFloat2 LFloat3 LFloat5 LFloat10 LFloat11 LFloat12 LFloat13 LRound1 LRound2 LRound3 LRound4 LRound5 LRound6 LRound7 LRound8 LRound9 LRound10 LRound11 LRound12.
Import ListNotations.
Open Scope R_scope.
#[local] Existing Instance binary64.

Lemma rd_s0 : exists s, @SFR_MIN binary64 = Fin s /\ 0 < s <= 1.
Proof.
  pose proof (rel_err_unit _ _ rd_unit) as H. destruct (rd_history (1 / 10 ^ 14)) as (_ & _ & _ & FS & B & _).
  { pose proof e14_ok. pose proof e14_range. lra. }
  destruct (floor_lit _ H (1 / 10 ^ 14) rd_sfr B FS) as (s & E & SO & _). exists s. split; [exact E|]. split; [apply SO|].
  destruct (lit_sfr H) as (s' & Es & B' & _). unfold SFR_MIN in *. rewrite E in Es. injection Es as ->. lra.
Qed.
Lemma rd_range t : In t rd_t -> rnd t = Fin t /\ t <= 1000.
Proof. intros [<-|[<-|[]]]; (split; [|lra]); [apply (LFloat9.demo_int 1)|apply (LFloat9.demo_int 2)]; auto; lia. Qed.
Lemma rd_formed : exists m, cumulative_mstar_formed (fins rd_t) (fins rd_sfr) = Ok (fins m) /\ Forall (fun x => 1.001 * 10 ^ 6 <= x <= 10 ^ (2 * 6) / 1.001) m.
Proof.
  destruct (C130_lemma binary64 _ rd_unit rd_t rd_sfr) as (m & m0 & E & E0 & L & L0 & V).
  - reflexivity. - split; [simpl; lia|]. apply (rd_history 1). pose proof e14_ok. simpl. lra.
  - apply increasing_tl with 0.001. apply times_increasing, rd_times. - unfold ent, rd_t; simpl; lra. - apply Forall_forall. exact rd_range.
  - assert (P : rnd 1 = Fin 1 /\ 0 <= 1 <= 10 ^ 20) by (split; [apply (LFloat9.demo_int 1); auto; lia|split; [lra|apply pow_R1_Rle; lra]]). unfold rd_sfr. constructor; [exact P|constructor; [exact P|constructor]].
  - exists m. split; auto. destruct rd_mass as (m1 & m2 & Em & B1 & B2 & B3).
    assert (E1 : m0 = [m1; m2]). { rewrite cum_same in E0 by reflexivity. rewrite cumulative_mass_fins in E0 by reflexivity. rewrite Em in E0. assert (E0' : fins [m1; m2] = fins m0) by congruence. clear E0. rename E0' into E0. apply fins_inj in E0. congruence. }
    subst m0. rewrite Forall_ent, L. intros i Hi. specialize (V i Hi). pose proof rd_u as U. simpl in B1, B3 |- *. change (length rd_t) with 2%nat in Hi.
    assert (BI : 0 <= INR i <= 2) by (split; [apply pos_INR|apply le_INR in Hi; rewrite S_INR in Hi; simpl in Hi; lra]).
    set (q := ent [m1; m2] i) in *. assert (Q : 10 ^ 8 <= q <= 10 ^ 10). { unfold q, ent. destruct i as [|[|i]]; cbn [nth]; simpl; try lia; lra. }
    destruct V as [V0 V]. assert (2 * (INR i + 10) * / 2 ^ 53 * q <= 1/10 * q). { apply Rmult_le_compat_r; [lra|]. apply Rle_trans with (24 * / 10 ^ 15); [apply Rmult_le_compat; lra|simpl; lra]. }
    apply Rabs_le_inv in V. simpl in Q. lra.
Qed.

Lemma rd_close n (w w0 : list R) e : length w = n -> length w0 = n -> (forall i, (i < n)%nat -> Rabs (ent w i - ent w0 i) <= e) -> Rabs (Rsum w - Rsum w0) <= INR n * e.
Proof.
  revert w w0. induction n as [|n IH]; intros [|x w] [|y w0] L L0 V; try discriminate; [simpl; rewrite Rminus_0_r, Rabs_R0; lra|].
  cbn [Rsum]. rewrite S_INR. pose proof (V O ltac:(lia)) as V0. unfold ent in V0. cbn [nth] in V0. assert (IH' : Rabs (Rsum w - Rsum w0) <= INR n * e). { apply IH; auto. intros i Hi. apply (V (S i)). lia. }
  replace (x + Rsum w - (y + Rsum w0)) with ((x - y) + (Rsum w - Rsum w0)) by ring. eapply Rle_trans; [apply Rabs_triang|]. lra.
Qed.
(** the age weights of the constant history *)
Lemma rd_a : exists a, @calc_age_weights_from_sfh_table binary64 (fins rd_t) (fins rd_sfr) (fins rd_ages) (Fin 4) SFR_MIN = Ok (fins a)
  /\ length a = 3%nat /\ Forall (fun x => 0 <= x <= 1) a /\ 9/10 <= Rsum a.
Proof.
  pose proof e14_ok as E14. pose proof e14_range as E14'. destruct (C131_age_lemma binary64 _ rd_unit 2 rd_t rd_sfr rd_ages 4 (1 / 10 ^ 14)) as (w & w0 & E & E0 & L & L0 & V).
  - apply rd_history. lra. - apply rd_rages. - apply (LFloat9.demo_int 4); auto; lia. - unfold rd_t, ent; simpl; lra. - apply rd_half. lra.
  - pose proof (rd_mamp 3 ltac:(lia)) as A. pose proof (rd_small (INR 3 * mass_amp 2 rd_t 4 3)) as S. change (length rd_ages) with 3%nat. rewrite Rmult_assoc in S. simpl (INR 3) in *. simpl in S. lra.
  - exists w. split; [exact E|]. split; [exact L|]. destruct rd_s0 as (s & Es & Bs). destruct rd_formed as (m & Em & Fm).
    destruct (C128_age_lemma binary64 _ rd_unit LFloat9.mono64 rd_t rd_sfr rd_ages 4 s m 6) as (w' & E' & D); auto; try lra; try lia.
    + discriminate. + apply times_increasing, rd_times. + apply Forall_forall, rd_range. + apply (LFloat9.demo_int 4); auto; lia. + apply rd_rages. + apply LFloat9.demo_range. + apply LFloat9.demo_edges.
    + now rewrite rd_floored.
    + unfold SFR_MIN in Es. change (lit (1 / 10 ^ 14)) with (@lit binary64 (1 / 10 ^ 14)) in E. rewrite Es in E. rewrite E in E'. injection E' as <-.
      destruct D as [D|(x & Ex & Lx & Fx & Sx)].
      * exfalso. unfold all_nan in D. destruct w as [|x w]; [discriminate|]. apply Forall_cons_iff in D. destruct D. discriminate.
      * apply fins_inj in Ex. subst x. split; auto. apply Rabs_le_inv in Sx. pose proof (rd_small (2 * (INR (length rd_ages) + 1))) as S. change (length rd_ages) with 3%nat in *. simpl (INR 3) in *. simpl (10 ^ 6) in S. simpl (10 ^ 6) in S. lra.
Qed.
(** metallicity weights of scatter 1 dex centred on log10 Z = -3/2 *)
Lemma rd_exact_met i : (i < 4)%nat -> 1/10 <= ent (met_weights (-3/2) 1 (met_edges rd_lgmets)) i.
Proof.
  intros Hi. assert (EE : met_edges rd_lgmets = [-10; -5/2; -3/2; -1/2; 10]).
  { unfold met_edges, rd_lgmets. cbn [length seq map]. unfold met_edge, node_width, ent. simpl. repeat (f_equal; try lra). }
  rewrite EE. unfold met_weights, hist_sum, tw_hist. cbn [map2 tl].
  assert (C1 : forall x, 3 <= x -> triweight_cdf x = 1). { intros x Hx. rewrite tw_hi by lra. reflexivity. }
  assert (C0 : forall x, x <= -3 -> triweight_cdf x = 0). { intros x Hx. rewrite tw_lo by lra. reflexivity. }
  rewrite (C1 ((-3 / 2 - -10) / 1)) by lra. rewrite (C0 ((-3/2 - 10) / 1)) by lra. rewrite !tw_mid by lra.
  replace (tw_poly ((-3 / 2 - -5 / 2) / 1)) with (tw_poly 1) by (f_equal; lra). replace (tw_poly ((-3 / 2 - -3 / 2) / 1)) with (tw_poly 0) by (f_equal; lra). replace (tw_poly ((-3 / 2 - -1 / 2) / 1)) with (tw_poly (-1)) by (f_equal; lra).
  cbn [Rsum]. assert (P1 : 0.82 <= tw_poly 1 <= 0.83) by (unfold tw_poly; lra). assert (P0 : tw_poly 0 = 1/2) by (unfold tw_poly; lra). assert (PM : 0.17 <= tw_poly (-1) <= 0.18) by (unfold tw_poly; lra). rewrite P0.
  destruct (Req_EM_T _ 0); [lra|]. cbn [map]. unfold ent. match goal with |- context [_ / ?x] => replace x with 1 by lra end.
  destruct i as [|[|[|[|i]]]]; cbn [nth]; try lia; lra.
Qed.
Lemma rd_b : exists b, @calc_lgmet_weights_from_lognormal_mdf binary64 (Fin (-3/2)) (Fin 1) (fins rd_lgmets) = Ok (fins b)
  /\ length b = 4%nat /\ Forall (fun x => 0 <= x <= 1) b /\ 9/10 <= Rsum b.
Proof.
  destruct (C132_met_lemma binary64 _ rd_unit (-3/2) 1 rd_lgmets) as (w & w0 & E & E0 & L & L0 & V).
  - rewrite Rabs_left; lra. - apply (LFloat9.demo_int 1); auto; lia. - lra. - apply rd_rlgmets.
  - pose proof rd_u as U. change (length rd_lgmets) with 4%nat. simpl (INR 4). pose proof (rd_small (162 * 4)) as S. simpl (10 ^ 6) in S. simpl (10 ^ 6) in S. lra.
  - assert (R : rounding_lgmets rd_lgmets) by apply rd_rlgmets. destruct R as (RL & _ & ND).
    rewrite lognormal_fins in E0 by (auto; try lra; apply RL). injection E0 as E0. apply fins_inj in E0.
    destruct (met_weights_dist_met (-3/2) 1 rd_lgmets) as [[D1 D2] _]; auto; try lra; [apply RL|]. rewrite E0 in D1, D2.
    pose proof rd_exact_met as LB. rewrite E0 in LB. change (length rd_lgmets) with 4%nat in *.
    exists w. split; auto. split; auto. assert (VE : forall i, (i < 4)%nat -> Rabs (ent w i - ent w0 i) <= 1/1000).
    { intros i Hi. eapply Rle_trans; [apply V; auto|]. simpl (INR 4). pose proof (rd_small (10 * 162)) as S. simpl (10 ^ 6) in S. simpl (10 ^ 6) in S. lra. }
    split.
    + apply Forall_ent. rewrite L. intros i Hi. specialize (VE i Hi). apply Rabs_le_inv in VE. pose proof (LB i Hi) as Bi.
      assert (UB : ent w0 i <= 9/10). { set (j := if Nat.eq_dec i 0 then 1%nat else 0%nat). assert (J : (j < 4)%nat /\ j <> i) by (unfold j; destruct (Nat.eq_dec i 0); lia). pose proof (LB j (proj1 J)) as Bj.
        assert (S : ent w0 i + ent w0 j <= 1); [|lra]. rewrite <- D2. destruct w0 as [|p [|q [|r [|s [|? ?]]]]]; try discriminate. cbn [Rsum]. rewrite Forall_ent in D1. pose proof (D1 0%nat ltac:(simpl; lia)) as Q0. pose proof (D1 1%nat ltac:(simpl; lia)) as Q1. pose proof (D1 2%nat ltac:(simpl; lia)) as Q2. pose proof (D1 3%nat ltac:(simpl; lia)) as Q3.
        unfold ent in *. cbn [nth] in *. unfold j. destruct i as [|[|[|[|i]]]]; try lia; cbn [nth Nat.eq_dec nat_rec nat_rect]; simpl; lra. }
      lra.
    + pose proof (rd_close 4 w w0 (1/1000) L L0 VE) as C. simpl (INR 4) in C. apply Rabs_le_inv in C. lra.
Qed.
Lemma rd_joint : exists r a b, @calc_ssp_weights_sfh_table_lognormal_mdf binary64 (fins rd_t) (fins rd_sfr) (Fin (-3/2)) (Fin 1) (fins rd_lgmets) (fins rd_ages) (Fin 4) = Ok r
  /\ age_weights r = fins a /\ lgmet_weights r = fins b /\ length a = 3%nat /\ length b = 4%nat
  /\ Forall (fun x => 0 <= x <= 1) a /\ Forall (fun x => 0 <= x <= 1) b /\ / 2 <= Rsum a /\ / 2 <= Rsum b.
Proof.
  destruct rd_a as (a & Ea & La & Fa & Sa). destruct rd_b as (b & Eb & Lb & Fb & Sb). eexists. exists a, b. split.
  - unfold calc_ssp_weights_sfh_table_lognormal_mdf. rewrite Ea. cbn [bind]. rewrite Eb. cbn [bind]. reflexivity.
  - cbn [age_weights lgmet_weights]. repeat split; auto; lra.
Qed.
Lemma row_lower row : forall a c, length row = length a -> Forall (fun x => c <= x) row -> Forall (fun x => 0 <= x <= 1) a -> c * Rsum a <= Rsum (map2 Rmult row a).
Proof.
  induction row as [|x row IH]; intros [|y a] c L F G; try discriminate; [simpl; lra|]. apply Forall_cons_iff in F. destruct F as [F1 F]. apply Forall_cons_iff in G. destruct G as [G1 G].
  cbn [map2 Rsum]. specialize (IH a c ltac:(simpl in L; lia) F G). assert (c * y <= x * y) by (apply Rmult_le_compat_r; lra). lra.
Qed.
Definition rd_flat : list R := [-3/2; -3/2].
Lemma rd_rflat : rounding_lgmet_table 0 rd_t rd_flat.
Proof.
  split; [reflexivity|]. split; [lra|]. split.
  - intros i Hi. assert (P : rnd (-3/2) = Fin (-3/2)) by (apply (rnd_dy good_binary64 (-3) 1); [lia|lia|simpl; lra]). destruct i as [|[|i]]; [| |simpl in Hi; lia]; unfold ent, rd_flat; cbn [nth]; split; auto; lra.
  - intros i Hi. destruct i as [|i]; [|simpl in Hi; lia]. unfold ent, rd_t, rd_flat; cbn [nth]. replace (-3/2 - -3/2) with 0 by lra. rewrite Rabs_R0. lra.
Qed.
Lemma rd_B : exists B, @calc_lgmet_weights_from_lgmet_table binary64 (fins rd_t) (fins rd_flat) (Fin 1) (fins rd_lgmets) (fins rd_ages) (Fin 4) = Ok (map fins B)
  /\ is_matrix 4 3 B /\ (forall i j, (i < 4)%nat -> (j < 3)%nat -> 0 <= ent2 B i j <= 1 /\ ent (met_weights (-3/2) 1 (met_edges rd_lgmets)) i / 3 - 1/1000 <= ent2 B i j).
Proof.
  assert (Kf : lgmet_amp 0 rd_t 4 = 100) by (unfold lgmet_amp; lra).
  destruct (C132_table_lemma binary64 _ rd_unit 0 rd_t rd_flat 1 rd_lgmets rd_ages 4) as (B & B0 & E & E0 & M & M0 & V).
  - apply rd_times. - apply rd_rflat. - apply rd_rlgmets. - split; [simpl; lia|apply rd_rages]. - apply LFloat9.demo_range. - apply (LFloat9.demo_int 4); auto; lia. - unfold rd_t, ent; simpl; lra. - apply (LFloat9.demo_int 1); auto; lia. - lra.
  - rewrite Kf. change (length rd_lgmets) with 4%nat. simpl (INR 4). pose proof (rd_small (262 * 4)) as S. simpl (10 ^ 6) in S. simpl (10 ^ 6) in S. lra.
  - exists B. split; auto. split; auto. assert (R : rounding_lgmets rd_lgmets) by apply rd_rlgmets. destruct R as (RL & _ & ND).
    pose proof (times_increasing _ rd_times) as TI.
    rewrite lgmet_table_weights_fins in E0; [|reflexivity|discriminate|intros x Hx; pose proof (increasing_head _ _ _ TI Hx); lra|now apply increasing_tl in TI|lra|apply RL|exact ND].
    assert (E1 : map fins (met_matrix rd_t rd_flat 1 rd_lgmets rd_ages 4) = map fins B0) by (injection E0 as E0; exact E0). clear E0.
    assert (FV : forall X, map (map fval) (map fins X) = X). { intros X. rewrite map_map. rewrite <- (map_id X) at 2. apply map_ext. intros l. unfold fins. rewrite map_map. rewrite <- (map_id l) at 2. apply map_ext. reflexivity. }
    apply (f_equal (map (map fval))) in E1. rewrite !FV in E1. subst B0. intros i j Hi Hj. specialize (V i j Hi Hj). rewrite met_matrix_ent in V by auto.
    assert (EL : lgmet_at_birth rd_t rd_flat 4 (ent rd_ages j) = -3/2).
    { unfold lgmet_at_birth, rd_t, rd_flat. cbn [map combine pwlin]. destruct (Rle_dec _ _); auto. destruct (Rlt_dec _ _); auto. lra. }
    rewrite EL, Kf in V. change (length rd_lgmets) with 4%nat in V. change (length rd_ages) with 3%nat in V. simpl (INR _) in V.
    pose proof (rd_small (10 * 262)) as S. simpl (10 ^ 6) in S. simpl (10 ^ 6) in S. pose proof rd_u as U. simpl (10 ^ 15) in U. pose proof (rd_exact_met i Hi) as LB.
    destruct (met_weights_dist_met (-3/2) 1 rd_lgmets) as [[D1 D2] DL]; auto; try lra; [apply RL|]. rewrite Forall_ent, DL in D1.
    assert (UB : ent (met_weights (-3/2) 1 (met_edges rd_lgmets)) i <= 1). { apply Rle_trans with (Rsum (met_weights (-3/2) 1 (met_edges rd_lgmets))); [|lra]. apply Rsum_In_le; [apply Forall_ent; rewrite DL; exact D1|]. apply nth_In. rewrite DL. exact Hi. }
    set (q := ent (met_weights (-3/2) 1 (met_edges rd_lgmets)) i) in *. replace (2 + 1) with 3 in V by lra. apply Rabs_le_inv in V. split; lra.
Qed.
Lemma rd_joint_met : exists r a B, @calc_ssp_weights_sfh_table_met_table binary64 (fins rd_t) (fins rd_sfr) (fins rd_flat) (Fin 1) (fins rd_lgmets) (fins rd_ages) (Fin 4) = Ok r
  /\ age_weights r = fins a /\ lgmet_weights r = map fins B /\ length a = 3%nat /\ is_matrix 4 3 B
  /\ Forall (fun x => 0 <= x <= 1) a /\ Forall (Forall (fun x => 0 <= x <= 1)) B /\ / 4 <= Rsum2 (map (fun row => map2 Rmult row a) B).
Proof.
  destruct rd_a as (a & Ea & La & Fa & Sa). destruct rd_B as (B & EB & MB & VB). eexists. exists a, B. split.
  - unfold calc_ssp_weights_sfh_table_met_table. rewrite Ea. cbn [bind]. rewrite EB. cbn [bind]. reflexivity.
  - cbn [age_weights lgmet_weights]. split; auto. split; auto. split; auto. split; auto. split; auto. destruct MB as [ML MR].
    assert (R : rounding_lgmets rd_lgmets) by apply rd_rlgmets. destruct R as (RL & _ & ND).
    destruct (met_weights_dist_met (-3/2) 1 rd_lgmets) as [[_ D2] DL]; auto; try lra; [apply RL|]. set (q := met_weights (-3/2) 1 (met_edges rd_lgmets)) in *.
    split.
    + apply Forall_forall. intros row Hr. destruct (In_nth _ _ [] Hr) as (i & Hi & <-). apply Forall_ent. intros j Hj. rewrite Forall_forall in MR. apply (VB i j); [lia|]. rewrite <- (MR _ Hr). exact Hj.
    + assert (RR : forall i, (i < 4)%nat -> (ent q i / 3 - 1/1000) * Rsum a <= Rsum (map2 Rmult (nth i B []) a)).
      { intros i Hi. assert (LR : length (nth i B []) = 3%nat) by (rewrite Forall_forall in MR; apply MR, nth_In; lia). apply row_lower; [congruence| |auto]. apply Forall_ent. rewrite LR. intros j Hj. apply (VB i j Hi Hj). }
      pose proof (RR 0%nat ltac:(lia)) as R0. pose proof (RR 1%nat ltac:(lia)) as R1. pose proof (RR 2%nat ltac:(lia)) as R2. pose proof (RR 3%nat ltac:(lia)) as R3.
      destruct B as [|b0 [|b1 [|b2 [|b3 [|? ?]]]]]; try discriminate. unfold Rsum2. cbn [map Rsum nth] in *.
      assert (SQ : ent q 0 + ent q 1 + ent q 2 + ent q 3 = 1). { clearbody q. destruct q as [|p0 [|p1 [|p2 [|p3 [|? ?]]]]]; try discriminate. cbn [Rsum] in D2. unfold ent. cbn [nth]. lra. }
      assert (T : (1/3 - 4/1000) * Rsum a <= (ent q 0 / 3 - 1/1000) * Rsum a + (ent q 1 / 3 - 1/1000) * Rsum a + (ent q 2 / 3 - 1/1000) * Rsum a + (ent q 3 / 3 - 1/1000) * Rsum a).
      { rewrite <- !Rmult_plus_distr_r. apply Rmult_le_compat_r; lra. }
      lra.
Qed.
Lemma rd_M' : exists M, @mstar_at_t_obs binary64 (fins rd_t) (fins rd_sfr) (Fin 4) (lit (1 / 10 ^ 14)) = Fin M /\ 0 <= M <= 10 ^ 11.
Proof.
  pose proof e14_ok as E14. pose proof e14_range as E14'. destruct (C131_mass_lemma binary64 _ rd_unit 2 rd_t rd_sfr 4 (1 / 10 ^ 14)) as (M & M0 & E & E0 & P & V).
  - apply rd_history. lra. - apply (LFloat9.demo_int 4); auto; lia. - unfold rd_t, ent; simpl; lra.
  - pose proof (rd_mamp 0 ltac:(lia)) as A. pose proof (rd_small (mass_amp 2 rd_t 4 0)) as S. simpl in S. lra.
  - exists M. split; auto. rewrite mstar_fin in E0; try reflexivity; try discriminate; try lra; [|apply times_increasing, rd_times].
    assert (E1 : mass_formed_by rd_t (floored (1 / 10 ^ 14) rd_sfr) 4 = M0) by (injection E0; auto). clear E0; rename E1 into E0.
    pose proof (rd_M (1 / 10 ^ 14) ltac:(lra)) as U. rewrite E0 in U. pose proof (rd_mamp 0 ltac:(lia)) as A. pose proof (rd_small (4 * mass_amp 2 rd_t 4 0)) as S. simpl (10 ^ 6) in S. simpl (10 ^ 6) in S.
    assert (4 * mass_amp 2 rd_t 4 0 * / 2 ^ 53 * M0 <= 1/2 * M0) by (apply Rmult_le_compat_r; lra). apply Rabs_le_inv in V. simpl in U |- *. lra.
Qed.
Lemma rd_mix W k : is_matrix 4 3 W -> (forall i j, (i < 4)%nat -> (j < 3)%nat -> 0 <= ent2 W i j) -> Rsum2 W <= 2 -> (k < 2)%nat -> template_mix 4 3 W rd_flux k <= 2.
Proof.
  intros [L F] P S Hk. apply Rle_trans with (Rsum2 W); auto. destruct W as [|r0 [|r1 [|r2 [|r3 [|? ?]]]]]; try discriminate. apply Forall_cons_iff in F. destruct F as [F0 F]. apply Forall_cons_iff in F. destruct F as [F1 F]. apply Forall_cons_iff in F. destruct F as [F2 F]. apply Forall_cons_iff in F. destruct F as [F3 F].
  destruct r0 as [|a0 [|b0 [|c0 [|? ?]]]]; try discriminate. destruct r1 as [|a1 [|b1 [|c1 [|? ?]]]]; try discriminate. destruct r2 as [|a2 [|b2 [|c2 [|? ?]]]]; try discriminate. destruct r3 as [|a3 [|b3 [|c3 [|? ?]]]]; try discriminate.
  pose proof (P 0 0 ltac:(lia) ltac:(lia))%nat. pose proof (P 0 1 ltac:(lia) ltac:(lia))%nat. pose proof (P 0 2 ltac:(lia) ltac:(lia))%nat. pose proof (P 1 0 ltac:(lia) ltac:(lia))%nat. pose proof (P 1 1 ltac:(lia) ltac:(lia))%nat. pose proof (P 1 2 ltac:(lia) ltac:(lia))%nat.
  pose proof (P 2 0 ltac:(lia) ltac:(lia))%nat. pose proof (P 2 1 ltac:(lia) ltac:(lia))%nat. pose proof (P 2 2 ltac:(lia) ltac:(lia))%nat. pose proof (P 3 0 ltac:(lia) ltac:(lia))%nat. pose proof (P 3 1 ltac:(lia) ltac:(lia))%nat. pose proof (P 3 2 ltac:(lia) ltac:(lia))%nat.
  unfold template_mix, ent3, ent2, ent, Rsum2 in *. cbn [nth seq map Rsum rd_flux repeat] in *. destruct k as [|[|k]]; cbn [nth]; try lia; lra.
Qed.
(** an SED whose weights are a concrete double-precision computation *)
Lemma rd_sed : exists r W M, @calc_rest_sed_sfh_table_lognormal_mdf binary64 (fins rd_t) (fins rd_sfr) (Fin (-3/2)) (Fin 1) (fins rd_lgmets) (fins rd_ages) (fins3 rd_flux) (Fin 4) (lit (1 / 10 ^ 14)) = Ok r
  /\ @mstar_at_t_obs binary64 (fins rd_t) (fins rd_sfr) (Fin 4) (lit (1 / 10 ^ 14)) = Fin M /\ 0 <= M <= 10 ^ 11 /\ rs_weights r = map fins W /\ is_matrix 4 3 W
  /\ (forall i j, (i < 4)%nat -> (j < 3)%nat -> 0 <= ent2 W i j) /\ (forall k, (k < 2)%nat -> template_mix 4 3 W rd_flux k <= 2).
Proof.
  destruct rd_M' as (M & EM & BM). destruct rd_joint as (r & a & b & E & Ea & Eb & La & Lb & Fa & Fb & Sa & Sb).
  destruct (C128_joint_lemma binary64 _ rd_unit _ _ _ _ _ _ _ r a b E Ea Eb Fa Fb) as (W & EW & MW & SW & PW); auto.
  { rewrite La, Lb. apply Nat.le_trans with (2 ^ 4)%nat; [simpl; lia|apply Nat.pow_le_mono_r; lia]. }
  rewrite La, Lb in *. eexists. exists W, M. split.
  - unfold calc_rest_sed_sfh_table_lognormal_mdf. rewrite E. cbn [bind]. reflexivity.
  - cbn [rs_weights]. split; auto. split; auto. split; auto. split; auto. assert (PW' : forall i j, (i < 4)%nat -> (j < 3)%nat -> 0 <= ent2 W i j) by (intros i j Hi Hj; destruct (PW i j Hi Hj) as ((? & ?) & _); auto). split; auto.
    intros k Hk. apply rd_mix; auto. change (4 * 3)%nat with 12%nat in SW. pose proof (rd_small (2 * (INR 12 + 1))) as S. simpl (INR 12) in *. simpl (10 ^ 6) in S. simpl (10 ^ 6) in S. apply Rabs_le_inv in SW. lra.
Qed.
Lemma rd_sed_met : exists r W M, @calc_rest_sed_sfh_table_met_table binary64 (fins rd_t) (fins rd_sfr) (fins rd_flat) (Fin 1) (fins rd_lgmets) (fins rd_ages) (fins3 rd_flux) (Fin 4) (lit (1 / 10 ^ 14)) = Ok r
  /\ @mstar_at_t_obs binary64 (fins rd_t) (fins rd_sfr) (Fin 4) (lit (1 / 10 ^ 14)) = Fin M /\ 0 <= M <= 10 ^ 11 /\ rs_weights r = map fins W /\ is_matrix 4 3 W
  /\ (forall i j, (i < 4)%nat -> (j < 3)%nat -> 0 <= ent2 W i j) /\ (forall k, (k < 2)%nat -> template_mix 4 3 W rd_flux k <= 2).
Proof.
  destruct rd_M' as (M & EM & BM). destruct rd_joint_met as (r & a & B & E & Ea & EB & La & MB & Fa & FB & SB).
  destruct (C128_joint_met_lemma binary64 _ rd_unit _ _ _ _ _ _ _ r a B 4 E Ea EB) as (W & EW & MW & SW & PW); auto; rewrite ?La in *; auto.
  { apply Nat.le_trans with (2 ^ 4)%nat; [simpl; lia|apply Nat.pow_le_mono_r; lia]. }
  eexists. exists W, M. split.
  - unfold calc_rest_sed_sfh_table_met_table. rewrite E. cbn [bind]. reflexivity.
  - cbn [rs_weights]. split; auto. split; auto. split; auto. split; auto. assert (PW' : forall i j, (i < 4)%nat -> (j < 3)%nat -> 0 <= ent2 W i j) by (intros i j Hi Hj; destruct (PW i j Hi Hj) as ((? & ?) & _); auto). split; auto.
    intros k Hk. apply rd_mix; auto. change (4 * 3)%nat with 12%nat in SW. pose proof (rd_small (2 * (INR 12 + 1))) as S. simpl (INR 12) in *. simpl (10 ^ 6) in S. simpl (10 ^ 6) in S. apply Rabs_le_inv in SW. lra.
Qed.
