(** * Metallicity tables: weights and SEDs in rounded arithmetic *)
From Coq Require Import Reals List Arith Lra Lia ZArith Bool.
From Coquelicot Require Import Rcomplements.
From Flocq Require Import Core.Raux.
From Verif Require Import Num Arr MUtils MSed Float Spec SpecFloat RList LUtils LAge LMet LJoint LFloat LFloat2 LFloat3 LFloat5 LFloat10 LFloat11 LFloat12 LRound1 LRound2 LRound3 LRound4 LRound5 LRound6 LRound7 LRound8 LRound9 LRound10.
Import ListNotations.
Open Scope R_scope.

Lemma fval_ent (l : list num) (w : list R) i : l = fins w -> (i < length w)%nat -> at_ l i = Fin (ent w i).
Proof. intros -> Hi. now apply at_fins. Qed.

Section F.
Context {AR : Arith} (u : R) (H : rel_err AR u) (HE : interp_eps <= / 2 ^ 40).
Let G := re_good _ _ H.

Lemma lgmet_range ts ms K t e : times_ok ts -> rounding_lgmet_table K ts ms -> Rabs (lgmet_at_birth ts ms t e) <= 5.
Proof.
  intros TO (LL & K0 & VM & SB). destruct (times_range _ TO) as [I R]. apply Rabs_le. unfold lgmet_at_birth.
  replace (- (5)) with (-5) by lra. apply pwlin_range.
  - apply log10_increasing; auto. intros t' Ht. apply In_ent in Ht. destruct Ht as (i & Hi & <-). specialize (R i Hi). lra.
  - now rewrite map_length.
  - apply map_neq_nil. apply TO.
  - apply Forall_ent. intros i Hi. apply VM. lia.
Qed.

Lemma met_table_err ts ms h lgmets ages t K : times_ok ts -> rounding_lgmet_table K ts ms -> rounding_lgmets lgmets -> (1 <= length ages <= 2 ^ 18)%nat ->
  (forall i, (i < length ages)%nat -> -4 <= ent ages i <= 4) -> rnd t = Fin t -> ent ts 0 <= t <= 1000 -> rnd h = Fin h -> 1/1000 <= h <= 1 ->
  let eta := (130 + 8 * INR (length lgmets) + lgmet_amp K ts t) * u / h in INR (length lgmets) * eta <= 1/25 ->
  exists B, calc_lgmet_weights_from_lgmet_table (fins ts) (fins ms) (Fin h) (fins lgmets) (fins ages) (Fin t) = Ok (map fins B)
    /\ is_matrix (length lgmets) (length ages) B
    /\ forall i j, (i < length lgmets)%nat -> (j < length ages)%nat ->
       Rabs (ent2 B i j - ent2 (met_matrix ts ms h lgmets ages t) i j) <= (10 * eta + 1.2 * u) / INR (length ages).
Proof.
  intros TO RM (Lm & RL & NM) La RA Rt Bt Rh Bh eta HN. pose proof (u_le u H) as Hu. simpl (10 ^ 6) in Hu. assert (LL := proj1 RM).
  assert (T0 : 0.003 <= ent ts 0) by apply TO. assert (K0 : 0 <= K) by apply RM.
  assert (N1 : 1 <= INR (length ages)) by (apply (le_INR 1); lia). set (na := INR (length ages)) in *.
  assert (C0 : 0 <= lgmet_amp K ts t). { unfold lgmet_amp. assert (0 <= K * (t / ent ts 0)) by (apply Rmult_le_pos; [lra|apply Rdiv_le_0_compat; lra]). replace (321 * K * (t / ent ts 0)) with (321 * (K * (t / ent ts 0))) by ring. lra. }
  assert (Hb3 : 3 <= INR (length lgmets)). { replace 3 with (INR 3) by (simpl; lra). apply le_INR. lia. }
  assert (E0 : 0 <= eta). { unfold eta. apply Rdiv_le_0_compat; [|lra]. apply Rmult_le_pos; lra. }
  assert (E1 : eta <= 1/75). { assert (3 * eta <= INR (length lgmets) * eta) by (apply Rmult_le_compat_r; lra). lra. }
  set (edges := get_bin_edges_k (fins lgmets) LGMET_LO LGMET_HI).
  set (col := fun e => get_lgmet_weights_singlegal (interp (get_lgt_birth (Fin t) (Fin e)) (map nlog10 (fins ts)) (fins ms)) (Fin h) edges).
  set (w0 := fun e => met_weights (lgmet_at_birth ts ms t e) h (met_edges lgmets)).
  assert (Q : forall e, -4 <= e <= 4 -> exists w, col e = fins w /\ length w = length lgmets /\ forall i, (i < length lgmets)%nat -> rnd (ent w i) = Fin (ent w i) /\ Rabs (ent w i - ent (w0 e) i) <= 10 * eta).
  { intros e He. destruct (lgmet_err u H HE ts ms K t e TO RM Rt Bt He) as (x & Ex & Dx). unfold col. rewrite Ex.
    apply (met_weights_err u H (lgmet_at_birth ts ms t e) x h lgmets (lgmet_amp K ts t)); auto. eapply lgmet_range; eauto. }
  assert (T2 : (u * / 2 ^ 102) <= 0.01 * (u / na)).
  { eapply Rle_trans; [apply (re_tiny2 _ _ H)|]. replace (0.01 * (u / na)) with (u * (0.01 * / na)) by (unfold Rdiv; ring). apply Rmult_le_compat_l; [lra|].
    assert (na <= 2 ^ 18). { destruct La as [_ La]. apply le_INR in La. rewrite pow_INR in La. exact La. }
    apply Rle_trans with (/ 2 ^ 10 * / 2 ^ 18).
    - rewrite <- Rinv_mult, <- pow_add. apply Rinv_le; [apply pow_lt; lra|apply Rle_pow; [lra|lia]].
    - apply Rmult_le_compat; [apply Rlt_le, Rinv_0_lt_compat, pow_lt; lra|apply Rlt_le, Rinv_0_lt_compat, pow_lt; lra|simpl; lra|apply Rinv_le; lra]. }
  assert (Q2 : forall e i, -4 <= e <= 4 -> (i < length lgmets)%nat -> exists b, at_ (map (fun w => ndiv w (Fin na)) (col e)) i = Fin b /\ Rabs (b - ent (w0 e) i / na) <= (10 * eta + 1.2 * u) / na).
  { intros e i He Hi. destruct (Q e He) as (w & Ew & Lw & Vw). rewrite Ew. rewrite at_map by (rewrite fins_length; lia). rewrite at_fins by lia.
    destruct (Vw i Hi) as [R1 D1]. set (x := ent w i) in *.
    destruct (met_weights_dist_met (lgmet_at_birth ts ms t e) h lgmets ltac:(lra) ltac:(lia) NM) as [[P S] L]. fold (w0 e) in P, S, L.
    assert (B0 : 0 <= ent (w0 e) i <= 1). { split; [rewrite Forall_ent in P; apply P; lia|]. rewrite <- S. apply Rsum_In_le; auto. apply ent_In. lia. }
    apply Rabs_le_inv in D1. assert (BX : Rabs x <= 1.14) by (apply Rabs_le; lra).
    unfold ndiv. destruct (Req_bool_spec na 0); [lra|]. 
    destruct (rnd_range _ G (x / na)) as (b & Eb).
    { unfold Rdiv. rewrite Rabs_mult, (Rabs_right (/ na)) by (apply Rle_ge, Rlt_le, Rinv_0_lt_compat; lra). apply Rle_trans with (1.14 * 1).
      - apply Rmult_le_compat; auto; [apply Rabs_pos|apply Rlt_le, Rinv_0_lt_compat; lra|rewrite <- Rinv_1; apply Rinv_le; lra].
      - apply Rle_trans with (10 ^ 1); [simpl; lra|apply Rle_pow; [lra|lia]]. }
    rewrite Eb. exists b. split; auto. pose proof (re_any _ _ H _ _ Eb) as D2. 
    assert (D3 : Rabs (x / na) <= 1.14 / na). { unfold Rdiv. rewrite Rabs_mult, (Rabs_right (/ na)) by (apply Rle_ge, Rlt_le, Rinv_0_lt_compat; lra). apply Rmult_le_compat_r; [apply Rlt_le, Rinv_0_lt_compat; lra|auto]. }
    assert (D4 : u * Rabs (x / na) <= 1.14 * (u / na)). { replace (1.14 * (u / na)) with (u * (1.14 / na)) by (unfold Rdiv; ring). apply Rmult_le_compat_l; lra. }
    assert (D5 : Rabs (x / na - ent (w0 e) i / na) <= 10 * eta / na).
    { replace (x / na - ent (w0 e) i / na) with ((x - ent (w0 e) i) * / na) by (field; lra). rewrite Rabs_mult, (Rabs_right (/ na)) by (apply Rle_ge, Rlt_le, Rinv_0_lt_compat; lra).
      unfold Rdiv. apply Rmult_le_compat_r; [apply Rlt_le, Rinv_0_lt_compat; lra|apply Rabs_le; lra]. }
    assert (UN : 0 <= u / na) by (apply Rdiv_le_0_compat; lra).
    replace (b - ent (w0 e) i / na) with ((b - x / na) + (x / na - ent (w0 e) i / na)) by lra. eapply Rle_trans; [apply Rabs_triang|].
    replace ((10 * eta + 1.2 * u) / na) with (10 * eta / na + 1.2 * (u / na)) by (unfold Rdiv; ring). lra. }
  set (B := map (fun i => map (fun e => fval (at_ (map (fun w => ndiv w (Fin na)) (col e)) i)) ages) (seq 0 (length lgmets))).
  assert (AG : forall e, In e ages -> -4 <= e <= 4) by (intros e He; apply In_ent in He; destruct He as (j & Hj & <-); auto).
  exists B. split; [|split].
  - unfold calc_lgmet_weights_from_lgmet_table, check_gal_tables, check_templates, check.
    replace (same_len (fins ts) (fins ms)) with true by (symmetry; apply same_len_true; now rewrite !fins_length). rewrite !fins_length.
    destruct (Nat.eqb_spec (length ts) 0) as [Z|_]. { destruct ts; [exfalso; apply (proj1 TO); reflexivity|simpl in Z; lia]. }
    destruct (Nat.leb_spec 3 (length lgmets)) as [_|]; [|lia]. cbn [negb]. f_equal. unfold calc_lgmet_weights_from_lgmet_table_k, calc_lgmet_at_ssp_lgage_table. fold edges. rewrite !fins_length. fold na. set (lt := map nlog10 (fins ts)) in *. clearbody lt.
    unfold transpose, B. rewrite (map_map _ fins). apply map_ext_in. intros i Hi. apply in_seq in Hi. unfold fins. rewrite !map_map. apply map_ext_in. intros e He. fold (fins ts) (fins ms).
    destruct (Q2 e i (AG e He) ltac:(lia)) as (b & Eb & _). unfold col in *. rewrite Eb. reflexivity.
  - unfold B. split; [now rewrite map_length, seq_length|]. apply Forall_map, Forall_forall. intros i _. now rewrite map_length.
  - intros i j Hi Hj. rewrite met_matrix_ent by auto. unfold ent2, B. rewrite (nth_map' _ _ _ O) by (rewrite seq_length; auto). rewrite seq_nth by auto. cbn [Nat.add]. rewrite ent_map by auto.
    destruct (Q2 (ent ages j) i (RA j Hj) Hi) as (b & -> & Db). exact Db.
Qed.

(** entrywise products of matrices and a vector *)
Lemma row_l1 row : forall row0 a a0 d, length row = length row0 -> length row = length a -> length a = length a0 -> (forall j, (j < length row)%nat -> Rabs (ent row j - ent row0 j) <= d) -> Forall (fun x => 0 <= x) row0 ->
  l1 (map2 Rmult row a) (map2 Rmult row0 a0) <= d * Rsuma a + Rsum (map2 Rmult row0 (map2 (fun x y => Rabs (x - y)) a a0)).
Proof.
  induction row as [|r row IH]; intros [|r0 row0] [|x a] [|x0 a0] d L1 L2 L3 D P; try discriminate; [unfold l1, Rsuma; cbn; lra|].
  apply Forall_cons_iff in P. destruct P as [P0 P]. specialize (IH row0 a a0 d ltac:(simpl in L1; lia) ltac:(simpl in L2; lia) ltac:(simpl in L3; lia)).
  assert (IH' : l1 (map2 Rmult row a) (map2 Rmult row0 a0) <= d * Rsuma a + Rsum (map2 Rmult row0 (map2 (fun x y => Rabs (x - y)) a a0))).
  { apply IH; auto. intros j Hj. specialize (D (S j)). rewrite !ent_cons_S in D. apply D. simpl. lia. }
  specialize (D 0%nat ltac:(simpl; lia)). rewrite !ent_0 in D. unfold l1, Rsuma in *. cbn [map map2 Rsum].
  assert (Rabs (r * x - r0 * x0) <= d * Rabs x + r0 * Rabs (x - x0)); [|lra].
  replace (r * x - r0 * x0) with ((r - r0) * x + r0 * (x - x0)) by ring. eapply Rle_trans; [apply Rabs_triang|]. rewrite !Rabs_mult, (Rabs_right r0) by lra.
  assert (Rabs (r - r0) * Rabs x <= d * Rabs x) by (apply Rmult_le_compat_r; [apply Rabs_pos|auto]). lra.
Qed.
Lemma mat_l1 n m B B0 a a0 d : is_matrix n m B -> is_matrix n m B0 -> length a = m -> length a0 = m -> (forall i j, (i < n)%nat -> (j < m)%nat -> Rabs (ent2 B i j - ent2 B0 i j) <= d) -> Forall (Forall (fun x => 0 <= x)) B0 ->
  l1 (concat (map (fun row => map2 Rmult row a) B)) (concat (map (fun row => map2 Rmult row a0) B0))
  <= INR n * (d * Rsuma a) + Rsum2 (map (fun row => map2 Rmult row (map2 (fun x y => Rabs (x - y)) a a0)) B0).
Proof.
  intros [LB HB] [LB0 HB0] La La0. revert n B0 LB LB0 HB0. induction HB as [|row B Hr HB IH]; intros n [|row0 B0] LB LB0 HB0 D P; simpl in LB, LB0; subst n; try discriminate.
  - unfold l1, Rsum2. cbn. lra.
  - apply Forall_cons_iff in HB0, P. destruct HB0 as [Hr0 HB0]. destruct P as [P0 P]. cbn [map concat length]. rewrite S_INR. unfold Rsum2 in *. cbn [map Rsum].
    assert (l1 (concat (map (fun row => map2 Rmult row a) B)) (concat (map (fun row => map2 Rmult row a0) B0))
       <= INR (length B) * (d * Rsuma a) + Rsum (map Rsum (map (fun row => map2 Rmult row (map2 (fun x y => Rabs (x - y)) a a0)) B0))).
    { apply IH; auto; try lia. intros i j Hi Hj. apply (D (S i) j); lia. }
    rewrite l1_app by (rewrite !map2_length; lia).
    assert (l1 (map2 Rmult row a) (map2 Rmult row0 a0) <= d * Rsuma a + Rsum (map2 Rmult row0 (map2 (fun x y => Rabs (x - y)) a a0))); [|lra].
    apply row_l1; auto; try lia. intros j Hj. apply (D 0%nat j); lia.
Qed.
Lemma columns_dot n m B0 z c : is_matrix n m B0 -> length z = m -> (forall j, (j < m)%nat -> Rsum (map (fun i => ent2 B0 i j) (seq 0 n)) = c) ->
  Rsum2 (map (fun row => map2 Rmult row z) B0) = c * Rsum z.
Proof.
  intros MB Lz C. assert (MP : is_matrix n m (map (fun row => map2 Rmult row z) B0)) by (apply (matrix_map2 n m B0 z); auto).
  rewrite (Rsum2_columns _ _ _ MP). rewrite (Rsum_map_ext _ (fun j => ent z j * c)).
  - rewrite <- (map_map (ent z) (fun x => x * c)), Rsum_scal_r, <- Lz, <- Rsum_ent. ring.
  - intros j Hj. apply in_seq in Hj. rewrite <- (C j ltac:(lia)). rewrite Rmult_comm, <- Rsum_scal_r, map_map. apply Rsum_map_ext. intros i Hi. apply in_seq in Hi.
    apply (ent2_map2 B0 z i j n m); auto; lia.
Qed.

Lemma joint_met_public ts sfrs ms h lgmets ages t K Kz : rounding_history K ts sfrs (1 / 10 ^ 14) -> rounding_ages ages -> rounding_lgmets lgmets -> rounding_lgmet_table Kz ts ms ->
  rnd t = Fin t -> ent ts 0 <= t <= 1000 -> rnd h = Fin h -> 1/1000 <= h <= 1 -> half_in_bins ts sfrs (1 / 10 ^ 14) t ages ->
  joint_amp K ts t (length ages) (length lgmets) h (lgmet_amp Kz ts t) * u <= 1/20 ->
  exists r r0 W W0,
    calc_ssp_weights_sfh_table_met_table (fins ts) (fins sfrs) (fins ms) (Fin h) (fins lgmets) (fins ages) (Fin t) = Ok r
    /\ calc_ssp_weights_sfh_table_met_table (AR := exact) (fins ts) (fins sfrs) (fins ms) (Fin h) (fins lgmets) (fins ages) (Fin t) = Ok r0
    /\ weights r = map fins W /\ weights r0 = map fins W0 /\ is_matrix (length lgmets) (length ages) W /\ is_matrix (length lgmets) (length ages) W0
    /\ Rsum2 W0 = 1 /\ (forall i j, (i < length lgmets)%nat -> (j < length ages)%nat -> 0 <= ent2 W0 i j)
    /\ total_difference W W0 <= joint_amp K ts t (length ages) (length lgmets) h (lgmet_amp Kz ts t) * u.
Proof.
  intros RH RA RM RZ Rt Bt Rh Bh HB HJ. pose proof (u_le u H) as Hu. simpl (10 ^ 6) in Hu.
  assert (TO : times_ok ts) by apply RH. assert (T0 : 0.003 <= ent ts 0) by apply TO. assert (K0 : 0 <= K) by apply RH. assert (Kz0 : 0 <= Kz) by apply RZ.
  assert (La : (3 <= length ages)%nat) by apply RA. assert (Lm : (3 <= length lgmets)%nat) by apply RM.
  assert (C0 : 0 <= lgmet_amp Kz ts t). { unfold lgmet_amp. assert (0 <= Kz * (t / ent ts 0)) by (apply Rmult_le_pos; [lra|apply Rdiv_le_0_compat; lra]). replace (321 * Kz * (t / ent ts 0)) with (321 * (Kz * (t / ent ts 0))) by ring. lra. }
  destruct (amp_use u H K ts t (length ages) (length lgmets) h (lgmet_amp Kz ts t)) as (U1 & U2 & U3 & UJ & _); auto; try lra. rewrite UJ.
  assert (Ha3 : 3 <= INR (length ages)) by (apply (le_INR 3) in La; simpl in La; lra).
  assert (NN : INR (length lgmets * length ages) = INR (length lgmets) * INR (length ages)) by apply mult_INR.
  assert (Hb3 : 3 <= INR (length lgmets)) by (apply (le_INR 3) in Lm; simpl in Lm; lra).
  set (c := lgmet_amp Kz ts t) in *.
  destruct (age_l1 u H HE ts sfrs ages t K RH RA Rt Bt HB) as (a & a0 & Ea & Ea0 & L1 & L10 & Da0 & Dl); [lra|].
  destruct (met_table_err ts ms h lgmets ages t Kz) as (B & EB & MB & VB); auto; try apply RA; [split; [lia|apply RA]|fold c; lra|]. fold c in VB.
  set (na := INR (length ages)) in *. set (A := mass_amp K ts t (length ages)) in *. set (nb := INR (length lgmets)) in *. set (eta := (130 + 8 * nb + c) * u / h) in *. set (N := INR (length lgmets * length ages)) in *.
  pose proof (rounding_grids K ts sfrs h lgmets ages t RH RA RM ltac:(lra) HB) as GG.
  destruct (C16_lemma ts sfrs ms h lgmets ages t GG (proj1 RZ)) as (W0 & M1 & a1 & E3 & E1 & E2 & MW0 & VW0 & SW0 & _).
  rewrite Ea0 in E1. injection E1 as E1. apply fins_inj in E1. subst a1.
  destruct GG as (Hl & Hn & Hi & Hag & He & Hh & Hm & Hme & Hf).
  rewrite lgmet_table_weights_fins in E2; auto; [|apply RZ|apply times_pos; auto|now apply increasing_tl in Hi]. injection E2 as E2. unfold fins2 in E2.
  assert (FV : forall X, map (map fval) (map fins X) = X). { intros X. rewrite map_map. rewrite <- (map_id X) at 2. apply map_ext. intros l. unfold fins. rewrite map_map. rewrite <- (map_id l) at 2. apply map_ext. reflexivity. }
  apply (f_equal (map (map fval))) in E2. rewrite !FV in E2. subst M1. set (B0 := met_matrix ts ms h lgmets ages t) in *.
  assert (MB0 : is_matrix (length lgmets) (length ages) B0) by apply met_matrix_shape.
  assert (CO : forall j, (j < length ages)%nat -> Rsum (map (fun i => ent2 B0 i j) (seq 0 (length lgmets))) = 1 / na) by (intros; apply met_matrix_column; auto).
  assert (PB0 : forall i j, (i < length lgmets)%nat -> (j < length ages)%nat -> 0 <= ent2 B0 i j).
  { intros i j Hii Hj. unfold B0. rewrite met_matrix_ent by auto. destruct (met_weights_dist_met (lgmet_at_birth ts ms t (ent ages j)) h lgmets Hh Hm Hme) as [[F _] L]. fold na.
    apply Rdiv_le_0_compat; [|lra]. rewrite Forall_ent in F. apply F. lia. }
  set (P := map (fun row => map2 Rmult row a) B). set (P0 := map (fun row => map2 Rmult row a0) B0).
  assert (MP : is_matrix (length lgmets) (length ages) P) by (apply matrix_map2; auto). assert (MP0 : is_matrix (length lgmets) (length ages) P0) by (apply matrix_map2; auto).
  assert (SP0 : Rsum2 P0 = 1 / na). { unfold P0. rewrite (columns_dot (length lgmets) (length ages) B0 a0 (1 / na)); auto. destruct Da0 as [_ ->]. lra. }
  assert (VP0 : forall i j, (i < length lgmets)%nat -> (j < length ages)%nat -> ent2 P0 i j = ent2 B0 i j * ent a0 j) by (intros; apply (ent2_map2 B0 a0 i j (length lgmets) (length ages)); auto).
  assert (TN : 0 < 1 / na) by (apply Rdiv_lt_0_compat; lra).
  set (e0 := 1.02 * (10 * (nb * eta) + 1.2 * (nb * u)) + 40 * (na * (A * u))).
  assert (NBU : 0 <= nb * u <= 1/3 * (N * u)).
  { split; [apply Rmult_le_pos; lra|]. rewrite NN. assert (nb * u * 3 <= nb * u * na) by (apply Rmult_le_compat_l; [apply Rmult_le_pos; lra|lra]). lra. }
  destruct (matrix_norm u H P P0 (1 / na) e0 (length lgmets) (length ages)) as (W & EW & MW & DW); auto.
  - nia.
  - apply (concat_nonneg (length lgmets) (length ages)); auto. intros i j Hii Hj. rewrite VP0 by auto. destruct Da0 as [Pa _]. rewrite Forall_ent in Pa. apply Rmult_le_pos; [auto|apply Pa; lia].
  - rewrite Rsum_concat. exact SP0.
  - split.
    + destruct RA as ([_ L20] & _). apply le_INR in L20. rewrite pow_INR in L20. fold na in L20. unfold Rdiv. rewrite Rmult_1_l. apply Rinv_le; [lra|]. eapply Rle_trans; [exact L20|]. change (INR 2) with 2. apply Rle_pow; [lra|lia].
    + apply Rle_trans with 1; [apply Rdiv_le_1'; lra|lra].
  - pose proof (mat_l1 (length lgmets) (length ages) B B0 a a0 ((10 * eta + 1.2 * u) / na) MB MB0 L1 L10 VB) as ML.
    eapply Rle_trans; [apply ML|].
    { apply Forall_forall. intros row Hr. destruct (In_nth _ _ [] Hr) as (i & Hii & <-). destruct MB0 as [LB FB]. apply Forall_ent. intros j Hj. apply (PB0 i j); [lia|]. rewrite Forall_forall in FB. rewrite <- (FB _ Hr). exact Hj. }
    rewrite (columns_dot (length lgmets) (length ages) B0 _ (1 / na)); auto; [|rewrite map2_length; lia]. fold (l1 a a0). fold nb.
    pose proof (suma_bound a a0 _ ltac:(lia) Da0 Dl) as SA. pose proof (Rsuma_pos a) as SA0.
    replace (nb * ((10 * eta + 1.2 * u) / na * Rsuma a) + 1 / na * l1 a a0) with (((10 * (nb * eta) + 1.2 * (nb * u)) * Rsuma a + l1 a a0) * (1 / na)) by (field; lra).
    apply Rmult_le_compat_r; [lra|]. unfold e0.
    assert ((10 * (nb * eta) + 1.2 * (nb * u)) * Rsuma a <= (10 * (nb * eta) + 1.2 * (nb * u)) * 1.02) by (apply Rmult_le_compat_l; lra). lra.
  - unfold e0. lra.
  - fold N. lra.
  - exists {| weights := map fins W; lgmet_weights := map fins B; age_weights := fins a |}. eexists. exists W, W0. split; [|split; [exact E3|]].
    + unfold calc_ssp_weights_sfh_table_met_table. rewrite Ea. cbn [bind]. rewrite EB. cbn [bind]. do 2 f_equal. rewrite <- EW. f_equal. unfold P, fins. rewrite !map_map. apply map_ext. intros row. rewrite map_map2, map2_map. reflexivity.
    + cbn [weights]. split; auto. split; auto. split; auto. split; auto. split; auto. split; [intros i j Hii Hj; apply (VW0 i j Hii Hj)|].
      assert (EC : map (fun x => x / (1 / na)) (concat P0) = concat W0).
      { rewrite concat_map. f_equal. apply (matrix_ext (length lgmets) (length ages)); auto; [now apply matrix_map|]. intros i j Hii Hj. rewrite (ent2_map (length lgmets) (length ages) P0 (fun w => w / (1 / na)) i j MP0) by auto.
        rewrite VP0 by auto. destruct (VW0 i j Hii Hj) as [-> _]. fold na. field. lra. }
      rewrite EC in DW. unfold total_difference. fold (l1 (concat W) (concat W0)). fold N in DW. unfold e0 in DW. lra.
Qed.

Lemma sed_met_public ts sfrs ms h lgmets ages flux n_wave t sfr_min K Kz F : rounding_history K ts sfrs (1 / 10 ^ 14) -> rounding_history K ts sfrs sfr_min -> rounding_ages ages -> rounding_lgmets lgmets -> rounding_lgmet_table Kz ts ms ->
  rnd t = Fin t -> ent ts 0 <= t <= 1000 -> rnd h = Fin h -> 1/1000 <= h <= 1 -> half_in_bins ts sfrs (1 / 10 ^ 14) t ages ->
  joint_amp K ts t (length ages) (length lgmets) h (lgmet_amp Kz ts t) * u <= 1/20 ->
  is_cube (length lgmets) (length ages) n_wave flux ->
  let M := mass_formed_by ts (floored sfr_min sfrs) t in
  (forall k, (k < n_wave)%nat -> 0 <= F k <= 10 ^ 30 /\ F k * M <= 10 ^ 36) ->
  (forall i j k, (i < length lgmets)%nat -> (j < length ages)%nat -> (k < n_wave)%nat -> Rabs (ent3 flux i j k) <= F k) ->
  exists r r0 sed sed0,
    calc_rest_sed_sfh_table_met_table (fins ts) (fins sfrs) (fins ms) (Fin h) (fins lgmets) (fins ages) (fins3 flux) (Fin t) (lit sfr_min) = Ok r
    /\ calc_rest_sed_sfh_table_met_table (AR := exact) (fins ts) (fins sfrs) (fins ms) (Fin h) (fins lgmets) (fins ages) (fins3 flux) (Fin t) (Fin sfr_min) = Ok r0
    /\ rest_sed r = fins sed /\ rest_sed r0 = fins sed0 /\ length sed = n_wave /\ length sed0 = n_wave
    /\ forall k, (k < n_wave)%nat -> Rabs (ent sed k - ent sed0 k)
         <= F k * M * (2 * joint_amp K ts t (length ages) (length lgmets) h (lgmet_amp Kz ts t) * u) + (3 * INR (length lgmets * length ages) * M + 1) * (u * / 2 ^ 102).
Proof.
  intros RH RH' RA RM RZ Rt Bt Rh Bh HB HJ HC M BF FF. pose proof (u_le u H) as Hu.
  destruct (joint_met_public ts sfrs ms h lgmets ages t K Kz RH RA RM RZ Rt Bt Rh Bh HB HJ) as (r & r0 & W & W0 & Er & Er0 & EW & EW0 & MW & MW0 & SW & PW & DW).
  assert (TO : times_ok ts) by apply RH. assert (T0 : 0.003 <= ent ts 0) by apply TO. assert (K0 : 0 <= K) by apply RH. assert (Kz0 : 0 <= Kz) by apply RZ.
  assert (La : (3 <= length ages)%nat) by apply RA. assert (Lm : (3 <= length lgmets)%nat) by apply RM.
  assert (C0 : 0 <= lgmet_amp Kz ts t). { unfold lgmet_amp. assert (0 <= Kz * (t / ent ts 0)) by (apply Rmult_le_pos; [lra|apply Rdiv_le_0_compat; lra]). replace (321 * Kz * (t / ent ts 0)) with (321 * (Kz * (t / ent ts 0))) by ring. lra. }
  destruct (amp_use u H K ts t (length ages) (length lgmets) h (lgmet_amp Kz ts t)) as (U1 & U2 & U3 & UJ & UA & UA0); auto; try lra.
  destruct (mass_public u H HE ts sfrs t sfr_min K (length ages) RH' Rt Bt) as (M' & EM & RM' & DM); [lra|]. fold M in DM.
  destruct (mass_le_public u H ts sfrs t sfr_min K RH') as [M0 M34]. fold M in M0, M34.
  pose proof (rounding_grids K ts sfrs h lgmets ages t RH RA RM ltac:(lra) HB) as GG.
  assert (SP : 0 < sfr_min). { destruct RH' as (_ & _ & _ & _ & B & _). apply Rlt_le_trans with (1 / 10 ^ 20); [apply Rdiv_lt_0_compat; [lra|apply pow_lt; lra]|lra]. }
  destruct (sed_met_fins ts sfrs ms h lgmets ages flux n_wave t sfr_min GG (proj1 RZ) ltac:(lra) SP HC) as (W1 & mw & aw & E1 & M1 & S1 & P1 & E2).
  rewrite Er0 in E1. injection E1 as E1. rewrite E1 in EW0. cbn [weights] in EW0. apply (f_equal (map (map fval))) in EW0.
  assert (FV : forall X, map (map fval) (map fins X) = X). { intros X. rewrite map_map. rewrite <- (map_id X) at 2. apply map_ext. intros l. unfold fins. rewrite map_map. rewrite <- (map_id l) at 2. apply map_ext. reflexivity. }
  rewrite !FV in EW0. subst W1.
  set (J := joint_amp K ts t (length ages) (length lgmets) h (lgmet_amp Kz ts t)) in *. set (A := mass_amp K ts t (length ages)) in *.
  destruct (sed_err u H (length lgmets) (length ages) n_wave W W0 flux M M' (J * u) (4 * A * u) F) as (sed & Es & Ls & Vs); auto; try lia; try lra.
  - apply (concat_nonneg (length lgmets) (length ages)); auto.
  - now rewrite Rsum_concat.
  - exists {| rest_sed := fins sed; rs_weights := map fins W; rs_lgmet_weights := lgmet_weights r; rs_age_weights := age_weights r |}. eexists. exists sed, (map (fun k => template_mix (length lgmets) (length ages) W0 flux k * M) (seq 0 n_wave)).
    split; [|split; [exact E2|]].
    + unfold calc_rest_sed_sfh_table_met_table. rewrite Er. cbn [bind]. unfold check. rewrite !fins_length. rewrite (cube_shape_ok _ _ n_wave) by (auto; lia).
      rewrite (stretch_cube _ _ n_wave) by auto. rewrite EM, EW, Es. reflexivity.
    + cbn [rest_sed]. split; auto. split; auto. split; auto. split; [now rewrite map_length, seq_length|]. intros k Hk. rewrite ent_map_seq by auto. cbn [Nat.add].
      eapply Rle_trans; [apply (Vs k Hk)|]. apply Rplus_le_compat_r. apply Rmult_le_compat_l; [apply Rmult_le_pos; [apply (BF k Hk)|lra]|].
      assert (Hn3 : 3 <= INR (length ages)) by (apply (le_INR 3) in La; simpl in La; lra). assert (3 * (A * u) <= INR (length ages) * (A * u)) by (apply Rmult_le_compat_r; lra).
      replace (2 * J * u) with (2 * (J * u)) by ring. rewrite UJ. lra.
Qed.
End F.
