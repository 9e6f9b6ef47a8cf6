(** * C146: the SEDs converge as the table is refined *)
From Coq Require Import Reals List Arith Lra Lia.
From Coquelicot Require Import Coquelicot.
From Verif Require Import Num MUtils MSed Spec SpecConv SpecStab SpecMetStab RList LUtils LAge LMet LJoint LPhot LStab5 LMetStab LConv1 LConv2 LConv3 LConv4 LConvMet.
Import ListNotations.
Open Scope R_scope.

(** finitely many numbers are bounded *)
Definition top (n : nat) (g : nat -> R) : R := fold_right (fun i a => Rmax (g i) a) 0 (seq 0 n).
Lemma top_pos n g : 0 <= top n g.
Proof. unfold top. induction (seq 0 n); simpl; [lra|]. eapply Rle_trans; [eassumption|apply Rmax_r]. Qed.
Lemma top_ge n g i : (i < n)%nat -> g i <= top n g.
Proof.
  intros H. unfold top. assert (I : In i (seq 0 n)) by (apply in_seq; lia). revert I. generalize (seq 0 n). intros l.
  induction l as [|x l IH]; [intros []|]. intros [E|I]; simpl; [subst; apply Rmax_l|]. eapply Rle_trans; [apply (IH I)|apply Rmax_r].
Qed.
Lemma cube_bounded n m p flux : exists B, 0 <= B /\ forall i j k, (i < n)%nat -> (j < m)%nat -> (k < p)%nat -> Rabs (ent3 flux i j k) <= B.
Proof.
  exists (top n (fun i => top m (fun j => top p (fun k => Rabs (ent3 flux i j k))))). split; [apply top_pos|]. intros i j k Hi Hj Hk.
  eapply Rle_trans; [apply (top_ge p (fun k => Rabs (ent3 flux i j k)) k Hk)|].
  eapply Rle_trans; [apply (top_ge m (fun j => top p (fun k => Rabs (ent3 flux i j k))) j Hj)|].
  apply (top_ge n (fun i => top m (fun j => top p (fun k => Rabs (ent3 flux i j k)))) i Hi).
Qed.
Lemma variation_bounded n m p flux : exists V, 0 <= V /\ forall j k, (j < m)%nat -> (k < p)%nat -> met_variation n flux j k <= V.
Proof.
  exists (top m (fun j => top p (fun k => met_variation n flux j k))). split; [apply top_pos|]. intros j k Hj Hk.
  eapply Rle_trans; [apply (top_ge p (fun k => met_variation n flux j k) k Hk)|].
  apply (top_ge m (fun j => top p (fun k => met_variation n flux j k)) j Hj).
Qed.
(** a step small enough for two requirements linear in it *)
Lemma small_step a P c eps : 0 <= a -> 0 < P -> 0 <= c -> 0 < eps -> exists h, 0 < h /\ 2 * (a * h) < P /\ c * h <= eps.
Proof.
  intros Ha HP Hc He. exists (Rmin (P / (4 * (a + 1))) (eps / (c + 1))).
  assert (P1 : 0 < P / (4 * (a + 1))) by (apply Rdiv_lt_0_compat; lra).
  assert (P2 : 0 < eps / (c + 1)) by (apply Rdiv_lt_0_compat; lra).
  pose proof (Rmin_l (P / (4 * (a + 1))) (eps / (c + 1))) as L1. pose proof (Rmin_r (P / (4 * (a + 1))) (eps / (c + 1))) as L2.
  assert (Q1 : P / (4 * (a + 1)) * (4 * (a + 1)) = P) by (field; lra).
  assert (Q2 : eps / (c + 1) * (c + 1) = eps) by (field; lra).
  split; [now apply Rmin_glb_lt|]. split; nra.
Qed.

Lemma C146_sed_limit_lemma : forall K F f T lgmet scatter ssp_lgmet ages n_wave flux t_obs sfr_min eps,
  smooth_history K F f -> 0 < sfr_min -> (forall t, sfr_min <= f t /\ 1 / 10 ^ 14 <= f t) -> 0 <= T ->
  (3 <= length ages)%nat -> nondecreasing (age_edges ages) -> 0.001 <= t_obs -> 0 < mass_in_range f t_obs ages ->
  0 < scatter -> (3 <= length ssp_lgmet)%nat -> nondecreasing (met_edges ssp_lgmet) ->
  is_cube (length ssp_lgmet) (length ages) n_wave flux -> 0 < eps ->
  exists q, calc_lgmet_weights_from_lognormal_mdf (Fin lgmet) (Fin scatter) (fins ssp_lgmet) = Ok (fins q) /\ distribution q
  /\ exists h, 0 < h /\ forall ts, resolves h t_obs T ts -> exists r sed,
    calc_rest_sed_sfh_table_lognormal_mdf (fins ts) (fins (map f ts)) (Fin lgmet) (Fin scatter) (fins ssp_lgmet) (fins ages) (fins3 flux) (Fin t_obs) (Fin sfr_min) = Ok r
    /\ rest_sed r = fins sed /\ length sed = n_wave
    /\ forall k, (k < n_wave)%nat -> Rabs (ent sed k - synthesis f t_obs (length ssp_lgmet) ages q flux k) <= eps.
Proof.
  intros K F f T x sc lg ages nw flux t m eps Hf Hm Hmf HT Ha He Ht HP Hsc Hlm Hme Hc Heps.
  destruct (cube_bounded (length lg) (length ages) nw flux) as (B & HB0 & HB).
  assert (FF : m <= F /\ 1 / 10 ^ 14 <= F). { destruct Hf as [HF _]. specialize (HF 0). specialize (Hmf 0). lra. }
  assert (HK : 0 <= K) by (eapply lip_K; apply Hf).
  assert (I0 : 0 <= RInt f 0.001 t). { destruct Hf as [HF HK']. exact (proj1 (RInt_range f F 0.001 t HF (lip_ex K f _ _ HK') Ht)). }
  set (P := mass_in_range f t ages) in *. set (a := (K * T + 3 * F) / 2).
  assert (A0 : 0 <= a) by (unfold a; pose proof (Rmult_le_pos _ _ HK HT); lra).
  set (C := 1 + 4 * INR (length ages) * (RInt f 0.001 t / P)).
  assert (C0 : 0 <= C). { unfold C. pose proof (pos_INR (length ages)). pose proof (Rdiv_le_0_compat _ _ I0 HP).
    pose proof (Rmult_le_pos (4 * INR (length ages)) (RInt f 0.001 t / P) ltac:(lra) ltac:(lra)). lra. }
  destruct (small_step a P (10 ^ 9 * B * a * C) eps A0 HP) as (h & Hh & H1 & H2); auto.
  { apply Rmult_le_pos; [|exact C0]. apply Rmult_le_pos; [|exact A0]. apply Rmult_le_pos; [|exact HB0]. lra. }
  exists (met_weights x sc (met_edges lg)). split; [now apply lognormal_fins|]. split; [now apply met_weights_dist_met|].
  exists h. split; [exact Hh|]. intros ts Hr.
  assert (TE : table_error K F h 0 T = a * h) by (unfold table_error, a; ring).
  destruct (C146_sed_lemma K F f h 0 T ts x sc lg ages nw flux B t m) as (r & sed & q & Eq & _ & E & R & L & W); auto; try lra.
  - intros s. specialize (Hmf s). lra.
  - cbv zeta. rewrite TE. fold P. exact H1.
  - rewrite lognormal_fins in Eq by auto. injection Eq as Eq. apply fins_inj in Eq. subst q.
    exists r, sed. split; [exact E|]. split; [exact R|]. split; [exact L|]. intros k Hk.
    eapply Rle_trans; [apply W; auto|]. cbv zeta. rewrite TE. fold P. fold C. lra.
Qed.

Lemma C146_sed_met_limit_lemma : forall K F f Kz Z T scatter ssp_lgmet ages n_wave flux t_obs sfr_min eps,
  smooth_history K F f -> 0 < sfr_min -> (forall t, sfr_min <= f t /\ 1 / 10 ^ 14 <= f t) -> 0 <= T ->
  (forall s t, Rabs (Z s - Z t) <= Kz * Rabs (s - t)) -> (forall t, mdf_inside (Z t) scatter) ->
  (3 <= length ages)%nat -> nondecreasing (age_edges ages) -> 0.001 <= t_obs -> 0 < mass_in_range f t_obs ages ->
  (3 <= length ssp_lgmet)%nat -> nondecreasing (met_edges ssp_lgmet) ->
  is_cube (length ssp_lgmet) (length ages) n_wave flux -> 0 < eps ->
  exists q,
    (forall j, (j < length ages)%nat ->
       calc_lgmet_weights_from_lognormal_mdf (Fin (Z (birth_time t_obs (ent ages j)))) (Fin scatter) (fins ssp_lgmet) = Ok (fins (q j)) /\ distribution (q j))
  /\ exists h, 0 < h /\ forall ts, resolves h t_obs T ts -> exists r sed,
    calc_rest_sed_sfh_table_met_table (fins ts) (fins (map f ts)) (fins (map Z ts)) (Fin scatter) (fins ssp_lgmet) (fins ages) (fins3 flux) (Fin t_obs) (Fin sfr_min) = Ok r
    /\ rest_sed r = fins sed /\ length sed = n_wave
    /\ forall k, (k < n_wave)%nat -> Rabs (ent sed k - synthesis_history f t_obs (length ssp_lgmet) ages q flux k) <= eps.
Proof.
  intros K F f Kz Z T sc lg ages nw flux t m eps Hf Hm Hmf HT HZ Hin Ha He Ht HP Hlm Hme Hc Heps.
  assert (Hsc : 0 < sc) by (exact (proj1 (Hin 0))).
  assert (KZ : 0 <= Kz). { specialize (HZ 1 0). rewrite Rminus_0_r, (Rabs_right 1) in HZ by lra. pose proof (Rabs_pos (Z 1 - Z 0)). lra. }
  destruct (cube_bounded (length lg) (length ages) nw flux) as (B & HB0 & HB).
  destruct (variation_bounded (length lg) (length ages) nw flux) as (V & HV0 & HV).
  assert (FF : m <= F /\ 1 / 10 ^ 14 <= F). { destruct Hf as [HF _]. specialize (HF 0). specialize (Hmf 0). lra. }
  assert (HK : 0 <= K) by (eapply lip_K; apply Hf).
  set (I := RInt f 0.001 t). assert (I0 : 0 <= I). { destruct Hf as [HF HK']. exact (proj1 (RInt_range f F 0.001 t HF (lip_ex K f _ _ HK') Ht)). }
  set (P := mass_in_range f t ages) in *. set (a := (K * T + 3 * F) / 2).
  assert (A0 : 0 <= a) by (unfold a; pose proof (Rmult_le_pos _ _ HK HT); lra).
  set (C := 1 + 4 * INR (length ages) * (I / P)).
  assert (C0 : 0 <= C). { unfold C. pose proof (pos_INR (length ages)). pose proof (Rdiv_le_0_compat _ _ I0 HP).
    pose proof (Rmult_le_pos (4 * INR (length ages)) (I / P) ltac:(lra) ltac:(lra)). lra. }
  set (D := 10 ^ 9 * I * (35/96 * Kz / sc * V)).
  assert (D0 : 0 <= D). { unfold D. apply Rmult_le_pos; [lra|]. apply Rmult_le_pos; [|exact HV0]. apply Rdiv_le_0_compat; lra. }
  destruct (small_step a P (10 ^ 9 * B * a * C + D) eps A0 HP) as (h & Hh & H1 & H2); auto.
  { apply Rplus_le_le_0_compat; [|exact D0]. apply Rmult_le_pos; [|exact C0]. apply Rmult_le_pos; [|exact A0]. apply Rmult_le_pos; [|exact HB0]. lra. }
  exists (fun j => met_weights (Z (birth_time t (ent ages j))) sc (met_edges lg)).
  split. { intros j Hj. split; [now apply lognormal_fins|now apply met_weights_dist_met]. }
  exists h. split; [exact Hh|]. intros ts Hr.
  assert (TE : table_error K F h 0 T = a * h) by (unfold table_error, a; ring).
  assert (SH : mdf_shift (Kz * h) sc sc = 35/96 * Kz / sc * h).
  { unfold mdf_shift. rewrite Rminus_diag_eq, Rabs_R0, Rmin_left by (reflexivity || lra). field. lra. }
  destruct (C146_sed_met_lemma K F f Kz Z h 0 T ts sc lg ages nw flux B V t m) as (r & sed & q & Eq & E & R & L & W); auto; try lra.
  - intros s. specialize (Hmf s). lra.
  - cbv zeta. rewrite TE. fold P. exact H1.
  - exists r, sed. split; [exact E|]. split; [exact R|]. split; [exact L|]. intros k Hk.
    replace (synthesis_history f t (length lg) ages (fun j => met_weights (Z (birth_time t (ent ages j))) sc (met_edges lg)) flux k)
      with (synthesis_history f t (length lg) ages q flux k).
    + eapply Rle_trans; [apply W; auto|]. cbv zeta. rewrite TE, SH. fold P. fold I. fold C.
      replace (10 ^ 9 * I * (35 / 96 * Kz / sc * h * V)) with (D * h) by (unfold D; ring). lra.
    + unfold synthesis_history. f_equal. f_equal. apply map_ext_in. intros j Hj. apply in_seq in Hj.
      destruct (Eq j ltac:(lia)) as [Ej _]. rewrite lognormal_fins in Ej by auto. injection Ej as Ej. apply fins_inj in Ej. now rewrite Ej.
Qed.

(** ** magnitudes *)
Lemma positive_floor n (g : nat -> R) : (forall k, (k < n)%nat -> 0 < g k) -> exists e, 0 < e /\ forall k, (k < n)%nat -> e <= g k.
Proof.
  induction n as [|n IH]; intros H; [exists 1; split; [lra|intros; lia]|].
  destruct IH as (e & He & E); [intros; apply H; lia|]. exists (Rmin e (g n)). split; [apply Rmin_glb_lt; auto|].
  intros k Hk. destruct (Nat.eq_dec k n) as [->|]; [apply Rmin_r|]. eapply Rle_trans; [apply Rmin_l|apply E; lia].
Qed.
Lemma close_mags ws (l : list R) tol : 0 < tol -> length ws = length l -> ws <> [] -> increasing ws -> (forall k, (k < length l)%nat -> 0 < ent l k) ->
  exists eps, 0 < eps /\ forall sed, length sed = length l -> (forall k, (k < length l)%nat -> Rabs (ent sed k - ent l k) <= eps) -> mags_shifted ws l sed 0 tol.
Proof.
  intros Ht Hl Hn Hi Hp. destruct (positive_floor (length l) (ent l) Hp) as (e & He & E).
  set (K := pow10 (tol / 2.5)).
  assert (HK : 1 < K) by (unfold K; rewrite <- pow10_0; apply pow10_lt; apply Rdiv_lt_0_compat; lra).
  assert (IK : / K < 1) by (rewrite <- Rinv_1; apply Rinv_lt_contravar; lra).
  assert (PK : 0 < / K) by (apply Rinv_0_lt_compat; lra). assert (KK : K * / K = 1) by (apply Rinv_r; lra).
  assert (K2 : 2 - / K <= K) by nra.
  exists (e * (1 - / K)). split; [apply Rmult_lt_0_compat; lra|]. intros sed Ls H.
  assert (M : mags_shifted ws l sed (- (2.5 * log10 1)) (2.5 * log10 K)).
  2: { replace (2.5 * log10 K) with tol in M by (unfold K; rewrite log10_pow10; lra). rewrite log10_1, Rmult_0_r, Ropp_0 in M. exact M. }
  apply mags_of_sed; try lra.
  - repeat split; auto.
  - repeat split; auto. congruence.
  - intros k Hk. rewrite Hl in Hk. specialize (H k Hk). specialize (E k Hk). apply Rabs_le_between in H.
    assert (Q : e * (1 - / K) <= ent l k * (1 - / K)) by (apply Rmult_le_compat_r; lra).
    assert (Q2 : ent l k * (2 - / K) <= ent l k * K) by (apply Rmult_le_compat_l; lra).
    rewrite Rmult_1_l. split; [lra|].
    apply Rle_trans with (K * (ent l k * / K)); [right; rewrite (Rmult_comm (ent l k)), <- Rmult_assoc, KK; ring|].
    apply Rmult_le_compat_l; lra.
Qed.
Lemma ent_map_seq (g : nat -> R) n k : (k < n)%nat -> ent (map g (seq 0 n)) k = g k.
Proof. intros H. unfold ent. rewrite nth_map' with (d := 0%nat) by (now rewrite seq_length). now rewrite seq_nth. Qed.

Lemma C146_mag_limit_lemma : forall K F f T lgmet scatter ssp_lgmet ages ws flux t_obs sfr_min q tol,
  smooth_history K F f -> 0 < sfr_min -> (forall t, sfr_min <= f t /\ 1 / 10 ^ 14 <= f t) -> 0 <= T ->
  (3 <= length ages)%nat -> nondecreasing (age_edges ages) -> 0.001 <= t_obs -> 0 < mass_in_range f t_obs ages ->
  0 < scatter -> (3 <= length ssp_lgmet)%nat -> nondecreasing (met_edges ssp_lgmet) ->
  is_cube (length ssp_lgmet) (length ages) (length ws) flux -> ws <> [] -> increasing ws -> 0 < tol ->
  calc_lgmet_weights_from_lognormal_mdf (Fin lgmet) (Fin scatter) (fins ssp_lgmet) = Ok (fins q) ->
  let spectrum := map (synthesis f t_obs (length ssp_lgmet) ages q flux) (seq 0 (length ws)) in
  List.Forall (fun x => 0 < x) spectrum ->
  exists h, 0 < h /\ forall ts, resolves h t_obs T ts -> exists r sed,
    calc_rest_sed_sfh_table_lognormal_mdf (fins ts) (fins (map f ts)) (Fin lgmet) (Fin scatter) (fins ssp_lgmet) (fins ages) (fins3 flux) (Fin t_obs) (Fin sfr_min) = Ok r
    /\ rest_sed r = fins sed /\ mags_shifted ws spectrum sed 0 tol.
Proof.
  intros K F f T x sc lg ages ws flux t m q tol Hf Hm Hmf HT Ha He Ht HP Hsc Hlm Hme Hc Hn Hi Htol Hq sp Hpos.
  assert (Ls : length sp = length ws) by (unfold sp; now rewrite map_length, seq_length).
  destruct (close_mags ws sp tol Htol (eq_sym Ls) Hn Hi) as (eps & Heps & E).
  { intros k Hk. exact (proj1 (List.Forall_forall _ _) Hpos _ (ent_In _ _ Hk)). }
  destruct (C146_sed_limit_lemma K F f T x sc lg ages (length ws) flux t m eps) as (q' & Eq & _ & h & Hh & W); auto.
  rewrite Hq in Eq. injection Eq as Eq. apply fins_inj in Eq. subst q'.
  exists h. split; [exact Hh|]. intros ts Hr. destruct (W ts Hr) as (r & sed & E1 & R & L & X).
  exists r, sed. split; [exact E1|]. split; [exact R|]. apply E; [congruence|]. intros k Hk. rewrite Ls in Hk. unfold sp.
  rewrite ent_map_seq by auto. now apply X.
Qed.
Lemma C146_mag_met_limit_lemma : forall K F f Kz Z T scatter ssp_lgmet ages ws flux t_obs sfr_min q tol,
  smooth_history K F f -> 0 < sfr_min -> (forall t, sfr_min <= f t /\ 1 / 10 ^ 14 <= f t) -> 0 <= T ->
  (forall s t, Rabs (Z s - Z t) <= Kz * Rabs (s - t)) -> (forall t, mdf_inside (Z t) scatter) ->
  (3 <= length ages)%nat -> nondecreasing (age_edges ages) -> 0.001 <= t_obs -> 0 < mass_in_range f t_obs ages ->
  (3 <= length ssp_lgmet)%nat -> nondecreasing (met_edges ssp_lgmet) ->
  is_cube (length ssp_lgmet) (length ages) (length ws) flux -> ws <> [] -> increasing ws -> 0 < tol ->
  (forall j, (j < length ages)%nat ->
     calc_lgmet_weights_from_lognormal_mdf (Fin (Z (birth_time t_obs (ent ages j)))) (Fin scatter) (fins ssp_lgmet) = Ok (fins (q j))) ->
  let spectrum := map (synthesis_history f t_obs (length ssp_lgmet) ages q flux) (seq 0 (length ws)) in
  List.Forall (fun x => 0 < x) spectrum ->
  exists h, 0 < h /\ forall ts, resolves h t_obs T ts -> exists r sed,
    calc_rest_sed_sfh_table_met_table (fins ts) (fins (map f ts)) (fins (map Z ts)) (Fin scatter) (fins ssp_lgmet) (fins ages) (fins3 flux) (Fin t_obs) (Fin sfr_min) = Ok r
    /\ rest_sed r = fins sed /\ mags_shifted ws spectrum sed 0 tol.
Proof.
  intros K F f Kz Z T sc lg ages ws flux t m q tol Hf Hm Hmf HT HZ Hin Ha He Ht HP Hlm Hme Hc Hn Hi Htol Hq sp Hpos.
  assert (Ls : length sp = length ws) by (unfold sp; now rewrite map_length, seq_length).
  destruct (close_mags ws sp tol Htol (eq_sym Ls) Hn Hi) as (eps & Heps & E).
  { intros k Hk. exact (proj1 (List.Forall_forall _ _) Hpos _ (ent_In _ _ Hk)). }
  destruct (C146_sed_met_limit_lemma K F f Kz Z T sc lg ages (length ws) flux t m eps) as (q' & Eq & h & Hh & W); auto.
  exists h. split; [exact Hh|]. intros ts Hr. destruct (W ts Hr) as (r & sed & E1 & R & L & X).
  exists r, sed. split; [exact E1|]. split; [exact R|]. apply E; [congruence|]. intros k Hk. rewrite Ls in Hk. unfold sp.
  rewrite ent_map_seq by auto.
  replace (synthesis_history f t (length lg) ages q flux k) with (synthesis_history f t (length lg) ages q' flux k); [now apply X|].
  unfold synthesis_history. f_equal. f_equal. apply map_ext_in. intros j Hj. apply in_seq in Hj.
  destruct (Eq j ltac:(lia)) as [Ej _]. rewrite (Hq j) in Ej by lia. injection Ej as Ej. apply fins_inj in Ej. now rewrite Ej.
Qed.

(** ** positive templates give a positive spectrum *)
Lemma bins_telescope K F f t ages n : smooth_history K F f ->
  Rsum (map (mass_in_bin f t ages) (seq 0 n)) = RInt f (birth_time t (age_edge ages n)) (birth_time t (age_edge ages 0)).
Proof.
  intros [_ HK]. induction n as [|n IH]; [simpl; now rewrite RInt_point|].
  rewrite seq_S, map_app, Rsum_app, IH. cbn [Nat.add map Rsum]. unfold mass_in_bin.
  pose proof (RInt_Chasles f (birth_time t (age_edge ages (S n))) (birth_time t (age_edge ages n)) (birth_time t (age_edge ages 0))
    (lip_ex K f _ _ HK) (lip_ex K f _ _ HK)) as C. unfold plus in C. simpl in C. lra.
Qed.
Lemma wsum_ge (a g : nat -> R) c l : (forall j, In j l -> 0 <= a j) -> (forall j, In j l -> c <= g j) ->
  c * Rsum (map a l) <= Rsum (map (fun j => a j * g j) l).
Proof.
  induction l as [|x l IH]; intros Ha Hg; simpl; [lra|].
  specialize (IH ltac:(intros; apply Ha; now right) ltac:(intros; apply Hg; now right)).
  pose proof (Rmult_le_compat_l _ _ _ (Ha x ltac:(now left)) (Hg x ltac:(now left))). lra.
Qed.
Lemma bins_share K F f t ages : smooth_history K F f -> nondecreasing (age_edges ages) -> 0 < mass_in_range f t ages ->
  (forall j, (j < length ages)%nat -> 0 <= mass_in_bin f t ages j / mass_in_range f t ages)
  /\ Rsum (map (fun j => mass_in_bin f t ages j / mass_in_range f t ages) (seq 0 (length ages))) = 1.
Proof.
  intros Hf He HP. split.
  - intros j Hj. apply Rdiv_le_0_compat; [|exact HP]. destruct Hf as [HF HK]. unfold mass_in_bin.
    refine (proj1 (RInt_range f F _ _ HF (lip_ex K f _ _ HK) _)).
    assert (Q : age_edge ages j <= age_edge ages (S j)).
    { rewrite <- !age_edges_ent by lia. apply He. rewrite age_edges_length. lia. }
    unfold birth_time. apply Rmax_lub; [apply Rmax_l|]. eapply Rle_trans; [|apply Rmax_r]. pose proof (pow10_le _ _ Q). lra.
  - unfold Rdiv. rewrite <- (map_map (mass_in_bin f t ages) (fun x => x * / mass_in_range f t ages)), Rsum_scal_r, (bins_telescope K F) by exact Hf.
    fold (mass_in_range f t ages). apply Rinv_r. lra.
Qed.
Lemma dist_seq q n : distribution q -> length q = n -> (forall i, 0 <= ent q i) /\ Rsum (map (ent q) (seq 0 n)) = 1.
Proof.
  intros [D S] L. split.
  - intros i. destruct (lt_dec i (length q)) as [H|H]; [exact (proj1 (List.Forall_forall _ _) D _ (ent_In _ _ H))|]. unfold ent. rewrite nth_overflow by lia. lra.
  - subst n. rewrite <- Rsum_ent. exact S.
Qed.
Lemma synthesis_pos K F f t n ages q flux k c : smooth_history K F f -> nondecreasing (age_edges ages) -> 0 < mass_in_range f t ages -> 0 < RInt f 0.001 t ->
  0 < c -> distribution q -> length q = n -> (forall i j, (i < n)%nat -> (j < length ages)%nat -> c <= ent3 flux i j k) ->
  0 < synthesis f t n ages q flux k.
Proof.
  intros Hf He HP HI Hc D L Hfl. destruct (bins_share K F f t ages Hf He HP) as [B0 B1]. destruct (dist_seq q n D L) as [Q0 Q1].
  unfold synthesis. apply Rmult_lt_0_compat; [apply Rmult_lt_0_compat; lra|].
  set (g := fun i => Rsum (map (fun j => mass_in_bin f t ages j / mass_in_range f t ages * ent3 flux i j k) (seq 0 (length ages)))).
  rewrite (Rsum_map_ext _ (fun i => ent q i * g i)).
  - apply Rlt_le_trans with (c * Rsum (map (ent q) (seq 0 n))); [rewrite Q1; lra|]. apply wsum_ge; [auto|].
    intros i Hi. apply in_seq in Hi. unfold g. rewrite <- (Rmult_1_r c), <- B1. apply wsum_ge; intros j Hj; apply in_seq in Hj; [apply B0; lia|apply Hfl; lia].
  - intros i _. unfold g. rewrite Rmult_comm, <- Rsum_scal_r, map_map. apply Rsum_map_ext. intros j _. ring.
Qed.
Lemma synthesis_history_pos K F f t n ages q flux k c : smooth_history K F f -> nondecreasing (age_edges ages) -> 0 < mass_in_range f t ages -> 0 < RInt f 0.001 t ->
  0 < c -> (forall j, (j < length ages)%nat -> distribution (q j) /\ length (q j) = n) -> (forall i j, (i < n)%nat -> (j < length ages)%nat -> c <= ent3 flux i j k) ->
  0 < synthesis_history f t n ages q flux k.
Proof.
  intros Hf He HP HI Hc Hq Hfl. destruct (bins_share K F f t ages Hf He HP) as [B0 B1].
  unfold synthesis_history. apply Rmult_lt_0_compat; [apply Rmult_lt_0_compat; lra|].
  apply Rlt_le_trans with (c * 1); [lra|]. rewrite <- B1. apply wsum_ge; intros j Hj; apply in_seq in Hj; [apply B0; lia|].
  destruct (Hq j ltac:(lia)) as [D L]. destruct (dist_seq _ n D L) as [Q0 Q1]. rewrite <- (Rmult_1_r c), <- Q1.
  apply wsum_ge; [auto|]. intros i Hi. apply in_seq in Hi. apply Hfl; lia.
Qed.
