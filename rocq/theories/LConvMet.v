(** * C146 for the function taking a metallicity table *)
From Coq Require Import Reals List Arith Lra Lia.
From Coquelicot Require Import Coquelicot.
From Verif Require Import Num MUtils MSed Spec SpecConv SpecMetStab RList LUtils LCalc LKern LAge LMet LJoint LMetStab LMetStab2 LConv1 LConv2 LConv3 LConv4.
Import ListNotations.
Open Scope R_scope.

(** between two nodes an interpolated table is as close to [c] as its two values there *)
Lemma pwlin_local xs : forall ys x c e i, increasing xs -> length xs = length ys -> (S i < length xs)%nat ->
  ent xs i <= x <= ent xs (S i) -> Rabs (ent ys i - c) <= e -> Rabs (ent ys (S i) - c) <= e ->
  Rabs (pwlin (combine xs ys) x - c) <= e.
Proof.
  induction xs as [|x0 xs IH]; intros ys x c e i Hi Hl Hlt Hx H1 H2; [simpl in Hlt; lia|].
  destruct ys as [|y0 ys]; [discriminate|].
  destruct xs as [|x1 xs]; [simpl in Hlt; lia|]. destruct ys as [|y1 ys]; [discriminate|].
  pose proof Hi as Hi'. apply increasing_cons in Hi as [H0 Hi].
  assert (H01 : x0 < x1) by (apply H0; simpl; auto).
  destruct i as [|i].
  - unfold ent in Hx, H1, H2. cbn [nth] in Hx, H1, H2. cbn [combine pwlin].
    destruct (Rle_dec x x0); [exact H1|]. destruct (Rlt_dec x x1).
    + assert (B : 0 <= (x - x0) / (x1 - x0) <= 1).
      { split; [apply Rdiv_le_0_compat'; lra|apply Rdiv_le_1'; lra]. }
      apply Rabs_le_between in H1. apply Rabs_le_between in H2. apply Rabs_le_between. nra.
    + change (Rabs (pwlin (combine (x1 :: xs) (y1 :: ys)) x - c) <= e).
      rewrite pwlin_left; auto; try discriminate; unfold ent; cbn [nth]; auto; lra.
  - rewrite !ent_cons_S in *. cbn [combine pwlin].
    assert (Q : x1 <= ent (x1 :: xs) i).
    { destruct i as [|i]; [unfold ent; simpl; lra|]. left. apply (Hi 0%nat (S i)). simpl in *. lia. }
    destruct (Rle_dec x x0); [lra|]. destruct (Rlt_dec x x1); [lra|].
    apply (IH (y1 :: ys) x c e i); auto; simpl in *; lia.
Qed.

(** the metallicity at birth read off a table of step [h] *)
Lemma lgmet_read K Z h t_obs T ts a : (forall s t, Rabs (Z s - Z t) <= K * Rabs (s - t)) -> 0 <= K -> resolves h t_obs T ts -> 0.001 <= t_obs ->
  Rabs (lgmet_at_birth ts (map Z ts) t_obs a - Z (birth_time t_obs a)) <= K * h.
Proof.
  intros HZ HK (Hn & Hi & HT & Hg) Ht.
  assert (L0 : (0 < length ts)%nat) by (destruct ts; simpl; [congruence|lia]).
  set (b := birth_time t_obs a). assert (B0 : 0.001 <= b) by apply Rmax_l.
  assert (B1 : b <= t_obs) by (unfold b, birth_time; apply Rmax_lub; [lra|pose proof (pow10_pos a); lra]).
  pose proof (times_pos _ Hi) as Htp. pose proof (increasing_tl _ _ Hi) as Hi1.
  assert (XI : increasing (map log10 ts)) by (apply log10_increasing; auto).
  assert (NE : map log10 ts <> []) by now apply map_neq_nil.
  assert (EL : forall i, (i < length ts)%nat -> ent (map log10 ts) i = log10 (ent ts i)).
  { intros i Q. unfold ent. now rewrite nth_map' with (d := 0). }
  assert (EZ : forall i, (i < length ts)%nat -> ent (map Z ts) i = Z (ent ts i)).
  { intros i Q. unfold ent. now rewrite nth_map' with (d := 0). }
  assert (near : forall x, Rabs (x - b) <= h -> Rabs (Z x - Z b) <= K * h).
  { intros x Hx. eapply Rle_trans; [apply HZ|]. now apply Rmult_le_compat_l. }
  unfold lgmet_at_birth. fold b.
  destruct (Rle_dec b (ent ts 0)) as [C|C].
  - rewrite pwlin_left; auto; [|now rewrite !map_length|rewrite EL by auto; apply log10_le; lra].
    rewrite EZ by auto. apply near. specialize (Hg 0%nat L0). unfold gap in Hg. rewrite ent_cons_S in Hg.
    change (ent (0.001 :: ts) 0) with 0.001 in Hg. rewrite Rabs_right by lra. lra.
  - destruct (find_panel ts b Hi1 Hn ltac:(lra) ltac:(lra)) as (i & Li & A & C').
    assert (P : 0 < ent ts i) by (apply Htp, ent_In; auto).
    destruct C' as [C'|[Ls C']].
    + assert (E : b = ent ts i) by lra. rewrite E, <- EL, pwlin_node, EZ by (auto; now rewrite !map_length).
      rewrite Rminus_diag_eq, Rabs_R0 by reflexivity. apply Rmult_le_pos; [exact HK|].
      specialize (Hg 0%nat L0). unfold gap in Hg. rewrite ent_cons_S in Hg. change (ent (0.001 :: ts) 0) with 0.001 in Hg.
      assert (0.001 < ent ts 0) by (apply (proj1 (proj1 (increasing_cons _ _) Hi)), ent_In; lia). lra.
    + pose proof (Hg (S i) Ls) as G. unfold gap in G. rewrite !ent_cons_S in G.
      apply (pwlin_local _ _ _ _ _ i); auto; [now rewrite !map_length|now rewrite map_length|rewrite !EL by lia; split; apply log10_le; lra| |].
      * rewrite EZ by lia. apply near. rewrite Rabs_left1 by lra. lra.
      * rewrite EZ by lia. apply near. rewrite Rabs_right by lra. lra.
Qed.

Lemma C146_sed_met_lemma : forall K F f Kz Z h d T ts scatter ssp_lgmet ages n_wave flux B V t_obs sfr_min,
  smooth_history K F f -> 1 / 10 ^ 14 <= F -> 0 < sfr_min <= F -> 0 <= d -> (forall t, sfr_min <= f t + d /\ 1 / 10 ^ 14 <= f t + d) ->
  (forall s t, Rabs (Z s - Z t) <= Kz * Rabs (s - t)) -> (forall t, mdf_inside (Z t) scatter) ->
  resolves h t_obs T ts -> (3 <= length ages)%nat -> nondecreasing (age_edges ages) -> 0.001 <= t_obs ->
  (3 <= length ssp_lgmet)%nat -> nondecreasing (met_edges ssp_lgmet) ->
  is_cube (length ssp_lgmet) (length ages) n_wave flux ->
  (forall i j k, (i < length ssp_lgmet)%nat -> (j < length ages)%nat -> (k < n_wave)%nat -> Rabs (ent3 flux i j k) <= B) -> 0 <= B ->
  (forall j k, (j < length ages)%nat -> (k < n_wave)%nat -> met_variation (length ssp_lgmet) flux j k <= V) ->
  let e := table_error K F h d T in
  2 * e < mass_in_range f t_obs ages ->
  exists r sed q,
    (forall j, (j < length ages)%nat ->
       calc_lgmet_weights_from_lognormal_mdf (Fin (Z (birth_time t_obs (ent ages j)))) (Fin scatter) (fins ssp_lgmet) = Ok (fins (q j)) /\ distribution (q j))
    /\ calc_rest_sed_sfh_table_met_table (fins ts) (fins (map f ts)) (fins (map Z ts)) (Fin scatter) (fins ssp_lgmet) (fins ages) (fins3 flux) (Fin t_obs) (Fin sfr_min) = Ok r
    /\ rest_sed r = fins sed /\ length sed = n_wave
    /\ forall k, (k < n_wave)%nat ->
       Rabs (ent sed k - synthesis_history f t_obs (length ssp_lgmet) ages q flux k)
       <= 10 ^ 9 * B * e * (1 + 4 * INR (length ages) * (RInt f 0.001 t_obs / mass_in_range f t_obs ages))
          + 10 ^ 9 * RInt f 0.001 t_obs * (mdf_shift (Kz * h) scatter scatter * V).
Proof.
  intros K F f Kz Z h d T ts sc lg ages nw flux B V t m Hf H14 Hm Hd Hdf HZ Hin Hr Ha He Ht Hlm Hme Hc HB HB0 HV e HR.
  assert (Hsc : 0 < sc) by (exact (proj1 (Hin 0))).
  assert (KZ : 0 <= Kz). { specialize (HZ 1 0). rewrite Rminus_0_r, (Rabs_right 1) in HZ by lra. pose proof (Rabs_pos (Z 1 - Z 0)). lra. }
  assert (Hd1 : forall t, m <= f t + d) by (intros; apply Hdf). assert (Hd2 : forall t, 1 / 10 ^ 14 <= f t + d) by (intros; apply Hdf).
  destruct (conv_weights K F h d (1 / 10 ^ 14) T t f ts Hf H14 ltac:(lra) Hd Hd2 Hr ages Ha He HR) as (Hff & w & Ew & Lw & Ww).
  pose proof Hr as (Hn & Hi & HT & Hg). assert (Hl : length ts = length (map f ts)) by now rewrite map_length.
  assert (Lm : length ts = length (map Z ts)) by now rewrite map_length.
  assert (G : good_grids ts (map f ts) sc lg ages t) by (repeat split; auto).
  destruct (joint_met_fins ts (map f ts) (map Z ts) sc lg ages t G Lm) as (aw & W & EA & LA & DA & EJ & SW & HW).
  rewrite Ew in EA. injection EA as EA. apply fins_inj in EA. subst aw.
  destruct (sed_met_fins ts (map f ts) (map Z ts) sc lg ages flux nw t m G Lm ltac:(lra) ltac:(lra) Hc) as (W2 & M2 & aw2 & EW & _ & _ & _ & ES).
  rewrite EJ in EW. injection EW as Q _ _. apply map_fins_inj in Q. subst W2.
  set (q := fun j => met_weights (Z (birth_time t (ent ages j))) sc (met_edges lg)).
  assert (Dq : forall j, distribution (q j) /\ length (q j) = length lg).
  { intros j. destruct (met_weights_dist_met (Z (birth_time t (ent ages j))) sc lg Hsc Hlm Hme) as [D L]. split; auto. }
  eexists. exists (map (fun k => template_mix (length lg) (length ages) W flux k * mass_formed_by ts (floored m (map f ts)) t) (seq 0 nw)), q.
  split. { intros j Hj. split; [|apply Dq]. unfold q. now apply lognormal_fins. }
  split; [exact ES|]. split; [reflexivity|]. split; [now rewrite map_length, seq_length|].
  intros k Hk. unfold ent at 1. rewrite nth_map' with (d := 0%nat) by (now rewrite seq_length). rewrite seq_nth by auto. rewrite Nat.add_0_l.
  pose proof (conv_mass K F h d m T t f ts Hf H14 Hm Hd Hd1 Hr t Ht ltac:(left; lra)) as CM. fold e in CM.
  set (M := mass_formed_by ts (floored m (map f ts)) t) in *.
  set (P := mass_in_range f t ages) in *. set (I := RInt f 0.001 t) in *.
  assert (I0 : 0 <= I). { unfold I. destruct Hf as [HF HK]. exact (proj1 (RInt_range f F 0.001 t HF (lip_ex K f _ _ HK) Ht)). }
  assert (e0 : 0 <= e). { pose proof (Rabs_pos (M - 10 ^ 9 * I)). lra. }
  assert (HP : 0 < P) by lra.
  set (S := template_mix (length lg) (length ages) W flux k).
  set (Bj := fun j => Rsum (map (fun i => ent (q j) i * ent3 flux i j k) (seq 0 (length lg)))).
  set (S1 := Rsum (map (fun j => ent w j * Bj j) (seq 0 (length ages)))).
  set (S0 := Rsum (map (fun j => mass_in_bin f t ages j / P * Bj j) (seq 0 (length ages)))).
  assert (A1 : Rabs (S - S1) <= mdf_shift (Kz * h) sc sc * V).
  { unfold S. rewrite (mix_by_columns _ _ W _ w flux k HW). unfold S1. apply columns_close; auto. intros j Hj. unfold Bj, q.
    eapply Rle_trans; [apply (column_diff _ sc _ sc (Kz * h) lg (fun i => ent3 flux i j k)); auto|].
    - split; [exact Hsc|]. unfold lgmet_at_birth. apply pwlin_range; auto.
      all: first [now rewrite !map_length | now apply map_neq_nil | idtac].
      + apply log10_increasing; [apply times_pos; auto|now apply increasing_tl in Hi].
      + apply List.Forall_map, List.Forall_forall. intros x _. exact (proj2 (Hin x)).
    - now apply (lgmet_read Kz Z h t T).
    - apply Rmult_le_compat_l; [|now apply HV]. apply shift_nonneg; auto.
      pose proof (conv_h h T t ts Hr) as CH. apply Rmult_le_pos; lra. }
  assert (BB : forall j, (j < length ages)%nat -> Rabs (Bj j) <= B).
  { intros j Hj. destruct (Dq j) as [D L]. unfold Bj.
    pose proof (columns_close (length lg) (q j) (fun i => ent3 flux i j k) (fun _ => 0) B L D) as CC.
    assert (Z0 : Rsum (map (fun i => ent (q j) i * 0) (seq 0 (length lg))) = 0).
    { rewrite (Rsum_map_ext _ (fun _ => 0 * 0)) by (intros; ring). rewrite <- (map_map (fun _ : nat => 0) (fun x => x * 0)), Rsum_scal_r. ring. }
    cbv beta in CC. rewrite Z0, Rminus_0_r in CC. apply CC. intros i Hii. rewrite Rminus_0_r. now apply HB. }
  assert (A2 : Rabs (S1 - S0) <= INR (length ages) * (4 * e / P * B)).
  { assert (X : forall (g g' : nat -> R) c l, (forall j, In j l -> Rabs (g j - g' j) <= c) -> Rabs (Rsum (map g l) - Rsum (map g' l)) <= INR (length l) * c).
    { intros g g' c l. induction l as [|x l IH]; intros H; [simpl; rewrite Rminus_0_r, Rabs_R0; lra|].
      cbn [map Rsum length]. rewrite S_INR. pose proof (H x ltac:(now left)) as A. pose proof (IH ltac:(intros; apply H; now right)) as C.
      apply Rabs_le_between in A. apply Rabs_le_between in C. apply Rabs_le_between. lra. }
    replace (INR (length ages)) with (INR (length (seq 0 (length ages)))) by (now rewrite seq_length). apply X. intros j Hj. apply in_seq in Hj.
    rewrite <- Rmult_minus_distr_r, Rabs_mult. apply Rmult_le_compat; try apply Rabs_pos; [apply Ww; lia|apply BB; lia]. }
  assert (SB : Rabs S <= B).
  { unfold S. rewrite (mix_by_columns _ _ W _ w flux k HW).
    pose proof (columns_close (length ages) w (fun j => Rsum (map (fun i => ent (met_weights (lgmet_at_birth ts (map Z ts) t (ent ages j)) sc (met_edges lg)) i * ent3 flux i j k) (seq 0 (length lg)))) (fun _ => 0) B Lw DA) as CC.
    assert (Z0 : forall (l : list nat) (g : nat -> R), Rsum (map (fun i => g i * 0) l) = 0).
    { intros l g. rewrite (Rsum_map_ext _ (fun _ => 0 * 0)) by (intros; ring). rewrite <- (map_map (fun _ : nat => 0) (fun x => x * 0)), Rsum_scal_r. ring. }
    cbv beta in CC. rewrite Z0, Rminus_0_r in CC. apply CC. intros j Hj. rewrite Rminus_0_r.
    destruct (met_weights_dist_met (lgmet_at_birth ts (map Z ts) t (ent ages j)) sc lg Hsc Hlm Hme) as [D L].
    pose proof (columns_close (length lg) _ (fun i => ent3 flux i j k) (fun _ => 0) B L D) as C2.
    cbv beta in C2. rewrite Z0, Rminus_0_r in C2. apply C2. intros i Hii. rewrite Rminus_0_r. now apply HB. }
  unfold synthesis_history. fold I. fold P. change (Rsum (map _ (seq 0 (length ages)))) with S0.
  replace (S * M - 10 ^ 9 * I * S0) with ((M - 10 ^ 9 * I) * S + 10 ^ 9 * I * ((S - S1) + (S1 - S0))) by ring.
  eapply Rle_trans; [apply Rabs_triang|]. rewrite !Rabs_mult, (Rabs_right (10 ^ 9)), (Rabs_right I) by lra.
  assert (Q1 : Rabs (M - 10 ^ 9 * I) * Rabs S <= 10 ^ 9 * e * B) by (apply Rmult_le_compat; auto; apply Rabs_pos).
  assert (Q2 : 10 ^ 9 * I * Rabs (S - S1 + (S1 - S0)) <= 10 ^ 9 * I * (mdf_shift (Kz * h) sc sc * V + INR (length ages) * (4 * e / P * B))).
  { apply Rmult_le_compat_l; [lra|]. eapply Rle_trans; [apply Rabs_triang|]. lra. }
  replace (10 ^ 9 * B * e * (1 + 4 * INR (length ages) * (I / P))) with (10 ^ 9 * e * B + 10 ^ 9 * I * (INR (length ages) * (4 * e / P * B))) by (field; lra).
  lra.
Qed.
