(** * Differentiability: SED with a metallicity history, bursts *)
From Coq Require Import Reals List Arith Lra Lia Bool.
From Coquelicot Require Import Coquelicot.
From Flocq Require Import Core.Raux.
From Verif Require Import Num Arr MUtils MSed MDiffburst Spec Spec2 RList LUtils LCalc LAge LKern LKern2 LMet LJoint LBurst LDiff LDiff2 LDiff3.
Import ListNotations.
Open Scope R_scope.

Lemma lgmet_birth_smooth ts (M : R -> list R) (t : R -> R) a s :
  smooth_at M s -> length ts = length (M s) -> increasing (0.001 :: ts) -> ex_derive t s ->
  ((forall r, t r = t s) \/ (t s - pow10 a <> 0.001 /\ ~ In (t s - pow10 a) ts)) ->
  ex_derive (fun r => lgmet_at_birth ts (M r) (t r) a) s.
Proof.
  intros S L I T H. pose proof (smooth_len M s _ S (eq_sym L)) as LM.
  destruct (birth_smooth t s a ts I T H) as [B C]. unfold lgmet_at_birth.
  assert (LB : ex_derive (fun r => log10 (birth_time (t r) a)) s) by (apply ex_derive_log10; auto; apply birth_time_pos).
  apply (pwlin_smooth (map log10 ts) M (fun r => log10 (birth_time (t r) a))); auto.
  - intros r. now rewrite map_length.
  - intros c Hc. apply in_map_iff in Hc as [u [<- Hu]]. destruct C as [C|C].
    + apply same_side_const. intros r. now rewrite C.
    + apply same_side_off; auto. intros E. apply C. apply log10_inj in E; [now rewrite E|apply birth_time_pos|now apply (times_pos ts I)].
Qed.
Definition met_joint ts ms h lgmets ages t_obs aw : list (list R) :=
  map (fun i => map (fun j => ent (met_weights (lgmet_at_birth ts ms t_obs (ent ages j)) h (met_edges lgmets)) i * ent aw j)
                    (seq 0 (length ages))) (seq 0 (length lgmets)).
Lemma met_joint_shape ts ms h lgmets ages t_obs aw :
  is_matrix (length lgmets) (length ages) (met_joint ts ms h lgmets ages t_obs aw).
Proof.
  unfold met_joint. split; [now rewrite map_length, seq_length|]. apply Forall_map, Forall_forall. intros i _.
  now rewrite map_length, seq_length.
Qed.
Lemma met_joint_ent ts ms h lgmets ages t_obs aw i j : (i < length lgmets)%nat -> (j < length ages)%nat ->
  ent2 (met_joint ts ms h lgmets ages t_obs aw) i j
  = ent (met_weights (lgmet_at_birth ts ms t_obs (ent ages j)) h (met_edges lgmets)) i * ent aw j.
Proof.
  intros Hi Hj. unfold ent2, met_joint. rewrite nth_map' with (d := O) by now rewrite seq_length.
  rewrite seq_nth by auto. now rewrite ent_map_seq.
Qed.
Lemma joint_met_explicit ts sfrs ms h lgmets ages t_obs :
  good_grids ts sfrs h lgmets ages t_obs -> length ts = length ms ->
  calc_ssp_weights_sfh_table_met_table (fins ts) (fins sfrs) (fins ms) (Fin h) (fins lgmets) (fins ages) (Fin t_obs) =
  Ok {| weights := map fins (met_joint ts ms h lgmets ages t_obs (age_w ts sfrs (1 / 10 ^ 14) t_obs ages));
        lgmet_weights := map fins (met_matrix ts ms h lgmets ages t_obs);
        age_weights := fins (age_w ts sfrs (1 / 10 ^ 14) t_obs ages) |}.
Proof.
  intros G Lm. destruct (joint_met_fins ts sfrs ms h lgmets ages t_obs G Lm) as (aw & W & E1 & _ & _ & E & SW & HW).
  destruct G as (Hl & Hn & Hi & Ha & He & Hh & Hm & Hme & Hf). cbv zeta in Hf.
  rewrite age_w_ok in E1; auto using sfr_min_pos. 2:{ unfold total_mass, edge_mass. lra. }
  apply ok_inj in E1. apply fins_inj' in E1. rewrite E, <- E1 in *.
  replace W with (met_joint ts ms h lgmets ages t_obs (age_w ts sfrs (1 / 10 ^ 14) t_obs ages)); auto.
  apply (matrix_ext (length lgmets) (length ages)); auto; [apply met_joint_shape|].
  intros i j H1 H2. rewrite met_joint_ent, HW by auto. reflexivity.
Qed.
Lemma map_fins_inj a b : map fins a = map fins b -> a = b.
Proof.
  revert b. induction a as [|v V IH]; intros [|u W] H; try discriminate; auto.
  cbn [map] in H. assert (H1 := f_equal (hd []) H). assert (H2 := f_equal (@tl _) H). cbn [hd tl] in H1, H2.
  apply fins_inj' in H1. rewrite H1. f_equal. now apply IH.
Qed.
Lemma sed_met_explicit ts sfrs ms h lgmets ages f w t_obs smin :
  good_grids ts sfrs h lgmets ages t_obs -> length ts = length ms -> 0 < t_obs -> 0 < smin ->
  is_cube (length lgmets) (length ages) w f ->
  let aw := age_w ts sfrs (1 / 10 ^ 14) t_obs ages in
  let W := met_joint ts ms h lgmets ages t_obs aw in
  calc_rest_sed_sfh_table_met_table (fins ts) (fins sfrs) (fins ms) (Fin h)
         (fins lgmets) (fins ages) (fins3 f) (Fin t_obs) (Fin smin)
  = Ok {| rest_sed := fins (map (fun k => template_mix (length lgmets) (length ages) W f k
                                       * mass_formed_by ts (floored smin sfrs) t_obs) (seq 0 w));
          rs_weights := map fins W; rs_lgmet_weights := map fins (met_matrix ts ms h lgmets ages t_obs);
          rs_age_weights := fins aw |}.
Proof.
  intros G Lm Ht Hs Hf. cbv zeta. pose proof (joint_met_explicit ts sfrs ms h lgmets ages t_obs G Lm) as E.
  destruct (sed_met_fins ts sfrs ms h lgmets ages f w t_obs smin G Lm Ht Hs Hf) as (W & M & aw & E' & _ & _ & _ & K).
  rewrite E in E'. apply ok_inj in E'.
  assert (E1 := f_equal weights E'). assert (E2 := f_equal lgmet_weights E'). assert (E3 := f_equal age_weights E').
  cbn [weights lgmet_weights age_weights] in E1, E2, E3. rewrite K. rewrite <- E1, <- E2, <- E3.
  apply map_fins_inj in E1. rewrite <- E1. reflexivity.
Qed.
Lemma C117_met_lemma : forall ts (sfrs lgmet_table : R -> list R) (scatter t_obs : R -> R)
    (flux : R -> list (list (list R))) ssp_lgmet ages n_wave sfr_min s,
  smooth_at sfrs s -> smooth_at lgmet_table s -> ex_derive scatter s -> ex_derive t_obs s -> smooth3_at flux s ->
  good_grids ts (sfrs s) (scatter s) ssp_lgmet ages (t_obs s) -> length ts = length (lgmet_table s) ->
  increasing (met_edges ssp_lgmet) ->
  0 < t_obs s -> 0 < sfr_min -> is_cube (length ssp_lgmet) (length ages) n_wave (flux s) ->
  avoids sfr_min (sfrs s) -> avoids (1 / 10 ^ 14) (sfrs s) ->
  (forall r, t_obs r = t_obs s)
  \/ (born_off_grid ts (t_obs s) (age_edges ages) /\ born_off_grid ts (t_obs s) ages /\ ~ In (t_obs s) ts) ->
  exists (sed aw : R -> list R) (W M : R -> list (list R)),
    near s (fun r =>
      calc_rest_sed_sfh_table_met_table (fins ts) (fins (sfrs r)) (fins (lgmet_table r)) (Fin (scatter r))
        (fins ssp_lgmet) (fins ages) (fins3 (flux r)) (Fin (t_obs r)) (Fin sfr_min)
      = Ok {| rest_sed := fins (sed r); rs_weights := map fins (W r);
              rs_lgmet_weights := map fins (M r); rs_age_weights := fins (aw r) |})
    /\ smooth_at sed s /\ smooth2_at W s /\ smooth2_at M s /\ smooth_at aw s.
Proof.
  intros ts F ms h t f lgmets ages w smin s S X H T Fl G Lm Hme Ht Hs Hc A1 A2 Hoff.
  assert (Hm : moves_off ts t s ages) by (destruct Hoff as [?|[? ?]]; [now left|now right]).
  destruct G as (Hl & Hn & Hi & Ha & He & Hh & Hlm & Hmn & Hf). cbv zeta in Hf.
  assert (Z : total_mass ts (F s) (1 / 10 ^ 14) (t s) ages <> 0) by (unfold total_mass, edge_mass; lra).
  pose proof (smooth_len F s _ S (eq_sym Hl)) as LF. pose proof (smooth_len ms s _ X (eq_sym Lm)) as LM.
  set (aw := fun r => age_w ts (F r) (1 / 10 ^ 14) (t r) ages).
  set (W := fun r => met_joint ts (ms r) (h r) lgmets ages (t r) (aw r)).
  set (M := fun r => met_matrix ts (ms r) (h r) lgmets ages (t r)).
  assert (Saw : smooth_at aw s). { apply age_w_smooth; auto using sfr_min_pos. }
  assert (Smw : forall j, (j < length ages)%nat ->
    smooth_at (fun r => met_weights (lgmet_at_birth ts (ms r) (t r) (ent ages j)) (h r) (met_edges lgmets)) s).
  { intros j Hj. apply (met_weights_smooth (fun r => lgmet_at_birth ts (ms r) (t r) (ent ages j)) h); auto.
    - apply lgmet_birth_smooth; auto. destruct Hoff as [?|(_ & O & _)]; auto. right. unfold born_off_grid in O.
      rewrite Forall_forall in O. apply O. now apply ent_In.
    - rewrite met_edges_length. lia. }
  assert (SW : smooth2_at W s).
  { apply (smooth2_intro _ (length lgmets) (length ages)); [intros; apply met_joint_shape|]. intros i j H1 H2.
    apply (ex_derive_eq (fun r => ent (met_weights (lgmet_at_birth ts (ms r) (t r) (ent ages j)) (h r) (met_edges lgmets)) i * ent (aw r) j)).
    - intros r. unfold W. now rewrite met_joint_ent.
    - apply ex_derive_mult'; [|apply Saw]. destruct (Smw j H2) as [_ D]. apply (D i). }
  assert (SM : smooth2_at M s).
  { apply (smooth2_intro _ (length lgmets) (length ages)); [intros; apply met_matrix_shape|]. intros i j H1 H2.
    apply (ex_derive_eq (fun r => ent (met_weights (lgmet_at_birth ts (ms r) (t r) (ent ages j)) (h r) (met_edges lgmets)) i / INR (length ages))).
    - intros r. unfold M. now rewrite met_matrix_ent.
    - unfold Rdiv. apply ex_derive_mult'; [|apply ex_derive_const0]. destruct (Smw j H2) as [_ D]. apply (D i). }
  exists (fun r => map (fun k => template_mix (length lgmets) (length ages) (W r) (f r) k
                   * mass_formed_by ts (floored smin (F r)) (t r)) (seq 0 w)), aw, W, M.
  split; [|split; [|split; [exact SW|split; [exact SM|exact Saw]]]].
  - pose proof (total_near ts F (1 / 10 ^ 14) t ages s S Hl Hi sfr_min_pos A2 T Hm Z) as N1.
    pose proof (near_locally _ _ (locally_lt (fun _ => 0) h s (ex_derive_const0 _ _) H Hh)) as N2.
    pose proof (near_locally _ _ (locally_lt (fun _ => 0) t s (ex_derive_const0 _ _) T Ht)) as N3.
    eapply near_imp; [|exact (near_and _ _ _ N1 (near_and _ _ _ N2 N3))]. cbv beta. intros r (R1 & R2 & R3).
    apply (sed_met_explicit ts (F r) (ms r) (h r) lgmets ages (f r) w (t r) smin); auto.
    + unfold total_mass, edge_mass in R1. repeat (split; [now auto|]). cbv zeta. lra.
    + apply (cube_near f _ _ w s); auto; lia.
  - apply smooth_map_seq. intros k Hk. apply ex_derive_mult'; [now apply mix_smooth|].
    apply (mass_smooth ts (fun r => floored smin (F r)) t); auto.
    + now apply floored_smooth.
    + now rewrite floored_length.
    + now apply floored_pos.
    + destruct Hoff as [?|(_ & _ & ?)]; auto.
Qed.

(** ** bursts *)
Lemma ex_derive_pow' (f : R -> R) n s : ex_derive f s -> ex_derive (fun r => f r ^ n) s.
Proof.
  intros F. induction n; [exact (ex_derive_const0 1 s)|]. simpl. now apply ex_derive_mult'.
Qed.
(** the triweight density is differentiable everywhere *)
Lemma pos3_derive y : ex_derive (fun y => pos_part y ^ 3) y.
Proof.
  assert (ID : ex_derive (fun r : R => r) y) by apply ex_derive_id.
  destruct (Rtotal_order y 0) as [H|[H|H]].
  - apply (ex_derive_near (fun _ => 0)); [|apply ex_derive_const0].
    eapply filter_imp; [|apply (locally_lt (fun r => r) (fun _ => 0) y ID (ex_derive_const0 _ _)); auto]. simpl. intros u Hu.
    rewrite pos_part_neg by lra. ring.
  - subst. exists 0. apply (glue_derive _ (fun _ => 0) (fun y => y ^ 3)).
    + intros x Hx. rewrite pos_part_neg by lra. ring.
    + intros x Hx. now rewrite pos_part_pos by lra.
    + apply is_derive_const0.
    + auto_derive; auto; ring.
  - apply (ex_derive_near (fun y => y ^ 3)); [|apply (ex_derive_pow' (fun r => r)); auto].
    eapply filter_imp; [|apply (locally_lt (fun _ => 0) (fun r => r) y (ex_derive_const0 _ _) ID); auto]. simpl. intros u Hu.
    now rewrite pos_part_pos by lra.
Qed.
Lemma tw_density_derive z : ex_derive tw_density z.
Proof.
  apply (ex_derive_eq (fun z => 35/96 * pos_part (1 - (z / 3) ^ 2) ^ 3)); [intros; now rewrite tw_density_alt|].
  apply ex_derive_mult'; [apply ex_derive_const0|].
  apply (ex_derive_comp' (fun y => pos_part y ^ 3) (fun z => 1 - (z / 3) ^ 2)); [apply pos3_derive|].
  apply ex_derive_minus'; [apply ex_derive_const0|]. apply (ex_derive_pow' (fun z => z / 3)). unfold Rdiv.
  apply ex_derive_mult'; [apply ex_derive_id|apply ex_derive_const0].
Qed.
Lemma burst_raw_smooth (p m : R -> R) x s : ex_derive p s -> ex_derive m s -> p s < m s ->
  ex_derive (fun r => burst_raw (p r) (m r) x) s.
Proof.
  intros P M H. unfold burst_raw.
  assert (W : ex_derive (fun r => (m r - p r) / 3) s).
  { unfold Rdiv. apply ex_derive_mult'; [now apply ex_derive_minus'|apply ex_derive_const0]. }
  apply ex_derive_div'; auto; [|lra].
  apply (ex_derive_comp' tw_density (fun r => (x - p r) / ((m r - p r) / 3))); [apply tw_density_derive|].
  apply ex_derive_div'; auto; [|lra]. apply ex_derive_minus'; [apply ex_derive_const0|auto].
Qed.
(** no age covered in a neighbourhood, or one covered *)
Lemma burst_w_smooth (p m : R -> R) l s : ex_derive p s -> ex_derive m s -> p s < m s ->
  (exists x, In x l /\ 2 * p s - m s < x < m s) -> smooth_at (fun r => burst_w (p r) (m r) l) s.
Proof.
  intros P M H (x & Hx & Hb).
  assert (Raw : forall y, ex_derive (fun r => burst_raw (p r) (m r) y) s) by (intros; now apply burst_raw_smooth).
  assert (Sum : ex_derive (fun r => Rsum (map (fun y => burst_raw (p r) (m r) y) l)) s).
  { apply (ex_derive_Rsum (fun y r => burst_raw (p r) (m r) y)). auto. }
  assert (Pos : 0 < Rsum (map (fun y => burst_raw (p s) (m s) y) l)).
  { apply Rlt_le_trans with (burst_raw (p s) (m s) x); [now apply burst_raw_in|].
    apply Rsum_In_le; [|now apply (in_map (burst_raw (p s) (m s)))]. apply Forall_forall. intros w Hw.
    apply in_map_iff in Hw as [y [<- _]]. now apply burst_raw_nonneg. }
  assert (LP := locally_lt (fun _ => 0) _ s (ex_derive_const0 _ _) Sum Pos).
  apply (smooth_intro _ (length l)); [intros; apply burst_w_length|]. intros i Hi.
  apply (ex_derive_near (fun r => burst_raw (p r) (m r) (ent l i) / Rsum (map (fun y => burst_raw (p r) (m r) y) l))).
  - eapply filter_imp; [|exact LP]. cbv beta. intros r Hr. rewrite burst_w_ent by auto. unfold burst_norm.
    change (map (burst_raw (p r) (m r)) l) with (map (fun y => burst_raw (p r) (m r) y) l).
    destruct (Rle_dec _ _); [lra|reflexivity].
  - apply ex_derive_div'; auto. lra.
Qed.
Lemma C118_lemma : forall (lgfburst lgyr_peak lgyr_max : R -> R) (smooth : R -> list R) ages s,
  ex_derive lgfburst s -> ex_derive lgyr_peak s -> ex_derive lgyr_max s -> smooth_at smooth s ->
  length (smooth s) = length ages -> lgyr_peak s < lgyr_max s ->
  (exists j, (j < length ages)%nat /\ 2 * lgyr_peak s - lgyr_max s < ent ages j + 9 < lgyr_max s) ->
  exists w : R -> list R,
    near s (fun r => calc_bursty_age_weights
        {| lgfburst := Fin (lgfburst r); lgyr_peak := Fin (lgyr_peak r); lgyr_max := Fin (lgyr_max r) |}
        (fins (smooth r)) (fins ages) = Ok (fins (w r)))
    /\ smooth_at w s.
Proof.
  intros fb p m sm ages s F P M S L H (j & Hj & Hb). pose proof (smooth_len sm s _ S L) as LS.
  assert (SB : smooth_at (fun r => burst_w (p r) (m r) (map (fun a => a + 9) ages)) s).
  { apply burst_w_smooth; auto. exists (ent ages j + 9). split; auto.
    apply (in_map (fun a => a + 9)). now apply ent_In. }
  exists (fun r => mix_w (pow10 (fb r)) (burst_w (p r) (m r) (map (fun a => a + 9) ages)) (sm r)). split.
  - apply near_locally. eapply filter_imp; [|apply (locally_lt p m s P M H)]. cbv beta. intros r Hr.
    now apply bursty_fins.
  - apply (smooth_intro _ (length ages)).
    + intros r. rewrite mix_length; auto. now rewrite burst_w_length, map_length, LS.
    + intros i Hi. apply (ex_derive_eq (fun r => pow10 (fb r) * ent (burst_w (p r) (m r) (map (fun a => a + 9) ages)) i
                                          + (1 - pow10 (fb r)) * ent (sm r) i)).
      * intros r. rewrite mix_ent; auto; [now rewrite burst_w_length, map_length|now rewrite LS].
      * pose proof (ex_derive_pow10 fb s F). destruct SB as [_ DB]. destruct S as [_ DS].
        apply ex_derive_plus'; (apply ex_derive_mult'; auto). apply ex_derive_minus'; auto. apply ex_derive_const0.
Qed.
(** the bounding functions of the burst parameters are differentiable, so the unbounded
    parametrisation is differentiable whenever the template grid has an age in every window of
    two decades around an allowed peak *)
Lemma logistic_derive (f : R -> R) s : ex_derive f s -> ex_derive (fun r => logistic (f r)) s.
Proof.
  intros F. unfold logistic. pose proof (exp_pos (- f s)). apply ex_derive_div'; [apply ex_derive_const0| |lra].
  apply ex_derive_plus'; [apply ex_derive_const0|]. apply (ex_derive_comp' exp (fun r => - f r)); [eexists; apply is_derive_exp|].
  apply (ex_derive_eq (fun r => (-1) * f r)); [intros; lra|]. apply ex_derive_mult'; auto. apply ex_derive_const0.
Qed.
Lemma bnd_derive x0 k (lo hi u : R -> R) (s : R) (c : R -> R) : ex_derive lo s -> ex_derive hi s -> ex_derive u s -> ex_derive c s ->
  ex_derive (fun r => lo r + (hi r - lo r) * logistic (k * (u r - (x0 + c r)))) s.
Proof.
  intros L H U C. apply ex_derive_plus'; auto. apply ex_derive_mult'; [now apply ex_derive_minus'|].
  apply logistic_derive. apply ex_derive_mult'; [apply ex_derive_const0|]. apply ex_derive_minus'; auto.
  apply ex_derive_plus'; auto. apply ex_derive_const0.
Qed.
Lemma C118_u_lemma : forall (u_lgfburst u_lgyr_peak u_lgyr_max : R -> R) (smooth : R -> list R) ages,
  (forall peak, 5 < peak < 8 -> exists j, (j < length ages)%nat /\ Rabs (ent ages j + 9 - peak) <= 1) ->
  forall s, ex_derive u_lgfburst s -> ex_derive u_lgyr_peak s -> ex_derive u_lgyr_max s -> smooth_at smooth s ->
  length (smooth s) = length ages ->
  exists w : R -> list R,
    near s (fun r => calc_bursty_age_weights_from_u_params
        {| u_lgfburst := Fin (u_lgfburst r); u_lgyr_peak := Fin (u_lgyr_peak r); u_lgyr_max := Fin (u_lgyr_max r) |}
        (fins (smooth r)) (fins ages) = Ok (fins (w r)))
    /\ smooth_at w s.
Proof.
  intros uf up um sm ages Hg s F P M S L.
  set (p := fun r => bnd 6.5 0.1 5 8 (up r)).
  set (m := fun r => bnd (0.5 * (9 + (p r + 1))) 0.1 (p r + 1) 9 (um r)).
  assert (PB : 5 < p s < 8) by (apply bnd_bounds; lra).
  assert (MB : p s + 1 < m s < 9) by (apply bnd_bounds; lra).
  assert (DP : ex_derive p s).
  { apply (ex_derive_eq (fun r => 5 + (8 - 5) * logistic (0.1 * (up r - (6.5 + 0))))); [intros; unfold p, bnd; now rewrite Rplus_0_r|].
    apply (bnd_derive 6.5 0.1 (fun _ => 5) (fun _ => 8) up s (fun _ => 0)); auto using ex_derive_const0. }
  assert (DP1 : ex_derive (fun r => p r + 1) s) by (apply ex_derive_plus'; auto using ex_derive_const0).
  assert (DM : ex_derive m s).
  { apply (bnd_derive 0 0.1 (fun r => p r + 1) (fun _ => 9) um s (fun r => 0.5 * (9 + (p r + 1)))) in DP1 as D; auto using ex_derive_const0.
    - eapply ex_derive_eq; [|exact D]. intros r. unfold m, bnd. now rewrite Rplus_0_l.
    - apply ex_derive_mult'; [apply ex_derive_const0|]. apply ex_derive_plus'; auto using ex_derive_const0. }
  assert (DF : ex_derive (fun r => bnd (-2) 0.1 (-8) (-1) (uf r)) s).
  { apply (ex_derive_eq (fun r => -8 + (-1 - -8) * logistic (0.1 * (uf r - (-2 + 0))))); [intros; unfold bnd; now rewrite Rplus_0_r|].
    apply (bnd_derive (-2) 0.1 (fun _ => -8) (fun _ => -1) uf s (fun _ => 0)); auto using ex_derive_const0. }
  destruct (Hg (p s) PB) as (j & Hj & Hd).
  assert (Hd2 : -1 <= ent ages j + 9 - p s <= 1) by (split; [|]; unfold Rabs in Hd; destruct (Rcase_abs _); lra).
  destruct (C118_lemma (fun r => bnd (-2) 0.1 (-8) (-1) (uf r)) p m sm ages s DF DP DM S L ltac:(lra)) as (w & N & SW).
  { exists j. split; auto. lra. }
  exists w. split; auto. eapply near_imp; [|exact N]. cbv beta. intros r <-.
  unfold calc_bursty_age_weights_from_u_params. f_equal. exact (params_fin (uf r) (up r) (um r)).
Qed.
Lemma C118_jump_lemma :
  (forall mx, 7 < mx <= 8 ->
     calc_bursty_age_weights {| lgfburst := Fin (-1); lgyr_peak := Fin 7; lgyr_max := Fin mx |} (fins [1]) (fins [-3])
     = Ok (fins [9 / 10]))
  /\ (forall mx, 8 < mx ->
     calc_bursty_age_weights {| lgfburst := Fin (-1); lgyr_peak := Fin 7; lgyr_max := Fin mx |} (fins [1]) (fins [-3])
     = Ok (fins [1])).
Proof.
  assert (T : pow10 (-1) = 1 / 10).
  { unfold pow10. change (-1) with (- (1)). rewrite Rpower_Ropp, Rpower_1 by lra. lra. }
  split; intros mx H; rewrite bursty_fins by (simpl; auto; lra); do 2 f_equal; rewrite T.
  - rewrite burst_w_unresolved; [simpl; unfold mix_w; simpl; f_equal; lra|lra|].
    intros x [<-|[]]. right. lra.
  - assert (R : Rsum (burst_w 7 mx (map (fun a => a + 9) [-3])) = 1).
    { apply burst_w_resolved; [lra|]. exists (-3 + 9). split; [now left|lra]. }
    cbn [map] in *. unfold burst_w in *. cbn [map Rsum] in *. unfold mix_w. cbn [map2]. f_equal. rewrite Rplus_0_r in R. rewrite R. lra.
Qed.
