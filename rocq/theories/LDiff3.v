(** * Differentiability of the age weights and of the SED: theorems *)
From Coq Require Import Reals List Arith Lra Lia Bool.
From Coquelicot Require Import Coquelicot.
From Flocq Require Import Core.Raux.
From Verif Require Import Num Arr MUtils MSed Spec Spec2 RList LUtils LCalc LAge LKern LMet LJoint LDiff LDiff2.
Import ListNotations.
Open Scope R_scope.

Lemma near_and s P Q : near s P -> near s Q -> near s (fun r => P r /\ Q r).
Proof.
  intros [d [Hd H]] [e [He K]]. exists (Rmin d e). split; [now apply Rmin_pos|]. intros r Hr. split; [apply H|apply K];
    eapply Rlt_le_trans; eauto; [apply Rmin_l|apply Rmin_r].
Qed.
Lemma near_imp s (P Q : R -> Prop) : (forall r, P r -> Q r) -> near s P -> near s Q.
Proof. intros I [d [Hd H]]. exists d. auto. Qed.
Lemma near_at s (P : R -> Prop) : near s P -> P s.
Proof. intros [d [Hd H]]. apply H. rewrite Rminus_eq_0, Rabs_R0. auto. Qed.

Definition moves_off (ts : list R) (t : R -> R) (s : R) ages : Prop :=
  (forall r, t r = t s) \/ born_off_grid ts (t s) (age_edges ages).
Lemma total_near ts (F : R -> list R) smin (t : R -> R) ages s :
  smooth_at F s -> length ts = length (F s) -> increasing (0.001 :: ts) -> 0 < smin -> avoids smin (F s) ->
  ex_derive t s -> moves_off ts t s ages -> total_mass ts (F s) smin (t s) ages <> 0 ->
  near s (fun r => total_mass ts (F r) smin (t r) ages <> 0).
Proof.
  intros S L I P A T H N.
  assert (E : forall i, (i <= length ages)%nat -> ex_derive (fun r => edge_mass ts (F r) smin (t r) (age_edge ages i)) s).
  { intros i Hi. apply edge_mass_smooth; auto. destruct H as [H|H]; auto. right. unfold born_off_grid in H.
    rewrite Forall_forall in H. apply H. now apply age_edge_in. }
  apply near_locally. apply (locally_neq (fun r => total_mass ts (F r) smin (t r) ages) (fun _ => 0)); auto using ex_derive_const0.
  unfold total_mass. apply ex_derive_minus'; apply E; lia.
Qed.
Lemma age_w_ok ts ss smin t_obs ages : length ts = length ss -> increasing (0.001 :: ts) -> ts <> [] -> 0 < smin ->
  (3 <= length ages)%nat -> total_mass ts ss smin t_obs ages <> 0 ->
  calc_age_weights_from_sfh_table (fins ts) (fins ss) (fins ages) (Fin t_obs) (Fin smin) = Ok (fins (age_w ts ss smin t_obs ages)).
Proof. intros. now apply age_weights_fins_ok. Qed.
Lemma C116_lemma : forall ts (sfrs : R -> list R) (t_obs : R -> R) ages sfr_min s,
  smooth_at sfrs s -> ex_derive t_obs s ->
  length ts = length (sfrs s) -> ts <> [] -> increasing (0.001 :: ts) -> 0 < sfr_min -> (3 <= length ages)%nat ->
  avoids sfr_min (sfrs s) ->
  (forall r, t_obs r = t_obs s) \/ born_off_grid ts (t_obs s) (age_edges ages) ->
  (let formed lg_age := mass_formed_by ts (floored sfr_min (sfrs s)) (birth_time (t_obs s) lg_age) in
   formed (age_edge ages 0) <> formed (age_edge ages (length ages))) ->
  exists w : R -> list R,
    near s (fun r => calc_age_weights_from_sfh_table (fins ts) (fins (sfrs r)) (fins ages) (Fin (t_obs r)) (Fin sfr_min)
                     = Ok (fins (w r)))
    /\ smooth_at w s.
Proof.
  intros ts F t ages smin s S T L N I P Ha A H Hf. cbv zeta in Hf.
  assert (Z : total_mass ts (F s) smin (t s) ages <> 0) by (unfold total_mass, edge_mass; lra).
  exists (fun r => age_w ts (F r) smin (t r) ages). split.
  - eapply near_imp; [|apply (total_near ts F smin t ages s); eauto]. cbv beta. intros r Hr.
    apply age_w_ok; auto. now rewrite (smooth_len F s _ S (eq_sym L)).
  - now apply age_w_smooth.
Qed.

(** ** cumulative stellar mass *)
Lemma C116_mass_lemma : forall ts (sfrs : R -> list R) sfr_min s,
  smooth_at sfrs s -> length ts = length (sfrs s) -> increasing (0.001 :: ts) -> 0 < sfr_min -> avoids sfr_min (sfrs s) ->
  exists lgm : R -> list R,
    (forall r, calc_logsm_table_from_sfh_table (fins ts) (fins (sfrs r)) (Fin sfr_min) = fins (lgm r))
    /\ smooth_at lgm s.
Proof.
  intros ts F smin s S L I P A. exists (fun r => map log10 (cumulative_mass ts (floored smin (F r)))). split.
  - intros r. apply calc_logsm_fins; auto. now rewrite (smooth_len F s _ S (eq_sym L)).
  - assert (FS : smooth_at (fun r => floored smin (F r)) s) by now apply floored_smooth.
    apply smooth_map; [apply (cumulative_smooth ts (fun r => floored smin (F r))); auto; now rewrite floored_length|].
    intros i Hi. rewrite cumulative_mass_length in Hi.
    destruct (cumulative_smooth ts (fun r => floored smin (F r)) s) as [_ D]; auto; [now rewrite floored_length|].
    apply ex_derive_log10; [apply D|]. apply cumulative_pos; auto using floored_pos. now rewrite floored_length.
Qed.

(** ** SED *)
Lemma fins_inj' a b : fins a = fins b -> a = b.
Proof.
  revert b. induction a as [|x a IH]; intros [|y b] H; try discriminate; auto.
  unfold fins in H. simpl in H. injection H as -> H. f_equal. now apply IH.
Qed.
Lemma ok_inj {A} (a b : A) : Ok a = Ok b -> a = b.
Proof. congruence. Qed.
Lemma joint_lognormal_explicit ts sfrs lgmet h lgmets ages t_obs :
  good_grids ts sfrs h lgmets ages t_obs ->
  calc_ssp_weights_sfh_table_lognormal_mdf (fins ts) (fins sfrs) (Fin lgmet) (Fin h) (fins lgmets) (fins ages) (Fin t_obs) =
  Ok {| weights := map fins (outer (met_weights lgmet h (met_edges lgmets)) (age_w ts sfrs (1 / 10 ^ 14) t_obs ages));
        lgmet_weights := fins (met_weights lgmet h (met_edges lgmets));
        age_weights := fins (age_w ts sfrs (1 / 10 ^ 14) t_obs ages) |}.
Proof.
  intros G. destruct (joint_lognormal_fins ts sfrs lgmet h lgmets ages t_obs G) as (mw & aw & E1 & _ & _ & E2 & _ & _ & E).
  destruct G as (Hl & Hn & Hi & Ha & He & Hh & Hm & Hme & Hf). cbv zeta in Hf.
  rewrite age_w_ok in E1; auto using sfr_min_pos. 2:{ unfold total_mass, edge_mass. lra. }
  rewrite lognormal_fins in E2 by auto. apply ok_inj in E1. apply ok_inj in E2.
  apply fins_inj' in E1. apply fins_inj' in E2. now rewrite E, E1, E2.
Qed.
Lemma sed_lognormal_explicit ts sfrs lgmet h lgmets ages f w t_obs smin :
  good_grids ts sfrs h lgmets ages t_obs -> 0 < t_obs -> 0 < smin ->
  is_cube (length lgmets) (length ages) w f ->
  let mw := met_weights lgmet h (met_edges lgmets) in
  let aw := age_w ts sfrs (1 / 10 ^ 14) t_obs ages in
  calc_rest_sed_sfh_table_lognormal_mdf (fins ts) (fins sfrs) (Fin lgmet) (Fin h)
         (fins lgmets) (fins ages) (fins3 f) (Fin t_obs) (Fin smin)
  = Ok {| rest_sed := fins (map (fun k => template_mix (length lgmets) (length ages) (outer mw aw) f k
                                       * mass_formed_by ts (floored smin sfrs) t_obs) (seq 0 w));
          rs_weights := map fins (outer mw aw); rs_lgmet_weights := fins mw; rs_age_weights := fins aw |}.
Proof.
  intros G Ht Hs Hf. cbv zeta. pose proof (joint_lognormal_explicit ts sfrs lgmet h lgmets ages t_obs G) as E.
  destruct (sed_lognormal_fins ts sfrs lgmet h lgmets ages f w t_obs smin G Ht Hs Hf) as (W & mw & aw & E' & _ & _ & _ & K).
  rewrite E in E'. apply ok_inj in E'.
  assert (E1 := f_equal weights E'). assert (E2 := f_equal lgmet_weights E'). assert (E3 := f_equal age_weights E').
  cbn [weights lgmet_weights age_weights] in E1, E2, E3. rewrite K. rewrite <- E1, <- E2, <- E3.
  assert (I : W = outer (met_weights lgmet h (met_edges lgmets)) (age_w ts sfrs (1 / 10 ^ 14) t_obs ages)).
  { symmetry. clear - E1. revert E1. generalize (outer (met_weights lgmet h (met_edges lgmets)) (age_w ts sfrs (1 / 10 ^ 14) t_obs ages)) as V.
    intros V. revert W. induction V as [|v V IH]; intros [|u W] H; try discriminate; auto.
    cbn [map] in H. assert (H1 := f_equal (hd []) H). assert (H2 := f_equal (@tl _) H). cbn [hd tl] in H1, H2. apply fins_inj' in H1. rewrite H1. f_equal. now apply IH. }
  rewrite I. reflexivity.
Qed.
Lemma smooth2_intro (T : R -> list (list R)) n k s : (forall r, is_matrix n k (T r)) ->
  (forall i j, (i < n)%nat -> (j < k)%nat -> ex_derive (fun r => ent2 (T r) i j) s) -> smooth2_at T s.
Proof.
  intros L D. split; [now exists n, k|]. intros i j.
  destruct (Nat.lt_ge_cases i n) as [Hi|Hi]; [destruct (Nat.lt_ge_cases j k) as [Hj|Hj]; [now apply D|]|].
  - apply (ex_derive_eq (fun _ => 0)); [|apply ex_derive_const0]. intros r. unfold ent2. rewrite ent_out; auto.
    destruct (L r) as [L1 L2]. rewrite Forall_forall in L2. rewrite L2; auto. apply nth_In. lia.
  - apply (ex_derive_eq (fun _ => 0)); [|apply ex_derive_const0]. intros r. unfold ent2. rewrite ent_out; auto.
    destruct (L r) as [L1 L2]. rewrite nth_overflow by lia. simpl; lia.
Qed.
Lemma outer_smooth (a b : R -> list R) s : smooth_at a s -> smooth_at b s -> smooth2_at (fun r => outer (a r) (b r)) s.
Proof.
  intros A B. pose proof (smooth_len a s _ A eq_refl) as La. pose proof (smooth_len b s _ B eq_refl) as Lb.
  apply (smooth2_intro _ (length (a s)) (length (b s))).
  - intros r. rewrite <- (La r), <- (Lb r). apply outer_shape.
  - intros i j Hi Hj. apply (ex_derive_eq (fun r => ent (a r) i * ent (b r) j)).
    + intros r. rewrite outer_ent; auto; [now rewrite La|now rewrite Lb].
    + apply ex_derive_mult'; [apply A|apply B].
Qed.
Lemma mix_smooth n m (W : R -> list (list R)) (f : R -> list (list (list R))) k s :
  smooth2_at W s -> smooth3_at f s -> ex_derive (fun r => template_mix n m (W r) (f r) k) s.
Proof.
  intros [_ DW] [_ DF]. unfold template_mix.
  apply (ex_derive_Rsum (fun i r => Rsum (map (fun j => ent2 (W r) i j * ent3 (f r) i j k) (seq 0 m)))). intros i _.
  apply (ex_derive_Rsum (fun j r => ent2 (W r) i j * ent3 (f r) i j k)). intros j _. apply ex_derive_mult'; auto.
Qed.
Lemma cube_near (f : R -> list (list (list R))) n k w s : (0 < n)%nat -> (0 < k)%nat -> smooth3_at f s -> is_cube n k w (f s) -> forall r, is_cube n k w (f r).
Proof.
  intros Hn Hk [[n' [k' [w' L]]] _] C r. pose proof (L s) as [A1 A2]. destruct C as [B1 B2]. rewrite A1 in B1. subst n'.
  destruct (f s) as [|p q] eqn:E; [simpl in A1; lia|].
  assert (P : is_matrix k' w' p) by (inversion A2; auto). assert (Q : is_matrix k w p) by (inversion B2; auto).
  destruct P as [P1 P2], Q as [Q1 Q2]. destruct p as [|v p]; [simpl in Q1; lia|].
  assert (V1 : length v = w') by (inversion P2; auto). assert (V2 : length v = w) by (inversion Q2; auto).
  rewrite <- Q1, <- V2, P1, V1. apply L.
Qed.
Lemma C117_lemma : forall ts (sfrs : R -> list R) (lgmet scatter t_obs : R -> R) (flux : R -> list (list (list R)))
    ssp_lgmet ages n_wave sfr_min s,
  smooth_at sfrs s -> ex_derive lgmet s -> ex_derive scatter s -> ex_derive t_obs s -> smooth3_at flux s ->
  good_grids ts (sfrs s) (scatter s) ssp_lgmet ages (t_obs s) -> increasing (met_edges ssp_lgmet) ->
  0 < t_obs s -> 0 < sfr_min -> is_cube (length ssp_lgmet) (length ages) n_wave (flux s) ->
  avoids sfr_min (sfrs s) -> avoids (1 / 10 ^ 14) (sfrs s) ->
  (forall r, t_obs r = t_obs s) \/ (born_off_grid ts (t_obs s) (age_edges ages) /\ ~ In (t_obs s) ts) ->
  exists (sed mw aw : R -> list R) (W : R -> list (list R)),
    near s (fun r =>
      calc_rest_sed_sfh_table_lognormal_mdf (fins ts) (fins (sfrs r)) (Fin (lgmet r)) (Fin (scatter r))
        (fins ssp_lgmet) (fins ages) (fins3 (flux r)) (Fin (t_obs r)) (Fin sfr_min)
      = Ok {| rest_sed := fins (sed r); rs_weights := map fins (W r);
              rs_lgmet_weights := fins (mw r); rs_age_weights := fins (aw r) |})
    /\ smooth_at sed s /\ smooth2_at W s /\ smooth_at mw s /\ smooth_at aw s.
Proof.
  intros ts F x h t f lgmets ages w smin s S X H T Fl G Hme Ht Hs Hc A1 A2 Hoff.
  assert (Hm : moves_off ts t s ages) by (destruct Hoff as [?|[? ?]]; [now left|now right]).
  destruct G as (Hl & Hn & Hi & Ha & He & Hh & Hlm & Hmn & Hf). cbv zeta in Hf.
  assert (Z : total_mass ts (F s) (1 / 10 ^ 14) (t s) ages <> 0) by (unfold total_mass, edge_mass; lra).
  pose proof (smooth_len F s _ S (eq_sym Hl)) as LF.
  set (mw := fun r => met_weights (x r) (h r) (met_edges lgmets)).
  set (aw := fun r => age_w ts (F r) (1 / 10 ^ 14) (t r) ages).
  assert (Smw : smooth_at mw s). { apply met_weights_smooth; auto. rewrite met_edges_length. lia. }
  assert (Saw : smooth_at aw s). { apply age_w_smooth; auto using sfr_min_pos. }
  assert (SW : smooth2_at (fun r => outer (mw r) (aw r)) s) by now apply outer_smooth.
  exists (fun r => map (fun k => template_mix (length lgmets) (length ages) (outer (mw r) (aw r)) (f r) k
                   * mass_formed_by ts (floored smin (F r)) (t r)) (seq 0 w)), mw, aw, (fun r => outer (mw r) (aw r)).
  split; [|split; [|split; [exact SW|split; [exact Smw|exact Saw]]]].
  - pose proof (total_near ts F (1 / 10 ^ 14) t ages s S Hl Hi sfr_min_pos A2 T Hm Z) as N1.
    pose proof (near_locally _ _ (locally_lt (fun _ => 0) h s (ex_derive_const0 _ _) H Hh)) as N2.
    pose proof (near_locally _ _ (locally_lt (fun _ => 0) t s (ex_derive_const0 _ _) T Ht)) as N3.
    eapply near_imp; [|exact (near_and _ _ _ N1 (near_and _ _ _ N2 N3))]. cbv beta. intros r (R1 & R2 & R3).
    apply (sed_lognormal_explicit ts (F r) (x r) (h r) lgmets ages (f r) w (t r) smin); auto.
    + unfold total_mass, edge_mass in R1. repeat (split; [now auto|]). cbv zeta. lra.
    + apply (cube_near f _ _ w s); auto; lia.
  - apply smooth_map_seq. intros k Hk. apply ex_derive_mult'; [now apply mix_smooth|].
    apply (mass_smooth ts (fun r => floored smin (F r)) t); auto.
    + now apply floored_smooth.
    + now rewrite floored_length.
    + now apply floored_pos.
    + destruct Hoff as [?|[? ?]]; auto.
Qed.
