(** * Gradients of the SED pipeline *)
From Coq Require Import Reals List Arith Lra Lia ZArith Bool.
From Coquelicot Require Import Coquelicot.
From Flocq Require Import Core.Raux.
From Verif Require Import Num Arr MUtils MSed MCosmo MPhot MGrad MTrace MTrace2 Spec Spec2 SpecGrad RList LUtils LBcast LKern LImf LMet LAge LJoint LDiff LGrad LGrad2 LGrad3 LGrad4 LGrad5 LGrad6 LGrad7.
Import ListNotations.
Open Scope R_scope.
#[local] Existing Instance exact.
Local Notation Ts l v := (List.Forall (fun e => T e v) l).

Lemma Ts_right l v : right_gradients l v <-> Ts l v.
Proof. unfold right_gradients. split; apply List.Forall_impl; intros e; apply T_right. Qed.
Lemma T_entry l i v : Ts l v -> (i < length l)%nat -> T (entry l i) v.
Proof. intros F H. eapply List.Forall_forall in F; [exact F|]. unfold entry. now apply nth_In. Qed.
Lemma T_where_const (k : bool) a b x : T a x -> T b x -> T (Where (fun _ => k) Arg a b) x.
Proof. intros A B. apply (T_where _ _ _ _ _ k); auto. apply filter_forall. auto. Qed.
(** interpolation at a fixed position in a table of fixed abscissas *)
Lemma T_interp_lr l r x (xp : list R) fp v : xp <> [] -> length xp = length fp -> T l v -> T r v -> Ts fp v -> T (interp_lr_trace l r (Fin x) (fins xp) fp) v.
Proof.
  intros N L Tl Tr F. unfold interp_lr_trace. rewrite fins_length. set (i := clip_index _ _).
  assert (Ln : (1 <= length xp)%nat) by (destruct xp; [contradiction|simpl; lia]).
  assert (Hi : (i < length xp)%nat) by (unfold i, clip_index; lia).
  apply T_where_const; auto. apply T_where_const; auto. rewrite !at_fins by lia.
  apply T_where_const; [apply T_entry; auto; lia|].
  apply T_add; [apply T_entry; auto; lia|]. apply T_mul; [|apply T_sub; apply T_entry; auto; lia].
  apply T_div; [|ts|apply T_where_const; ts]. cbn [eval]. rewrite nsub_fin. unfold nwhere.
  destruct (nabs (Fin (ent xp i - ent xp (i - 1))) <=? Fin interp_eps)%num eqn:Q; [apply neq_fin; lra|].
  apply neq_fin. intros Z. rewrite Z in Q. unfold nabs in Q. rewrite Rabs_R0 in Q. rewrite nleb_fin in Q. rewrite Rle_bool_true in Q; [discriminate|]. cbn. lra.
Qed.
Lemma T_interp x (xp : list R) fp v : xp <> [] -> length xp = length fp -> Ts fp v -> T (interp_trace (Fin x) (fins xp) fp) v.
Proof.
  intros N L F. assert (1 <= length fp)%nat by (rewrite <- L; destruct xp; [contradiction|simpl; lia]).
  unfold interp_trace. apply T_interp_lr; auto; apply T_entry; auto; lia.
Qed.
(** stellar masses *)
Lemma T_cum v : forall (ts : list R) fs a fa cum, T fa v -> T cum v -> Ts fs v -> Ts (cum_traces (Fin a) fa cum (combine (fins ts) fs)) v.
Proof.
  induction ts as [|t ts IH]; intros [|f fs] a fa cum A C F; cbn [fins map combine cum_traces]; auto. inversion F; subst.
  assert (T (Add cum (Div (Mul (Sub (Cst (Fin t)) (Cst (Fin a))) (Add f fa)) (Cst (Fin 2)))) v).
  { ts. apply T_div; ts. cbn [eval]. apply neq_fin. lra. }
  constructor; [assumption|]. apply (IH fs t f); auto.
Qed.
Lemma Forall_tl {A} (P : A -> Prop) l : List.Forall P l -> List.Forall P (tl l). Proof. intros F. destruct F; simpl; auto. Qed.
Lemma T_mass (ts : list R) fs v : Ts fs v -> Ts (mass_traces (fins ts) fs) v.
Proof.
  intros F. unfold mass_traces. apply List.Forall_map. eapply List.Forall_impl; [|apply Forall_tl].
  - intros e H. cbv beta. apply T_mul; [exact H|]. change YEAR_PER_GYR with (Fin (10 ^ 9)). ts.
  - change T_BIRTH_MIN with (Fin 0.001). change SFR_MIN with (Fin (1 / 10 ^ 14)). change (Fin 0.001 :: fins ts) with (fins (0.001 :: ts)).
    apply T_cum; ts. constructor; [ts|exact F].
Qed.
Lemma T_floored c fs v ss : Ts fs v -> map (fun e => eval e (Fin v)) fs = fins ss -> avoids c ss -> Ts (map (fun s => Where (fun v => v <? Fin c)%num s (Cst (Fin c)) s) fs) v.
Proof.
  revert ss. induction fs as [|f fs IH]; intros [|s ss] F E A; try discriminate; cbn [map]; constructor; inversion F; inversion A; subst; cbn [map fins] in E; injection E as E1 E2.
  - apply T_where_lt; ts. rewrite E1. now apply neq_fin.
  - eapply IH; eauto.
Qed.
Lemma T_logsm (ts ss : list R) fs c v : Ts fs v -> map (fun e => eval e (Fin v)) fs = fins ss -> avoids c ss ->
  length ts = length ss -> increasing (0.001 :: ts) -> 0 < c -> Ts (logsm_traces (fins ts) fs (Fin c)) v.
Proof.
  intros F E A L I P. unfold logsm_traces. set (fl := map _ fs).
  assert (Fl : Ts fl v) by (eapply T_floored; eauto).
  assert (Lf : length (fins ts) = length fl). { unfold fl. rewrite map_length, fins_length. transitivity (length (map (fun e => eval e (Fin v)) fs)); [rewrite E, fins_length; auto|apply map_length]. }
  pose proof (T_mass ts fl v Fl) as M.
  assert (Ev : map (fun e => eval e (Fin v)) (mass_traces (fins ts) fl) = fins (cumulative_mass ts (floored c ss))).
  { rewrite mass_eval by auto. replace (map (fun e => eval e (Fin v)) fl) with (fins (floored c ss)).
    - apply cumulative_mass_fins. now rewrite floored_length.
    - unfold fl. rewrite map_map. cbn [eval]. symmetry. etransitivity; [|apply (map_fins (fun s => nwhere (s <? Fin c)%num (Fin c) s) (Rmax c)); intros; apply Rmax_where].
      rewrite <- E, map_map. reflexivity. }
  assert (Pos : List.Forall (fun m => 0 < m) (cumulative_mass ts (floored c ss))).
  { apply cumulative_mass_increasing; auto using floored_pos. now rewrite floored_length. }
  apply List.Forall_map. apply List.Forall_forall. intros e He. pose proof He as He'. eapply List.Forall_forall in He; [|exact M].
  apply (in_map (fun e => eval e (Fin v))) in He'. rewrite Ev in He'. unfold fins in He'. apply in_map_iff in He' as (m & Em & Hm). rewrite List.Forall_forall in Pos. specialize (Pos m Hm).
  eapply T_log10; eauto.
Qed.
Lemma logsm_len {AR : Arith} (ts : list num) fs c : length ts = length fs -> length (logsm_traces ts fs c) = length ts.
Proof.
  intros L. assert (G : forall l a fa cum, length (cum_traces a fa cum l) = length l). { induction l as [|(b, fb) l IH]; intros; cbn [cum_traces length]; auto. }
  unfold logsm_traces, mass_traces. rewrite !map_length. destruct ts as [|t ts], fs as [|f fs]; try discriminate; [reflexivity|]. cbn [map combine cum_traces tl length]. rewrite G, combine_length, map_length. cbn [length] in L. lia.
Qed.
Lemma T_mstar (ts ss : list R) fs c v t_obs : Ts fs v -> map (fun e => eval e (Fin v)) fs = fins ss -> avoids c ss ->
  length ts = length ss -> ts <> [] -> increasing (0.001 :: ts) -> 0 < c -> 0 < t_obs -> T (mstar_trace (fins ts) fs (Fin t_obs) (Fin c)) v.
Proof.
  intros F E A L N I P Ht. unfold mstar_trace. apply T_pow10. rewrite nlog10_fin by auto. rewrite log10_table_fins by now apply times_pos.
  assert (Lf : length ts = length fs). { transitivity (length (map (fun e => eval e (Fin v)) fs)); [rewrite E, fins_length; auto|apply map_length]. }
  apply T_interp; [destruct ts; [contradiction|discriminate]| |eapply T_logsm; eauto].
  rewrite logsm_len by (now rewrite fins_length). now rewrite fins_length, map_length.
Qed.
(** masses per age bin and age weights *)
Lemma T_bin_mass (ts ss ages : list R) fs c v t_obs : Ts fs v -> map (fun e => eval e (Fin v)) fs = fins ss -> avoids c ss ->
  length ts = length ss -> ts <> [] -> increasing (0.001 :: ts) -> 0 < c -> (3 <= length ages)%nat -> Ts (bin_mass_traces (fins ts) fs (fins ages) (Fin t_obs) (Fin c)) v.
Proof.
  intros F E A L N I P Ha. unfold bin_mass_traces. cbv zeta.
  rewrite get_lg_age_bin_edges_fins by auto. rewrite (map_fins (get_lgt_birth (Fin t_obs)) (fun a => log10 (birth_time t_obs a))) by (intros; apply get_lgt_birth_fin).
  rewrite log10_table_fins by now apply times_pos.
  set (xs := map (fun a => log10 (birth_time t_obs a)) (age_edges ages)).
  assert (Lf : length ts = length fs). { transitivity (length (map (fun e => eval e (Fin v)) fs)); [rewrite E, fins_length; auto|apply map_length]. }
  assert (G : Ts (map (fun x => Pow10 (interp_trace x (fins (map log10 ts)) (logsm_traces (fins ts) fs (Fin c)))) (fins xs)) v).
  { apply List.Forall_map. unfold fins at 1. apply List.Forall_map. apply List.Forall_forall. intros x _. apply T_pow10.
    apply T_interp; [destruct ts; [contradiction|discriminate]| |eapply T_logsm; eauto].
    rewrite logsm_len by (now rewrite fins_length). now rewrite fins_length, map_length. }
  revert G. generalize (map (fun x => Pow10 (interp_trace x (fins (map log10 ts)) (logsm_traces (fins ts) fs (Fin c)))) (fins xs)) as sm. intros sm G.
  apply List.Forall_map. apply Forall_map2. intros a b Ia Ib. apply T_neg. assert (Ib' : In b sm) by (destruct sm; [exact Ib|right; exact Ib]).
  rewrite List.Forall_forall in G. apply T_sub; auto.
Qed.
Lemma T_shares l v s : Ts l v -> eval (Sum l) (Fin v) = Fin s -> s <> 0 -> Ts (shares l) v.
Proof.
  intros F E N. unfold shares. apply List.Forall_map. eapply List.Forall_impl; [|exact F]. intros e He. cbv beta. apply T_div; auto; [rewrite E; now apply neq_fin|]. now apply T_sum.
Qed.
(** the bin masses sum to the mass formed within the age range *)
Lemma bin_mass_total (ts ss ages : list R) fs c v t_obs : map (fun e => eval e (Fin v)) fs = fins ss ->
  length ts = length ss -> ts <> [] -> increasing (0.001 :: ts) -> 0 < c -> (3 <= length ages)%nat ->
  eval (Sum (bin_mass_traces (fins ts) fs (fins ages) (Fin t_obs) (Fin c))) (Fin v) = Fin (total_mass ts ss c t_obs ages).
Proof.
  intros E L N I P Ha. assert (Lf : length (fins ts) = length fs). { rewrite fins_length. transitivity (length (map (fun e => eval e (Fin v)) fs)); [rewrite E, fins_length; auto|apply map_length]. }
  change (eval (Sum (bin_mass_traces (fins ts) fs (fins ages) (Fin t_obs) (Fin c))) (Fin v)) with (vsum (map (fun e => eval e (Fin v)) (bin_mass_traces (fins ts) fs (fins ages) (Fin t_obs) (Fin c)))).
  rewrite bin_mass_eval, E by auto.
  rewrite calc_logsm_fins by auto. rewrite get_lg_age_bin_edges_fins by auto. rewrite (map_fins (get_lgt_birth (Fin t_obs)) (fun a => log10 (birth_time t_obs a))) by (intros; apply get_lgt_birth_fin).
  rewrite <- calc_logsm_fins by auto.
  rewrite (map_fins (fun x => interp x _ _) (pwlin (logmass_pts ts (floored c ss)))).
  2:{ intros x Hx. apply in_map_iff in Hx as [e [<- _]]. now apply interp_logmass. }
  rewrite (map_fins npow10 pow10) by (intros; apply npow10_fin). rewrite diff_fins, (map_fins nopp Ropp) by reflexivity. rewrite vsum_fins. f_equal.
  rewrite !map_map. change (map _ (age_edges ages)) with (edge_masses ts ss c t_obs ages).
  rewrite <- bin_masses_sum. f_equal. apply list_eq_ent.
  - rewrite map_length, Rdiff_length, edge_masses_length, bin_masses_length. lia.
  - rewrite map_length, Rdiff_length, edge_masses_length. intros i H.
    rewrite ent_map by (rewrite Rdiff_length, edge_masses_length; lia). rewrite Rdiff_ent by (rewrite edge_masses_length; lia).
    rewrite !edge_masses_ent by lia. unfold bin_masses. rewrite ent_map_seq by lia. cbn [Nat.add]. lra.
Qed.
Lemma T_age_weights (ts ss ages : list R) fs c v t_obs : Ts fs v -> map (fun e => eval e (Fin v)) fs = fins ss -> avoids c ss ->
  length ts = length ss -> ts <> [] -> increasing (0.001 :: ts) -> 0 < c -> (3 <= length ages)%nat -> total_mass ts ss c t_obs ages <> 0 ->
  Ts (age_weight_traces (fins ts) fs (fins ages) (Fin t_obs) (Fin c)) v.
Proof. intros. unfold age_weight_traces. eapply T_shares; [eapply T_bin_mass; eauto|apply bin_mass_total; eauto|auto]. Qed.

(** ** C164, age weights *)
Lemma C164_age_lemma : forall ts sfrs ages t_obs sfr_min v ss,
  right_gradients sfrs v -> map (fun e => eval e (Fin v)) sfrs = fins ss ->
  length ts = length ss -> ts <> [] -> increasing (0.001 :: ts) -> (3 <= length ages)%nat -> 0 < sfr_min -> avoids sfr_min ss ->
  (let formed lg_age := mass_formed_by ts (floored sfr_min ss) (birth_time t_obs lg_age) in
   formed (age_edge ages 0) <> formed (age_edge ages (length ages))) ->
  (forall (AR : Arith) w, calc_age_weights_from_sfh_table (fins ts) (map (fun e => eval e w) sfrs) (fins ages) (Fin t_obs) (Fin sfr_min)
     = Ok (map (fun e => eval (AR := AR) e w) (age_weight_traces (AR := AR) (fins ts) sfrs (fins ages) (Fin t_obs) (Fin sfr_min))))
  /\ right_gradients (age_weight_traces (fins ts) sfrs (fins ages) (Fin t_obs) (Fin sfr_min)) v.
Proof.
  intros ts fs ages t_obs c v ss F E L N I Ha P A Hm. cbv zeta in Hm.
  assert (Lf : length (fins ts) = length fs). { rewrite fins_length. transitivity (length (map (fun e => eval e (Fin v)) fs)); [rewrite E, fins_length; auto|apply map_length]. }
  split.
  - intros AR w. apply age_weights_ok; [exact Lf|intros Z; apply N; destruct ts; [auto|discriminate]|now rewrite fins_length].
  - apply Ts_right. apply Ts_right in F. eapply T_age_weights; eauto. unfold total_mass, edge_mass. lra.
Qed.
