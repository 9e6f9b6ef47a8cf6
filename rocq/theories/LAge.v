(** * Lemmas about the age weights (dsps/sed/stellar_age_weights.py) *)
From Coq Require Import Reals List Arith Lra Lia Bool.
From Flocq Require Import Core.Raux.
From Verif Require Import Num Arr Spec RList MUtils MSed LBcast LUtils.
Import ListNotations.
Open Scope R_scope.

Lemma Rmax_where smin s :
  nwhere (nltb (Fin s) (Fin smin)) (Fin smin) (Fin s) = Fin (Rmax smin s).
Proof.
  rewrite nltb_fin. unfold nwhere.
  destruct (Rlt_bool_spec s smin); [rewrite Rmax_left|rewrite Rmax_right]; auto; lra.
Qed.

Lemma birth_time_pos t a : 0 < birth_time t a.
Proof. unfold birth_time. pose proof (Rmax_l 0.001 (t - pow10 a)). lra. Qed.

Lemma get_lgt_birth_fin t a : get_lgt_birth (Fin t) (Fin a) = Fin (log10 (birth_time t a)).
Proof.
  unfold get_lgt_birth. rewrite npow10_fin, nsub_fin. change T_BIRTH_MIN with (Fin 0.001).
  rewrite Rmax_where. apply nlog10_fin. apply birth_time_pos.
Qed.

Lemma get_lg_age_bin_edges_fins a : (3 <= length a)%nat ->
  get_lg_age_bin_edges_k (fins a) = fins (age_edges a).
Proof.
  intros H. unfold get_lg_age_bin_edges_k. rewrite get_dt_array_fins by auto.
  rewrite !at_fins by lia. rewrite !last_fins by (apply nil_neq_len; rewrite ?widths_length; lia).
  rewrite nsub_fin, !ndiv_fin by lra. rewrite nsub_fin, nadd_fin.
  rewrite edges_aux by auto. rewrite <- age_edges_lohi by auto. f_equal. f_equal.
  rewrite widths_length. unfold widths. rewrite ent_map_seq by lia. reflexivity.
Qed.

Lemma floored_pos smin ss : 0 < smin -> Forall (fun s => 0 < s) (floored smin ss).
Proof.
  intros. unfold floored. apply Forall_map, Forall_forall. intros x _.
  pose proof (Rmax_l smin x). lra.
Qed.
Lemma floored_length smin ss : length (floored smin ss) = length ss.
Proof. apply map_length. Qed.

Lemma calc_logsm_fins ts ss smin :
  length ts = length ss -> increasing (0.001 :: ts) -> 0 < smin ->
  calc_logsm_table_from_sfh_table (fins ts) (fins ss) (Fin smin) =
  fins (map log10 (cumulative_mass ts (floored smin ss))).
Proof.
  intros Hl Hi Hs. unfold calc_logsm_table_from_sfh_table.
  rewrite (map_fins _ (Rmax smin)) by (intros; apply Rmax_where).
  fold (floored smin ss). rewrite cumulative_mass_fins by now rewrite floored_length.
  apply map_fins. intros m Hm. apply nlog10_fin.
  destruct (cumulative_mass_increasing ts (floored smin ss)) as [_ H];
    auto using floored_pos. { now rewrite floored_length. }
  rewrite Forall_forall in H. auto.
Qed.

Lemma times_pos ts : increasing (0.001 :: ts) -> forall t, In t ts -> 0 < t.
Proof. intros H t Ht. apply increasing_cons in H as [H _]. specialize (H t Ht). lra. Qed.

Lemma log10_table_fins ts : (forall t, In t ts -> 0 < t) ->
  map nlog10 (fins ts) = fins (map log10 ts).
Proof. intros H. apply map_fins. intros. apply nlog10_fin. auto. Qed.

Lemma log10_increasing ts : (forall t, In t ts -> 0 < t) -> increasing ts -> increasing (map log10 ts).
Proof. intros H Hi. apply increasing_map; auto. intros. apply log10_lt; auto. Qed.

Lemma map_neq_nil {A B} (f : A -> B) l : l <> [] -> map f l <> [].
Proof. destruct l; simpl; congruence. Qed.

Definition logmass_pts (ts ss : list R) : list (R * R) :=
  combine (map log10 ts) (map log10 (cumulative_mass ts ss)).

(** the logarithm of the mass formed by [t] *)
Lemma interp_logmass ts ss smin t :
  length ts = length ss -> increasing (0.001 :: ts) -> ts <> [] -> 0 < smin ->
  interp (Fin (log10 t)) (map nlog10 (fins ts))
    (calc_logsm_table_from_sfh_table (fins ts) (fins ss) (Fin smin)) =
  Fin (pwlin (logmass_pts ts (floored smin ss)) (log10 t)).
Proof.
  intros Hl Hi Hn Hs. rewrite calc_logsm_fins by auto.
  rewrite log10_table_fins by (apply times_pos; auto).
  apply interp_fins.
  - apply log10_increasing; [apply times_pos; auto|now apply increasing_tl in Hi].
  - now rewrite !map_length, cumulative_mass_length.
  - now apply map_neq_nil.
Qed.

(** mass formed by the birth time of the bin edge of log10 age [e] *)
Definition edge_mass (ts ss : list R) (smin t_obs e : R) : R :=
  mass_formed_by ts (floored smin ss) (birth_time t_obs e).

Lemma Rsum_opp_diff l : Rsum (map Ropp (Rdiff l)) = ent l 0 - ent l (length l - 1).
Proof.
  rewrite Rsum_opp. destruct l as [|x l]; [unfold ent; simpl; lra|].
  rewrite Rdiff_sum. cbn [length]. rewrite Nat.sub_succ, Nat.sub_0_r. rewrite ent_0. lra.
Qed.

Definition edge_masses ts ss smin t_obs ages :=
  map (edge_mass ts ss smin t_obs) (age_edges ages).
Lemma edge_masses_length ts ss smin t_obs ages :
  length (edge_masses ts ss smin t_obs ages) = S (length ages).
Proof. unfold edge_masses. now rewrite map_length, age_edges_length. Qed.
Lemma edge_masses_ent ts ss smin t_obs ages i : (i <= length ages)%nat ->
  ent (edge_masses ts ss smin t_obs ages) i = edge_mass ts ss smin t_obs (age_edge ages i).
Proof.
  intros. unfold edge_masses. rewrite ent_map by (rewrite age_edges_length; lia).
  now rewrite age_edges_ent.
Qed.

(** total mass formed within the age range, and the mass per bin *)
Definition total_mass ts ss smin t_obs ages :=
  edge_mass ts ss smin t_obs (age_edge ages 0)
  - edge_mass ts ss smin t_obs (age_edge ages (length ages)).
Definition bin_masses ts ss smin t_obs ages :=
  map (fun i => edge_mass ts ss smin t_obs (age_edge ages i)
                - edge_mass ts ss smin t_obs (age_edge ages (S i))) (seq 0 (length ages)).

Lemma bin_masses_length ts ss smin t_obs ages :
  length (bin_masses ts ss smin t_obs ages) = length ages.
Proof. unfold bin_masses. now rewrite map_length, seq_length. Qed.

Lemma Rsum_telescope (f : nat -> R) n : forall a,
  Rsum (map (fun i => f i - f (S i)) (seq a n)) = f a - f (a + n)%nat.
Proof.
  induction n; intros a; simpl; [rewrite Nat.add_0_r; lra|].
  rewrite IHn. replace (a + S n)%nat with (S a + n)%nat by lia. simpl. lra.
Qed.

Lemma bin_masses_sum ts ss smin t_obs ages :
  Rsum (bin_masses ts ss smin t_obs ages) = total_mass ts ss smin t_obs ages.
Proof.
  unfold bin_masses, total_mass.
  rewrite (Rsum_telescope (fun i => edge_mass ts ss smin t_obs (age_edge ages i))). reflexivity.
Qed.

Lemma age_weights_k_fins ts ss ages t_obs smin :
  length ts = length ss -> increasing (0.001 :: ts) -> ts <> [] -> 0 < smin ->
  (3 <= length ages)%nat ->
  calc_age_weights_from_sfh_table_k (fins ts) (fins ss) (fins ages) (Fin t_obs) (Fin smin) =
  map (fun d => ndiv (Fin d) (Fin (total_mass ts ss smin t_obs ages)))
      (bin_masses ts ss smin t_obs ages).
Proof.
  intros Hl Hi Hn Hs Ha. unfold calc_age_weights_from_sfh_table_k.
  unfold calc_age_weights_from_logsm_table_k. cbn [snd].
  rewrite get_lg_age_bin_edges_fins by auto.
  rewrite (map_fins (get_lgt_birth (Fin t_obs)) (fun a => log10 (birth_time t_obs a)))
    by (intros; apply get_lgt_birth_fin).
  rewrite (map_fins (fun x => interp x _ _) (pwlin (logmass_pts ts (floored smin ss)))).
  2:{ intros x Hx. apply in_map_iff in Hx as [e [<- _]]. now apply interp_logmass. }
  rewrite (map_fins npow10 pow10) by (intros; apply npow10_fin).
  rewrite diff_fins, (map_fins nopp Ropp) by reflexivity.
  rewrite !map_map. change (map _ (age_edges ages)) with (edge_masses ts ss smin t_obs ages).
  rewrite vsum_fins.
  assert (E : map Ropp (Rdiff (edge_masses ts ss smin t_obs ages)) = bin_masses ts ss smin t_obs ages).
  { apply list_eq_ent.
    - rewrite map_length, Rdiff_length, edge_masses_length, bin_masses_length. lia.
    - rewrite map_length, Rdiff_length, edge_masses_length. intros i H.
      rewrite ent_map by (rewrite Rdiff_length, edge_masses_length; lia).
      rewrite Rdiff_ent by (rewrite edge_masses_length; lia).
      rewrite !edge_masses_ent by lia.
      unfold bin_masses. rewrite ent_map_seq by lia. cbn [Nat.add]. lra. }
  rewrite E, bin_masses_sum. unfold fins. now rewrite map_map.
Qed.

(** the public function returns, for well-shaped tables *)
Lemma age_weights_fins ts ss ages t_obs smin :
  length ts = length ss -> increasing (0.001 :: ts) -> ts <> [] -> 0 < smin ->
  (3 <= length ages)%nat ->
  calc_age_weights_from_sfh_table (fins ts) (fins ss) (fins ages) (Fin t_obs) (Fin smin) =
  Ok (map (fun d => ndiv (Fin d) (Fin (total_mass ts ss smin t_obs ages)))
      (bin_masses ts ss smin t_obs ages)).
Proof.
  intros Hl Hi Hn Hs Ha. unfold calc_age_weights_from_sfh_table, check_sfh_tables, check_templates, check.
  rewrite fits_same by (now rewrite !fins_length).
  rewrite !fins_length.
  destruct (Nat.eqb_spec (length ts) 0) as [E|_]; [destruct ts; [congruence|discriminate]|].
  destruct (Nat.leb_spec 3 (length ages)); [|lia]. cbn [negb].
  now rewrite age_weights_k_fins.
Qed.

Lemma age_weights_fins_ok ts ss ages t_obs smin :
  length ts = length ss -> increasing (0.001 :: ts) -> ts <> [] -> 0 < smin ->
  (3 <= length ages)%nat -> total_mass ts ss smin t_obs ages <> 0 ->
  calc_age_weights_from_sfh_table (fins ts) (fins ss) (fins ages) (Fin t_obs) (Fin smin) =
  Ok (fins (map (fun d => d / total_mass ts ss smin t_obs ages)
      (bin_masses ts ss smin t_obs ages))).
Proof.
  intros. rewrite age_weights_fins by auto. f_equal. unfold fins. rewrite map_map.
  apply map_ext. intros. now apply ndiv_fin.
Qed.

(** *** monotonicity of the mass history *)
Lemma floored_len_eq {A} (ts : list A) smin ss :
  length ts = length ss -> length ts = length (floored smin ss).
Proof. now rewrite floored_length. Qed.

Lemma mass_formed_by_mono ts ss t1 t2 :
  length ts = length ss -> increasing (0.001 :: ts) -> Forall (fun s => 0 < s) ss ->
  0 < t1 -> t1 <= t2 -> mass_formed_by ts ss t1 <= mass_formed_by ts ss t2.
Proof.
  intros Hl Hi Hp H1 H2. unfold mass_formed_by. apply pow10_le. apply pwlin_mono.
  - apply log10_increasing; [apply times_pos; auto|now apply increasing_tl in Hi].
  - now rewrite !map_length, cumulative_mass_length.
  - apply increasing_nondecreasing.
    destruct (cumulative_mass_increasing ts ss Hl Hi Hp) as [Hc Hcp].
    apply log10_increasing; auto. now apply Forall_forall.
  - now apply log10_le.
Qed.

Lemma mass_formed_by_strict ts ss t1 t2 :
  length ts = length ss -> increasing (0.001 :: ts) -> Forall (fun s => 0 < s) ss ->
  (2 <= length ts)%nat ->
  0 < t1 -> t1 < t2 -> ent ts 0 < t2 -> t1 < ent ts (length ts - 1) ->
  mass_formed_by ts ss t1 < mass_formed_by ts ss t2.
Proof.
  intros Hl Hi Hp H2 H1 H12 Ha Hb. unfold mass_formed_by. apply pow10_lt.
  pose proof (times_pos _ Hi) as Htp.
  apply pwlin_strict.
  - apply log10_increasing; [auto|now apply increasing_tl in Hi].
  - now rewrite !map_length, cumulative_mass_length.
  - destruct (cumulative_mass_increasing ts ss Hl Hi Hp) as [Hc Hcp].
    apply log10_increasing; auto. now apply Forall_forall.
  - now rewrite map_length.
  - now apply log10_lt.
  - rewrite ent_map by lia. apply log10_lt; auto. apply Htp, ent_In. lia.
  - rewrite map_length, ent_map by lia. now apply log10_lt.
Qed.

Lemma birth_time_anti t a b : a <= b -> birth_time t b <= birth_time t a.
Proof.
  intros H. unfold birth_time. pose proof (pow10_le _ _ H).
  apply Rmax_lub; [apply Rmax_l|]. eapply Rle_trans; [|apply Rmax_r]. lra.
Qed.

Lemma edge_mass_anti ts ss smin t_obs a b :
  length ts = length ss -> increasing (0.001 :: ts) -> 0 < smin -> a <= b ->
  edge_mass ts ss smin t_obs b <= edge_mass ts ss smin t_obs a.
Proof.
  intros. unfold edge_mass. apply mass_formed_by_mono; auto using floored_pos, floored_len_eq, birth_time_pos.
  now apply birth_time_anti.
Qed.

Lemma age_edge_le ages i : nondecreasing (age_edges ages) -> (i < length ages)%nat ->
  age_edge ages i <= age_edge ages (S i).
Proof.
  intros H Hi. rewrite <- !age_edges_ent by lia. apply H. rewrite age_edges_length. lia.
Qed.

Lemma bin_masses_nonneg ts ss smin t_obs ages :
  length ts = length ss -> increasing (0.001 :: ts) -> 0 < smin ->
  nondecreasing (age_edges ages) ->
  Forall (fun x => 0 <= x) (bin_masses ts ss smin t_obs ages).
Proof.
  intros. unfold bin_masses. apply Forall_map, Forall_forall. intros i Hi.
  apply in_seq in Hi.
  pose proof (edge_mass_anti ts ss smin t_obs (age_edge ages i) (age_edge ages (S i)) ltac:(auto)
    ltac:(auto) ltac:(auto) ltac:(apply age_edge_le; auto; lia)). lra.
Qed.

Lemma total_mass_nonneg ts ss smin t_obs ages :
  length ts = length ss -> increasing (0.001 :: ts) -> 0 < smin ->
  nondecreasing (age_edges ages) -> 0 <= total_mass ts ss smin t_obs ages.
Proof.
  intros. rewrite <- bin_masses_sum. apply Rsum_nonneg. now apply bin_masses_nonneg.
Qed.

Lemma normalised_distribution l T :
  Forall (fun x => 0 <= x) l -> Rsum l = T -> 0 < T -> distribution (map (fun d => d / T) l).
Proof.
  intros H1 H2 H3. split.
  - apply Forall_map. eapply Forall_impl; [|exact H1]. simpl. intros a Ha.
    now apply Rdiv_le_0_compat'.
  - rewrite Rsum_div, H2. field. lra.
Qed.

Lemma age_weights_distribution ts ss ages t_obs smin :
  length ts = length ss -> increasing (0.001 :: ts) -> ts <> [] -> 0 < smin ->
  (3 <= length ages)%nat -> nondecreasing (age_edges ages) ->
  edge_mass ts ss smin t_obs (age_edge ages 0)
    <> edge_mass ts ss smin t_obs (age_edge ages (length ages)) ->
  exists w,
    calc_age_weights_from_sfh_table (fins ts) (fins ss) (fins ages) (Fin t_obs) (Fin smin)
      = Ok (fins w)
    /\ length w = length ages /\ distribution w.
Proof.
  intros Hl Hi Hn Hs Ha He Hm.
  assert (HT : 0 < total_mass ts ss smin t_obs ages).
  { pose proof (total_mass_nonneg ts ss smin t_obs ages Hl Hi Hs He). unfold total_mass in *. lra. }
  eexists. split; [apply age_weights_fins_ok; auto; lra|]. split.
  - rewrite map_length. apply bin_masses_length.
  - apply normalised_distribution; auto using bin_masses_nonneg, bin_masses_sum.
Qed.

(** explicit sufficient condition for mass in the age range *)
Lemma edge_mass_neq ts ss ages t_obs smin :
  length ts = length ss -> increasing (0.001 :: ts) -> (2 <= length ts)%nat -> 0 < smin ->
  age_edge ages 0 < age_edge ages (length ages) ->
  ent ts 0 < t_obs - pow10 (age_edge ages 0) ->
  t_obs - pow10 (age_edge ages (length ages)) < ent ts (length ts - 1) ->
  edge_mass ts ss smin t_obs (age_edge ages 0)
    <> edge_mass ts ss smin t_obs (age_edge ages (length ages)).
Proof.
  intros Hl Hi H2 Hs He Ha Hb.
  assert (H0 : 0.001 < ent ts 0).
  { apply increasing_cons in Hi as [Hi _]. apply Hi, ent_In. lia. }
  assert (H1 : ent ts 0 <= ent ts (length ts - 1)).
  { apply increasing_le; [now apply increasing_tl in Hi|lia]. }
  unfold edge_mass. apply Rgt_not_eq, Rlt_gt. pose proof (pow10_lt _ _ He).
  apply mass_formed_by_strict; auto using floored_pos, floored_len_eq, birth_time_pos;
    unfold birth_time.
  - rewrite (Rmax_right 0.001 (t_obs - pow10 (age_edge ages 0))) by lra. apply Rmax_lub_lt; lra.
  - rewrite Rmax_right; lra.
  - apply Rmax_lub_lt; lra.
Qed.

(** *** C03 *)
Lemma Rsum_skipn_bin ts ss smin t_obs ages j : (j <= length ages)%nat ->
  Rsum (skipn j (bin_masses ts ss smin t_obs ages)) =
  edge_mass ts ss smin t_obs (age_edge ages j)
  - edge_mass ts ss smin t_obs (age_edge ages (length ages)).
Proof.
  intros H. unfold bin_masses. rewrite skipn_map.
  assert (E : skipn j (seq 0 (length ages)) = seq j (length ages - j)).
  { replace (length ages) with (j + (length ages - j))%nat at 1 by lia.
    rewrite seq_app, skipn_app, seq_length, Nat.sub_diag. cbn [skipn].
    rewrite skipn_all2 by (rewrite seq_length; lia). reflexivity. }
  rewrite E, (Rsum_telescope (fun i => edge_mass ts ss smin t_obs (age_edge ages i))).
  replace (j + (length ages - j))%nat with (length ages) by lia. reflexivity.
Qed.

Lemma skipn_map_div l T j : Rsum (skipn j (map (fun d => d / T) l)) = Rsum (skipn j l) / T.
Proof. rewrite skipn_map. apply Rsum_div. Qed.

(** *** C04 *)
Lemma age_weights_nan ts ss ages t_obs smin :
  length ts = length ss -> increasing (0.001 :: ts) -> ts <> [] -> 0 < smin ->
  (3 <= length ages)%nat -> nondecreasing (age_edges ages) ->
  edge_mass ts ss smin t_obs (age_edge ages 0)
    = edge_mass ts ss smin t_obs (age_edge ages (length ages)) ->
  calc_age_weights_from_sfh_table (fins ts) (fins ss) (fins ages) (Fin t_obs) (Fin smin)
    = Ok (repeat NaN (length ages)).
Proof.
  intros Hl Hi Hn Hs Ha He Hm. rewrite age_weights_fins by auto. f_equal.
  assert (HT : total_mass ts ss smin t_obs ages = 0) by (unfold total_mass; lra).
  assert (Hz := Rsum_nonneg_zero _ (bin_masses_nonneg ts ss smin t_obs ages Hl Hi Hs He)
    ltac:(now rewrite bin_masses_sum)).
  rewrite HT. rewrite <- (bin_masses_length ts ss smin t_obs ages).
  induction Hz as [|x l Hx]; cbn [map repeat length]; [reflexivity|].
  f_equal; auto. rewrite Hx. apply ndiv_0_0.
Qed.

(** *** constant before and after the table *)
Lemma mass_formed_before ts ss t :
  length ts = length ss -> increasing (0.001 :: ts) -> ts <> [] -> 0 < t -> t <= ent ts 0 ->
  mass_formed_by ts ss t = mass_formed_by ts ss (ent ts 0).
Proof.
  intros Hl Hi Hn Ht Hle. unfold mass_formed_by. f_equal.
  pose proof (times_pos _ Hi) as Htp.
  assert (L : (0 < length ts)%nat) by (destruct ts; simpl; [congruence|lia]).
  rewrite !pwlin_left; auto;
    try (now rewrite !map_length, cumulative_mass_length);
    try (now apply map_neq_nil);
    try (apply log10_increasing; [auto|now apply increasing_tl in Hi]).
  - rewrite ent_map by auto. lra.
  - rewrite ent_map by auto. now apply log10_le.
Qed.
Lemma mass_formed_after ts ss t :
  length ts = length ss -> increasing (0.001 :: ts) -> ts <> [] -> ent ts (length ts - 1) <= t ->
  mass_formed_by ts ss t = mass_formed_by ts ss (ent ts (length ts - 1)).
Proof.
  intros Hl Hi Hn Hle. unfold mass_formed_by. f_equal.
  pose proof (times_pos _ Hi) as Htp.
  assert (L : (0 < length ts)%nat) by (destruct ts; simpl; [congruence|lia]).
  assert (0 < ent ts (length ts - 1)) by (apply Htp, ent_In; lia).
  rewrite !pwlin_right; auto;
    try (now rewrite !map_length, cumulative_mass_length);
    try (now apply map_neq_nil);
    try (apply log10_increasing; [auto|now apply increasing_tl in Hi]);
    rewrite map_length, ent_map by lia; [lra|].
  now apply log10_le.
Qed.
(** at a table time the mass is the table entry *)
Lemma mass_formed_node ts ss i :
  length ts = length ss -> increasing (0.001 :: ts) -> Forall (fun s => 0 < s) ss ->
  (i < length ts)%nat ->
  mass_formed_by ts ss (ent ts i) = ent (cumulative_mass ts ss) i.
Proof.
  intros Hl Hi Hp H. unfold mass_formed_by.
  pose proof (times_pos _ Hi) as Htp.
  rewrite <- (ent_map log10) by auto.
  rewrite pwlin_node.
  - rewrite ent_map by now rewrite cumulative_mass_length.
    apply pow10_log10. destruct (cumulative_mass_increasing ts ss Hl Hi Hp) as [_ Hc].
    rewrite Forall_ent in Hc. apply Hc. now rewrite cumulative_mass_length.
  - apply log10_increasing; [auto|now apply increasing_tl in Hi].
  - now rewrite !map_length, cumulative_mass_length.
  - now rewrite map_length.
Qed.

(** no mass when every star in the age range is born before the first table time *)
Lemma edge_mass_eq_early ts ss ages t_obs smin :
  length ts = length ss -> increasing (0.001 :: ts) -> ts <> [] -> 0 < smin ->
  nondecreasing (age_edges ages) ->
  t_obs - pow10 (age_edge ages 0) <= ent ts 0 ->
  edge_mass ts ss smin t_obs (age_edge ages 0)
    = edge_mass ts ss smin t_obs (age_edge ages (length ages)).
Proof.
  intros Hl Hi Hn Hs He Ht. unfold edge_mass.
  assert (H0 : 0.001 < ent ts 0).
  { apply increasing_cons in Hi as [Hi _]. apply Hi, ent_In. destruct ts; simpl; [congruence|lia]. }
  assert (Hb : birth_time t_obs (age_edge ages 0) <= ent ts 0)
    by (unfold birth_time; apply Rmax_lub; lra).
  assert (Hb' : birth_time t_obs (age_edge ages (length ages)) <= ent ts 0).
  { eapply Rle_trans; [|exact Hb]. apply birth_time_anti.
    rewrite <- !age_edges_ent by lia. apply nondecreasing_le; auto. rewrite age_edges_length. lia. }
  rewrite !(mass_formed_before _ _ (birth_time _ _)); auto using floored_len_eq, birth_time_pos.
Qed.
Lemma edge_mass_eq_late ts ss ages t_obs smin :
  length ts = length ss -> increasing (0.001 :: ts) -> ts <> [] -> 0 < smin ->
  nondecreasing (age_edges ages) ->
  ent ts (length ts - 1) <= t_obs - pow10 (age_edge ages (length ages)) ->
  edge_mass ts ss smin t_obs (age_edge ages 0)
    = edge_mass ts ss smin t_obs (age_edge ages (length ages)).
Proof.
  intros Hl Hi Hn Hs He Ht. unfold edge_mass.
  assert (Hb : ent ts (length ts - 1) <= birth_time t_obs (age_edge ages (length ages))).
  { unfold birth_time. eapply Rle_trans; [exact Ht|apply Rmax_r]. }
  assert (Hb' : ent ts (length ts - 1) <= birth_time t_obs (age_edge ages 0)).
  { eapply Rle_trans; [exact Hb|]. apply birth_time_anti.
    rewrite <- !age_edges_ent by lia. apply nondecreasing_le; auto. rewrite age_edges_length. lia. }
  rewrite !(mass_formed_after _ _ (birth_time _ _)); auto using floored_len_eq, birth_time_pos.
Qed.

(** *** C07: the past determines the result *)
Lemma pwlin_past xs : forall ys ys' x,
  increasing xs -> length xs = length ys -> length xs = length ys' ->
  (forall i, (i < length xs)%nat -> i = O \/ ent xs (i - 1) < x -> ent ys i = ent ys' i) ->
  pwlin (combine xs ys) x = pwlin (combine xs ys') x.
Proof.
  induction xs as [|x0 xs IH]; intros ys ys' x Hi Hl Hl' H; [reflexivity|].
  destruct ys as [|y0 ys], ys' as [|y0' ys']; try discriminate.
  assert (y0 = y0') by (apply (H 0%nat); simpl; auto; lia). subst y0'.
  destruct xs as [|x1 xs]; destruct ys as [|y1 ys], ys' as [|y1' ys']; try discriminate; [reflexivity|].
  pose proof Hi as Hi'. apply increasing_cons in Hi as [H0 Hi].
  assert (x0 < x1) by (apply H0; simpl; auto).
  cbn [combine pwlin]. destruct (Rle_dec x x0); [reflexivity|].
  assert (y1 = y1') by (apply (H 1%nat); [simpl; lia|right; unfold ent; simpl; lra]). subst y1'.
  destruct (Rlt_dec x x1); [reflexivity|].
  apply (IH (y1 :: ys) (y1 :: ys')); auto.
  intros i Hlt Hc. apply (H (S i)); [simpl in *; lia|].
  right. destruct i as [|i]; [unfold ent; simpl; lra|].
  destruct Hc as [Hc|Hc]; [discriminate|]. cbn [Nat.sub] in *.
  rewrite Nat.sub_0_r in *. exact Hc.
Qed.

Lemma firstn_ext (l l' : list R) n :
  length l = length l' -> (forall i, (i < n)%nat -> (i < length l)%nat -> ent l i = ent l' i) ->
  firstn n l = firstn n l'.
Proof.
  revert l l'; induction n; intros l l' Hl H; [reflexivity|].
  destruct l as [|x l], l' as [|x' l']; try discriminate; [reflexivity|].
  cbn [firstn]. f_equal.
  - apply (H 0%nat); simpl; lia.
  - apply IHn; [simpl in Hl; lia|]. intros i Hi Hi'. apply (H (S i)); simpl; lia.
Qed.

Lemma mass_formed_past ts ss ss' t :
  length ts = length ss -> length ts = length ss' -> increasing (0.001 :: ts) -> 0 < t ->
  (forall i, (i < length ts)%nat -> i = O \/ ent ts (i - 1) < t -> ent ss i = ent ss' i) ->
  mass_formed_by ts ss t = mass_formed_by ts ss' t.
Proof.
  intros Hl Hl' Hi Ht H. unfold mass_formed_by. f_equal.
  pose proof (times_pos _ Hi) as Htp. pose proof (increasing_tl _ _ Hi) as Hi1.
  apply pwlin_past; rewrite ?map_length, ?cumulative_mass_length; auto.
  { apply log10_increasing; auto. }
  intros i Hlt Hc. rewrite !ent_map by (rewrite ?cumulative_mass_length; auto). f_equal.
  rewrite !cumulative_mass_ent by auto. do 2 f_equal. f_equal.
  apply firstn_ext; [congruence|]. intros k Hk Hk'. apply H; [lia|].
  destruct k as [|k]; [auto|]. right.
  destruct Hc as [->|Hc]; [lia|]. rewrite ent_map in Hc by lia.
  apply log10_lt_inv in Hc; auto; [|apply Htp, ent_In; lia].
  eapply Rle_lt_trans; [|exact Hc]. apply increasing_le; auto. lia.
Qed.

Lemma floored_ent smin ss i : (i < length ss)%nat -> ent (floored smin ss) i = Rmax smin (ent ss i).
Proof. intros. unfold floored. now rewrite ent_map. Qed.

Lemma edge_mass_past ts ss ss' smin t_obs e :
  length ts = length ss -> length ts = length ss' -> increasing (0.001 :: ts) ->
  same_past ts t_obs ss ss' ->
  edge_mass ts ss smin t_obs e = edge_mass ts ss' smin t_obs e.
Proof.
  intros Hl Hl' Hi H. unfold edge_mass.
  apply mass_formed_past; auto using floored_len_eq, birth_time_pos.
  intros i Hlt Hc. rewrite !floored_ent by lia. f_equal. apply H; auto.
  destruct Hc as [|Hc]; [auto|]. destruct i as [|i]; auto. right.
  cbn [Nat.sub] in *. rewrite Nat.sub_0_r in *.
  assert (0.001 < ent ts i). { apply increasing_cons in Hi as [Hi _]. apply Hi, ent_In. lia. }
  unfold birth_time in Hc. pose proof (pow10_pos e).
  destruct (Rmax_Rle 0.001 (t_obs - pow10 e) (ent ts i)) as [_ Hm].
  destruct (Rlt_or_le (ent ts i) (t_obs - pow10 e)); [lra|].
  exfalso. apply (Rlt_irrefl (ent ts i)). eapply Rlt_le_trans; [exact Hc|]. apply Rmax_lub; lra.
Qed.

Lemma age_weights_past ts ss ss' ages t_obs smin :
  length ts = length ss -> length ts = length ss' -> increasing (0.001 :: ts) -> ts <> [] ->
  0 < smin -> (3 <= length ages)%nat -> same_past ts t_obs ss ss' ->
  calc_age_weights_from_sfh_table (fins ts) (fins ss) (fins ages) (Fin t_obs) (Fin smin)
  = calc_age_weights_from_sfh_table (fins ts) (fins ss') (fins ages) (Fin t_obs) (Fin smin).
Proof.
  intros Hl Hl' Hi Hn Hs Ha H. rewrite !age_weights_fins by auto.
  assert (E : forall e, edge_mass ts ss smin t_obs e = edge_mass ts ss' smin t_obs e)
    by (intros; now apply edge_mass_past).
  do 2 f_equal.
  - unfold total_mass. now rewrite !E.
  - unfold bin_masses. apply map_ext. intros. now rewrite !E.
Qed.

(** *** order of the age-bin edges *)
Lemma node_width_0 a : node_width a 0 = gap a 0.
Proof. reflexivity. Qed.
Lemma node_width_mid a i : (0 < i)%nat -> (i < length a - 1)%nat ->
  node_width a i = (gap a (i - 1) + gap a i) / 2.
Proof.
  intros H1 H2. unfold node_width, gap.
  destruct (Nat.eqb_spec i 0); [lia|]. destruct (Nat.eqb_spec i (length a - 1)); [lia|].
  replace (i + 1)%nat with (S i) by lia. replace (S (i - 1)) with i by lia. lra.
Qed.
Lemma node_width_last a : (3 <= length a)%nat ->
  node_width a (length a - 1) = gap a (length a - 2) / 2
    + (gap a (length a - 3) + gap a (length a - 2)) / 4.
Proof.
  intros H. unfold node_width, gap.
  destruct (Nat.eqb_spec (length a - 1) 0); [lia|]. rewrite Nat.eqb_refl.
  replace (length a - 1 - 1)%nat with (length a - 2)%nat by lia.
  replace (length a - 1 - 2)%nat with (length a - 3)%nat by lia.
  replace (S (length a - 2)) with (length a - 1)%nat by lia.
  replace (S (length a - 3)) with (length a - 2)%nat by lia. lra.
Qed.

Lemma age_edge_lt a i : (i < length a)%nat -> age_edge a i = ent a i - node_width a i / 2.
Proof. intros. unfold age_edge. destruct (Nat.eqb_spec i (length a)); [lia|reflexivity]. Qed.

(** exact characterisation of ordered edges on an increasing grid *)
Lemma age_edges_ordered_iff a : (3 <= length a)%nat -> increasing a ->
  (nondecreasing (age_edges a) <->
   gap a 1 <= 5 * gap a 0 /\
   (forall i, (1 <= i)%nat -> (i + 3 <= length a)%nat -> gap a (S i) <= 4 * gap a i + gap a (i - 1))).
Proof.
  intros Hn Hi. set (n := length a) in *.
  assert (G : forall i, (S i < n)%nat -> 0 < gap a i).
  { intros i H. unfold gap. assert (ent a i < ent a (S i)) by (apply Hi; unfold n in *; lia). lra. }
  assert (D0 : age_edge a 1 - age_edge a 0 = (5 * gap a 0 - gap a 1) / 4).
  { rewrite !age_edge_lt by (unfold n in *; lia). rewrite node_width_0.
    rewrite (node_width_mid a 1) by (unfold n in *; lia). cbn [Nat.sub].
    unfold gap. lra. }
  assert (Dm : forall i, (1 <= i)%nat -> (i + 3 <= n)%nat ->
     age_edge a (S i) - age_edge a i = (4 * gap a i + gap a (i - 1) - gap a (S i)) / 4).
  { intros i H1 H2. rewrite !age_edge_lt by (unfold n in *; lia).
    rewrite (node_width_mid a i), (node_width_mid a (S i)) by (unfold n in *; lia).
    replace (S i - 1)%nat with i by lia. unfold gap at 3. unfold gap. lra. }
  assert (Dl : 0 <= age_edge a (n - 1) - age_edge a (n - 2)).
  { rewrite !age_edge_lt by (unfold n in *; lia). unfold n. rewrite node_width_last by auto.
    rewrite (node_width_mid a (length a - 2)) by (unfold n in *; lia).
    fold n. replace (n - 2 - 1)%nat with (n - 3)%nat by lia.
    pose proof (G (n - 2)%nat ltac:(lia)). pose proof (G (n - 3)%nat ltac:(lia)).
    assert (E : gap a (n - 2) = ent a (n - 1) - ent a (n - 2))
      by (unfold gap; replace (S (n - 2)) with (n - 1)%nat by lia; reflexivity).
    lra. }
  assert (Dn : 0 <= age_edge a n - age_edge a (n - 1)).
  { rewrite (age_edge_lt a (n - 1)) by (unfold n in *; lia). unfold age_edge. fold n.
    rewrite Nat.eqb_refl. unfold n. rewrite node_width_last by auto. fold n.
    pose proof (G (n - 2)%nat ltac:(lia)). pose proof (G (n - 3)%nat ltac:(lia)). lra. }
  split.
  - intros H. split.
    + pose proof (age_edge_le a 0 H ltac:(unfold n in *; lia)). lra.
    + intros i H1 H2. pose proof (age_edge_le a i H ltac:(unfold n in *; lia)).
      rewrite <- (Rplus_0_l (age_edge a i)) in H0.
      specialize (Dm i H1 H2). lra.
  - intros [H0 H1]. apply nondecreasing_step. rewrite age_edges_length. fold n. intros i Hlt.
    rewrite !age_edges_ent by (fold n; lia).
    destruct (Nat.eq_dec i 0) as [->|]; [lra|].
    destruct (Nat.eq_dec i (n - 1)) as [->|]; [replace (S (n - 1)) with n by lia; lra|].
    destruct (Nat.eq_dec i (n - 2)) as [->|].
    { replace (S (n - 2)) with (n - 1)%nat by lia. lra. }
    specialize (H1 i ltac:(lia) ltac:(lia)). specialize (Dm i ltac:(lia) ltac:(lia)). lra.
Qed.

(** *** statements used by the property file *)
Lemma C01_lemma : forall ts sfrs ages t_obs sfr_min,
  length ts = length sfrs -> ts <> [] -> increasing (0.001 :: ts) -> 0 < sfr_min ->
  (3 <= length ages)%nat -> nondecreasing (age_edges ages) ->
  (let formed lg_age := mass_formed_by ts (floored sfr_min sfrs) (birth_time t_obs lg_age) in
   formed (age_edge ages 0) <> formed (age_edge ages (length ages))) ->
  exists w,
    calc_age_weights_from_sfh_table (fins ts) (fins sfrs) (fins ages) (Fin t_obs) (Fin sfr_min)
      = Ok (fins w)
    /\ length w = length ages /\ distribution w.
Proof. intros. apply age_weights_distribution; auto. Qed.

Lemma C01_explicit_lemma : forall ts sfrs ages t_obs sfr_min,
  length ts = length sfrs -> (2 <= length ts)%nat -> increasing (0.001 :: ts) -> 0 < sfr_min ->
  (3 <= length ages)%nat -> increasing ages ->
  gap ages 1 <= 5 * gap ages 0 ->
  (forall i, (1 <= i)%nat -> (i + 3 <= length ages)%nat ->
     gap ages (S i) <= 4 * gap ages i + gap ages (i - 1)) ->
  ent ts 0 < t_obs - pow10 (age_edge ages 0) ->
  t_obs - pow10 (age_edge ages (length ages)) < ent ts (length ts - 1) ->
  exists w,
    calc_age_weights_from_sfh_table (fins ts) (fins sfrs) (fins ages) (Fin t_obs) (Fin sfr_min)
      = Ok (fins w)
    /\ length w = length ages /\ distribution w.
Proof.
  intros ts sfrs ages t_obs sfr_min Hl H2 Hi Hs Ha Hia G0 G1 Hlo Hhi.
  assert (He : nondecreasing (age_edges ages)) by (apply age_edges_ordered_iff; auto).
  apply age_weights_distribution; auto. { apply nil_neq_len. lia. }
  apply edge_mass_neq; auto.
  assert (age_edge ages 0 < ent ages 0).
  { rewrite age_edge_lt by lia. rewrite node_width_0. unfold gap.
    assert (ent ages 0 < ent ages 1) by (apply Hia; lia). lra. }
  assert (ent ages (length ages - 1) < age_edge ages (length ages)).
  { unfold age_edge. rewrite Nat.eqb_refl. rewrite node_width_last by auto. unfold gap.
    assert (ent ages (length ages - 2) < ent ages (S (length ages - 2))) by (apply Hia; lia).
    assert (ent ages (length ages - 3) < ent ages (S (length ages - 3))) by (apply Hia; lia).
    lra. }
  pose proof (increasing_le ages 0 (length ages - 1) Hia ltac:(lia)). lra.
Qed.

Lemma C03_lemma : forall ts sfrs ages t_obs sfr_min,
  length ts = length sfrs -> ts <> [] -> increasing (0.001 :: ts) -> 0 < sfr_min ->
  (3 <= length ages)%nat ->
  let formed lg_age := mass_formed_by ts (floored sfr_min sfrs) (birth_time t_obs lg_age) in
  let youngest := age_edge ages 0 in
  let oldest := age_edge ages (length ages) in
  formed youngest <> formed oldest ->
  exists w,
    calc_age_weights_from_sfh_table (fins ts) (fins sfrs) (fins ages) (Fin t_obs) (Fin sfr_min)
      = Ok (fins w)
    /\ length w = length ages
    /\ forall j, (j <= length ages)%nat ->
       Rsum (skipn j w)
       = (formed (age_edge ages j) - formed oldest) / (formed youngest - formed oldest).
Proof.
  intros ts sfrs ages t_obs sfr_min Hl Hn Hi Hs Ha formed youngest oldest Hm.
  assert (HT : total_mass ts sfrs sfr_min t_obs ages <> 0).
  { unfold total_mass, edge_mass. unfold formed, youngest, oldest in Hm. lra. }
  eexists. split; [apply age_weights_fins_ok; auto|]. split.
  - rewrite map_length. apply bin_masses_length.
  - intros j Hj. rewrite skipn_map_div, Rsum_skipn_bin by auto. reflexivity.
Qed.

Lemma C04_lemma : forall ts sfrs ages t_obs sfr_min,
  length ts = length sfrs -> ts <> [] -> increasing (0.001 :: ts) -> 0 < sfr_min ->
  (3 <= length ages)%nat -> nondecreasing (age_edges ages) ->
  let formed lg_age := mass_formed_by ts (floored sfr_min sfrs) (birth_time t_obs lg_age) in
  exists w,
    calc_age_weights_from_sfh_table (fins ts) (fins sfrs) (fins ages) (Fin t_obs) (Fin sfr_min)
      = Ok w
    /\ (formed (age_edge ages 0) = formed (age_edge ages (length ages)) ->
        w = repeat NaN (length ages))
    /\ (formed (age_edge ages 0) <> formed (age_edge ages (length ages)) ->
        exists r, w = fins r).
Proof.
  intros ts sfrs ages t_obs sfr_min Hl Hn Hi Hs Ha He formed.
  destruct (Req_dec (formed (age_edge ages 0)) (formed (age_edge ages (length ages)))) as [E|E].
  - eexists. split; [apply age_weights_nan; auto|]. split; [auto|]. intros; congruence.
  - destruct (age_weights_distribution ts sfrs ages t_obs sfr_min) as [w [Hw _]]; auto.
    exists (fins w). split; auto. split; [congruence|eauto].
Qed.

Lemma C04_when_lemma : forall ts sfrs ages t_obs sfr_min,
  length ts = length sfrs -> ts <> [] -> increasing (0.001 :: ts) -> 0 < sfr_min ->
  (3 <= length ages)%nat -> nondecreasing (age_edges ages) ->
  t_obs - pow10 (age_edge ages 0) <= ent ts 0
  \/ ent ts (length ts - 1) <= t_obs - pow10 (age_edge ages (length ages)) ->
  calc_age_weights_from_sfh_table (fins ts) (fins sfrs) (fins ages) (Fin t_obs) (Fin sfr_min)
  = Ok (repeat NaN (length ages)).
Proof.
  intros ts sfrs ages t_obs sfr_min Hl Hn Hi Hs Ha He [H|H]; apply age_weights_nan; auto.
  - now apply edge_mass_eq_early.
  - now apply edge_mass_eq_late.
Qed.

Lemma C05_lemma : forall ts sfrs ages t_obs sfr_min j,
  length ts = length sfrs -> ts <> [] -> increasing (0.001 :: ts) -> 0 < sfr_min ->
  (3 <= length ages)%nat -> nondecreasing (age_edges ages) ->
  (let formed lg_age := mass_formed_by ts (floored sfr_min sfrs) (birth_time t_obs lg_age) in
   formed (age_edge ages 0) <> formed (age_edge ages (length ages))) ->
  (j < length ages)%nat -> t_obs - pow10 (age_edge ages j) <= ent ts 0 ->
  exists w,
    calc_age_weights_from_sfh_table (fins ts) (fins sfrs) (fins ages) (Fin t_obs) (Fin sfr_min)
      = Ok (fins w)
    /\ ent w j = 0.
Proof.
  intros ts sfrs ages t_obs sfr_min j Hl Hn Hi Hs Ha He Hm Hj Ht.
  assert (HT : total_mass ts sfrs sfr_min t_obs ages <> 0).
  { unfold total_mass, edge_mass. cbv zeta in Hm. lra. }
  eexists. split; [apply age_weights_fins_ok; auto|].
  rewrite ent_map by now rewrite bin_masses_length.
  unfold bin_masses. rewrite ent_map_seq by auto. cbn [Nat.add].
  assert (H0 : 0.001 < ent ts 0).
  { apply increasing_cons in Hi as [Hi _]. apply Hi, ent_In. destruct ts; simpl; [congruence|lia]. }
  assert (Hb : birth_time t_obs (age_edge ages j) <= ent ts 0)
    by (unfold birth_time; apply Rmax_lub; lra).
  assert (Hb' : birth_time t_obs (age_edge ages (S j)) <= ent ts 0).
  { eapply Rle_trans; [|exact Hb]. apply birth_time_anti. now apply age_edge_le. }
  unfold edge_mass.
  rewrite !(mass_formed_before _ _ (birth_time _ _)); auto using floored_len_eq, birth_time_pos.
  unfold Rdiv. ring.
Qed.

Lemma C06_lemma : forall ts sfrs sfrs' ages t_obs sfr_min,
  length ts = length sfrs -> ts <> [] -> increasing (0.001 :: ts) -> 0 < sfr_min ->
  (3 <= length ages)%nat ->
  map (Rmax sfr_min) sfrs = map (Rmax sfr_min) sfrs' ->
  calc_age_weights_from_sfh_table (fins ts) (fins sfrs) (fins ages) (Fin t_obs) (Fin sfr_min)
  = calc_age_weights_from_sfh_table (fins ts) (fins sfrs') (fins ages) (Fin t_obs) (Fin sfr_min).
Proof.
  intros ts sfrs sfrs' ages t_obs sfr_min Hl Hn Hi Hs Ha H.
  assert (Hl' : length ts = length sfrs').
  { rewrite <- (map_length (Rmax sfr_min) sfrs'), <- H, map_length. auto. }
  rewrite !age_weights_fins by auto.
  assert (E : forall e, edge_mass ts sfrs sfr_min t_obs e = edge_mass ts sfrs' sfr_min t_obs e)
    by (intros; unfold edge_mass, floored; now rewrite H).
  do 2 f_equal.
  - unfold total_mass. now rewrite !E.
  - unfold bin_masses. apply map_ext. intros. now rewrite !E.
Qed.

Lemma C06_finite_lemma : forall ts sfrs sfr_min,
  length ts = length sfrs -> increasing (0.001 :: ts) -> 0 < sfr_min ->
  exists logm,
    calc_logsm_table_from_sfh_table (fins ts) (fins sfrs) (Fin sfr_min) = fins logm
    /\ length logm = length ts /\ increasing logm.
Proof.
  intros ts sfrs smin Hl Hi Hs. eexists. split; [apply calc_logsm_fins; auto|].
  split; [now rewrite map_length, cumulative_mass_length|].
  destruct (cumulative_mass_increasing ts (floored smin sfrs)) as [H1 H2];
    auto using floored_pos, floored_len_eq.
  apply log10_increasing; auto. now apply Forall_forall.
Qed.

Lemma C08_lemma : forall ts sfrs,
  length ts = length sfrs -> increasing (0.001 :: ts) -> Forall (fun s => 0 < s) sfrs ->
  exists m, cumulative_mstar_formed (fins ts) (fins sfrs) = Ok (fins m)
    /\ length m = length ts /\ Forall (fun x => 0 < x) m /\ increasing m.
Proof.
  intros ts sfrs Hl Hi Hp. exists (cumulative_mass ts sfrs).
  rewrite cum_same by (now rewrite !fins_length).
  rewrite cumulative_mass_fins by auto. split; [auto|].
  destruct (cumulative_mass_increasing ts sfrs Hl Hi Hp). split; [apply cumulative_mass_length|auto].
Qed.

Lemma outer_edges_lt ages : (3 <= length ages)%nat -> increasing ages ->
  age_edge ages 0 < age_edge ages (length ages).
Proof.
  intros Ha Hia.
  assert (age_edge ages 0 < ent ages 0).
  { rewrite age_edge_lt by lia. rewrite node_width_0. unfold gap.
    assert (ent ages 0 < ent ages 1) by (apply Hia; lia). lra. }
  assert (ent ages (length ages - 1) < age_edge ages (length ages)).
  { unfold age_edge. rewrite Nat.eqb_refl. rewrite node_width_last by auto. unfold gap.
    assert (ent ages (length ages - 2) < ent ages (S (length ages - 2))) by (apply Hia; lia).
    assert (ent ages (length ages - 3) < ent ages (S (length ages - 3))) by (apply Hia; lia).
    lra. }
  pose proof (increasing_le ages 0 (length ages - 1) Hia ltac:(lia)). lra.
Qed.

Lemma C02_lemma : forall ts sfrs ages t_obs sfr_min,
  length ts = length sfrs -> (2 <= length ts)%nat -> increasing (0.001 :: ts) -> 0 < sfr_min ->
  (3 <= length ages)%nat -> increasing ages ->
  5 * gap ages 0 < gap ages 1 ->
  ent ts 0 < t_obs - pow10 (age_edge ages 0) < ent ts (length ts - 1) ->
  exists w,
    calc_age_weights_from_sfh_table (fins ts) (fins sfrs) (fins ages) (Fin t_obs) (Fin sfr_min)
      = Ok (fins w)
    /\ ent w 0 < 0.
Proof.
  intros ts sfrs ages t_obs smin Hl H2 Hi Hs Ha Hia Hg Ht.
  pose proof (outer_edges_lt ages Ha Hia) as Ho.
  assert (Hn : ts <> []) by (apply nil_neq_len; lia).
  assert (H0 : 0.001 < ent ts 0) by (apply increasing_cons in Hi as [Hi _]; apply Hi, ent_In; lia).
  pose proof (pow10_lt _ _ Ho) as Hp.
  pose proof (edge_mass_neq ts sfrs ages t_obs smin Hl Hi H2 Hs Ho ltac:(lra) ltac:(lra)) as Hm.
  pose proof (edge_mass_anti ts sfrs smin t_obs _ _ Hl Hi Hs (Rlt_le _ _ Ho)) as Hm'.
  assert (HT : 0 < total_mass ts sfrs smin t_obs ages) by (unfold total_mass; lra).
  eexists. split; [apply age_weights_fins_ok; auto; lra|].
  rewrite ent_map by (rewrite bin_masses_length; lia).
  unfold bin_masses. rewrite ent_map_seq by lia. cbn [Nat.add].
  assert (E : age_edge ages 1 < age_edge ages 0).
  { rewrite !age_edge_lt by lia. rewrite node_width_0, (node_width_mid ages 1) by lia.
    cbn [Nat.sub]. unfold gap in *. lra. }
  assert (edge_mass ts sfrs smin t_obs (age_edge ages 0) < edge_mass ts sfrs smin t_obs (age_edge ages 1)).
  { unfold edge_mass. pose proof (pow10_lt _ _ E).
    apply mass_formed_by_strict; auto using floored_pos, floored_len_eq, birth_time_pos;
      unfold birth_time.
    - rewrite !Rmax_right by lra. lra.
    - rewrite Rmax_right by lra. lra.
    - rewrite Rmax_right by lra. lra. }
  apply Ropp_lt_cancel. rewrite Ropp_0.
  replace (- _) with ((edge_mass ts sfrs smin t_obs (age_edge ages 1)
    - edge_mass ts sfrs smin t_obs (age_edge ages 0)) / total_mass ts sfrs smin t_obs ages)
    by (field; lra).
  apply Rdiv_lt_0_compat; lra.
Qed.

Ltac list_cases :=
  repeat match goal with
  | H : (_ < length _)%nat |- _ => cbn [length] in H
  end;
  repeat match goal with
  | i : nat |- _ => destruct i as [|i]; try lia
  end; unfold ent; cbn [nth]; try lra.
Ltac solve_increasing :=
  apply increasing_step; intros i Hi; list_cases.
