(** * Joint weights and rest-frame SED (dsps/sed/ssp_weights.py, stellar_sed.py) *)
From Coq Require Import Reals List Arith Lra Lia Bool.
From Flocq Require Import Core.Raux.
From Verif Require Import Num Arr MUtils MSed Spec RList LBcast LUtils LAge LMet.
Import ListNotations.
Open Scope R_scope.

Lemma SFR_MIN_fin : SFR_MIN = Fin (1 / 10 ^ 14). Proof. reflexivity. Qed.
Lemma sfr_min_pos : 0 < 1 / 10 ^ 14. Proof. lra. Qed.

Lemma concat_fins2 m : concat (map fins m) = fins (concat m).
Proof. unfold fins. now rewrite concat_map. Qed.

Lemma normalize_fins m T : Rsum2 m = T -> T <> 0 ->
  normalize_matrix (map fins m) = map fins (map (map (fun w => w / T)) m).
Proof.
  intros HT H0. unfold normalize_matrix. rewrite concat_fins2, vsum_fins, Rsum_concat, HT.
  rewrite !map_map. apply map_ext. intros row.
  apply map_fins. intros. now apply ndiv_fin.
Qed.

(** ** outer product *)
Definition outer (a b : list R) : list (list R) := map (fun x => map (fun y => x * y) b) a.
Lemma outer_shape a b : is_matrix (length a) (length b) (outer a b).
Proof.
  unfold outer. split; [apply map_length|]. apply Forall_map, Forall_forall. intros; now rewrite map_length.
Qed.
Lemma outer_ent a b i j : (i < length a)%nat -> (j < length b)%nat ->
  ent2 (outer a b) i j = ent a i * ent b j.
Proof.
  intros Hi Hj. unfold ent2, outer. rewrite nth_map' with (d := 0) by auto.
  rewrite ent_map by auto. reflexivity.
Qed.
Lemma outer_sum a b : Rsum2 (outer a b) = Rsum a * Rsum b.
Proof.
  unfold Rsum2, outer. rewrite map_map.
  rewrite (map_ext _ (fun x => x * Rsum b)).
  - apply Rsum_scal_r.
  - intros x. apply (Rsum_scal x).
Qed.

Lemma map_div1_id l : map (fun w : R => w / 1) l = l.
Proof. rewrite <- (map_id l) at 2. apply map_ext. intros; lra. Qed.

Lemma joint_lognormal_fins ts sfrs lgmet h lgmets ages t_obs :
  good_grids ts sfrs h lgmets ages t_obs ->
  exists mw aw,
    calc_age_weights_from_sfh_table (fins ts) (fins sfrs) (fins ages) (Fin t_obs) (Fin (1 / 10 ^ 14))
      = Ok (fins aw) /\ length aw = length ages /\ distribution aw /\
    calc_lgmet_weights_from_lognormal_mdf (Fin lgmet) (Fin h) (fins lgmets) = Ok (fins mw) /\
    length mw = length lgmets /\ distribution mw /\
    calc_ssp_weights_sfh_table_lognormal_mdf (fins ts) (fins sfrs) (Fin lgmet) (Fin h)
      (fins lgmets) (fins ages) (Fin t_obs) =
    Ok {| weights := map fins (outer mw aw); lgmet_weights := fins mw; age_weights := fins aw |}.
Proof.
  intros (Hl & Hn & Hi & Ha & He & Hh & Hm & Hme & Hf).
  destruct (C01_lemma ts sfrs ages t_obs (1 / 10 ^ 14) Hl Hn Hi sfr_min_pos Ha He Hf) as [aw [E1 [L1 D1]]].
  destruct (C10_lemma lgmet h lgmets Hh Hm Hme) as [mw [E2 [L2 D2]]].
  exists mw, aw. repeat (split; [solve [auto]|]).
  unfold calc_ssp_weights_sfh_table_lognormal_mdf. rewrite SFR_MIN_fin, E1. cbn [bind].
  rewrite E2. cbn [bind]. do 2 f_equal.
  replace (map (fun m => map (fun a => nmul m a) (fins aw)) (fins mw)) with (map fins (outer mw aw)).
  - rewrite (normalize_fins _ 1); [|rewrite outer_sum; destruct D1 as [_ ->], D2 as [_ ->]; lra|lra].
    f_equal. rewrite (map_ext _ (fun l => l)) by apply map_div1_id. apply map_id.
  - unfold outer, fins. rewrite !map_map. apply map_ext. intros x. rewrite !map_map. reflexivity.
Qed.

(** ** C15 *)
Lemma C15_lemma : forall ts sfrs lgmet scatter ssp_lgmet ages t_obs,
  good_grids ts sfrs scatter ssp_lgmet ages t_obs ->
  exists W mw aw,
    calc_ssp_weights_sfh_table_lognormal_mdf (fins ts) (fins sfrs) (Fin lgmet) (Fin scatter)
      (fins ssp_lgmet) (fins ages) (Fin t_obs)
    = Ok {| weights := map fins W; lgmet_weights := fins mw; age_weights := fins aw |}
    /\ calc_age_weights_from_sfh_table (fins ts) (fins sfrs) (fins ages) (Fin t_obs) (Fin (1 / 10 ^ 14))
       = Ok (fins aw)
    /\ calc_lgmet_weights_from_lognormal_mdf (Fin lgmet) (Fin scatter) (fins ssp_lgmet) = Ok (fins mw)
    /\ is_matrix (length ssp_lgmet) (length ages) W
    /\ (forall i j, (i < length ssp_lgmet)%nat -> (j < length ages)%nat ->
        ent2 W i j = ent mw i * ent aw j /\ 0 <= ent2 W i j)
    /\ Rsum2 W = 1
    /\ (forall i, (i < length ssp_lgmet)%nat -> Rsum (nth i W []) = ent mw i)
    /\ (forall j, (j < length ages)%nat ->
        Rsum (map (fun i => ent2 W i j) (seq 0 (length ssp_lgmet))) = ent aw j).
Proof.
  intros ts sfrs lgmet h lgmets ages t_obs G.
  destruct (joint_lognormal_fins ts sfrs lgmet h lgmets ages t_obs G)
    as (mw & aw & E1 & L1 & D1 & E2 & L2 & D2 & E3).
  exists (outer mw aw), mw, aw. split; [exact E3|]. split; [exact E1|]. split; [exact E2|].
  split; [rewrite <- L1, <- L2; apply outer_shape|]. split.
  - intros i j Hi Hj. rewrite outer_ent by lia. split; auto.
    destruct D1 as [F1 _], D2 as [F2 _]. rewrite Forall_ent in F1, F2.
    apply Rmult_le_pos; [apply F2|apply F1]; lia.
  - split; [rewrite outer_sum; destruct D1 as [_ ->], D2 as [_ ->]; lra|]. split.
    + intros i Hi. unfold outer. rewrite nth_map' with (d := 0) by lia.
      change (map (fun y => nth i mw 0 * y) aw) with (map (Rmult (nth i mw 0)) aw).
      rewrite Rsum_scal. destruct D1 as [_ ->]. unfold ent. lra.
    + intros j Hj. rewrite (Rsum_map_ext _ (fun i => ent mw i * ent aw j)).
      * rewrite <- (map_map (ent mw) (fun x => x * ent aw j)), Rsum_scal_r, <- L2, <- Rsum_ent.
        destruct D2 as [_ ->]. lra.
      * intros i Hi. apply in_seq in Hi. apply outer_ent; lia.
Qed.

(** ** C16 *)
Lemma ent2_map2 m aw i j n k : is_matrix n k m -> (i < n)%nat -> (j < k)%nat -> length aw = k ->
  ent2 (map (fun row => map2 Rmult row aw) m) i j = ent2 m i j * ent aw j.
Proof.
  intros [Hn Hk] Hi Hj Hl. unfold ent2. rewrite nth_map' with (d := []) by lia.
  rewrite Forall_forall in Hk. rewrite ent_map2 by (rewrite ?Hk by (apply nth_In; lia); lia).
  reflexivity.
Qed.
Lemma matrix_map2 n k m aw : is_matrix n k m -> length aw = k ->
  is_matrix n k (map (fun row => map2 Rmult row aw) m).
Proof.
  intros [Hn Hk] Hl. split; [now rewrite map_length|]. apply Forall_map.
  eapply Forall_impl; [|exact Hk]. simpl. intros row Hr. rewrite map2_length. lia.
Qed.
Lemma ent2_map n k m (f : R -> R) i j : is_matrix n k m -> (i < n)%nat -> (j < k)%nat ->
  ent2 (map (map f) m) i j = f (ent2 m i j).
Proof.
  intros [Hn Hk] Hi Hj. unfold ent2. rewrite nth_map' with (d := []) by lia.
  rewrite Forall_forall in Hk. apply ent_map. rewrite Hk by (apply nth_In; lia). auto.
Qed.
Lemma matrix_map n k m (f : R -> R) : is_matrix n k m -> is_matrix n k (map (map f) m).
Proof.
  intros [Hn Hk]. split; [now rewrite map_length|]. apply Forall_map.
  eapply Forall_impl; [|exact Hk]. simpl. intros row Hr. now rewrite map_length.
Qed.
Lemma matrix_ext n k m1 m2 : is_matrix n k m1 -> is_matrix n k m2 ->
  (forall i j, (i < n)%nat -> (j < k)%nat -> ent2 m1 i j = ent2 m2 i j) -> m1 = m2.
Proof.
  intros [Hn1 Hk1] [Hn2 Hk2] H. apply list_eq_nth with (d := []); [congruence|].
  intros i Hi. rewrite Forall_forall in Hk1, Hk2.
  assert (L1 : length (nth i m1 []) = k) by (apply Hk1, nth_In; lia).
  assert (L2 : length (nth i m2 []) = k) by (apply Hk2, nth_In; lia).
  apply list_eq_ent; [congruence|]. intros j Hj. apply H; lia.
Qed.

Lemma joint_met_fins ts sfrs ms h lgmets ages t_obs :
  good_grids ts sfrs h lgmets ages t_obs -> length ts = length ms ->
  exists aw W,
    calc_age_weights_from_sfh_table (fins ts) (fins sfrs) (fins ages) (Fin t_obs) (Fin (1 / 10 ^ 14))
      = Ok (fins aw) /\ length aw = length ages /\ distribution aw /\
    calc_ssp_weights_sfh_table_met_table (fins ts) (fins sfrs) (fins ms) (Fin h)
      (fins lgmets) (fins ages) (Fin t_obs) =
    Ok {| weights := map fins W; lgmet_weights := map fins (met_matrix ts ms h lgmets ages t_obs);
          age_weights := fins aw |} /\
    is_matrix (length lgmets) (length ages) W /\
    (forall i j, (i < length lgmets)%nat -> (j < length ages)%nat ->
      ent2 W i j = ent (met_weights (lgmet_at_birth ts ms t_obs (ent ages j)) h (met_edges lgmets)) i
                   * ent aw j).
Proof.
  intros (Hl & Hn & Hi & Ha & He & Hh & Hm & Hme & Hf) Hlm.
  destruct (C01_lemma ts sfrs ages t_obs (1 / 10 ^ 14) Hl Hn Hi sfr_min_pos Ha He Hf) as [aw [E1 [L1 D1]]].
  pose proof (times_pos _ Hi) as Htp. pose proof (increasing_tl _ _ Hi) as Hi1.
  pose proof (lgmet_table_weights_fins ts ms h lgmets ages t_obs Hlm Hn Htp Hi1 Hh Hm Hme) as E2.
  set (M := met_matrix ts ms h lgmets ages t_obs) in *.
  assert (SM : is_matrix (length lgmets) (length ages) M) by apply met_matrix_shape.
  assert (Hpos : 0 < INR (length ages)) by (apply lt_0_INR; lia).
  set (P := map (fun row => map2 Rmult row aw) M).
  assert (SP : is_matrix (length lgmets) (length ages) P) by now apply matrix_map2.
  assert (HP : Rsum2 P = 1 / INR (length ages)).
  { rewrite (Rsum2_columns _ _ _ SP).
    rewrite (Rsum_map_ext _ (fun j => ent aw j * (1 / INR (length ages)))).
    - rewrite <- (map_map (ent aw) (fun x => x * (1 / INR (length ages)))), Rsum_scal_r, <- L1, <- Rsum_ent.
      destruct D1 as [_ ->]. lra.
    - intros j Hj. apply in_seq in Hj.
      rewrite <- (met_matrix_column ts ms h lgmets ages t_obs j) by (auto; lia). fold M.
      rewrite Rmult_comm, <- Rsum_scal_r, map_map. apply Rsum_map_ext. intros i Hii. apply in_seq in Hii.
      apply (ent2_map2 M aw i j (length lgmets) (length ages)); auto; lia. }
  exists aw, (map (map (fun w => w / (1 / INR (length ages)))) P).
  repeat (split; [solve [auto]|]). split; [|split].
  - unfold calc_ssp_weights_sfh_table_met_table. rewrite SFR_MIN_fin, E1. cbn [bind].
    unfold fins2 in E2. rewrite E2. cbn [bind]. do 2 f_equal.
    replace (map (fun row => map2 nmul row (fins aw)) (map fins M)) with (map fins P).
    + rewrite (normalize_fins P (1 / INR (length ages))); auto.
      apply Rgt_not_eq. apply Rdiv_lt_0_compat; lra.
    + unfold P. rewrite !map_map. apply map_ext. intros row. symmetry. now apply map2_fins'.
  - now apply matrix_map.
  - intros i j Hii Hj. rewrite (ent2_map _ _ _ (fun w => w / (1 / INR (length ages))) i j SP) by auto.
    unfold P. rewrite (ent2_map2 M aw i j (length lgmets) (length ages)) by auto.
    unfold M. rewrite met_matrix_ent by auto. field. lra.
Qed.

Lemma C16_lemma : forall ts sfrs lgmet_table scatter ssp_lgmet ages t_obs,
  good_grids ts sfrs scatter ssp_lgmet ages t_obs -> length ts = length lgmet_table ->
  exists W M aw,
    calc_ssp_weights_sfh_table_met_table (fins ts) (fins sfrs) (fins lgmet_table) (Fin scatter)
      (fins ssp_lgmet) (fins ages) (Fin t_obs)
    = Ok {| weights := map fins W; lgmet_weights := map fins M; age_weights := fins aw |}
    /\ calc_age_weights_from_sfh_table (fins ts) (fins sfrs) (fins ages) (Fin t_obs) (Fin (1 / 10 ^ 14))
       = Ok (fins aw)
    /\ calc_lgmet_weights_from_lgmet_table (fins ts) (fins lgmet_table) (Fin scatter)
         (fins ssp_lgmet) (fins ages) (Fin t_obs) = Ok (map fins M)
    /\ is_matrix (length ssp_lgmet) (length ages) W
    /\ (forall i j, (i < length ssp_lgmet)%nat -> (j < length ages)%nat ->
        ent2 W i j = INR (length ages) * ent2 M i j * ent aw j /\ 0 <= ent2 W i j)
    /\ Rsum2 W = 1
    /\ (forall j, (j < length ages)%nat ->
        Rsum (map (fun i => ent2 W i j) (seq 0 (length ssp_lgmet))) = ent aw j).
Proof.
  intros ts sfrs ms h lgmets ages t_obs G Hlm.
  destruct (joint_met_fins ts sfrs ms h lgmets ages t_obs G Hlm)
    as (aw & W & E1 & L1 & D1 & E3 & SW & HW).
  destruct G as (Hl & Hn & Hi & Ha & He & Hh & Hm & Hme & Hf).
  assert (Hpos : 0 < INR (length ages)) by (apply lt_0_INR; lia).
  assert (Col : forall j, (j < length ages)%nat ->
        Rsum (map (fun i => ent2 W i j) (seq 0 (length lgmets))) = ent aw j).
  { intros j Hj.
    destruct (met_weights_dist_met (lgmet_at_birth ts ms t_obs (ent ages j)) h lgmets Hh Hm Hme) as [[_ S] L].
    set (w := met_weights _ _ _) in *.
    rewrite (Rsum_map_ext _ (fun i => ent w i * ent aw j)).
    - rewrite <- (map_map (ent w) (fun x => x * ent aw j)), Rsum_scal_r, <- L, <- Rsum_ent, S. lra.
    - intros i Hii. apply in_seq in Hii. rewrite HW by lia. reflexivity. }
  exists W, (met_matrix ts ms h lgmets ages t_obs), aw.
  split; [exact E3|]. split; [exact E1|]. split.
  { apply lgmet_table_weights_fins; auto; [apply times_pos; auto|now apply increasing_tl in Hi]. }
  split; [exact SW|]. split.
  { intros i j Hii Hj. rewrite HW, met_matrix_ent by auto. split; [field; lra|].
    destruct (met_weights_dist_met (lgmet_at_birth ts ms t_obs (ent ages j)) h lgmets Hh Hm Hme) as [[F _] L].
    destruct D1 as [F1 _]. rewrite Forall_ent in F, F1. apply Rmult_le_pos; [apply F|apply F1]; lia. }
  split; [|exact Col].
  rewrite (Rsum2_columns _ _ _ SW). rewrite (Rsum_map_ext _ (ent aw)).
  - rewrite <- L1, <- Rsum_ent. now destruct D1.
  - intros j Hj. apply in_seq in Hj. apply Col. lia.
Qed.

(** ** stellar mass factor *)
Lemma mstar_fin ts sfrs t_obs smin :
  length ts = length sfrs -> ts <> [] -> increasing (0.001 :: ts) -> 0 < smin -> 0 < t_obs ->
  mstar_at_t_obs (fins ts) (fins sfrs) (Fin t_obs) (Fin smin) =
  Fin (mass_formed_by ts (floored smin sfrs) t_obs).
Proof.
  intros Hl Hn Hi Hs Ht. unfold mstar_at_t_obs. rewrite nlog10_fin by auto.
  rewrite interp_logmass by auto. apply npow10_fin.
Qed.

(** ** SED as a weighted sum *)
Lemma cube_n_wave n k w f : is_cube n k w f -> (0 < n)%nat -> (0 < k)%nat ->
  flux_n_wave (fins3 f) = w.
Proof.
  intros [Hn Hf] H1 H2. destruct f as [|p f]; [simpl in Hn; lia|].
  inversion Hf as [|? ? Hp]; subst. destruct Hp as [Hk Hw].
  destruct p as [|s p]; [simpl in Hk; lia|]. inversion Hw; subst.
  unfold flux_n_wave. simpl. now rewrite fins_length.
Qed.

Lemma cube_shape_ok n k w f : is_cube n k w f -> (0 < n)%nat -> (0 < k)%nat ->
  flux_shape_ok n k (fins3 f) = true.
Proof.
  intros H H1 H2. pose proof (cube_n_wave n k w f H H1 H2) as Hw. destruct H as [Hn Hf].
  assert (Hh : length (hd [] (fins3 f)) = k).
  { destruct f as [|p f]; [simpl in Hn; lia|]. inversion Hf as [|? ? [Hk _] _]; subst. simpl. apply map_length. }
  unfold flux_shape_ok. rewrite Hw, Hh, (fits_same n) by (unfold fins3; now rewrite map_length).
  rewrite (fits_same k) by auto. cbn [andb]. apply forallb_forall. intros plane Hp. unfold fins3 in Hp.
  apply in_map_iff in Hp as [p [<- Hp]]. rewrite Forall_forall in Hf. destruct (Hf p Hp) as [Hk Hs].
  rewrite map_length, Hk, Nat.eqb_refl. cbn [andb]. apply forallb_forall. intros spec Hspec.
  apply in_map_iff in Hspec as [s [<- Hs']]. rewrite fins_length. rewrite Forall_forall in Hs.
  rewrite (Hs s Hs'). apply Nat.eqb_refl.
Qed.

Lemma stretch_cube n k w f : is_cube n k w f -> stretch_flux n k (fins3 f) = fins3 f.
Proof.
  intros [Hn Hf]. unfold stretch_flux, fins3. rewrite map_map.
  rewrite (map_ext_in _ (map fins)); [apply stretch_same; now rewrite map_length|].
  intros p Hp. rewrite Forall_forall in Hf. destruct (Hf p Hp) as [Hk _]. apply stretch_same. now rewrite map_length.
Qed.

Lemma template_mix_lists n m w W f k : is_matrix n m W -> is_cube n m w f -> (k < w)%nat ->
  vsum (concat (map2 (map2 (fun spec x => nmul (at_ spec k) x)) (fins3 f) (map fins W))) =
  Fin (template_mix n m W f k).
Proof.
  intros [Hn HW] [Hn' Hf] Hk.
  assert (E : map2 (map2 (fun spec x => nmul (at_ spec k) x)) (fins3 f) (map fins W) =
    map fins (map2 (map2 (fun (spec : list R) x => x * ent spec k)) f W)).
  { unfold fins3. rewrite map2_map, map_map2. apply map2_ext_in. intros p row Hp _.
    rewrite Forall_forall in Hf. destruct (Hf p Hp) as [_ Hs]. unfold fins. rewrite map2_map, map_map2.
    apply map2_ext_in. intros s x Hs' _. rewrite Forall_forall in Hs.
    fold (fins s). rewrite at_fins by (rewrite (Hs s Hs'); auto). rewrite nmul_fin. f_equal. lra. }
  rewrite E, concat_fins2, vsum_fins, Rsum_concat. f_equal.
  set (P := map2 (map2 (fun (spec : list R) x => x * ent spec k)) f W).
  assert (SP : is_matrix n m P).
  { unfold P. split; [rewrite map2_length; lia|]. apply Forall_forall. intros row Hr.
    destruct (In_nth _ _ [] Hr) as [i [Hi <-]]. rewrite map2_length in Hi.
    rewrite map2_nth with (d1 := []) (d2 := []) by lia. rewrite map2_length.
    rewrite Forall_forall in HW, Hf. rewrite (HW (nth i W [])) by (apply nth_In; lia).
    destruct (Hf (nth i f [])) as [-> _]; [apply nth_In; lia|]. lia. }
  rewrite (Rsum2_ent _ _ _ SP). unfold template_mix. apply Rsum_map_ext. intros i Hi.
  apply Rsum_map_ext. intros j Hj. apply in_seq in Hi. apply in_seq in Hj.
  unfold ent2 at 1, P. rewrite map2_nth with (d1 := []) (d2 := []) by lia.
  unfold ent at 1. rewrite Forall_forall in HW, Hf.
  destruct (Hf (nth i f [])) as [Hlf _]; [apply nth_In; lia|].
  rewrite map2_nth with (d1 := []) (d2 := 0)
    by (rewrite ?Hlf, ?(HW (nth i W [])) by (apply nth_In; lia); lia).
  reflexivity.
Qed.

Lemma sed_unit_fins n m w W f : is_matrix n m W -> is_cube n m w f -> (0 < n)%nat -> (0 < m)%nat ->
  sed_unit_mstar (fins3 f) (map fins W) = fins (map (template_mix n m W f) (seq 0 w)).
Proof.
  intros HW Hf H1 H2. unfold sed_unit_mstar. rewrite (cube_n_wave n m w f) by auto.
  unfold fins at 2. rewrite map_map. apply map_ext_in. intros k Hk. apply in_seq in Hk.
  apply (template_mix_lists n m w); auto; lia.
Qed.

(** bounds of a mix *)
Lemma template_mix_bounds n m W f k lo hi :
  is_matrix n m W -> Rsum2 W = 1 ->
  (forall i j, (i < n)%nat -> (j < m)%nat -> 0 <= ent2 W i j) ->
  (forall i j, (i < n)%nat -> (j < m)%nat -> lo <= ent3 f i j k <= hi) ->
  lo <= template_mix n m W f k <= hi.
Proof.
  intros HW HS Hp Hb. rewrite (Rsum2_ent _ _ _ HW) in HS. unfold template_mix.
  assert (S : forall c, Rsum (map (fun i => Rsum (map (fun j => ent2 W i j * c) (seq 0 m))) (seq 0 n)) = c).
  { intros c. rewrite (Rsum_map_ext _ (fun i => Rsum (map (ent2 W i) (seq 0 m)) * c)).
    - rewrite <- (map_map (fun i => Rsum (map (ent2 W i) (seq 0 m))) (fun x => x * c)), Rsum_scal_r, HS. lra.
    - intros i _. rewrite <- Rsum_scal_r, map_map. reflexivity. }
  split.
  - rewrite <- (S lo) at 1. apply Rsum_map_le. intros i Hi. apply Rsum_map_le. intros j Hj.
    apply in_seq in Hi. apply in_seq in Hj. apply Rmult_le_compat_l; [apply Hp; lia|apply Hb; lia].
  - rewrite <- (S hi). apply Rsum_map_le. intros i Hi. apply Rsum_map_le. intros j Hj.
    apply in_seq in Hi. apply in_seq in Hj. apply Rmult_le_compat_l; [apply Hp; lia|apply Hb; lia].
Qed.
(** linearity of a mix *)
Lemma template_mix_linear n m W f g h a b k :
  (forall i j, (i < n)%nat -> (j < m)%nat -> ent3 h i j k = a * ent3 f i j k + b * ent3 g i j k) ->
  template_mix n m W h k = a * template_mix n m W f k + b * template_mix n m W g k.
Proof.
  intros H. unfold template_mix. rewrite <- !Rsum_scal, !map_map, <- Rsum_map_plus.
  apply Rsum_map_ext. intros i Hi. rewrite <- !Rsum_scal, !map_map, <- Rsum_map_plus.
  apply Rsum_map_ext. intros j Hj. apply in_seq in Hi. apply in_seq in Hj. rewrite H by lia. lra.
Qed.

Lemma map_scal_fins l M : map (fun s => nmul s (Fin M)) (fins l) = fins (map (fun s => s * M) l).
Proof. now apply map_fins. Qed.

Lemma sed_lognormal_fins ts sfrs lgmet h lgmets ages f w t_obs smin :
  good_grids ts sfrs h lgmets ages t_obs -> 0 < t_obs -> 0 < smin ->
  is_cube (length lgmets) (length ages) w f ->
  exists W mw aw,
    calc_ssp_weights_sfh_table_lognormal_mdf (fins ts) (fins sfrs) (Fin lgmet) (Fin h)
      (fins lgmets) (fins ages) (Fin t_obs)
    = Ok {| weights := map fins W; lgmet_weights := fins mw; age_weights := fins aw |}
    /\ is_matrix (length lgmets) (length ages) W /\ Rsum2 W = 1
    /\ (forall i j, (i < length lgmets)%nat -> (j < length ages)%nat -> 0 <= ent2 W i j)
    /\ calc_rest_sed_sfh_table_lognormal_mdf (fins ts) (fins sfrs) (Fin lgmet) (Fin h)
         (fins lgmets) (fins ages) (fins3 f) (Fin t_obs) (Fin smin)
       = Ok {| rest_sed := fins (map (fun k => template_mix (length lgmets) (length ages) W f k
                                       * mass_formed_by ts (floored smin sfrs) t_obs) (seq 0 w));
               rs_weights := map fins W; rs_lgmet_weights := fins mw; rs_age_weights := fins aw |}.
Proof.
  intros G Ht Hs Hf.
  destruct (C15_lemma ts sfrs lgmet h lgmets ages t_obs G)
    as (W & mw & aw & E & _ & _ & SW & HW & HS & _).
  exists W, mw, aw. split; [exact E|]. split; [exact SW|]. split; [exact HS|].
  split; [intros; now apply HW|].
  destruct G as (Hl & Hn & Hi & Ha & He & Hh & Hm & Hme & Hff).
  unfold calc_rest_sed_sfh_table_lognormal_mdf. rewrite E. cbn [bind]. unfold check.
  rewrite !fins_length, (cube_shape_ok _ _ w) by (auto; lia).
  rewrite mstar_fin by auto. cbn [weights lgmet_weights age_weights].
  rewrite (stretch_cube (length lgmets) (length ages) w) by auto. rewrite (sed_unit_fins (length lgmets) (length ages) w) by (auto; lia).
  rewrite map_scal_fins, map_map. reflexivity.
Qed.

Lemma sed_met_fins ts sfrs ms h lgmets ages f w t_obs smin :
  good_grids ts sfrs h lgmets ages t_obs -> length ts = length ms -> 0 < t_obs -> 0 < smin ->
  is_cube (length lgmets) (length ages) w f ->
  exists W M aw,
    calc_ssp_weights_sfh_table_met_table (fins ts) (fins sfrs) (fins ms) (Fin h)
      (fins lgmets) (fins ages) (Fin t_obs)
    = Ok {| weights := map fins W; lgmet_weights := map fins M; age_weights := fins aw |}
    /\ is_matrix (length lgmets) (length ages) W /\ Rsum2 W = 1
    /\ (forall i j, (i < length lgmets)%nat -> (j < length ages)%nat -> 0 <= ent2 W i j)
    /\ calc_rest_sed_sfh_table_met_table (fins ts) (fins sfrs) (fins ms) (Fin h)
         (fins lgmets) (fins ages) (fins3 f) (Fin t_obs) (Fin smin)
       = Ok {| rest_sed := fins (map (fun k => template_mix (length lgmets) (length ages) W f k
                                       * mass_formed_by ts (floored smin sfrs) t_obs) (seq 0 w));
               rs_weights := map fins W; rs_lgmet_weights := map fins M; rs_age_weights := fins aw |}.
Proof.
  intros G Hlm Ht Hs Hf.
  destruct (C16_lemma ts sfrs ms h lgmets ages t_obs G Hlm)
    as (W & M & aw & E & _ & _ & SW & HW & HS & _).
  exists W, M, aw. split; [exact E|]. split; [exact SW|]. split; [exact HS|].
  split; [intros; now apply HW|].
  destruct G as (Hl & Hn & Hi & Ha & He & Hh & Hm & Hme & Hff).
  unfold calc_rest_sed_sfh_table_met_table. rewrite E. cbn [bind]. unfold check.
  rewrite !fins_length, (cube_shape_ok _ _ w) by (auto; lia).
  rewrite mstar_fin by auto. cbn [weights lgmet_weights age_weights].
  rewrite (stretch_cube (length lgmets) (length ages) w) by auto. rewrite (sed_unit_fins (length lgmets) (length ages) w) by (auto; lia).
  rewrite map_scal_fins, map_map. reflexivity.
Qed.

Lemma mass_formed_pos ts ss t : 0 < mass_formed_by ts ss t.
Proof. apply pow10_pos. Qed.

(** ** C17 *)
Lemma C17_lemma : forall ts sfrs lgmet scatter ssp_lgmet ages n_wave t_obs sfr_min,
  good_grids ts sfrs scatter ssp_lgmet ages t_obs -> 0 < t_obs -> 0 < sfr_min ->
  exists W,
    is_matrix (length ssp_lgmet) (length ages) W /\ Rsum2 W = 1
    /\ (forall i j, (i < length ssp_lgmet)%nat -> (j < length ages)%nat -> 0 <= ent2 W i j)
    /\ forall flux, is_cube (length ssp_lgmet) (length ages) n_wave flux ->
       exists r sed,
         calc_rest_sed_sfh_table_lognormal_mdf (fins ts) (fins sfrs) (Fin lgmet) (Fin scatter)
           (fins ssp_lgmet) (fins ages) (fins3 flux) (Fin t_obs) (Fin sfr_min) = Ok r
         /\ rest_sed r = fins sed /\ rs_weights r = map fins W /\ length sed = n_wave
         /\ forall k, (k < n_wave)%nat ->
            ent sed k = mass_formed_by ts (floored sfr_min sfrs) t_obs
                        * template_mix (length ssp_lgmet) (length ages) W flux k.
Proof.
  intros ts sfrs lgmet h lgmets ages w t_obs smin G Ht Hs.
  destruct (C15_lemma ts sfrs lgmet h lgmets ages t_obs G)
    as (W & mw & aw & E & _ & _ & SW & HW & HS & _).
  exists W. split; [exact SW|]. split; [exact HS|]. split; [intros; now apply HW|].
  intros f Hf.
  destruct (sed_lognormal_fins ts sfrs lgmet h lgmets ages f w t_obs smin G Ht Hs Hf)
    as (W' & mw' & aw' & E' & SW' & HS' & HP' & ES).
  rewrite E in E'. injection E' as EW _ _.
  assert (EWW : W = W').
  { clear -EW. revert W' EW. induction W as [|r W IH]; intros [|r' W'] EW; try discriminate; auto.
    cbn [map] in EW. injection EW as E1 E2. f_equal; auto. now apply fins_inj. }
  subst W'. eexists. eexists. split; [exact ES|]. split; [reflexivity|]. split; [reflexivity|].
  split; [now rewrite map_length, seq_length|].
  intros k Hk. rewrite ent_map_seq by auto. cbn [Nat.add]. lra.
Qed.

Lemma C17_met_lemma : forall ts sfrs lgmet_table scatter ssp_lgmet ages n_wave t_obs sfr_min,
  good_grids ts sfrs scatter ssp_lgmet ages t_obs -> length ts = length lgmet_table ->
  0 < t_obs -> 0 < sfr_min ->
  exists W,
    is_matrix (length ssp_lgmet) (length ages) W /\ Rsum2 W = 1
    /\ (forall i j, (i < length ssp_lgmet)%nat -> (j < length ages)%nat -> 0 <= ent2 W i j)
    /\ forall flux, is_cube (length ssp_lgmet) (length ages) n_wave flux ->
       exists r sed,
         calc_rest_sed_sfh_table_met_table (fins ts) (fins sfrs) (fins lgmet_table) (Fin scatter)
           (fins ssp_lgmet) (fins ages) (fins3 flux) (Fin t_obs) (Fin sfr_min) = Ok r
         /\ rest_sed r = fins sed /\ rs_weights r = map fins W /\ length sed = n_wave
         /\ forall k, (k < n_wave)%nat ->
            ent sed k = mass_formed_by ts (floored sfr_min sfrs) t_obs
                        * template_mix (length ssp_lgmet) (length ages) W flux k.
Proof.
  intros ts sfrs ms h lgmets ages w t_obs smin G Hlm Ht Hs.
  destruct (C16_lemma ts sfrs ms h lgmets ages t_obs G Hlm)
    as (W & mw & aw & E & _ & _ & SW & HW & HS & _).
  exists W. split; [exact SW|]. split; [exact HS|]. split; [intros; now apply HW|].
  intros f Hf.
  destruct (sed_met_fins ts sfrs ms h lgmets ages f w t_obs smin G Hlm Ht Hs Hf)
    as (W' & mw' & aw' & E' & SW' & HS' & HP' & ES).
  rewrite E in E'. injection E' as EW _ _.
  assert (EWW : W = W').
  { clear -EW. revert W' EW. induction W as [|r W IH]; intros [|r' W'] EW; try discriminate; auto.
    cbn [map] in EW. injection EW as E1 E2. f_equal; auto. now apply fins_inj. }
  subst W'. eexists. eexists. split; [exact ES|]. split; [reflexivity|]. split; [reflexivity|].
  split; [now rewrite map_length, seq_length|].
  intros k Hk. rewrite ent_map_seq by auto. cbn [Nat.add]. lra.
Qed.

(** consequences: range and linearity *)
Lemma C17_range_lemma : forall ts sfrs lgmet scatter ssp_lgmet ages n_wave t_obs sfr_min flux lo hi,
  good_grids ts sfrs scatter ssp_lgmet ages t_obs -> 0 < t_obs -> 0 < sfr_min ->
  is_cube (length ssp_lgmet) (length ages) n_wave flux ->
  (forall i j k, (i < length ssp_lgmet)%nat -> (j < length ages)%nat -> (k < n_wave)%nat ->
     lo <= ent3 flux i j k <= hi) ->
  exists r sed,
    calc_rest_sed_sfh_table_lognormal_mdf (fins ts) (fins sfrs) (Fin lgmet) (Fin scatter)
      (fins ssp_lgmet) (fins ages) (fins3 flux) (Fin t_obs) (Fin sfr_min) = Ok r
    /\ rest_sed r = fins sed
    /\ let mass := mass_formed_by ts (floored sfr_min sfrs) t_obs in
       0 < mass /\ List.Forall (fun s => mass * lo <= s <= mass * hi) sed.
Proof.
  intros ts sfrs lgmet h lgmets ages w t_obs smin f lo hi G Ht Hs Hf Hb.
  destruct (C17_lemma ts sfrs lgmet h lgmets ages w t_obs smin G Ht Hs) as (W & SW & HS & HP & HF).
  destruct (HF f Hf) as (r & sed & E & Er & _ & L & Hk).
  exists r, sed. split; [exact E|]. split; [exact Er|]. cbv zeta.
  pose proof (mass_formed_pos ts (floored smin sfrs) t_obs) as HM. split; [exact HM|].
  apply Forall_ent. rewrite L. intros k Hlt. rewrite Hk by auto.
  destruct (template_mix_bounds (length lgmets) (length ages) W f k lo hi SW HS HP ltac:(auto)).
  split; apply Rmult_le_compat_l; lra.
Qed.

Lemma C17_linear_lemma : forall ts sfrs lgmet scatter ssp_lgmet ages n_wave t_obs sfr_min f g h a b,
  good_grids ts sfrs scatter ssp_lgmet ages t_obs -> 0 < t_obs -> 0 < sfr_min ->
  is_cube (length ssp_lgmet) (length ages) n_wave f ->
  is_cube (length ssp_lgmet) (length ages) n_wave g ->
  is_cube (length ssp_lgmet) (length ages) n_wave h ->
  (forall i j k, (i < length ssp_lgmet)%nat -> (j < length ages)%nat -> (k < n_wave)%nat ->
     ent3 h i j k = a * ent3 f i j k + b * ent3 g i j k) ->
  exists sf sg sh,
    let sed flux s := exists r,
      calc_rest_sed_sfh_table_lognormal_mdf (fins ts) (fins sfrs) (Fin lgmet) (Fin scatter)
        (fins ssp_lgmet) (fins ages) (fins3 flux) (Fin t_obs) (Fin sfr_min) = Ok r
      /\ rest_sed r = fins s in
    sed f sf /\ sed g sg /\ sed h sh
    /\ forall k, (k < n_wave)%nat -> ent sh k = a * ent sf k + b * ent sg k.
Proof.
  intros ts sfrs lgmet sc lgmets ages w t_obs smin f g h a b G Ht Hs Hf Hg Hh Hlin.
  destruct (C17_lemma ts sfrs lgmet sc lgmets ages w t_obs smin G Ht Hs) as (W & SW & HS & HP & HF).
  destruct (HF f Hf) as (rf & sf & Ef & Erf & _ & Lf & Hkf).
  destruct (HF g Hg) as (rg & sg & Eg & Erg & _ & Lg & Hkg).
  destruct (HF h Hh) as (rh & sh & Eh & Erh & _ & Lh & Hkh).
  exists sf, sg, sh. cbv zeta. split; [eauto|]. split; [eauto|]. split; [eauto|].
  intros k Hk. rewrite Hkf, Hkg, Hkh by auto.
  rewrite (template_mix_linear _ _ W f g h a b k) by (intros; now apply Hlin). lra.
Qed.

(** ** C18 *)
Lemma nth_repeat'' (x : R) n k : (k < n)%nat -> nth k (repeat x n) 0 = x.
Proof. revert k. induction n; intros k H; [lia|]. destruct k; simpl; auto. apply IHn. lia. Qed.
Lemma C18_lemma : forall ts sfrs sfr_min,
  length ts = length sfrs -> ts <> [] -> increasing (0.001 :: ts) -> 0 < sfr_min ->
  exists mass : R -> R,
    (forall lgmet scatter ssp_lgmet ages n_wave flux t,
       good_grids ts sfrs scatter ssp_lgmet ages t -> 0 < t ->
       is_cube (length ssp_lgmet) (length ages) n_wave flux ->
       (forall i j k, (i < length ssp_lgmet)%nat -> (j < length ages)%nat -> (k < n_wave)%nat ->
          ent3 flux i j k = 1) ->
       exists r,
         calc_rest_sed_sfh_table_lognormal_mdf (fins ts) (fins sfrs) (Fin lgmet) (Fin scatter)
           (fins ssp_lgmet) (fins ages) (fins3 flux) (Fin t) (Fin sfr_min) = Ok r
         /\ rest_sed r = fins (repeat (mass t) n_wave))
    /\ (forall i m, (i < length ts)%nat ->
        cumulative_mstar_formed (fins ts) (fins (floored sfr_min sfrs)) = Ok (fins m) ->
        mass (ent ts i) = ent m i)
    /\ (forall t, 0 < t -> 0 < mass t)
    /\ (forall t t', 0 < t -> t <= t' -> mass t <= mass t')
    /\ (forall t, 0 < t -> t <= ent ts 0 -> mass t = mass (ent ts 0))
    /\ (forall t, ent ts (length ts - 1) <= t -> mass t = mass (ent ts (length ts - 1))).
Proof.
  intros ts sfrs smin Hl Hn Hi Hs.
  assert (Hl' : length ts = length (floored smin sfrs)) by now apply floored_len_eq.
  exists (mass_formed_by ts (floored smin sfrs)).
  split.
  { intros lgmet h lgmets ages n_wave flux t G Ht Hc H1.
    destruct (C17_lemma ts sfrs lgmet h lgmets ages n_wave t smin G Ht Hs) as (W & S & HS & Hp & H).
    destruct (H flux Hc) as (r & sed & E & Er & _ & Hlen & Hk). exists r. split; auto. rewrite Er. f_equal.
    apply list_eq_ent; [now rewrite repeat_length|]. intros k Hlt. rewrite Hk by lia.
    unfold ent at 1. rewrite nth_repeat'' by lia.
    assert (B : 1 <= template_mix (length lgmets) (length ages) W flux k <= 1).
    { apply template_mix_bounds; auto. intros. rewrite H1 by (auto; lia). lra. }
    replace (template_mix _ _ _ _ _) with 1 by lra. lra. }
  split.
  - intros i m Hlt E. rewrite mass_formed_node by (auto using floored_pos).
    apply cum_ok in E. rewrite cumulative_mass_fins in E by auto.
    apply fins_inj in E. now subst.
  - split; [intros; apply mass_formed_pos|].
    split; [intros; apply mass_formed_by_mono; auto using floored_pos|].
    split; [intros; now apply mass_formed_before|intros; now apply mass_formed_after].
Qed.

(** ** C19 *)
Lemma pwlin_const xs c n x : increasing xs -> length xs = n -> xs <> [] ->
  pwlin (combine xs (repeat c n)) x = c.
Proof.
  intros Hi Hl Hn.
  destruct (pwlin_range xs (repeat c n) x Hi ltac:(now rewrite repeat_length) Hn c c) as [H1 H2].
  - apply Forall_forall. intros y Hy. apply repeat_spec in Hy. lra.
  - lra.
Qed.

Lemma C19_lemma : forall ts sfrs lgmet scatter ssp_lgmet ages flux n_wave t_obs sfr_min,
  good_grids ts sfrs scatter ssp_lgmet ages t_obs -> 0 < t_obs -> 0 < sfr_min ->
  is_cube (length ssp_lgmet) (length ages) n_wave flux ->
  exists sed W mw M aw,
    calc_rest_sed_sfh_table_lognormal_mdf (fins ts) (fins sfrs) (Fin lgmet) (Fin scatter)
      (fins ssp_lgmet) (fins ages) (fins3 flux) (Fin t_obs) (Fin sfr_min)
    = Ok {| rest_sed := fins sed; rs_weights := map fins W; rs_lgmet_weights := fins mw;
            rs_age_weights := fins aw |}
    /\ calc_rest_sed_sfh_table_met_table (fins ts) (fins sfrs) (fins (repeat lgmet (length ts)))
         (Fin scatter) (fins ssp_lgmet) (fins ages) (fins3 flux) (Fin t_obs) (Fin sfr_min)
       = Ok {| rest_sed := fins sed; rs_weights := map fins W; rs_lgmet_weights := map fins M;
               rs_age_weights := fins aw |}
    /\ forall i j, (i < length ssp_lgmet)%nat -> (j < length ages)%nat ->
       ent2 M i j = ent mw i / INR (length ages).
Proof.
  intros ts sfrs lgmet h lgmets ages f w t_obs smin G Ht Hs Hf.
  set (ms := repeat lgmet (length ts)).
  assert (Hlm : length ts = length ms) by (unfold ms; now rewrite repeat_length).
  destruct (joint_lognormal_fins ts sfrs lgmet h lgmets ages t_obs G)
    as (mw & aw & E1 & L1 & D1 & E2 & L2 & D2 & E3).
  destruct (joint_met_fins ts sfrs ms h lgmets ages t_obs G Hlm)
    as (aw' & W' & E1' & L1' & D1' & E3' & SW' & HW').
  assert (aw' = aw) by (apply fins_inj; congruence). subst aw'.
  pose proof G as (Hl & Hn & Hi & Ha & He & Hh & Hm & Hme & Hff).
  assert (B : forall a, lgmet_at_birth ts ms t_obs a = lgmet).
  { intros a. unfold lgmet_at_birth, ms. apply pwlin_const.
    - apply log10_increasing; [apply times_pos; auto|now apply increasing_tl in Hi].
    - apply map_length.
    - now apply map_neq_nil. }
  assert (Emw : mw = met_weights lgmet h (met_edges lgmets)).
  { rewrite lognormal_fins in E2 by auto. injection E2 as E2. apply fins_inj in E2. auto. }
  assert (EW : W' = outer mw aw).
  { apply (matrix_ext (length lgmets) (length ages)); auto.
    - rewrite <- L1, <- L2. apply outer_shape.
    - intros i j Hii Hj. rewrite HW', outer_ent, B by lia. now rewrite Emw. }
  subst W'.
  exists (map (fun k => template_mix (length lgmets) (length ages) (outer mw aw) f k
                        * mass_formed_by ts (floored smin sfrs) t_obs) (seq 0 w)),
         (outer mw aw), mw, (met_matrix ts ms h lgmets ages t_obs), aw.
  split; [|split].
  - unfold calc_rest_sed_sfh_table_lognormal_mdf. rewrite E3. cbn [bind]. unfold check.
    rewrite !fins_length, (cube_shape_ok _ _ w) by (auto; lia).
    rewrite mstar_fin by auto. cbn [weights lgmet_weights age_weights].
    rewrite (stretch_cube (length lgmets) (length ages) w) by auto. rewrite (sed_unit_fins (length lgmets) (length ages) w) by (auto; lia).
    rewrite map_scal_fins, map_map. reflexivity.
  - unfold calc_rest_sed_sfh_table_met_table. rewrite E3'. cbn [bind]. unfold check.
    rewrite !fins_length, (cube_shape_ok _ _ w) by (auto; lia).
    rewrite mstar_fin by auto. cbn [weights lgmet_weights age_weights].
    rewrite (stretch_cube (length lgmets) (length ages) w) by auto. rewrite (sed_unit_fins (length lgmets) (length ages) w) by (auto; lia).
    rewrite map_scal_fins, map_map. reflexivity.
  - intros i j Hii Hj. rewrite met_matrix_ent, B by auto. now rewrite Emw.
Qed.

(** ** C20: shapes *)
Lemma shape_ok_iff n k cube : (1 <= n)%nat -> (1 <= k)%nat ->
  (flux_shape_ok n k cube = true <-> has_shape n k cube).
Proof.
  intros Hn Hk. unfold flux_shape_ok, has_shape, stands_for. rewrite !andb_true_iff, !fits_iff, forallb_forall.
  split.
  - intros [[H1 H1'] H2]. exists (length cube), (length (hd [] cube)), (flux_n_wave cube).
    split; auto. split; auto. split; auto. apply Forall_forall. intros p Hp.
    specialize (H2 p Hp). rewrite andb_true_iff, Nat.eqb_eq, forallb_forall in H2. destruct H2 as [H2 H3].
    split; auto. apply Forall_forall. intros s Hs. specialize (H3 s Hs). now rewrite Nat.eqb_eq in H3.
  - intros (m & j & w & Hm & Hj & H1 & H2).
    destruct cube as [|p cube]; [simpl in H1; lia|]. inversion H2 as [|? ? [Hp Hs]]; subst.
    destruct p as [|s p]; [simpl in Hj; lia|]. inversion Hs; subst.
    split; [split; assumption|]. intros q Hq. rewrite Forall_forall in H2. destruct (H2 q Hq) as [Q3 Q4].
    rewrite andb_true_iff, Nat.eqb_eq, forallb_forall. split; auto. intros s' Hs'.
    rewrite Forall_forall in Q4. apply Nat.eqb_eq. now apply Q4.
Qed.

Lemma check_ok {A} c e (k : res A) r : check c e k = Ok r <-> c = true /\ k = Ok r.
Proof. unfold check. destruct c; split; intros; try tauto; try discriminate. destruct H; discriminate. Qed.
Lemma bind_ok {A B} (x : res A) (f : A -> res B) r : bind x f = Ok r <-> exists a, x = Ok a /\ f a = Ok r.
Proof.
  destruct x; simpl; split; intros H; eauto; try discriminate.
  - destruct H as [a' [E H]]. now injection E as ->.
  - destruct H as [a' [E H]]. discriminate.
Qed.

Lemma age_weights_returns t s a o m :
  (exists r, calc_age_weights_from_sfh_table t s a o m = Ok r) <->
  stands_for (length s) (length t) /\ t <> [] /\ (3 <= length a)%nat.
Proof.
  unfold calc_age_weights_from_sfh_table, check_sfh_tables, check_templates. split.
  - intros [r H]. rewrite !check_ok in H. destruct H as [H1 [H2 [H3 _]]].
    apply fits_iff in H1. apply Nat.leb_le in H3. split; auto. split; auto.
    intros ->. discriminate.
  - intros [H1 [H2 H3]]. eexists. rewrite !check_ok. repeat split.
    + now apply fits_iff.
    + destruct t; [congruence|reflexivity].
    + now apply Nat.leb_le.
Qed.
Lemma lognormal_returns x h a :
  (exists r, calc_lgmet_weights_from_lognormal_mdf x h a = Ok r) <-> (3 <= length a)%nat.
Proof.
  unfold calc_lgmet_weights_from_lognormal_mdf, check_templates. split.
  - intros [r H]. rewrite check_ok in H. destruct H as [H _]. now apply Nat.leb_le.
  - intros H. eexists. rewrite check_ok. split; eauto. now apply Nat.leb_le.
Qed.
Lemma lgmet_table_returns t m h a ages o :
  (exists r, calc_lgmet_weights_from_lgmet_table t m h a ages o = Ok r) <->
  length t = length m /\ t <> [] /\ (3 <= length a)%nat.
Proof.
  unfold calc_lgmet_weights_from_lgmet_table, check_gal_tables, check_templates. split.
  - intros [r H]. rewrite !check_ok in H. destruct H as [H1 [H2 [H3 _]]].
    apply same_len_true in H1. apply Nat.leb_le in H3. split; auto. split; auto.
    intros ->. discriminate.
  - intros [H1 [H2 H3]]. eexists. rewrite !check_ok. repeat split.
    + now apply same_len_true.
    + destruct t; [congruence|reflexivity].
    + now apply Nat.leb_le.
Qed.

Lemma C20_lemma : forall t sfr lgmet scatter ssp_lgmet ages flux t_obs sfr_min,
  (exists r, calc_rest_sed_sfh_table_lognormal_mdf t sfr lgmet scatter ssp_lgmet ages flux t_obs sfr_min
             = Ok r)
  <-> stands_for (length sfr) (length t) /\ t <> [] /\ (3 <= length ages)%nat /\ (3 <= length ssp_lgmet)%nat
      /\ has_shape (length ssp_lgmet) (length ages) flux.
Proof.
  intros. unfold calc_rest_sed_sfh_table_lognormal_mdf, calc_ssp_weights_sfh_table_lognormal_mdf. split.
  - intros [r H]. apply bind_ok in H as [sw [H1 H2]]. apply bind_ok in H1 as [aw [H3 H4]].
    apply bind_ok in H4 as [mw [H5 _]]. apply check_ok in H2 as [H2 _].
    destruct (proj1 (age_weights_returns t sfr ages t_obs SFR_MIN)) as [A1 [A2 A3]]; [eauto|].
    pose proof (proj1 (lognormal_returns lgmet scatter ssp_lgmet) ltac:(eauto)) as A4.
    repeat (split; [solve [auto]|]). apply shape_ok_iff; auto; lia.
  - intros (A1 & A2 & A3 & A4 & A5).
    destruct (proj2 (age_weights_returns t sfr ages t_obs SFR_MIN)) as [aw E1]; [auto|].
    destruct (proj2 (lognormal_returns lgmet scatter ssp_lgmet) A4) as [mw E2].
    rewrite E1. cbn [bind]. rewrite E2. cbn [bind]. eexists. rewrite check_ok. split; eauto.
    apply shape_ok_iff; auto; lia.
Qed.

Lemma C20_met_lemma : forall t sfr lgmet_table scatter ssp_lgmet ages flux t_obs sfr_min,
  (exists r, calc_rest_sed_sfh_table_met_table t sfr lgmet_table scatter ssp_lgmet ages flux t_obs sfr_min
             = Ok r)
  <-> stands_for (length sfr) (length t) /\ length t = length lgmet_table /\ t <> []
      /\ (3 <= length ages)%nat /\ (3 <= length ssp_lgmet)%nat
      /\ has_shape (length ssp_lgmet) (length ages) flux.
Proof.
  intros. unfold calc_rest_sed_sfh_table_met_table, calc_ssp_weights_sfh_table_met_table. split.
  - intros [r H]. apply bind_ok in H as [sw [H1 H2]]. apply bind_ok in H1 as [aw [H3 H4]].
    apply bind_ok in H4 as [mw [H5 _]]. apply check_ok in H2 as [H2 _].
    destruct (proj1 (age_weights_returns t sfr ages t_obs SFR_MIN)) as [A1 [A2 A3]]; [eauto|].
    destruct (proj1 (lgmet_table_returns t lgmet_table scatter ssp_lgmet ages t_obs)) as [A4 [A5 A6]]; [eauto|].
    repeat (split; [solve [auto]|]). apply shape_ok_iff; auto; lia.
  - intros (A1 & A2 & A3 & A4 & A5 & A6).
    destruct (proj2 (age_weights_returns t sfr ages t_obs SFR_MIN)) as [aw E1]; [auto|].
    destruct (proj2 (lgmet_table_returns t lgmet_table scatter ssp_lgmet ages t_obs)) as [mw E2]; [auto|].
    rewrite E1. cbn [bind]. rewrite E2. cbn [bind]. eexists. rewrite check_ok. split; eauto.
    apply shape_ok_iff; auto; lia.
Qed.

(** ** C21 *)
Lemma C21_lemma : forall t sfr lgmet scatter ssp_lgmet ages flux t_obs sfr_min sfr_min' r,
  calc_rest_sed_sfh_table_lognormal_mdf t sfr lgmet scatter ssp_lgmet ages flux t_obs sfr_min = Ok r ->
  exists r',
    calc_rest_sed_sfh_table_lognormal_mdf t sfr lgmet scatter ssp_lgmet ages flux t_obs sfr_min' = Ok r'
    /\ rs_weights r' = rs_weights r /\ rs_lgmet_weights r' = rs_lgmet_weights r
    /\ rs_age_weights r' = rs_age_weights r.
Proof.
  intros until r. unfold calc_rest_sed_sfh_table_lognormal_mdf. intros H.
  apply bind_ok in H as [sw [H1 H2]]. apply check_ok in H2 as [H2 H3]. rewrite H1. cbn [bind].
  eexists. rewrite check_ok. split; [eauto|]. injection H3 as <-. auto.
Qed.
Lemma C21_met_lemma : forall t sfr lgmet_table scatter ssp_lgmet ages flux t_obs sfr_min sfr_min' r,
  calc_rest_sed_sfh_table_met_table t sfr lgmet_table scatter ssp_lgmet ages flux t_obs sfr_min = Ok r ->
  exists r',
    calc_rest_sed_sfh_table_met_table t sfr lgmet_table scatter ssp_lgmet ages flux t_obs sfr_min' = Ok r'
    /\ rs_weights r' = rs_weights r /\ rs_lgmet_weights r' = rs_lgmet_weights r
    /\ rs_age_weights r' = rs_age_weights r.
Proof.
  intros until r. unfold calc_rest_sed_sfh_table_met_table. intros H.
  apply bind_ok in H as [sw [H1 H2]]. apply check_ok in H2 as [H2 H3]. rewrite H1. cbn [bind].
  eexists. rewrite check_ok. split; [eauto|]. injection H3 as <-. auto.
Qed.

(** ** C06 and C07 for the SED *)
Lemma sed_eq_lognormal t sfr sfr' lgmet scatter ssp_lgmet ages flux t_obs smin :
  calc_age_weights_from_sfh_table t sfr ages t_obs SFR_MIN
  = calc_age_weights_from_sfh_table t sfr' ages t_obs SFR_MIN ->
  mstar_at_t_obs t sfr t_obs smin = mstar_at_t_obs t sfr' t_obs smin ->
  calc_rest_sed_sfh_table_lognormal_mdf t sfr lgmet scatter ssp_lgmet ages flux t_obs smin
  = calc_rest_sed_sfh_table_lognormal_mdf t sfr' lgmet scatter ssp_lgmet ages flux t_obs smin.
Proof.
  intros E1 E2. unfold calc_rest_sed_sfh_table_lognormal_mdf, calc_ssp_weights_sfh_table_lognormal_mdf.
  rewrite E1, E2. reflexivity.
Qed.
Lemma sed_eq_met t sfr sfr' ms ms' scatter ssp_lgmet ages flux t_obs smin :
  calc_age_weights_from_sfh_table t sfr ages t_obs SFR_MIN
  = calc_age_weights_from_sfh_table t sfr' ages t_obs SFR_MIN ->
  calc_lgmet_weights_from_lgmet_table t ms scatter ssp_lgmet ages t_obs
  = calc_lgmet_weights_from_lgmet_table t ms' scatter ssp_lgmet ages t_obs ->
  mstar_at_t_obs t sfr t_obs smin = mstar_at_t_obs t sfr' t_obs smin ->
  calc_rest_sed_sfh_table_met_table t sfr ms scatter ssp_lgmet ages flux t_obs smin
  = calc_rest_sed_sfh_table_met_table t sfr' ms' scatter ssp_lgmet ages flux t_obs smin.
Proof.
  intros E1 E2 E3. unfold calc_rest_sed_sfh_table_met_table, calc_ssp_weights_sfh_table_met_table.
  rewrite E1, E2, E3. reflexivity.
Qed.

Lemma C06_sed_lemma : forall ts sfrs sfrs' lgmet scatter ssp_lgmet ages flux t_obs sfr_min,
  length ts = length sfrs -> ts <> [] -> increasing (0.001 :: ts) -> 0 < t_obs -> 0 < sfr_min ->
  (3 <= length ages)%nat ->
  map (Rmax (1 / 10 ^ 14)) sfrs = map (Rmax (1 / 10 ^ 14)) sfrs' ->
  map (Rmax sfr_min) sfrs = map (Rmax sfr_min) sfrs' ->
  calc_rest_sed_sfh_table_lognormal_mdf (fins ts) (fins sfrs) lgmet scatter ssp_lgmet (fins ages) flux
    (Fin t_obs) (Fin sfr_min)
  = calc_rest_sed_sfh_table_lognormal_mdf (fins ts) (fins sfrs') lgmet scatter ssp_lgmet (fins ages) flux
    (Fin t_obs) (Fin sfr_min).
Proof.
  intros. apply sed_eq_lognormal.
  - rewrite SFR_MIN_fin. apply C06_lemma; auto using sfr_min_pos.
  - assert (length ts = length sfrs').
    { rewrite <- (map_length (Rmax sfr_min) sfrs'), <- H6, map_length. auto. }
    rewrite !mstar_fin by auto. unfold floored. now rewrite H6.
Qed.

Lemma C06_sed_met_lemma : forall ts sfrs sfrs' lgmet_table scatter ssp_lgmet ages flux t_obs sfr_min,
  length ts = length sfrs -> ts <> [] -> increasing (0.001 :: ts) -> 0 < t_obs -> 0 < sfr_min ->
  (3 <= length ages)%nat ->
  map (Rmax (1 / 10 ^ 14)) sfrs = map (Rmax (1 / 10 ^ 14)) sfrs' ->
  map (Rmax sfr_min) sfrs = map (Rmax sfr_min) sfrs' ->
  calc_rest_sed_sfh_table_met_table (fins ts) (fins sfrs) lgmet_table scatter ssp_lgmet (fins ages) flux
    (Fin t_obs) (Fin sfr_min)
  = calc_rest_sed_sfh_table_met_table (fins ts) (fins sfrs') lgmet_table scatter ssp_lgmet (fins ages) flux
    (Fin t_obs) (Fin sfr_min).
Proof.
  intros. apply sed_eq_met; auto.
  - rewrite SFR_MIN_fin. apply C06_lemma; auto using sfr_min_pos.
  - assert (length ts = length sfrs').
    { rewrite <- (map_length (Rmax sfr_min) sfrs'), <- H6, map_length. auto. }
    rewrite !mstar_fin by auto. unfold floored. now rewrite H6.
Qed.

Lemma mstar_past ts sfrs sfrs' t_obs smin :
  length ts = length sfrs -> length ts = length sfrs' -> ts <> [] -> increasing (0.001 :: ts) ->
  0 < t_obs -> 0 < smin -> same_past ts t_obs sfrs sfrs' ->
  mstar_at_t_obs (fins ts) (fins sfrs) (Fin t_obs) (Fin smin)
  = mstar_at_t_obs (fins ts) (fins sfrs') (Fin t_obs) (Fin smin).
Proof.
  intros Hl Hl' Hn Hi Ht Hs H. rewrite !mstar_fin by auto. f_equal.
  apply mass_formed_past; auto using floored_len_eq.
  intros i Hlt Hc. rewrite !floored_ent by lia. f_equal. now apply H.
Qed.

Lemma C07_sed_lemma : forall ts sfrs sfrs' lgmet scatter ssp_lgmet ages flux t_obs sfr_min,
  length ts = length sfrs -> length ts = length sfrs' -> ts <> [] -> increasing (0.001 :: ts) ->
  0 < t_obs -> 0 < sfr_min -> (3 <= length ages)%nat -> same_past ts t_obs sfrs sfrs' ->
  calc_rest_sed_sfh_table_lognormal_mdf (fins ts) (fins sfrs) lgmet scatter ssp_lgmet (fins ages) flux
    (Fin t_obs) (Fin sfr_min)
  = calc_rest_sed_sfh_table_lognormal_mdf (fins ts) (fins sfrs') lgmet scatter ssp_lgmet (fins ages) flux
    (Fin t_obs) (Fin sfr_min).
Proof.
  intros. apply sed_eq_lognormal.
  - rewrite SFR_MIN_fin. apply age_weights_past; auto using sfr_min_pos.
  - now apply mstar_past.
Qed.

Lemma lgmet_birth_past ts ms ms' t_obs a :
  length ts = length ms -> length ts = length ms' -> increasing (0.001 :: ts) ->
  same_past ts t_obs ms ms' -> lgmet_at_birth ts ms t_obs a = lgmet_at_birth ts ms' t_obs a.
Proof.
  intros Hl Hl' Hi H. unfold lgmet_at_birth. pose proof (times_pos _ Hi) as Htp.
  apply pwlin_past; rewrite ?map_length; auto.
  { apply log10_increasing; [auto|now apply increasing_tl in Hi]. }
  intros i Hlt Hc. apply H; auto. destruct Hc as [|Hc]; [auto|]. destruct i as [|i]; [auto|]. right.
  cbn [Nat.sub] in *. rewrite Nat.sub_0_r in *. rewrite ent_map in Hc by lia.
  assert (In (ent ts i) ts) by (apply ent_In; lia).
  apply log10_lt_inv in Hc; auto using birth_time_pos.
  assert (0.001 < ent ts i) by (apply increasing_cons in Hi as [Hi _]; auto).
  unfold birth_time in Hc. pose proof (pow10_pos a).
  destruct (Rlt_or_le (ent ts i) (t_obs - pow10 a)); [lra|].
  exfalso. apply (Rlt_irrefl (ent ts i)). eapply Rlt_le_trans; [exact Hc|]. apply Rmax_lub; lra.
Qed.

Lemma C07_sed_met_lemma : forall ts sfrs sfrs' ms ms' scatter ssp_lgmet ages flux t_obs sfr_min,
  length ts = length sfrs -> length ts = length sfrs' ->
  length ts = length ms -> length ts = length ms' ->
  ts <> [] -> increasing (0.001 :: ts) ->
  0 < t_obs -> 0 < sfr_min -> (3 <= length ages)%nat ->
  same_past ts t_obs sfrs sfrs' -> same_past ts t_obs ms ms' ->
  calc_rest_sed_sfh_table_met_table (fins ts) (fins sfrs) (fins ms) scatter ssp_lgmet (fins ages) flux
    (Fin t_obs) (Fin sfr_min)
  = calc_rest_sed_sfh_table_met_table (fins ts) (fins sfrs') (fins ms') scatter ssp_lgmet (fins ages) flux
    (Fin t_obs) (Fin sfr_min).
Proof.
  intros. apply sed_eq_met.
  - rewrite SFR_MIN_fin. apply age_weights_past; auto using sfr_min_pos.
  - unfold calc_lgmet_weights_from_lgmet_table. rewrite !check_gal_ok by auto.
    unfold calc_lgmet_weights_from_lgmet_table_k.
    assert (increasing ts) by (now apply increasing_tl in H4).
    rewrite !lgmet_table_fins by (auto; apply times_pos; auto).
    rewrite (map_ext (lgmet_at_birth ts ms t_obs) (lgmet_at_birth ts ms' t_obs)); auto.
    intros a. now apply lgmet_birth_past.
  - now apply mstar_past.
Qed.
