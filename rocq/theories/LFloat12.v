(** * Rounding error of weights and SEDs: the public functions *)
From Coq Require Import Reals List Arith Lra Lia ZArith Bool.
From Flocq Require Import Core.Raux.
From Verif Require Import Num Arr MUtils MSed Float Spec SpecFloat RList LBcast LUtils LJoint LFloat LFloat2 LFloat3 LFloat4 LFloat5 LFloat6 LFloat9 LFloat10 LFloat11.
Import ListNotations.
Open Scope R_scope.

Lemma unit_ieee AR u : accurate_to AR u -> ieee_arithmetic AR.
Proof.
  intros ((red & lib & OR & E) & A). split.
  - exists red, lib. split; auto. destruct E as [[E _]|[E _]]; auto.
  - apply (accurate_weaken _ _ _ A). destruct E as [[_ E]|[_ E]]; lra.
Qed.

Lemma C128_age_lemma : forall AR u, accurate_to AR u -> monotone_library AR -> forall ts sfrs ages t_obs sfr_min m k,
  length ts = length sfrs -> ts <> [] -> increasing (0.001 :: ts) ->
  Forall (fun t => machine_number t /\ t <= 1000) ts -> machine_number t_obs -> t_obs <= 1000 -> 0 < sfr_min ->
  (3 <= length ages <= 2 ^ 18)%nat -> (forall i, (i < length ages)%nat -> -4 <= ent ages i <= 4) ->
  (forall i, (i < length ages)%nat -> age_edge ages i + / 2 ^ 16 <= age_edge ages (S i)) ->
  cumulative_mstar_formed (fins ts) (fins (floored sfr_min sfrs)) = Ok (fins m) ->
  (1 <= k <= 15)%nat -> Forall (fun x => 1.001 * 10 ^ k <= x <= 10 ^ (2 * k) / 1.001) m ->
  exists w, calc_age_weights_from_sfh_table (fins ts) (fins sfrs) (fins ages) (Fin t_obs) (Fin sfr_min) = Ok w
    /\ (all_nan w \/ exists x, w = fins x /\ length x = length ages /\ Forall (fun x => 0 <= x <= 1) x
        /\ Rabs (Rsum x - 1) <= 2 * (INR (length ages) + 1) * u).
Proof.
  intros AR u U LM ts sfrs ages t_obs sfr_min m k H1 H2 H3 H4 H5 H6 H7 H8 H9 H10 H11 H12 H13.
  pose proof (good_ieee_arithmetic _ (unit_ieee _ _ U)) as I. apply rel_err_unit in U.
  destruct (float_age_weights_sfh I LM ts sfrs ages t_obs sfr_min m k) as (w & E & L & D); auto; try lia. exists w. split; auto.
  destruct (deltas_sum U w D ltac:(lia)) as [N|(x & -> & B & S)]; [left; exact N|right]. rewrite fins_length in L. exists x. rewrite <- L. auto.
Qed.

Lemma concat_length_matrix {A} (M : list (list A)) n m : is_matrix n m M -> length (concat M) = (n * m)%nat.
Proof.
  intros [<- F]. induction F as [|r M Hr F IH]; [reflexivity|]. cbn [concat length Nat.mul]. rewrite app_length, IH. lia.
Qed.
Lemma ent2_map_map (f : R -> R) M i j n m : is_matrix n m M -> (i < n)%nat -> (j < m)%nat -> ent2 (map (map f) M) i j = f (ent2 M i j) /\ In (ent2 M i j) (concat M).
Proof.
  intros [L F] Hi Hj. unfold ent2. rewrite (nth_map' _ _ _ []) by lia. rewrite Forall_forall in F. assert (Hr : In (nth i M []) M) by (apply nth_In; lia). specialize (F _ Hr).
  rewrite ent_map by lia. split; auto. apply in_concat. exists (nth i M []). split; auto. apply ent_In. lia.
Qed.

Lemma joint_matrix AR u (U : rel_err AR u) L n m : is_matrix n m L -> Forall (Forall (fun x => 0 <= x <= 1)) L -> (n * m <= 2 ^ 18)%nat -> / 4 <= Rsum2 L ->
  exists W, normalize_matrix (map (map rnd) L) = map fins W /\ is_matrix n m W
    /\ Rabs (Rsum2 W - 1) <= 2 * (INR (n * m) + 1) * u
    /\ forall i j, (i < n)%nat -> (j < m)%nat -> 0 <= ent2 W i j <= 1
         /\ Rabs (ent2 W i j - ent2 L i j / Rsum2 L) <= 3 * (INR (n * m) + 2) * u * (ent2 L i j / Rsum2 L) + 8 * (INR (n * m) + 1) * (u * / 2 ^ 102).
Proof.
  intros HM F B S. pose proof (concat_length_matrix L n m HM) as LC. destruct (joint_core U L F ltac:(lia) S) as (W & EN & EW & SW & K). rewrite LC in *.
  exists W. split; auto. split.
  { rewrite EW. destruct HM as [H1 H2]. split; [now rewrite map_length|]. apply Forall_map. eapply Forall_impl; [|exact H2]. intros r Hr. now rewrite map_length. }
  split; auto. intros i j Hi Hj. rewrite EW.
  match goal with |- context [map (map ?f) L] => set (g := f) in * end.
  destruct (ent2_map_map g L i j n m HM Hi Hj) as [-> HI]. apply (K _ HI).
Qed.

Definition unit_entries (l : list R) : Prop := Forall (fun x => 0 <= x <= 1) l.
Lemma outer_matrix a b : is_matrix (length b) (length a) (map (fun y => map (fun x => y * x) a) b).
Proof. split; [now rewrite map_length|]. apply Forall_map, Forall_forall. intros y _. now rewrite map_length. Qed.
Lemma outer_sum a b : Rsum2 (map (fun y => map (fun x => y * x) a) b) = Rsum b * Rsum a.
Proof.
  unfold Rsum2. rewrite map_map. induction b as [|y b IH]; cbn [map Rsum]; [lra|]. rewrite IH, Rsum_map_mult, map_id. ring.
Qed.
Lemma outer_ent a b i j : (i < length b)%nat -> (j < length a)%nat -> ent2 (map (fun y => map (fun x => y * x) a) b) i j = ent b i * ent a j.
Proof. intros Hi Hj. unfold ent2. rewrite (nth_map' _ _ _ 0) by auto. now rewrite ent_map by auto. Qed.

Lemma C128_joint_lemma : forall AR u, accurate_to AR u -> forall ts sfrs lgmet scatter ssp_lgmet ages t_obs r a b,
  calc_ssp_weights_sfh_table_lognormal_mdf ts sfrs lgmet scatter ssp_lgmet ages t_obs = Ok r ->
  age_weights r = fins a -> lgmet_weights r = fins b ->
  Forall (fun x => 0 <= x <= 1) a -> Forall (fun x => 0 <= x <= 1) b -> (length b * length a <= 2 ^ 18)%nat ->
  / 2 <= Rsum a -> / 2 <= Rsum b ->
  let n := INR (length b * length a) in
  exists W, weights r = map fins W /\ is_matrix (length b) (length a) W /\ Rabs (Rsum2 W - 1) <= 2 * (n + 1) * u
    /\ forall i j, (i < length b)%nat -> (j < length a)%nat -> 0 <= ent2 W i j <= 1
       /\ let exact_value := ent b i / Rsum b * (ent a j / Rsum a) in
          Rabs (ent2 W i j - exact_value) <= 3 * (n + 2) * u * exact_value + 8 * (n + 1) * (u * / 2 ^ 102).
Proof.
  intros AR u U ts sfrs lgmet scatter ssp_lgmet ages t_obs r a b E Ea Eb Fa Fb Ln Sa Sb n. apply rel_err_unit in U.
  unfold calc_ssp_weights_sfh_table_lognormal_mdf in E. destruct (calc_age_weights_from_sfh_table _ _ _ _ _) as [aw|]; [|discriminate]. cbn [bind] in E.
  destruct (calc_lgmet_weights_from_lognormal_mdf _ _ _) as [lw|]; [|discriminate]. cbn [bind] in E. injection E as <-. cbn [age_weights lgmet_weights weights] in *. subst aw lw.
  set (L := map (fun y => map (fun x => y * x) a) b).
  destruct (joint_matrix AR u U L (length b) (length a)) as (W & EW & MW & SW & K); auto.
  - apply outer_matrix.
  - unfold L. apply Forall_map. eapply Forall_impl; [|exact Fb]. intros y Hy. apply Forall_map. eapply Forall_impl; [|exact Fa]. intros x Hx. cbv beta in *. now apply mult_le_1'.
  - unfold L. rewrite outer_sum. replace (/ 4) with (/ 2 * / 2) by lra. apply Rmult_le_compat; lra.
  - exists W. fold n in SW, K. split.
    { rewrite <- EW. f_equal. unfold L, fins. rewrite !map_map. apply map_ext. intros y. rewrite !map_map. apply map_ext. intros x. reflexivity. }
    split; auto. split; auto. intros i j Hi Hj. specialize (K i j Hi Hj). unfold L in K. rewrite outer_sum, outer_ent in K by auto.
    cbv zeta. replace (ent b i / Rsum b * (ent a j / Rsum a)) with (ent b i * ent a j / (Rsum b * Rsum a)) by (field; lra). exact K.
Qed.

Lemma C128_joint_met_lemma : forall AR u, accurate_to AR u -> forall ts sfrs lgmet_table scatter ssp_lgmet ages t_obs r a B n_met,
  calc_ssp_weights_sfh_table_met_table ts sfrs lgmet_table scatter ssp_lgmet ages t_obs = Ok r ->
  age_weights r = fins a -> lgmet_weights r = map fins B -> is_matrix n_met (length a) B ->
  Forall (fun x => 0 <= x <= 1) a -> Forall (Forall (fun x => 0 <= x <= 1)) B -> (n_met * length a <= 2 ^ 18)%nat ->
  let P := map (fun row => map2 Rmult row a) B in
  let n := INR (n_met * length a) in
  / 4 <= Rsum2 P ->
  exists W, weights r = map fins W /\ is_matrix n_met (length a) W /\ Rabs (Rsum2 W - 1) <= 2 * (n + 1) * u
    /\ forall i j, (i < n_met)%nat -> (j < length a)%nat -> 0 <= ent2 W i j <= 1
       /\ let exact_value := ent2 B i j * ent a j / Rsum2 P in
          Rabs (ent2 W i j - exact_value) <= 3 * (n + 2) * u * exact_value + 8 * (n + 1) * (u * / 2 ^ 102).
Proof.
  intros AR u U ts sfrs lgmet_table scatter ssp_lgmet ages t_obs r a B n_met E Ea Eb MB Fa FB Ln P n S4. apply rel_err_unit in U.
  unfold calc_ssp_weights_sfh_table_met_table in E. destruct (calc_age_weights_from_sfh_table _ _ _ _ _) as [aw|]; [|discriminate]. cbn [bind] in E.
  destruct (calc_lgmet_weights_from_lgmet_table _ _ _ _ _ _) as [lw|]; [|discriminate]. cbn [bind] in E. injection E as <-. cbn [age_weights lgmet_weights weights] in *. subst aw lw.
  assert (MP : is_matrix n_met (length a) P).
  { destruct MB as [H1 H2]. split; [unfold P; now rewrite map_length|]. unfold P. apply Forall_map. eapply Forall_impl; [|exact H2]. intros row Hr. cbv beta in *. rewrite map2_length, Hr. apply Nat.min_id. }
  destruct (joint_matrix AR u U P n_met (length a)) as (W & EW & MW & SW & K); auto.
  - unfold P. apply Forall_map, Forall_forall. intros row Hr. rewrite Forall_forall in FB. specialize (FB row Hr).
    clear - FB Fa. revert a Fa. induction FB as [|x row Hx F IH]; intros [|y a] Fa; cbn [map2]; constructor.
    + apply Forall_cons_iff in Fa. now apply mult_le_1'. + apply IH. now apply Forall_cons_iff in Fa.
  - exists W. fold n in SW, K. split.
    { rewrite <- EW. f_equal. unfold P, fins. rewrite !map_map. apply map_ext. intros row. rewrite map_map2, map2_map. reflexivity. }
    split; auto. split; auto. intros i j Hi Hj. specialize (K i j Hi Hj).
    assert (EP : ent2 P i j = ent2 B i j * ent a j).
    { unfold ent2, P. destruct MB as [H1 H2]. rewrite (nth_map' _ _ _ []) by lia. rewrite Forall_forall in H2. specialize (H2 (nth i B []) ltac:(apply nth_In; lia)).
      rewrite ent_map2 by lia. reflexivity. }
    rewrite EP in K. exact K.
Qed.

(** ** the SED *)
Definition sed_pairs (flux : list (list (list R))) (W : list (list R)) (k : nat) : list (R * R) :=
  concat (map2 (map2 (fun spec x => (ent spec k, x))) flux W).
Lemma sed_pairs_props n m w W f k : is_matrix n m W -> is_cube n m w f -> (k < w)%nat ->
  concat (map2 (map2 (fun spec x => nmul (AR := exact) (at_ spec k) x)) (fins3 f) (map fins W)) = fins (map (fun p => fst p * snd p) (sed_pairs f W k))
  /\ (forall AR : Arith, concat (map2 (map2 (fun spec x => nmul (at_ spec k) x)) (fins3 f) (map fins W)) = map (fun p => nmul (Fin (fst p)) (Fin (snd p))) (sed_pairs f W k))
  /\ length (sed_pairs f W k) = (n * m)%nat
  /\ ((forall i j, (i < n)%nat -> (j < m)%nat -> 0 <= ent2 W i j /\ 0 <= ent3 f i j k) -> Forall (fun p => 0 <= fst p /\ 0 <= snd p) (sed_pairs f W k)).
Proof.
  intros [Hn HW] [Hn' Hf] Hk.
  assert (Q : forall AR : Arith, concat (map2 (map2 (fun spec x => nmul (at_ spec k) x)) (fins3 f) (map fins W)) = map (fun p => nmul (Fin (fst p)) (Fin (snd p))) (sed_pairs f W k)).
  { intros AR. unfold sed_pairs. rewrite concat_map. f_equal. unfold fins3. rewrite map2_map, map_map2. apply map2_ext_in. intros p row Hp _.
    rewrite Forall_forall in Hf. destruct (Hf p Hp) as [_ Hs]. unfold fins. rewrite map2_map, map_map2.
    apply map2_ext_in. intros s x Hs' _. rewrite Forall_forall in Hs. fold (fins s). rewrite at_fins by (rewrite (Hs s Hs'); auto). reflexivity. }
  split; [|split; [exact Q|split]].
  - rewrite Q. unfold fins. rewrite map_map. apply map_ext. intros p. apply nmul_fin.
  - unfold sed_pairs. apply concat_length_matrix. split; [rewrite map2_length; lia|]. apply Forall_forall. intros row Hr.
    destruct (In_nth _ _ [] Hr) as [i [Hi <-]]. rewrite map2_length in Hi. rewrite map2_nth with (d1 := []) (d2 := []) by lia. rewrite map2_length.
    rewrite Forall_forall in HW, Hf. rewrite (HW (nth i W [])) by (apply nth_In; lia). destruct (Hf (nth i f [])) as [-> _]; [apply nth_In; lia|]. lia.
  - intros P. unfold sed_pairs. apply Forall_concat, Forall_forall. intros row Hr.
    destruct (In_nth _ _ [] Hr) as [i [Hi <-]]. rewrite map2_length in Hi. rewrite map2_nth with (d1 := []) (d2 := []) by lia.
    rewrite Forall_forall in HW, Hf. assert (L1 := HW (nth i W []) ltac:(apply nth_In; lia)). destruct (Hf (nth i f [])) as [L2 _]; [apply nth_In; lia|].
    apply Forall_forall. intros p Hp. destruct (In_nth _ _ (0, 0) Hp) as [j [Hj <-]]. rewrite map2_length in Hj.
    rewrite map2_nth with (d1 := []) (d2 := 0) by lia. cbn [fst snd]. destruct (P i j ltac:(lia) ltac:(lia)) as [P1 P2]. split; [exact P2|exact P1].
Qed.
Lemma sed_pairs_sum n m w W f k : is_matrix n m W -> is_cube n m w f -> (k < w)%nat ->
  Rsum (map (fun p => fst p * snd p) (sed_pairs f W k)) = template_mix n m W f k.
Proof.
  intros HW Hf Hk. pose proof (template_mix_lists n m w W f k HW Hf Hk) as E. destruct (sed_pairs_props n m w W f k HW Hf Hk) as (E' & _).
  rewrite E', vsum_fins in E. now injection E.
Qed.

Lemma sed_core AR u (U : rel_err AR u) n m w W f M : is_matrix n m W -> is_cube n m w f -> (0 < n)%nat -> (0 < m)%nat -> (n * m <= 2 ^ 18)%nat ->
  (forall i j, (i < n)%nat -> (j < m)%nat -> 0 <= ent2 W i j) ->
  (forall i j k, (i < n)%nat -> (j < m)%nat -> (k < w)%nat -> 0 <= ent3 f i j k) ->
  0 <= M <= 10 ^ 36 -> (forall k, (k < w)%nat -> template_mix n m W f k * (1 + M) <= 10 ^ 36) ->
  exists sed, map (fun s => nmul s (Fin M)) (sed_unit_mstar (fins3 f) (map fins W)) = fins sed /\ length sed = w
    /\ forall k, (k < w)%nat -> 0 <= ent sed k
       /\ Rabs (ent sed k - M * template_mix n m W f k) <= 2 * (INR (n * m) + 2) * u * (M * template_mix n m W f k) + (2 * INR (n * m) * M + 1) * (u * / 2 ^ 102).
Proof.
  intros HW Hf N0 M0 Ln PW Pf BM BS. unfold sed_unit_mstar. rewrite (cube_n_wave n m w f) by auto. rewrite map_map.
  set (g := fun k => nmul (vsum (concat (map2 (map2 (fun spec x => nmul (at_ spec k) x)) (fins3 f) (map fins W)))) (Fin M)).
  assert (K : forall k, (k < w)%nat -> exists x, g k = Fin x /\ 0 <= x
     /\ Rabs (x - M * template_mix n m W f k) <= 2 * (INR (n * m) + 2) * u * (M * template_mix n m W f k) + (2 * INR (n * m) * M + 1) * (u * / 2 ^ 102)).
  { intros k Hk. unfold g. destruct (sed_pairs_props n m w W f k HW Hf Hk) as (_ & E & L & P). rewrite (E AR).
    destruct (scaled_dot_error U (sed_pairs f W k) M) as (x & Ex & X0 & B); auto; try lia; try lra; try (rewrite (sed_pairs_sum n m w) by auto; now apply BS).
    rewrite L, (sed_pairs_sum n m w) in B by auto. eauto. }
  exists (map (fun k => fval (g k)) (seq 0 w)). rewrite map_length, seq_length. split; [|split; auto].
  - unfold fins. rewrite map_map. apply map_ext_in. intros k Hk. apply in_seq in Hk. destruct (K k ltac:(lia)) as (x & -> & _). reflexivity.
  - intros k Hk. rewrite ent_map_seq by auto. rewrite Nat.add_0_l. destruct (K k Hk) as (x & -> & B). exact B.
Qed.

Lemma C129_sed_lemma : forall AR u, accurate_to AR u -> forall ts sfrs lgmet scatter ssp_lgmet ages flux n_wave t_obs sfr_min r W M,
  let n := length ssp_lgmet in let m := length ages in
  calc_rest_sed_sfh_table_lognormal_mdf ts sfrs lgmet scatter ssp_lgmet ages (fins3 flux) t_obs sfr_min = Ok r ->
  mstar_at_t_obs ts sfrs t_obs sfr_min = Fin M -> M <= 10 ^ 36 ->
  rs_weights r = map fins W -> is_matrix n m W -> is_cube n m n_wave flux -> (0 < n * m <= 2 ^ 18)%nat ->
  (forall i j, (i < n)%nat -> (j < m)%nat -> 0 <= ent2 W i j) ->
  (forall i j k, (i < n)%nat -> (j < m)%nat -> (k < n_wave)%nat -> 0 <= ent3 flux i j k) ->
  (forall k, (k < n_wave)%nat -> template_mix n m W flux k * (1 + M) <= 10 ^ 36) ->
  exists sed, rest_sed r = fins sed /\ length sed = n_wave /\ 0 <= M
    /\ forall k, (k < n_wave)%nat -> 0 <= ent sed k
       /\ let exact_value := M * template_mix n m W flux k in
          Rabs (ent sed k - exact_value) <= 2 * (INR (n * m) + 2) * u * exact_value + (2 * INR (n * m) * M + 1) * (u * / 2 ^ 102).
Proof.
  intros AR u U ts sfrs lgmet scatter ssp_lgmet ages flux n_wave t_obs sfr_min r W M n m E EM BM EW HW Hf Ln PW Pf BS. apply rel_err_unit in U.
  assert (M0 : 0 <= M).
  { unfold mstar_at_t_obs in EM. destruct (interp _ _ _) as [e| | |]; try discriminate.
    - pose proof (npow10_nonneg (re_good _ _ U) e) as N. rewrite EM, nle_fin in N. exact N.
    - unfold npow10, npow in EM. rewrite Rabs_right, Rlt_bool_false, Req_bool_false in EM by lra. discriminate.
    - unfold npow10, npow in EM. rewrite Rabs_right, Rlt_bool_false, Req_bool_false in EM by lra. injection EM as <-. lra.
    - unfold npow10, npow in EM. rewrite Req_bool_false in EM by lra. discriminate. }
  unfold calc_rest_sed_sfh_table_lognormal_mdf in E. destruct (calc_ssp_weights_sfh_table_lognormal_mdf _ _ _ _ _ _ _) as [sw|]; [|discriminate]. cbn [bind] in E.
  unfold check in E. destruct (flux_shape_ok _ _ _); [|discriminate]. injection E as <-. cbn [rest_sed rs_weights] in *. fold n m. rewrite (stretch_cube n m n_wave) by auto. rewrite EM, EW.
  destruct (sed_core AR u U n m n_wave W flux M) as (sed & E & L & K); auto; try lia; try lra. exists sed. auto.
Qed.
Lemma C129_sed_met_lemma : forall AR u, accurate_to AR u -> forall ts sfrs lgmet_table scatter ssp_lgmet ages flux n_wave t_obs sfr_min r W M,
  let n := length ssp_lgmet in let m := length ages in
  calc_rest_sed_sfh_table_met_table ts sfrs lgmet_table scatter ssp_lgmet ages (fins3 flux) t_obs sfr_min = Ok r ->
  mstar_at_t_obs ts sfrs t_obs sfr_min = Fin M -> M <= 10 ^ 36 ->
  rs_weights r = map fins W -> is_matrix n m W -> is_cube n m n_wave flux -> (0 < n * m <= 2 ^ 18)%nat ->
  (forall i j, (i < n)%nat -> (j < m)%nat -> 0 <= ent2 W i j) ->
  (forall i j k, (i < n)%nat -> (j < m)%nat -> (k < n_wave)%nat -> 0 <= ent3 flux i j k) ->
  (forall k, (k < n_wave)%nat -> template_mix n m W flux k * (1 + M) <= 10 ^ 36) ->
  exists sed, rest_sed r = fins sed /\ length sed = n_wave /\ 0 <= M
    /\ forall k, (k < n_wave)%nat -> 0 <= ent sed k
       /\ let exact_value := M * template_mix n m W flux k in
          Rabs (ent sed k - exact_value) <= 2 * (INR (n * m) + 2) * u * exact_value + (2 * INR (n * m) * M + 1) * (u * / 2 ^ 102).
Proof.
  intros AR u U ts sfrs lgmet scatter ssp_lgmet ages flux n_wave t_obs sfr_min r W M n m E EM BM EW HW Hf Ln PW Pf BS. apply rel_err_unit in U.
  assert (M0 : 0 <= M).
  { unfold mstar_at_t_obs in EM. destruct (interp _ _ _) as [e| | |]; try discriminate.
    - pose proof (npow10_nonneg (re_good _ _ U) e) as N. rewrite EM, nle_fin in N. exact N.
    - unfold npow10, npow in EM. rewrite Rabs_right, Rlt_bool_false, Req_bool_false in EM by lra. discriminate.
    - unfold npow10, npow in EM. rewrite Rabs_right, Rlt_bool_false, Req_bool_false in EM by lra. injection EM as <-. lra.
    - unfold npow10, npow in EM. rewrite Req_bool_false in EM by lra. discriminate. }
  unfold calc_rest_sed_sfh_table_met_table in E. destruct (calc_ssp_weights_sfh_table_met_table _ _ _ _ _ _ _) as [sw|]; [|discriminate]. cbn [bind] in E.
  unfold check in E. destruct (flux_shape_ok _ _ _); [|discriminate]. injection E as <-. cbn [rest_sed rs_weights] in *. fold n m. rewrite (stretch_cube n m n_wave) by auto. rewrite EM, EW.
  destruct (sed_core AR u U n m n_wave W flux M) as (sed & E & L & K); auto; try lia; try lra. exists sed. auto.
Qed.
