(** * Properties C128-C140: rounding errors in double and single precision.
    [AR] is the arithmetic in which the code runs (IEEE-754 double or single precision, every
    operation and literal rounded to nearest), [exact] the arithmetic of the real numbers;
    the mathematical library (exp, log, pow) is any one accurate to [u] and sums are taken in any
    order ([accurate_to], SpecFloat.v). *)
From Coq Require Import Reals List Arith Lra Lia ZArith.
From Verif Require Import Num Arr MUtils MSed MCosmo MPhot Float Spec SpecFloat SpecFloat2 RList LUtils LAge LJoint LFloat LFloat2 LFloat9 LFloat12 LRound8 LRound10 LRound12 LRound13 LRound19 LRound20 LRound25 LRound26 LRound28 LLib.
Import ListNotations.
Open Scope R_scope.

(** every order of summation is covered (first to last, last to first, ...), and libraries that
    are not correctly rounded, such as a single-precision one used by double-precision code and,
    in single precision, one with 22 correct bits *)
Example any_order_nonvacuous : accurate_to (double_precision left_to_right rounded64) (/ 2 ^ 53) /\ accurate_to (double_precision LOrder.right_to_left rounded64) (/ 2 ^ 53)
  /\ @vsum (double_precision LOrder.right_to_left rounded64) [Fin 1; Fin 2; Fin 3]
     = @nadd (double_precision LOrder.right_to_left rounded64) (@nadd (double_precision LOrder.right_to_left rounded64) (Fin 3) (Fin 2)) (Fin 1)
  /\ accurate_to (double_precision left_to_right rounded32) (/ 2 ^ 24) /\ monotone_library (double_precision left_to_right rounded32)
  /\ accurate_to (single_precision left_to_right LLib.rounded22) (/ 2 ^ 22).
Proof.
  split; [exact LFloat9.unit64|]. split; [apply LFloat9.unit64_any, LOrder.right_to_left_any_order|]. split; [reflexivity|].
  split; [apply LLib.single_library_accurate, LOrder.left_to_right_any_order|].
  split; [apply LLib.single_library_monotone|apply LLib.sloppy_library_accurate, LOrder.left_to_right_any_order].
Qed.
(** both treatments of subnormal results are covered, and they differ *)
Example subnormals_nonvacuous :
  accurate_to (double_flushed left_to_right LFloat.rounded64f) (/ 2 ^ 53) /\ monotone_library (double_flushed left_to_right LFloat.rounded64f)
  /\ accurate_to (single_flushed LOrder.right_to_left LFloat.rounded32f) (/ 2 ^ 24) /\ monotone_library (single_flushed left_to_right LFloat.rounded32f)
  /\ ieee_arithmetic (double_flushed left_to_right LFloat.rounded64f) /\ ieee_arithmetic (single_flushed left_to_right LFloat.rounded32f)
  /\ @nmul binary32 (Fin (/ 2 ^ 70)) (Fin (/ 2 ^ 60)) = Fin (/ 2 ^ 130)
  /\ @nmul (single_flushed left_to_right LFloat.rounded32f) (Fin (/ 2 ^ 70)) (Fin (/ 2 ^ 60)) = Fin 0.
Proof.
  split; [apply LFloat9.unit64f_any, LOrder.left_to_right_any_order|]. split; [exact LLib.mono64f|].
  split; [apply LFloat9.unit32f_any, LOrder.right_to_left_any_order|]. split; [exact LLib.mono32f|].
  split; [apply LFloat9.ieee64f_any, LOrder.left_to_right_any_order|]. split; [apply LFloat9.ieee32f_any, LOrder.left_to_right_any_order|exact LLib.flush_demo].
Qed.
(** C128 *)
Theorem C128_age_weights_sum : forall AR u, accurate_to AR u -> monotone_library AR -> forall ts sfrs ages t_obs sfr_min m k,
  length ts = length sfrs -> ts <> [] -> increasing (0.001 :: ts) ->
  Forall (fun t => machine_number t /\ t <= 1000) ts -> machine_number t_obs -> t_obs <= 1000 -> 0 < sfr_min ->
  (3 <= length ages <= 2 ^ 18)%nat -> (forall i, (i < length ages)%nat -> -4 <= ent ages i <= 4) ->
  (forall i, (i < length ages)%nat -> age_edge ages i + / 2 ^ 16 <= age_edge ages (S i)) ->
  cumulative_mstar_formed (fins ts) (fins (floored sfr_min sfrs)) = Ok (fins m) ->
  (1 <= k <= 15)%nat -> Forall (fun x => 1.001 * 10 ^ k <= x <= 10 ^ (2 * k) / 1.001) m ->
  exists w, calc_age_weights_from_sfh_table (fins ts) (fins sfrs) (fins ages) (Fin t_obs) (Fin sfr_min) = Ok w
    /\ (all_nan w \/ exists x, w = fins x /\ length x = length ages /\ Forall (fun x => 0 <= x <= 1) x
        /\ Rabs (Rsum x - 1) <= 2 * (INR (length ages) + 1) * u).
Proof. exact C128_age_lemma. Qed.
Print Assumptions C128_age_weights_sum.
Example C128_age_nonvacuous : exists s a, @SFR_MIN binary64 = Fin s /\ 0 < s
  /\ @calc_age_weights_from_sfh_table binary64 (fins rd_t) (fins rd_sfr) (fins rd_ages) (Fin 4) (Fin s) = Ok (fins a)
  /\ Forall (fun x => 0 <= x <= 1) a /\ Rabs (Rsum a - 1) <= 2 * (INR 3 + 1) * / 2 ^ 53.
Proof.
  destruct rd_s0 as (s & Es & Bs). destruct rd_formed as (m & Em & Fm). destruct rd_a as (a & Ea & La & _). rewrite Es in Ea. exists s, a. split; auto. split; [lra|]. split; auto.
  destruct (C128_age_weights_sum binary64 _ rd_unit LFloat9.mono64 rd_t rd_sfr rd_ages 4 s m 6) as (w' & E' & D); auto; try lra; try lia.
  - discriminate. - apply (times_increasing (AR := binary64)), rd_times. - apply Forall_forall, rd_range. - apply (LFloat9.demo_int 4); auto; lia. - apply rd_rages. - apply LFloat9.demo_range. - apply LFloat9.demo_edges.
  - now rewrite rd_floored.
  - rewrite Ea in E'. injection E' as <-. destruct D as [D|(x & Ex & Lx & Fx & Sx)].
    + exfalso. unfold all_nan in D. destruct a as [|x a]; [discriminate|]. apply Forall_cons_iff in D. destruct D. discriminate.
    + apply fins_inj in Ex. subst x. auto.
Qed.
Theorem C128_joint_weights_lognormal : forall AR u, accurate_to AR u -> forall ts sfrs lgmet scatter ssp_lgmet ages t_obs r a b,
  calc_ssp_weights_sfh_table_lognormal_mdf ts sfrs lgmet scatter ssp_lgmet ages t_obs = Ok r ->
  age_weights r = fins a -> lgmet_weights r = fins b ->
  Forall (fun x => 0 <= x <= 1) a -> Forall (fun x => 0 <= x <= 1) b -> (length b * length a <= 2 ^ 18)%nat ->
  / 2 <= Rsum a -> / 2 <= Rsum b ->
  let n := INR (length b * length a) in
  exists W, weights r = map fins W /\ is_matrix (length b) (length a) W /\ Rabs (Rsum2 W - 1) <= 2 * (n + 1) * u
    /\ forall i j, (i < length b)%nat -> (j < length a)%nat -> 0 <= ent2 W i j <= 1
       /\ let exact_value := ent b i / Rsum b * (ent a j / Rsum a) in
          Rabs (ent2 W i j - exact_value) <= 3 * (n + 2) * u * exact_value + 8 * (n + 1) * (u * / 2 ^ 102).
Proof. exact C128_joint_lemma. Qed.
Print Assumptions C128_joint_weights_lognormal.
Theorem C128_joint_weights_met_table : forall AR u, accurate_to AR u -> forall ts sfrs lgmet_table scatter ssp_lgmet ages t_obs r a B n_met,
  calc_ssp_weights_sfh_table_met_table ts sfrs lgmet_table scatter ssp_lgmet ages t_obs = Ok r ->
  age_weights r = fins a -> lgmet_weights r = map fins B -> is_matrix n_met (length a) B ->
  Forall (fun x => 0 <= x <= 1) a -> Forall (Forall (fun x => 0 <= x <= 1)) B -> (n_met * length a <= 2 ^ 18)%nat ->
  let P := map (fun row => map2 Rmult row a) B in
  let n := INR (n_met * length a) in
  / 4 <= Rsum2 P ->
  exists W, weights r = map fins W /\ is_matrix n_met (length a) W /\ Rabs (Rsum2 W - 1) <= 2 * (n + 1) * u
    /\ forall i j, (i < n_met)%nat -> (j < length a)%nat -> 0 <= ent2 W i j <= 1
       /\ let exact_value := ent2 B i j * ent a j / Rsum2 P in
          Rabs (ent2 W i j - exact_value) <= 3 * (n + 2) * u * exact_value + 8 * (n + 1) * (u * / 2 ^ 102).
Proof. exact C128_joint_met_lemma. Qed.
Print Assumptions C128_joint_weights_met_table.
Example C128_joint_nonvacuous :
  (exists r W, @calc_ssp_weights_sfh_table_lognormal_mdf binary64 (fins rd_t) (fins rd_sfr) (Fin (-3/2)) (Fin 1) (fins rd_lgmets) (fins rd_ages) (Fin 4) = Ok r
     /\ weights r = map fins W /\ Rabs (Rsum2 W - 1) <= 2 * (INR 12 + 1) * / 2 ^ 53)
  /\ (exists r W, @calc_ssp_weights_sfh_table_met_table binary64 (fins rd_t) (fins rd_sfr) (fins rd_flat) (Fin 1) (fins rd_lgmets) (fins rd_ages) (Fin 4) = Ok r
     /\ weights r = map fins W /\ Rabs (Rsum2 W - 1) <= 2 * (INR 12 + 1) * / 2 ^ 53).
Proof.
  assert (N : (4 * 3 <= 2 ^ 18)%nat) by (apply Nat.le_trans with (2 ^ 4)%nat; [simpl; lia|apply Nat.pow_le_mono_r; lia]). split.
  - destruct rd_joint as (r & a & b & E & Ea & Eb & La & Lb & Fa & Fb & Sa & Sb).
    destruct (C128_joint_weights_lognormal binary64 _ rd_unit _ _ _ _ _ _ _ r a b E Ea Eb Fa Fb) as (W & EW & MW & SW & PW); [rewrite La, Lb; exact N|exact Sa|exact Sb|]. rewrite La, Lb in SW. exists r, W. split; [exact E|]. split; [exact EW|exact SW].
  - destruct rd_joint_met as (r & a & B & E & Ea & EB & La & MB & Fa & FB & SB).
    destruct (C128_joint_weights_met_table binary64 _ rd_unit _ _ _ _ _ _ _ r a B 4 E Ea EB) as (W & EW & MW & SW & PW); [rewrite La; exact MB|exact Fa|exact FB|rewrite La; exact N|exact SB|]. rewrite La in SW. exists r, W. split; [exact E|]. split; [exact EW|exact SW].
Qed.

(** C129 *)
Theorem C129_sed_lognormal : forall AR u, accurate_to AR u -> forall ts sfrs lgmet scatter ssp_lgmet ages flux n_wave t_obs sfr_min r W M,
  let n := length ssp_lgmet in let m := length ages in
  calc_rest_sed_sfh_table_lognormal_mdf ts sfrs lgmet scatter ssp_lgmet ages (fins3 flux) t_obs sfr_min = Ok r ->
  mstar_at_t_obs ts sfrs t_obs sfr_min = Fin M -> M <= 10 ^ 36 ->
  rs_weights r = map fins W -> is_matrix n m W -> is_cube n m n_wave flux -> (0 < n * m <= 2 ^ 18)%nat ->
  (forall i j, (i < n)%nat -> (j < m)%nat -> 0 <= ent2 W i j) ->
  (forall i j k, (i < n)%nat -> (j < m)%nat -> (k < n_wave)%nat -> 0 <= ent3 flux i j k) ->
  (forall k, (k < n_wave)%nat -> template_mix n m W flux k * (1 + M) <= 10 ^ 36) ->
  exists sed, rest_sed r = fins sed /\ length sed = n_wave /\ 0 <= M
    /\ forall k, (k < n_wave)%nat -> 0 <= ent sed k
       /\ let exact_value := M * template_mix n m W flux k in
          Rabs (ent sed k - exact_value) <= 2 * (INR (n * m) + 2) * u * exact_value + (2 * INR (n * m) * M + 1) * (u * / 2 ^ 102).
Proof. exact C129_sed_lemma. Qed.
Print Assumptions C129_sed_lognormal.
Theorem C129_sed_met_table : forall AR u, accurate_to AR u -> forall ts sfrs lgmet_table scatter ssp_lgmet ages flux n_wave t_obs sfr_min r W M,
  let n := length ssp_lgmet in let m := length ages in
  calc_rest_sed_sfh_table_met_table ts sfrs lgmet_table scatter ssp_lgmet ages (fins3 flux) t_obs sfr_min = Ok r ->
  mstar_at_t_obs ts sfrs t_obs sfr_min = Fin M -> M <= 10 ^ 36 ->
  rs_weights r = map fins W -> is_matrix n m W -> is_cube n m n_wave flux -> (0 < n * m <= 2 ^ 18)%nat ->
  (forall i j, (i < n)%nat -> (j < m)%nat -> 0 <= ent2 W i j) ->
  (forall i j k, (i < n)%nat -> (j < m)%nat -> (k < n_wave)%nat -> 0 <= ent3 flux i j k) ->
  (forall k, (k < n_wave)%nat -> template_mix n m W flux k * (1 + M) <= 10 ^ 36) ->
  exists sed, rest_sed r = fins sed /\ length sed = n_wave /\ 0 <= M
    /\ forall k, (k < n_wave)%nat -> 0 <= ent sed k
       /\ let exact_value := M * template_mix n m W flux k in
          Rabs (ent sed k - exact_value) <= 2 * (INR (n * m) + 2) * u * exact_value + (2 * INR (n * m) * M + 1) * (u * / 2 ^ 102).
Proof. exact C129_sed_met_lemma. Qed.
Print Assumptions C129_sed_met_table.
Example C129_nonvacuous :
  (exists r sed, @calc_rest_sed_sfh_table_lognormal_mdf binary64 (fins rd_t) (fins rd_sfr) (Fin (-3/2)) (Fin 1) (fins rd_lgmets) (fins rd_ages) (fins3 rd_flux) (Fin 4) (@lit binary64 (1 / 10 ^ 14)) = Ok r
     /\ rest_sed r = fins sed /\ forall k, (k < 2)%nat -> 0 <= ent sed k)
  /\ (exists r sed, @calc_rest_sed_sfh_table_met_table binary64 (fins rd_t) (fins rd_sfr) (fins rd_flat) (Fin 1) (fins rd_lgmets) (fins rd_ages) (fins3 rd_flux) (Fin 4) (@lit binary64 (1 / 10 ^ 14)) = Ok r
     /\ rest_sed r = fins sed /\ forall k, (k < 2)%nat -> 0 <= ent sed k).
Proof.
  assert (N : (4 * 3 <= 2 ^ 18)%nat) by (apply Nat.le_trans with (2 ^ 4)%nat; [simpl; lia|apply Nat.pow_le_mono_r; lia]).
  assert (FP : forall i j k, (i < 4)%nat -> (j < 3)%nat -> (k < 2)%nat -> 0 <= ent3 rd_flux i j k).
  { intros i j k Hi Hj Hk. destruct i as [|[|[|[|i]]]]; try lia; destruct j as [|[|[|j]]]; try lia; destruct k as [|[|k]]; try lia; unfold ent3, ent2, ent, rd_flux; simpl; lra. }
  assert (Q : forall q M, q <= 2 -> 0 <= M <= 10 ^ 11 -> q * (1 + M) <= 10 ^ 36).
  { intros q M Hq [HM0 HM]. apply Rle_trans with (10 ^ 12); [apply Rle_trans with (2 * (1 + M)); [apply Rmult_le_compat_r; lra|clear N; simpl in HM |- *; lra]|apply Rle_pow; [lra|lia]]. }
  assert (P : forall M, M <= 10 ^ 11 -> M <= 10 ^ 36) by (intros M HM; eapply Rle_trans; [exact HM|apply Rle_pow; [lra|lia]]).
  split.
  - destruct rd_sed as (r & W & M & E & EM & BM & EW & MW & PW & TW).
    destruct (C129_sed_lognormal binary64 _ rd_unit _ _ _ _ _ _ rd_flux 2 _ _ r W M E EM) as (sed & Es & _ & _ & V).
    + apply P, BM. + exact EW. + rewrite !fins_length. exact MW. + rewrite !fins_length. apply rd_cube. + rewrite !fins_length. split; [unfold rd_lgmets, rd_ages; cbn [length Nat.mul Nat.add]; lia|exact N]. + rewrite !fins_length. exact PW. + rewrite !fins_length. exact FP. + rewrite !fins_length. intros k Hk. apply Q; [apply (TW k Hk)|exact BM].
    + exists r, sed. split; auto. split; auto. intros k Hk. apply (V k Hk).
  - destruct rd_sed_met as (r & W & M & E & EM & BM & EW & MW & PW & TW).
    destruct (C129_sed_met_table binary64 _ rd_unit _ _ _ _ _ _ rd_flux 2 _ _ r W M E EM) as (sed & Es & _ & _ & V).
    + apply P, BM. + exact EW. + rewrite !fins_length. exact MW. + rewrite !fins_length. apply rd_cube. + rewrite !fins_length. split; [unfold rd_lgmets, rd_ages; cbn [length Nat.mul Nat.add]; lia|exact N]. + rewrite !fins_length. exact PW. + rewrite !fins_length. exact FP. + rewrite !fins_length. intros k Hk. apply Q; [apply (TW k Hk)|exact BM].
    + exists r, sed. split; auto. split; auto. intros k Hk. apply (V k Hk).
Qed.

(** C130 *)
Theorem C130_cumulative_mass : forall AR u, accurate_to AR u -> forall ts sfrs,
  length ts = length sfrs -> (1 <= length ts <= 2 ^ 17)%nat -> increasing ts -> 0.003 <= ent ts 0 ->
  Forall (fun t => machine_number t /\ t <= 1000) ts -> Forall (fun s => machine_number s /\ 0 <= s <= 10 ^ 20) sfrs ->
  exists m m0, cumulative_mstar_formed (AR := AR) (fins ts) (fins sfrs) = Ok (fins m)
    /\ cumulative_mstar_formed (AR := exact) (fins ts) (fins sfrs) = Ok (fins m0)
    /\ length m = length ts /\ length m0 = length ts
    /\ forall i, (i < length ts)%nat -> 0 < ent m0 i /\ Rabs (ent m i - ent m0 i) <= 2 * (INR i + 10) * u * ent m0 i.
Proof. exact C130_lemma. Qed.
Print Assumptions C130_cumulative_mass.
Example C130_nonvacuous : exists m m0, @cumulative_mstar_formed binary64 (fins rd_t) (fins rd_sfr) = Ok (fins m)
  /\ cumulative_mstar_formed (fins rd_t) (fins rd_sfr) = Ok (fins m0)
  /\ forall i, (i < 2)%nat -> 0 < ent m0 i /\ Rabs (ent m i - ent m0 i) <= 2 * (INR i + 10) * / 2 ^ 53 * ent m0 i.
Proof.
  destruct (C130_cumulative_mass binary64 _ rd_unit rd_t rd_sfr) as (m & m0 & E & E0 & L & L0 & V).
  - reflexivity. - split; [simpl; lia|]. apply (rd_history 1). pose proof e14_ok. simpl. lra.
  - apply RList.increasing_tl with 0.001. apply (times_increasing (AR := binary64)), rd_times. - unfold ent, rd_t; simpl; lra. - apply Forall_forall. exact rd_range.
  - assert (P : @rnd binary64 1 = Fin 1 /\ 0 <= 1 <= 10 ^ 20) by (split; [apply (LFloat9.demo_int 1); auto; lia|split; [lra|apply pow_R1_Rle; lra]]). unfold rd_sfr. constructor; [exact P|constructor; [exact P|constructor]].
  - exists m, m0. auto.
Qed.

(** C131 *)
Theorem C131_age_weights : forall AR u, accurate_to AR u -> forall K ts sfrs ages t_obs sfr_min,
  rounding_history K ts sfrs sfr_min -> rounding_ages ages -> machine_number t_obs -> ent ts 0 <= t_obs <= 1000 ->
  half_in_bins ts sfrs sfr_min t_obs ages -> INR (length ages) * (mass_amp K ts t_obs (length ages) * u) <= 1/100 ->
  exists w w0, calc_age_weights_from_sfh_table (AR := AR) (fins ts) (fins sfrs) (fins ages) (Fin t_obs) (lit sfr_min) = Ok (fins w)
    /\ calc_age_weights_from_sfh_table (AR := exact) (fins ts) (fins sfrs) (fins ages) (Fin t_obs) (Fin sfr_min) = Ok (fins w0)
    /\ length w = length ages /\ length w0 = length ages
    /\ forall i, (i < length ages)%nat -> Rabs (ent w i - ent w0 i) <= 40 * mass_amp K ts t_obs (length ages) * u.
Proof. exact C131_age_lemma. Qed.
Print Assumptions C131_age_weights.
Theorem C131_stellar_mass : forall AR u, accurate_to AR u -> forall K ts sfrs t_obs sfr_min,
  rounding_history K ts sfrs sfr_min -> machine_number t_obs -> ent ts 0 <= t_obs <= 1000 -> mass_amp K ts t_obs 0 * u <= 1/100 ->
  exists M M0, mstar_at_t_obs (AR := AR) (fins ts) (fins sfrs) (Fin t_obs) (lit sfr_min) = Fin M
    /\ mstar_at_t_obs (AR := exact) (fins ts) (fins sfrs) (Fin t_obs) (Fin sfr_min) = Fin M0
    /\ 0 < M0 /\ Rabs (M - M0) <= 4 * mass_amp K ts t_obs 0 * u * M0.
Proof. exact C131_mass_lemma. Qed.
Print Assumptions C131_stellar_mass.
Example C131_nonvacuous : exists K, rounding_history (AR := binary64) K rd_t rd_sfr (1 / 10 ^ 14) /\ rounding_ages rd_ages /\ @machine_number binary64 4
  /\ ent rd_t 0 <= 4 <= 1000 /\ half_in_bins rd_t rd_sfr (1 / 10 ^ 14) 4 rd_ages
  /\ INR (length rd_ages) * (mass_amp K rd_t 4 (length rd_ages) * / 2 ^ 53) <= 1/100 /\ mass_amp K rd_t 4 0 * / 2 ^ 53 <= 1/100.
Proof.
  pose proof e14_ok as E14. pose proof e14_range as E14'. exists 2. split; [apply rd_history; lra|]. split; [apply rd_rages|]. split; [apply (LFloat9.demo_int 4); auto; lia|].
  split; [unfold rd_t, ent; simpl; lra|]. split; [apply rd_half; lra|]. split.
  - pose proof (rd_mamp 3 ltac:(lia)) as A. pose proof (rd_small (INR 3 * mass_amp 2 rd_t 4 3)) as S. change (length rd_ages) with 3%nat. rewrite Rmult_assoc in S. simpl (INR 3) in *. simpl in S. lra.
  - pose proof (rd_mamp 0 ltac:(lia)) as A. pose proof (rd_small (mass_amp 2 rd_t 4 0)) as S. simpl in S. lra.
Qed.

(** C132 *)
Theorem C132_metallicity_weights : forall AR u, accurate_to AR u -> forall lgmet scatter lgmets,
  Rabs lgmet <= 5 -> machine_number scatter -> 1/1000 <= scatter <= 1 -> rounding_lgmets lgmets ->
  let eta := (130 + 8 * INR (length lgmets)) * u / scatter in INR (length lgmets) * eta <= 1/25 ->
  exists w w0, calc_lgmet_weights_from_lognormal_mdf (AR := AR) (Fin lgmet) (Fin scatter) (fins lgmets) = Ok (fins w)
    /\ calc_lgmet_weights_from_lognormal_mdf (AR := exact) (Fin lgmet) (Fin scatter) (fins lgmets) = Ok (fins w0)
    /\ length w = length lgmets /\ length w0 = length lgmets
    /\ forall i, (i < length lgmets)%nat -> Rabs (ent w i - ent w0 i) <= 10 * eta.
Proof. exact C132_met_lemma. Qed.
Print Assumptions C132_metallicity_weights.
Theorem C132_metallicity_table_weights : forall AR u, accurate_to AR u -> forall K ts lgmet_table scatter lgmets ages t_obs,
  times_ok ts -> rounding_lgmet_table K ts lgmet_table -> rounding_lgmets lgmets -> (1 <= length ages <= 2 ^ 18)%nat ->
  (forall i, (i < length ages)%nat -> -4 <= ent ages i <= 4) -> machine_number t_obs -> ent ts 0 <= t_obs <= 1000 ->
  machine_number scatter -> 1/1000 <= scatter <= 1 ->
  let eta := (130 + 8 * INR (length lgmets) + lgmet_amp K ts t_obs) * u / scatter in INR (length lgmets) * eta <= 1/25 ->
  exists B B0, calc_lgmet_weights_from_lgmet_table (AR := AR) (fins ts) (fins lgmet_table) (Fin scatter) (fins lgmets) (fins ages) (Fin t_obs) = Ok (map fins B)
    /\ calc_lgmet_weights_from_lgmet_table (AR := exact) (fins ts) (fins lgmet_table) (Fin scatter) (fins lgmets) (fins ages) (Fin t_obs) = Ok (map fins B0)
    /\ is_matrix (length lgmets) (length ages) B /\ is_matrix (length lgmets) (length ages) B0
    /\ forall i j, (i < length lgmets)%nat -> (j < length ages)%nat -> Rabs (ent2 B i j - ent2 B0 i j) <= (10 * eta + 1.2 * u) / INR (length ages).
Proof. exact C132_table_lemma. Qed.
Print Assumptions C132_metallicity_table_weights.
Example C132_nonvacuous : rounding_lgmets rd_lgmets /\ times_ok (AR := binary64) rd_t /\ rounding_lgmet_table (AR := binary64) 4 rd_t rd_table
  /\ INR (length rd_lgmets) * ((130 + 8 * INR (length rd_lgmets)) * / 2 ^ 53 / (1/4)) <= 1/25
  /\ INR (length rd_lgmets) * ((130 + 8 * INR (length rd_lgmets) + lgmet_amp 4 rd_t 4) * / 2 ^ 53 / (1/4)) <= 1/25.
Proof.
  split; [apply rd_rlgmets|]. split; [apply rd_times|]. split; [apply rd_rtable|]. change (length rd_lgmets) with 4%nat. simpl (INR 4). pose proof rd_zamp as Z. set (c := lgmet_amp 4 rd_t 4) in *. pose proof rd_u as U. simpl in U. split; [lra|].
  pose proof (rd_small (16 * (162 + c)) ltac:(simpl; lra)) as S. simpl (10 ^ 6) in S. lra.
Qed.

(** C133 *)
Theorem C133_joint_weights_lognormal : forall AR u, accurate_to AR u -> forall K ts sfrs lgmet scatter lgmets ages t_obs,
  rounding_history K ts sfrs (1 / 10 ^ 14) -> rounding_ages ages -> rounding_lgmets lgmets ->
  machine_number t_obs -> ent ts 0 <= t_obs <= 1000 -> Rabs lgmet <= 5 -> machine_number scatter -> 1/1000 <= scatter <= 1 ->
  half_in_bins ts sfrs (1 / 10 ^ 14) t_obs ages ->
  let bound := joint_amp K ts t_obs (length ages) (length lgmets) scatter 0 * u in bound <= 1/20 ->
  exists r r0 W W0,
    calc_ssp_weights_sfh_table_lognormal_mdf (AR := AR) (fins ts) (fins sfrs) (Fin lgmet) (Fin scatter) (fins lgmets) (fins ages) (Fin t_obs) = Ok r
    /\ calc_ssp_weights_sfh_table_lognormal_mdf (AR := exact) (fins ts) (fins sfrs) (Fin lgmet) (Fin scatter) (fins lgmets) (fins ages) (Fin t_obs) = Ok r0
    /\ weights r = map fins W /\ weights r0 = map fins W0 /\ is_matrix (length lgmets) (length ages) W /\ is_matrix (length lgmets) (length ages) W0
    /\ total_difference W W0 <= bound.
Proof. exact C133_joint_lemma. Qed.
Print Assumptions C133_joint_weights_lognormal.
Theorem C133_joint_weights_met_table : forall AR u, accurate_to AR u -> forall K Kz ts sfrs lgmet_table scatter lgmets ages t_obs,
  rounding_history K ts sfrs (1 / 10 ^ 14) -> rounding_ages ages -> rounding_lgmets lgmets -> rounding_lgmet_table Kz ts lgmet_table ->
  machine_number t_obs -> ent ts 0 <= t_obs <= 1000 -> machine_number scatter -> 1/1000 <= scatter <= 1 ->
  half_in_bins ts sfrs (1 / 10 ^ 14) t_obs ages ->
  let bound := joint_amp K ts t_obs (length ages) (length lgmets) scatter (lgmet_amp Kz ts t_obs) * u in bound <= 1/20 ->
  exists r r0 W W0,
    calc_ssp_weights_sfh_table_met_table (AR := AR) (fins ts) (fins sfrs) (fins lgmet_table) (Fin scatter) (fins lgmets) (fins ages) (Fin t_obs) = Ok r
    /\ calc_ssp_weights_sfh_table_met_table (AR := exact) (fins ts) (fins sfrs) (fins lgmet_table) (Fin scatter) (fins lgmets) (fins ages) (Fin t_obs) = Ok r0
    /\ weights r = map fins W /\ weights r0 = map fins W0 /\ is_matrix (length lgmets) (length ages) W /\ is_matrix (length lgmets) (length ages) W0
    /\ total_difference W W0 <= bound.
Proof. exact C133_joint_met_lemma. Qed.
Print Assumptions C133_joint_weights_met_table.
Example C133_nonvacuous :
  (exists r r0 W W0, @calc_ssp_weights_sfh_table_lognormal_mdf binary64 (fins rd_t) (fins rd_sfr) (Fin (-3/2)) (Fin (1/4)) (fins rd_lgmets) (fins rd_ages) (Fin 4) = Ok r
     /\ calc_ssp_weights_sfh_table_lognormal_mdf (fins rd_t) (fins rd_sfr) (Fin (-3/2)) (Fin (1/4)) (fins rd_lgmets) (fins rd_ages) (Fin 4) = Ok r0
     /\ weights r = map fins W /\ weights r0 = map fins W0 /\ total_difference W W0 <= 1 / 10 ^ 6)
  /\ (exists r r0 W W0, @calc_ssp_weights_sfh_table_met_table binary64 (fins rd_t) (fins rd_sfr) (fins rd_table) (Fin (1/4)) (fins rd_lgmets) (fins rd_ages) (Fin 4) = Ok r
     /\ calc_ssp_weights_sfh_table_met_table (fins rd_t) (fins rd_sfr) (fins rd_table) (Fin (1/4)) (fins rd_lgmets) (fins rd_ages) (Fin 4) = Ok r0
     /\ weights r = map fins W /\ weights r0 = map fins W0 /\ total_difference W W0 <= 1 / 10 ^ 6).
Proof.
  pose proof e14_ok as E14. pose proof e14_range as E14'. assert (Q : @machine_number binary64 (1/4)) by (apply (LFloat2.rnd_dy good_binary64 1 2); [lia|lia|simpl; lra]).
  pose proof rd_zamp as Z. pose proof (rd_small _ (rd_jamp 0 ltac:(lra))) as S0. pose proof (rd_small _ (rd_jamp _ Z)) as S1. assert (T6 : 1 / 10 ^ 6 <= 1/20) by (simpl; lra). split.
  - destruct (C133_joint_weights_lognormal binary64 _ rd_unit 2 rd_t rd_sfr (-3/2) (1/4) rd_lgmets rd_ages 4) as (r & r0 & W & W0 & E & E0 & EW & EW0 & _ & _ & D); try lra.
    + apply rd_history; lra. + apply rd_rages. + apply rd_rlgmets. + apply (LFloat9.demo_int 4); auto; lia. + unfold rd_t, ent; simpl; lra. + rewrite Rabs_left; lra. + exact Q. + apply rd_half; lra.
    + exists r, r0, W, W0. split; auto. split; auto. split; auto. split; auto. eapply Rle_trans; [exact D|exact S0].
  - destruct (C133_joint_weights_met_table binary64 _ rd_unit 2 4 rd_t rd_sfr rd_table (1/4) rd_lgmets rd_ages 4) as (r & r0 & W & W0 & E & E0 & EW & EW0 & _ & _ & D); try lra.
    + apply rd_history; lra. + apply rd_rages. + apply rd_rlgmets. + apply rd_rtable. + apply (LFloat9.demo_int 4); auto; lia. + unfold rd_t, ent; simpl; lra. + exact Q. + apply rd_half; lra.
    + exists r, r0, W, W0. split; auto. split; auto. split; auto. split; auto. eapply Rle_trans; [exact D|exact S1].
Qed.

(** C134 *)
Theorem C134_sed_lognormal : forall AR u, accurate_to AR u -> forall K ts sfrs lgmet scatter lgmets ages flux n_wave t_obs sfr_min F,
  rounding_history K ts sfrs (1 / 10 ^ 14) -> rounding_history K ts sfrs sfr_min -> rounding_ages ages -> rounding_lgmets lgmets ->
  machine_number t_obs -> ent ts 0 <= t_obs <= 1000 -> Rabs lgmet <= 5 -> machine_number scatter -> 1/1000 <= scatter <= 1 ->
  half_in_bins ts sfrs (1 / 10 ^ 14) t_obs ages ->
  let n_met := length lgmets in let n_age := length ages in
  let bound := joint_amp K ts t_obs n_age n_met scatter 0 * u in bound <= 1/20 ->
  is_cube n_met n_age n_wave flux ->
  let M := mass_formed_by ts (floored sfr_min sfrs) t_obs in
  (forall k, (k < n_wave)%nat -> 0 <= F k <= 10 ^ 30 /\ F k * M <= 10 ^ 36) ->
  (forall i j k, (i < n_met)%nat -> (j < n_age)%nat -> (k < n_wave)%nat -> Rabs (ent3 flux i j k) <= F k) ->
  exists r r0 sed sed0,
    calc_rest_sed_sfh_table_lognormal_mdf (AR := AR) (fins ts) (fins sfrs) (Fin lgmet) (Fin scatter) (fins lgmets) (fins ages) (fins3 flux) (Fin t_obs) (lit sfr_min) = Ok r
    /\ calc_rest_sed_sfh_table_lognormal_mdf (AR := exact) (fins ts) (fins sfrs) (Fin lgmet) (Fin scatter) (fins lgmets) (fins ages) (fins3 flux) (Fin t_obs) (Fin sfr_min) = Ok r0
    /\ rest_sed r = fins sed /\ rest_sed r0 = fins sed0 /\ length sed = n_wave /\ length sed0 = n_wave
    /\ forall k, (k < n_wave)%nat -> Rabs (ent sed k - ent sed0 k) <= F k * M * (2 * bound) + (3 * INR (n_met * n_age) * M + 1) * (u * / 2 ^ 102).
Proof. exact C134_sed_lemma. Qed.
Print Assumptions C134_sed_lognormal.
Theorem C134_sed_met_table : forall AR u, accurate_to AR u -> forall K Kz ts sfrs lgmet_table scatter lgmets ages flux n_wave t_obs sfr_min F,
  rounding_history K ts sfrs (1 / 10 ^ 14) -> rounding_history K ts sfrs sfr_min -> rounding_ages ages -> rounding_lgmets lgmets -> rounding_lgmet_table Kz ts lgmet_table ->
  machine_number t_obs -> ent ts 0 <= t_obs <= 1000 -> machine_number scatter -> 1/1000 <= scatter <= 1 ->
  half_in_bins ts sfrs (1 / 10 ^ 14) t_obs ages ->
  let n_met := length lgmets in let n_age := length ages in
  let bound := joint_amp K ts t_obs n_age n_met scatter (lgmet_amp Kz ts t_obs) * u in bound <= 1/20 ->
  is_cube n_met n_age n_wave flux ->
  let M := mass_formed_by ts (floored sfr_min sfrs) t_obs in
  (forall k, (k < n_wave)%nat -> 0 <= F k <= 10 ^ 30 /\ F k * M <= 10 ^ 36) ->
  (forall i j k, (i < n_met)%nat -> (j < n_age)%nat -> (k < n_wave)%nat -> Rabs (ent3 flux i j k) <= F k) ->
  exists r r0 sed sed0,
    calc_rest_sed_sfh_table_met_table (AR := AR) (fins ts) (fins sfrs) (fins lgmet_table) (Fin scatter) (fins lgmets) (fins ages) (fins3 flux) (Fin t_obs) (lit sfr_min) = Ok r
    /\ calc_rest_sed_sfh_table_met_table (AR := exact) (fins ts) (fins sfrs) (fins lgmet_table) (Fin scatter) (fins lgmets) (fins ages) (fins3 flux) (Fin t_obs) (Fin sfr_min) = Ok r0
    /\ rest_sed r = fins sed /\ rest_sed r0 = fins sed0 /\ length sed = n_wave /\ length sed0 = n_wave
    /\ forall k, (k < n_wave)%nat -> Rabs (ent sed k - ent sed0 k) <= F k * M * (2 * bound) + (3 * INR (n_met * n_age) * M + 1) * (u * / 2 ^ 102).
Proof. exact C134_sed_met_lemma. Qed.
Print Assumptions C134_sed_met_table.
Example C134_nonvacuous :
  (exists r r0 sed sed0, @calc_rest_sed_sfh_table_lognormal_mdf binary64 (fins rd_t) (fins rd_sfr) (Fin (-3/2)) (Fin (1/4)) (fins rd_lgmets) (fins rd_ages) (fins3 rd_flux) (Fin 4) (@lit binary64 (1 / 10 ^ 14)) = Ok r
     /\ calc_rest_sed_sfh_table_lognormal_mdf (fins rd_t) (fins rd_sfr) (Fin (-3/2)) (Fin (1/4)) (fins rd_lgmets) (fins rd_ages) (fins3 rd_flux) (Fin 4) (Fin (1 / 10 ^ 14)) = Ok r0
     /\ rest_sed r = fins sed /\ rest_sed r0 = fins sed0 /\ length sed = 2%nat /\ length sed0 = 2%nat)
  /\ (exists r r0 sed sed0, @calc_rest_sed_sfh_table_met_table binary64 (fins rd_t) (fins rd_sfr) (fins rd_table) (Fin (1/4)) (fins rd_lgmets) (fins rd_ages) (fins3 rd_flux) (Fin 4) (@lit binary64 (1 / 10 ^ 14)) = Ok r
     /\ calc_rest_sed_sfh_table_met_table (fins rd_t) (fins rd_sfr) (fins rd_table) (Fin (1/4)) (fins rd_lgmets) (fins rd_ages) (fins3 rd_flux) (Fin 4) (Fin (1 / 10 ^ 14)) = Ok r0
     /\ rest_sed r = fins sed /\ rest_sed r0 = fins sed0 /\ length sed = 2%nat /\ length sed0 = 2%nat).
Proof.
  pose proof e14_ok as E14. pose proof e14_range as E14'. assert (Q : @machine_number binary64 (1/4)) by (apply (LFloat2.rnd_dy good_binary64 1 2); [lia|lia|simpl; lra]).
  pose proof rd_zamp as Z. pose proof (rd_small _ (rd_jamp 0 ltac:(lra))) as S0. pose proof (rd_small _ (rd_jamp _ Z)) as S1. assert (T6 : 1 / 10 ^ 6 <= 1/20) by (simpl; lra).
  assert (BF : 0 <= 1 <= 10 ^ 30 /\ 1 * mass_formed_by rd_t (floored (1 / 10 ^ 14) rd_sfr) 4 <= 10 ^ 36).
  { split; [split; [lra|apply pow_R1_Rle; lra]|]. rewrite Rmult_1_l. eapply Rle_trans; [apply rd_M; lra|apply Rle_pow; [lra|lia]]. }
  split.
  - destruct (C134_sed_lognormal binary64 _ rd_unit 2 rd_t rd_sfr (-3/2) (1/4) rd_lgmets rd_ages rd_flux 2 4 (1 / 10 ^ 14) (fun _ => 1)) as (r & r0 & sed & sed0 & E & E0 & Es & Es0 & L & L0 & D); try lra.
    + apply rd_history; lra. + apply rd_history; lra. + apply rd_rages. + apply rd_rlgmets. + apply (LFloat9.demo_int 4); auto; lia. + unfold rd_t, ent; simpl; lra. + rewrite Rabs_left; lra. + exact Q. + apply rd_half; lra.
    + apply rd_cube. + intros k _. exact BF. + intros i j k Hi Hj Hk. now apply rd_flux_le.
    + exists r, r0, sed, sed0. auto 10.
  - destruct (C134_sed_met_table binary64 _ rd_unit 2 4 rd_t rd_sfr rd_table (1/4) rd_lgmets rd_ages rd_flux 2 4 (1 / 10 ^ 14) (fun _ => 1)) as (r & r0 & sed & sed0 & E & E0 & Es & Es0 & L & L0 & D); try lra.
    + apply rd_history; lra. + apply rd_history; lra. + apply rd_rages. + apply rd_rlgmets. + apply rd_rtable. + apply (LFloat9.demo_int 4); auto; lia. + unfold rd_t, ent; simpl; lra. + exact Q. + apply rd_half; lra.
    + apply rd_cube. + intros k _. exact BF. + intros i j k Hi Hj Hk. now apply rd_flux_le.
    + exists r, r0, sed, sed0. auto 10.
Qed.

(** C135 *)
Theorem C135_rest_flux : forall AR u, accurate_to AR u -> forall B ws ls wf tf, rounding_spectrum (AR := AR) B ws ls -> rounding_filter (AR := AR) wf tf ->
  1 / 10 ^ 18 <= B * band_integral (fun _ => 1) wf tf ->
  exists f f0, calc_rest_flux (AR := AR) (fins ws) (fins ls) (fins wf) (fins tf) = Ok (Fin f)
    /\ calc_rest_flux (AR := exact) (fins ws) (fins ls) (fins wf) (fins tf) = Ok (Fin f0)
    /\ Rabs (f - f0) <= 3 * (INR (length wf) + 25) * u * (B / ab0).
Proof. exact C135_flux_lemma. Qed.
Print Assumptions C135_rest_flux.
Theorem C135_rest_magnitude : forall AR u, accurate_to AR u -> forall B ws ls wf tf kappa, rounding_spectrum (AR := AR) B ws ls -> rounding_filter (AR := AR) wf tf ->
  1 / 10 ^ 18 <= B * band_integral (fun _ => 1) wf tf ->
  0 < kappa -> B <= kappa * (ab0 * band_flux (spectrum_at ws ls) wf tf) -> 3 * (INR (length wf) + 25) * u * kappa <= 1 / 100 ->
  exists m m0, calc_rest_mag (AR := AR) (fins ws) (fins ls) (fins wf) (fins tf) = Ok (Fin m)
    /\ calc_rest_mag (AR := exact) (fins ws) (fins ls) (fins wf) (fins tf) = Ok (Fin m0)
    /\ Rabs (m - m0) <= 4 * (INR (length wf) + 70) * u * kappa.
Proof. exact C135_mag_lemma. Qed.
Print Assumptions C135_rest_magnitude.
Example C135_nonvacuous : (exists f f0, @calc_rest_flux binary64 (fins ph_ws) (fins ph_ls) (fins ph_wf) (fins ph_tf) = Ok (Fin f)
    /\ calc_rest_flux (fins ph_ws) (fins ph_ls) (fins ph_wf) (fins ph_tf) = Ok (Fin f0)
    /\ Rabs (f - f0) <= 3 * (INR 3 + 25) * / 2 ^ 53 * (4 / ab0))
  /\ (exists m m0, @calc_rest_mag binary64 (fins ph_ws) (fins ph_ls) (fins ph_wf) (fins ph_tf) = Ok (Fin m)
    /\ calc_rest_mag (fins ph_ws) (fins ph_ls) (fins ph_wf) (fins ph_tf) = Ok (Fin m0) /\ Rabs (m - m0) <= 1 / 10 ^ 5).
Proof.
  split.
  - exact (C135_rest_flux binary64 _ rd_unit 4 ph_ws ph_ls ph_wf ph_tf ph_spectrum ph_filter ph_BI).
  - pose proof ph_u as U. set (u := / 2 ^ 53) in *. destruct (C135_rest_magnitude binary64 u rd_unit 4 ph_ws ph_ls ph_wf ph_tf 4 ph_spectrum ph_filter ph_BI) as (m & m0 & E & E0 & D); [lra|exact ph_rest|unfold ph_wf; simpl in U |- *; lra|].
    exists m, m0. split; auto. split; auto. eapply Rle_trans; [exact D|]. unfold ph_wf. simpl in U |- *. lra.
Qed.

(** C136 *)
Theorem C136_observed_magnitude : forall AR u, accurate_to AR u -> forall B Res ws ls wf tf z kappa, rounding_spectrum (AR := AR) B ws ls -> rounding_filter (AR := AR) wf tf ->
  rounding_resolution Res ws -> machine_number (AR := AR) z -> 0 <= z <= 20 -> inside_spectrum ws wf z -> 1 / 10 ^ 18 <= B * band_integral (fun _ => 1) wf tf ->
  0 < kappa -> B <= kappa * (ab0 * band_flux (fun x => spectrum_at ws ls (x / (1 + z))) wf tf) -> 3 * (INR (length wf) + 5 * Res + 25) * u * kappa <= 1 / 1000 ->
  exists m m0, calc_obs_mag_no_dimming (AR := AR) (fins ws) (fins ls) (fins wf) (fins tf) (Fin z) = Ok (Fin m)
    /\ calc_obs_mag_no_dimming (AR := exact) (fins ws) (fins ls) (fins wf) (fins tf) (Fin z) = Ok (Fin m0)
    /\ Rabs (m - m0) <= 4 * (INR (length wf) + 5 * Res + 70) * u * kappa.
Proof. exact C136_lemma. Qed.
Print Assumptions C136_observed_magnitude.
Example C136_nonvacuous : exists m m0, @calc_obs_mag_no_dimming binary64 (fins ph_ws) (fins ph_ls) (fins ph_wf) (fins ph_tf) (Fin (1/2)) = Ok (Fin m)
    /\ calc_obs_mag_no_dimming (fins ph_ws) (fins ph_ls) (fins ph_wf) (fins ph_tf) (Fin (1/2)) = Ok (Fin m0) /\ Rabs (m - m0) <= 1 / 10 ^ 5.
Proof.
  pose proof ph_u as U. set (u := / 2 ^ 53) in *. destruct (C136_observed_magnitude binary64 u rd_unit 4 3 ph_ws ph_ls ph_wf ph_tf (1/2) 4 ph_spectrum ph_filter ph_resolution) as (m & m0 & E & E0 & D);
    [exact ph_half|lra|exact ph_inside|exact ph_BI|lra|exact ph_obs|unfold ph_wf; simpl in U |- *; lra|].
  exists m, m0. split; auto. split; auto. eapply Rle_trans; [exact D|]. unfold ph_wf. simpl in U |- *. lra.
Qed.

(** C139 *)
Theorem C139_distances : forall AR u, accurate_to AR u -> forall z Om0 w0 wa h, rounding_cosmology (AR := AR) z Om0 w0 wa h ->
  exists d d0 l l0 a a0,
    comoving_distance_to_z (AR := AR) (Fin z) (Fin Om0) (Fin w0) (Fin wa) (Fin h) = Fin d
    /\ comoving_distance_to_z (AR := exact) (Fin z) (Fin Om0) (Fin w0) (Fin wa) (Fin h) = Fin d0
    /\ 0 < d0 /\ Rabs (d - d0) <= 1440 * u * d0
    /\ luminosity_distance_to_z (AR := AR) (Fin z) (Fin Om0) (Fin w0) (Fin wa) (Fin h) = Fin l
    /\ luminosity_distance_to_z (AR := exact) (Fin z) (Fin Om0) (Fin w0) (Fin wa) (Fin h) = Fin l0
    /\ 0 < l0 /\ Rabs (l - l0) <= 1440 * u * l0
    /\ angular_diameter_distance_to_z (AR := AR) (Fin z) (Fin Om0) (Fin w0) (Fin wa) (Fin h) = Fin a
    /\ angular_diameter_distance_to_z (AR := exact) (Fin z) (Fin Om0) (Fin w0) (Fin wa) (Fin h) = Fin a0
    /\ 0 < a0 /\ Rabs (a - a0) <= 1440 * u * a0.
Proof. exact C139_distance_lemma. Qed.
Print Assumptions C139_distances.
Theorem C139_distance_modulus : forall AR u, accurate_to AR u -> forall z Om0 w0 wa h, rounding_cosmology (AR := AR) z Om0 w0 wa h ->
  exists m m0, distance_modulus_to_z (AR := AR) (Fin z) (Fin Om0) (Fin w0) (Fin wa) (Fin h) = Fin m
    /\ distance_modulus_to_z (AR := exact) (Fin z) (Fin Om0) (Fin w0) (Fin wa) (Fin h) = Fin m0
    /\ Rabs (m - m0) <= 3800 * u.
Proof. exact C139_modulus_lemma. Qed.
Print Assumptions C139_distance_modulus.
Theorem C139_lookback_time : forall AR u, accurate_to AR u -> forall z Om0 w0 wa h, rounding_cosmology (AR := AR) z Om0 w0 wa h ->
  exists t t0, lookback_to_z (AR := AR) (Fin z) (Fin Om0) (Fin w0) (Fin wa) (Fin h) = Fin t
    /\ lookback_to_z (AR := exact) (Fin z) (Fin Om0) (Fin w0) (Fin wa) (Fin h) = Fin t0
    /\ 0 < t0 /\ Rabs (t - t0) <= 2900 * u * t0.
Proof. exact C139_lookback_lemma. Qed.
Print Assumptions C139_lookback_time.
Theorem C139_age_of_universe : forall AR u, accurate_to AR u -> forall z Om0 w0 wa h, rounding_cosmology (AR := AR) z Om0 w0 wa h -> w0 <= 0 ->
  exists t t0 tl0 a a0,
    age_at_z0 (AR := AR) (Fin Om0) (Fin w0) (Fin wa) (Fin h) = Fin t
    /\ age_at_z0 (AR := exact) (Fin Om0) (Fin w0) (Fin wa) (Fin h) = Fin t0
    /\ 0 < t0 /\ Rabs (t - t0) <= 4250 * u * t0
    /\ lookback_to_z (AR := exact) (Fin z) (Fin Om0) (Fin w0) (Fin wa) (Fin h) = Fin tl0
    /\ age_at_z (AR := AR) (Scalar (Fin z)) (Fin Om0) (Fin w0) (Fin wa) (Fin h) = [Fin a]
    /\ age_at_z (AR := exact) (Scalar (Fin z)) (Fin Om0) (Fin w0) (Fin wa) (Fin h) = [Fin a0]
    /\ a0 = t0 - tl0 /\ Rabs (a - a0) <= 4250 * u * (t0 + tl0).
Proof. exact C139_age_lemma. Qed.
Print Assumptions C139_age_of_universe.
Example C139_age_nonvacuous : exists a a0 t0 tl0, @age_at_z binary64 (Scalar (Fin (1/2))) (Fin (1/4)) (Fin (-1)) (Fin 0) (Fin (3/4)) = [Fin a]
  /\ age_at_z (Scalar (Fin (1/2))) (Fin (1/4)) (Fin (-1)) (Fin 0) (Fin (3/4)) = [Fin a0] /\ a0 = t0 - tl0 /\ Rabs (a - a0) <= 4250 * / 2 ^ 53 * (t0 + tl0).
Proof.
  destruct (C139_age_of_universe binary64 _ rd_unit _ _ _ _ _ cos_demo64 ltac:(lra)) as (t & t0 & tl0 & a & a0 & _ & _ & _ & _ & _ & E & E0 & Ea & D). exists a, a0, t0, tl0. auto.
Qed.
Example C139_nonvacuous : rounding_cosmology (AR := binary64) (1/2) (1/4) (-1) 0 (3/4)
  /\ rounding_cosmology (AR := binary32) 20 (1/4) (-3/4) (1/2) (3/4)
  /\ (exists m m0, @distance_modulus_to_z binary32 (Fin 20) (Fin (1/4)) (Fin (-3/4)) (Fin (1/2)) (Fin (3/4)) = Fin m
     /\ distance_modulus_to_z (Fin 20) (Fin (1/4)) (Fin (-3/4)) (Fin (1/2)) (Fin (3/4)) = Fin m0 /\ Rabs (m - m0) <= 1 / 1000).
Proof.
  split; [exact cos_demo64|]. split; [exact cos_demo32|]. destruct (C139_distance_modulus binary32 _ rd_unit32 _ _ _ _ _ cos_demo32) as (m & m0 & E & E0 & D).
  exists m, m0. split; auto. split; auto. eapply Rle_trans; [exact D|]. simpl. lra.
Qed.

(** C140 *)
Theorem C140_observed_magnitude_dimmed : forall AR u, accurate_to AR u -> forall B Res ws ls wf tf z Om0 w0 wa h kappa, rounding_spectrum (AR := AR) B ws ls -> rounding_filter (AR := AR) wf tf ->
  rounding_resolution Res ws -> rounding_cosmology (AR := AR) z Om0 w0 wa h -> inside_spectrum ws wf z -> 1 / 10 ^ 18 <= B * band_integral (fun _ => 1) wf tf ->
  0 < kappa -> B <= kappa * (ab0 * band_flux (fun x => spectrum_at ws ls (x / (1 + z))) wf tf) -> 3 * (INR (length wf) + 5 * Res + 25) * u * kappa <= 1 / 1000 ->
  exists m m0, calc_obs_mag (AR := AR) (fins ws) (fins ls) (fins wf) (fins tf) (Fin z) (Fin Om0) (Fin w0) (Fin wa) (Fin h) = Ok (Fin m)
    /\ calc_obs_mag (AR := exact) (fins ws) (fins ls) (fins wf) (fins tf) (Fin z) (Fin Om0) (Fin w0) (Fin wa) (Fin h) = Ok (Fin m0)
    /\ Rabs (m - m0) <= 4 * (INR (length wf) + 5 * Res + 70) * u * kappa + 4200 * u.
Proof. exact C140_lemma. Qed.
Print Assumptions C140_observed_magnitude_dimmed.
Example C140_nonvacuous : exists m m0, @calc_obs_mag binary64 (fins ph_ws) (fins ph_ls) (fins ph_wf) (fins ph_tf) (Fin (1/2)) (Fin (1/4)) (Fin (-1)) (Fin 0) (Fin (3/4)) = Ok (Fin m)
    /\ calc_obs_mag (fins ph_ws) (fins ph_ls) (fins ph_wf) (fins ph_tf) (Fin (1/2)) (Fin (1/4)) (Fin (-1)) (Fin 0) (Fin (3/4)) = Ok (Fin m0) /\ Rabs (m - m0) <= 1 / 10 ^ 5.
Proof.
  pose proof ph_u as U. set (u := / 2 ^ 53) in *. destruct (C140_observed_magnitude_dimmed binary64 u rd_unit 4 3 ph_ws ph_ls ph_wf ph_tf (1/2) (1/4) (-1) 0 (3/4) 4 ph_spectrum ph_filter ph_resolution) as (m & m0 & E & E0 & D);
    [exact cos_demo64|exact ph_inside|exact ph_BI|lra|exact ph_obs|unfold ph_wf; simpl in U |- *; lra|].
  exists m, m0. split; auto. split; auto. eapply Rle_trans; [exact D|]. unfold ph_wf. simpl in U |- *. lra.
Qed.
