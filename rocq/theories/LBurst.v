(** * Bursts (dsps/sfh/diffburst.py) *)
From Coq Require Import Reals List Arith Lra Lia Bool.
From Flocq Require Import Core.Raux.
From Verif Require Import Num Arr MUtils MDiffburst Spec RList LBcast LUtils LAge LKern LKern2.
Import ListNotations.
Open Scope R_scope.

Ltac unlit := repeat match goal with |- context [lit ?x] => change (lit x) with (Fin x) end.

Definition fin_burst (fb peak mx : R) : BurstParams :=
  {| lgfburst := Fin fb; lgyr_peak := Fin peak; lgyr_max := Fin mx |}.
Definition fin_uburst (fb peak mx : R) : BurstUParams :=
  {| u_lgfburst := Fin fb; u_lgyr_peak := Fin peak; u_lgyr_max := Fin mx |}.

(** ** bounding *)
Definition bnd (x0 k lo hi u : R) : R := lo + (hi - lo) * logistic (k * (u - x0)).
Lemma bnd_bounds x0 k lo hi u : lo < hi -> lo < bnd x0 k lo hi u < hi.
Proof. intros. unfold bnd. pose proof (logistic_bounds (k * (u - x0))). split; nra. Qed.

Lemma peak_fin u : get_lgyr_peak_from_u_lgyr_peak (Fin u) = Fin (bnd 6.5 0.1 5 8 u).
Proof.
  unfold get_lgyr_peak_from_u_lgyr_peak, LGYR_PEAK_MIN, LGAGE_MAX, DLGAGE_MIN, LGAGE_K.
  unlit. rewrite nsub_fin, nadd_fin, nmul_fin. replace (0.5 * (9 - 1 + 5)) with 6.5 by lra.
  replace (9 - 1) with 8 by lra. apply sigmoid_fin.
Qed.
Lemma fb_fin u : get_lgfburst_from_u_lgfburst (Fin u) = Fin (bnd (-2) 0.1 (-8) (-1) u).
Proof. apply sigmoid_fin. Qed.
Lemma max_fin p u : get_lgyr_max_from_lgyr_peak (Fin p) (Fin u) =
  Fin (bnd (0.5 * (9 + (p + 1))) 0.1 (p + 1) 9 u).
Proof.
  unfold get_lgyr_max_from_lgyr_peak, LGAGE_MAX, DLGAGE_MIN, LGAGE_K.
  unlit. rewrite !nadd_fin, nmul_fin. apply sigmoid_fin.
Qed.

Lemma params_fin uf up um :
  get_params_from_u_params (fin_uburst uf up um) =
  (let p := bnd 6.5 0.1 5 8 up in
   fin_burst (bnd (-2) 0.1 (-8) (-1) uf) p (bnd (0.5 * (9 + (p + 1))) 0.1 (p + 1) 9 um)).
Proof.
  unfold get_params_from_u_params, get_tburst_params_from_tburst_u_params, fin_uburst.
  cbn [u_lgfburst u_lgyr_peak u_lgyr_max]. rewrite fb_fin, peak_fin, max_fin. reflexivity.
Qed.

Lemma C31_lemma : forall u_lgfb u_peak u_max,
  exists fb peak mx,
    get_params_from_u_params {| u_lgfburst := Fin u_lgfb; u_lgyr_peak := Fin u_peak; u_lgyr_max := Fin u_max |}
    = {| lgfburst := Fin fb; lgyr_peak := Fin peak; lgyr_max := Fin mx |}
    /\ -8 < fb < -1 /\ 5 < peak < 8 /\ peak + 1 < mx < 9.
Proof.
  intros uf up um. pose proof (params_fin uf up um) as E. unfold fin_uburst, fin_burst in E. cbv zeta in E.
  do 3 eexists. split; [exact E|].
  pose proof (bnd_bounds 6.5 0.1 5 8 up ltac:(lra)).
  split; [apply bnd_bounds; lra|]. split; [auto|]. apply bnd_bounds. lra.
Qed.

(** ** C32 *)
Lemma burst_u_roundtrip : forall uf up um,
  get_u_params_from_params (get_params_from_u_params
    {| u_lgfburst := Fin uf; u_lgyr_peak := Fin up; u_lgyr_max := Fin um |})
  = {| u_lgfburst := Fin uf; u_lgyr_peak := Fin up; u_lgyr_max := Fin um |}.
Proof.
  intros uf up um.
  unfold get_params_from_u_params, get_tburst_params_from_tburst_u_params,
    get_u_params_from_params, get_tburst_u_params_from_tburst_params.
  cbn [u_lgfburst u_lgyr_peak u_lgyr_max lgfburst lgyr_peak lgyr_max].
  f_equal.
  - apply sigmoid_inverse; lra.
  - unfold get_u_lgyr_peak_from_lgyr_peak, get_lgyr_peak_from_u_lgyr_peak, LGYR_PEAK_MIN, LGYR_PEAK_MAX,
      LGAGE_MAX, DLGAGE_MIN, LGAGE_K.
    unlit. rewrite !nsub_fin, !nadd_fin, !nmul_fin. apply sigmoid_inverse; lra.
  - rewrite peak_fin. set (p := bnd _ _ _ _ _).
    pose proof (bnd_bounds 6.5 0.1 5 8 up ltac:(lra)) as Hp. fold p in Hp.
    unfold get_u_lgyr_max_from_lgyr_peak, get_lgyr_max_from_lgyr_peak, LGAGE_MAX, DLGAGE_MIN, LGAGE_K.
    unlit. rewrite !nadd_fin, !nmul_fin. apply sigmoid_inverse; lra.
Qed.

Lemma burst_roundtrip : forall fb peak mx,
  -8 < fb < -1 -> 5 < peak < 8 -> peak + 1 < mx < 9 ->
  get_params_from_u_params (get_u_params_from_params
    {| lgfburst := Fin fb; lgyr_peak := Fin peak; lgyr_max := Fin mx |})
  = {| lgfburst := Fin fb; lgyr_peak := Fin peak; lgyr_max := Fin mx |}.
Proof.
  intros fb peak mx Hf Hp Hm.
  assert (E1 : get_lgyr_peak_from_u_lgyr_peak (get_u_lgyr_peak_from_lgyr_peak (Fin peak)) = Fin peak).
  { unfold get_u_lgyr_peak_from_lgyr_peak, get_lgyr_peak_from_u_lgyr_peak, LGYR_PEAK_MIN, LGYR_PEAK_MAX,
      LGAGE_MAX, DLGAGE_MIN, LGAGE_K.
    unlit. rewrite !nsub_fin, !nadd_fin, !nmul_fin. apply inverse_sigmoid_inverse; lra. }
  unfold get_params_from_u_params, get_tburst_params_from_tburst_u_params,
    get_u_params_from_params, get_tburst_u_params_from_tburst_params.
  cbn [u_lgfburst u_lgyr_peak u_lgyr_max lgfburst lgyr_peak lgyr_max].
  rewrite E1. f_equal.
  - apply inverse_sigmoid_inverse; lra.
  - unfold get_u_lgyr_max_from_lgyr_peak, get_lgyr_max_from_lgyr_peak, LGAGE_MAX, DLGAGE_MIN, LGAGE_K.
    unlit. rewrite !nadd_fin, !nmul_fin. apply inverse_sigmoid_inverse; lra.
Qed.

(** ** burst weights *)
Definition burst_raw (peak mx x : R) : R := tw_density ((x - peak) / ((mx - peak) / 3)) / ((mx - peak) / 3).
Definition burst_norm (peak mx : R) (lgyr : list R) : R :=
  let s := Rsum (map (burst_raw peak mx) lgyr) in if Rle_dec s 0 then 1 else s.
Definition burst_w (peak mx : R) (lgyr : list R) : list R :=
  map (fun x => burst_raw peak mx x / burst_norm peak mx lgyr) lgyr.

Lemma burst_raw_nonneg peak mx x : peak < mx -> 0 <= burst_raw peak mx x.
Proof. intros. unfold burst_raw. apply Rdiv_le_0_compat'; [apply tw_density_nonneg|lra]. Qed.
Lemma burst_norm_pos peak mx l : 0 < burst_norm peak mx l.
Proof. unfold burst_norm. destruct (Rle_dec _ _); lra. Qed.

Lemma pureburst_fins peak mx lgyr : peak < mx ->
  pureburst_age_weights_from_params (fins lgyr) (Fin peak) (Fin mx) = fins (burst_w peak mx lgyr).
Proof.
  intros H. unfold pureburst_age_weights_from_params. unlit. rewrite !nsub_fin, nadd_fin, nmul_fin.
  rewrite ndiv_fin by lra.
  replace (0.5 * (peak - (mx - peak) + mx)) with peak by lra.
  replace ((mx - (peak - (mx - peak))) / 6) with ((mx - peak) / 3) by lra.
  rewrite (map_fins _ (burst_raw peak mx)).
  2:{ intros x _. unfold burst_raw. apply triweight_gaussian_fin. lra. }
  unfold zero_safe_normalize. rewrite vsum_fins, nleb_fin.
  assert (E : nwhere (Rle_bool (Rsum (map (burst_raw peak mx) lgyr)) 0) (Fin 1)
    (Fin (Rsum (map (burst_raw peak mx) lgyr))) = Fin (burst_norm peak mx lgyr)).
  { unfold burst_norm, nwhere. destruct (Rle_dec _ _).
    - now rewrite Rle_bool_true.
    - now rewrite Rle_bool_false by lra. }
  rewrite E. unfold burst_w. rewrite <- (map_map (burst_raw peak mx) (fun r => r / burst_norm peak mx lgyr)).
  apply map_fins. intros x _. apply ndiv_fin. pose proof (burst_norm_pos peak mx lgyr). lra.
Qed.

Lemma tw_density_out z : z <= -3 \/ 3 <= z -> tw_density z = 0.
Proof. intros H. unfold tw_density. destruct (Rlt_dec (-3) z); [destruct (Rlt_dec z 3)|]; auto; lra. Qed.
Lemma tw_density_in z : -3 < z < 3 -> 0 < tw_density z.
Proof.
  intros H. unfold tw_density. destruct (Rlt_dec (-3) z); [|lra]. destruct (Rlt_dec z 3); [|lra].
  now apply tw_dens_pos.
Qed.
Lemma tw_density_opp z : tw_density (- z) = tw_density z.
Proof. rewrite !tw_density_alt. do 3 f_equal. lra. Qed.
Lemma tw_density_dec a b : 0 <= a -> a < b -> a < 3 -> tw_density b < tw_density a.
Proof.
  intros H0 H1 H2. destruct (Rlt_or_le b 3).
  - unfold tw_density. repeat (destruct (Rlt_dec _ _); [|lra]). unfold tw_dens.
    set (u := 1 - (b / 3) ^ 2). set (v := 1 - (a / 3) ^ 2).
    assert (0 < u < v) by (unfold u, v; split; nra).
    assert (u ^ 3 < v ^ 3); [|lra]. simpl. assert (u * u < v * v) by nra. nra.
  - rewrite (tw_density_out b) by lra. apply tw_density_in. lra.
Qed.

Lemma burst_raw_out peak mx x : peak < mx -> mx <= x \/ x <= 2 * peak - mx -> burst_raw peak mx x = 0.
Proof.
  intros H Hx. unfold burst_raw. rewrite tw_density_out; [unfold Rdiv; lra|].
  destruct Hx; [right; apply le_div_iff; lra|left; apply div_le_iff; lra].
Qed.
Lemma burst_raw_in peak mx x : peak < mx -> 2 * peak - mx < x < mx -> 0 < burst_raw peak mx x.
Proof.
  intros H Hx. unfold burst_raw. apply Rdiv_lt_0_compat; [|lra]. apply tw_density_in.
  split; [apply lt_div_iff; lra|apply div_lt_iff; lra].
Qed.
Lemma burst_raw_sym peak mx x y : x + y = 2 * peak -> burst_raw peak mx x = burst_raw peak mx y.
Proof.
  intros H. unfold burst_raw. replace (x - peak) with (- (y - peak)) by lra.
  unfold Rdiv at 2. rewrite <- Ropp_mult_distr_l. now rewrite tw_density_opp.
Qed.
Lemma tw_density_abs z : tw_density (Rabs z) = tw_density z.
Proof. unfold Rabs. destruct (Rcase_abs z); [apply tw_density_opp|reflexivity]. Qed.
Lemma burst_raw_dec peak mx x y : peak < mx -> Rabs (x - peak) < Rabs (y - peak) -> Rabs (x - peak) < mx - peak ->
  burst_raw peak mx y < burst_raw peak mx x.
Proof.
  intros H Hxy Hx. unfold burst_raw. apply div_lt_mono; [lra|].
  set (h := (mx - peak) / 3). assert (Hh : 0 < h) by (unfold h; lra).
  rewrite <- (tw_density_abs ((y - peak) / h)), <- (tw_density_abs ((x - peak) / h)).
  assert (A : forall t, Rabs (t / h) = Rabs t / h).
  { intros t. unfold Rdiv. rewrite Rabs_mult. f_equal. apply Rabs_pos_eq. left. now apply Rinv_0_lt_compat. }
  rewrite !A. apply tw_density_dec.
  - apply Rdiv_le_0_compat'; [apply Rabs_pos|auto].
  - now apply div_lt_mono.
  - apply div_lt_iff; auto. unfold h. lra.
Qed.

Lemma burst_w_length peak mx l : length (burst_w peak mx l) = length l.
Proof. apply map_length. Qed.
Lemma burst_w_ent peak mx l j : (j < length l)%nat ->
  ent (burst_w peak mx l) j = burst_raw peak mx (ent l j) / burst_norm peak mx l.
Proof. intros. unfold burst_w. now rewrite ent_map. Qed.
Lemma burst_w_nonneg peak mx l : peak < mx -> List.Forall (fun x => 0 <= x) (burst_w peak mx l).
Proof.
  intros H. apply Forall_forall. intros w Hw. apply in_map_iff in Hw as [x [<- _]].
  apply Rdiv_le_0_compat'; [now apply burst_raw_nonneg|apply burst_norm_pos].
Qed.
Lemma burst_w_resolved peak mx l : peak < mx -> (exists x, In x l /\ 2 * peak - mx < x < mx) ->
  Rsum (burst_w peak mx l) = 1.
Proof.
  intros H [x [Hx Hs]]. unfold burst_w.
  rewrite <- (map_map (burst_raw peak mx) (fun r => r / burst_norm peak mx l)), Rsum_div.
  assert (0 < Rsum (map (burst_raw peak mx) l)).
  { apply Rlt_le_trans with (burst_raw peak mx x); [now apply burst_raw_in|].
    apply Rsum_In_le; [|now apply in_map]. apply Forall_forall. intros w Hw.
    apply in_map_iff in Hw as [y [<- _]]. now apply burst_raw_nonneg. }
  unfold burst_norm. destruct (Rle_dec _ _); [lra|]. field. lra.
Qed.
Lemma burst_w_unresolved peak mx l : peak < mx -> (forall x, In x l -> mx <= x \/ x <= 2 * peak - mx) ->
  burst_w peak mx l = repeat 0 (length l).
Proof.
  intros H Hx. unfold burst_w. generalize (burst_norm peak mx l) as N. induction l as [|x l IH]; intros N; auto.
  simpl. rewrite burst_raw_out by (auto; apply Hx; simpl; auto). f_equal; [unfold Rdiv; lra|].
  apply IH. intros y Hy. apply Hx. simpl. auto.
Qed.

Definition mix_w (fb : R) (b s : list R) : list R := map2 (fun b s => fb * b + (1 - fb) * s) b s.
Lemma bursty_fins fb peak mx sm ages : peak < mx -> length sm = length ages ->
  calc_bursty_age_weights {| lgfburst := Fin fb; lgyr_peak := Fin peak; lgyr_max := Fin mx |}
    (fins sm) (fins ages)
  = Ok (fins (mix_w (pow10 fb) (burst_w peak mx (map (fun a => a + 9) ages)) sm)).
Proof.
  intros H Hl. unfold calc_bursty_age_weights.
  rewrite bmap2_same by (now rewrite pureburst_len, map_length, !fins_length). f_equal.
  cbn [lgfburst lgyr_peak lgyr_max].
  rewrite (map_fins _ (fun a => a + 9)) by reflexivity. rewrite pureburst_fins by auto.
  rewrite npow10_fin. unfold mix_w.
  apply map2_fins'. intros b s. now rewrite nsub_fin, !nmul_fin, nadd_fin.
Qed.
Lemma mix_sum fb b s : length b = length s -> Rsum (mix_w fb b s) = fb * Rsum b + (1 - fb) * Rsum s.
Proof.
  unfold mix_w. revert s. induction b as [|x b IH]; intros [|y s] H; try discriminate; [simpl; lra|].
  simpl. rewrite IH by (simpl in *; lia). lra.
Qed.
Lemma mix_ent fb b s j : (j < length b)%nat -> (j < length s)%nat ->
  ent (mix_w fb b s) j = fb * ent b j + (1 - fb) * ent s j.
Proof. intros. unfold mix_w. now rewrite ent_map2. Qed.
Lemma mix_length fb b s : length b = length s -> length (mix_w fb b s) = length s.
Proof. intros. unfold mix_w. rewrite map2_length. lia. Qed.

Lemma pow10_le1 x : x <= 0 -> 0 < pow10 x <= 1.
Proof. intros H. split; [apply pow10_pos|]. rewrite <- pow10_0. now apply pow10_le. Qed.

Lemma C33_lemma : forall lgfb peak mx smooth ages,
  length smooth = length ages -> distribution smooth -> lgfb <= 0 -> peak < mx ->
  (exists j, (j < length ages)%nat /\ 2 * peak - mx < ent ages j + 9 < mx) ->
  exists w,
    calc_bursty_age_weights {| lgfburst := Fin lgfb; lgyr_peak := Fin peak; lgyr_max := Fin mx |}
      (fins smooth) (fins ages) = Ok (fins w)
    /\ length w = length ages /\ distribution w.
Proof.
  intros fb peak mx sm ages Hl [Hn Hs] Hf H [j [Hj Hin]].
  eexists. split; [now apply bursty_fins|].
  assert (L : length (burst_w peak mx (map (fun a => a + 9) ages)) = length sm)
    by (rewrite burst_w_length, map_length; auto).
  split; [rewrite mix_length; auto|]. pose proof (pow10_le1 fb Hf). split.
  - apply Forall_ent. intros i Hi. rewrite mix_length in Hi by auto. rewrite mix_ent by lia.
    pose proof (burst_w_nonneg peak mx (map (fun a => a + 9) ages) H) as Hb.
    rewrite Forall_ent in Hb, Hn. specialize (Hb i ltac:(lia)). specialize (Hn i Hi). nra.
  - rewrite mix_sum by auto. rewrite Hs, burst_w_resolved; [lra|auto|].
    exists (ent ages j + 9). split; auto. apply (in_map (fun a => a + 9)). now apply ent_In.
Qed.

Lemma C34_lemma : forall lgfb peak mx smooth ages,
  length smooth = length ages -> peak < mx ->
  (forall j, (j < length ages)%nat -> mx <= ent ages j + 9 \/ ent ages j + 9 <= 2 * peak - mx) ->
  exists w,
    calc_bursty_age_weights {| lgfburst := Fin lgfb; lgyr_peak := Fin peak; lgyr_max := Fin mx |}
      (fins smooth) (fins ages) = Ok (fins w)
    /\ (forall j, (j < length ages)%nat -> ent w j = (1 - pow10 lgfb) * ent smooth j)
    /\ (distribution smooth -> Rsum w = 1 - pow10 lgfb /\ Rsum w < 1).
Proof.
  intros fb peak mx sm ages Hl H Hout.
  eexists. split; [now apply bursty_fins|].
  rewrite burst_w_unresolved; auto.
  2:{ intros x Hx. apply in_map_iff in Hx as [a [<- Ha]].
      apply In_ent in Ha as [j [Hj <-]]. auto. }
  rewrite map_length. split.
  - intros j Hj. rewrite mix_ent by (rewrite ?repeat_length; lia).
    assert (E : ent (repeat 0 (length ages)) j = 0).
    { assert (In (ent (repeat 0 (length ages)) j) (repeat 0 (length ages)))
        by (apply ent_In; rewrite repeat_length; auto). now apply repeat_spec in H0. }
    rewrite E. lra.
  - intros [_ Hs]. rewrite mix_sum by (rewrite repeat_length; auto). rewrite Rsum_repeat, Hs.
    pose proof (pow10_pos fb). split; lra.
Qed.

Lemma C35_lemma : forall peak mx lgyr, peak < mx ->
  exists w,
    pureburst_age_weights_from_params (fins lgyr) (Fin peak) (Fin mx) = fins w
    /\ length w = length lgyr
    /\ (forall j, (j < length lgyr)%nat -> 0 <= ent w j)
    /\ (forall j, (j < length lgyr)%nat ->
        (0 < ent w j <-> 2 * peak - mx < ent lgyr j < mx))
    /\ (forall i j, (i < length lgyr)%nat -> (j < length lgyr)%nat ->
        ent lgyr i + ent lgyr j = 2 * peak -> ent w i = ent w j)
    /\ (forall i j, (i < length lgyr)%nat -> (j < length lgyr)%nat ->
        Rabs (ent lgyr i - peak) < Rabs (ent lgyr j - peak) -> Rabs (ent lgyr i - peak) < mx - peak ->
        ent w j < ent w i).
Proof.
  intros peak mx l H. exists (burst_w peak mx l). split; [now apply pureburst_fins|].
  split; [apply burst_w_length|]. pose proof (burst_norm_pos peak mx l) as HN.
  assert (NN : forall j, (j < length l)%nat -> 0 <= ent (burst_w peak mx l) j).
  { intros j Hj. pose proof (burst_w_nonneg peak mx l H) as Hb. rewrite Forall_ent in Hb. apply Hb.
    now rewrite burst_w_length. }
  split; [exact NN|]. split; [|split].
  - intros j Hj. rewrite burst_w_ent by auto. split.
    + intros Hp. destruct (Rlt_or_le (2 * peak - mx) (ent l j)) as [H1|H1];
      [destruct (Rlt_or_le (ent l j) mx) as [H2|H2]; auto|];
      rewrite burst_raw_out in Hp by auto; unfold Rdiv in Hp; lra.
    + intros Hin. apply Rdiv_lt_0_compat; auto. now apply burst_raw_in.
  - intros i j Hi Hj E. rewrite !burst_w_ent by auto. f_equal. now apply burst_raw_sym.
  - intros i j Hi Hj E1 E2. rewrite !burst_w_ent by auto. apply div_lt_mono; auto. now apply burst_raw_dec.
Qed.

Lemma C35_outside_lemma : forall lgfb peak mx smooth ages j,
  length smooth = length ages -> peak < mx -> (j < length ages)%nat ->
  mx <= ent ages j + 9 \/ ent ages j + 9 <= 2 * peak - mx ->
  exists w,
    calc_bursty_age_weights {| lgfburst := Fin lgfb; lgyr_peak := Fin peak; lgyr_max := Fin mx |}
      (fins smooth) (fins ages) = Ok (fins w)
    /\ ent w j = (1 - pow10 lgfb) * ent smooth j.
Proof.
  intros fb peak mx sm ages j Hl H Hj Hout.
  eexists. split; [now apply bursty_fins|].
  rewrite mix_ent by (rewrite ?burst_w_length, ?map_length; lia).
  rewrite burst_w_ent by (rewrite map_length; auto). rewrite (ent_map (fun a => a + 9)) by auto.
  rewrite burst_raw_out by auto. unfold Rdiv. lra.
Qed.

(** ** C36: in any arithmetic, for any numbers *)
Lemma C36_lemma {AR : Arith} : forall p smooth ssp_lg_age_gyr,
  calc_bursty_age_weights p smooth ssp_lg_age_gyr
  = compute_bursty_age_weights_from_params (map (fun x => nadd x (Fin 9)) ssp_lg_age_gyr) smooth p.
Proof.
  reflexivity.
Qed.
Lemma C36_u_lemma {AR : Arith} : forall u smooth ssp_lg_age_gyr,
  calc_bursty_age_weights_from_u_params u smooth ssp_lg_age_gyr
  = calc_bursty_age_weights (get_params_from_u_params u) smooth ssp_lg_age_gyr
  /\ calc_bursty_age_weights_from_u_params u smooth ssp_lg_age_gyr
     = compute_bursty_age_weights_from_u_params (map (fun x => nadd x (Fin 9)) ssp_lg_age_gyr) smooth u.
Proof. intros. split; [reflexivity|]. apply C36_lemma. Qed.
Lemma pureburst_u_lemma {AR : Arith} : forall lgyr u,
  pureburst_age_weights_from_u_params lgyr (u_lgyr_peak u) (u_lgyr_max u)
  = pureburst_age_weights_from_params lgyr (lgyr_peak (get_params_from_u_params u))
      (lgyr_max (get_params_from_u_params u)).
Proof. reflexivity. Qed.
Lemma C36_local_lemma {AR : Arith} : forall p smooth smooth' ages w w' j,
  length smooth = length ages -> length smooth' = length ages ->
  calc_bursty_age_weights p smooth ages = Ok w -> calc_bursty_age_weights p smooth' ages = Ok w' ->
  nth j smooth NaN = nth j smooth' NaN -> nth j w NaN = nth j w' NaN.
Proof.
  intros p s s' ages w w' j L L' H H' E. unfold calc_bursty_age_weights in *.
  rewrite bmap2_same in H, H' by (now rewrite pureburst_len, map_length).
  injection H as <-. injection H' as <-.
  set (b := pureburst_age_weights_from_params _ _ _).
  assert (Lb : length b = length ages)
    by (unfold b, pureburst_age_weights_from_params, zero_safe_normalize; now rewrite !map_length).
  destruct (Nat.lt_ge_cases j (length ages)) as [Hj|Hj].
  - rewrite !map2_nth with (d1 := NaN) (d2 := NaN) by lia. now rewrite E.
  - rewrite !nth_overflow; auto; rewrite map2_length; lia.
Qed.
