(** * Burst weights in rounded arithmetic: property lemmas *)
From Coq Require Import Reals List Arith Lra Lia ZArith Bool.
From Verif Require Import Num Arr MUtils MSed MDiffburst Float Spec SpecFloat SpecFloat3 RList LUtils LFloat LFloat2 LFloat9 LFloat10 LFloat12 LRound33.
Import ListNotations.
Open Scope R_scope.

Lemma ieee_unit AR : ieee_arithmetic AR -> exists u, accurate_to AR u.
Proof.
  intros ((red & lib & OR & E) & A). exists (/ 2 ^ 22). split; [|exact A]. exists red, lib. split; auto.
  destruct E as [E|E]; [left|right]; split; auto; (split; [apply half_pow_le; lia|lra]).
Qed.
Lemma C141_range_lemma : forall AR, ieee_arithmetic AR -> forall u_fb u_peak u_max smooth ages,
  u_fb <> NaN -> u_peak <> NaN -> u_max <> NaN -> length smooth = length ages -> (length ages <= 2 ^ 18)%nat ->
  Forall (fun a => -4 <= a <= 4) ages -> Forall (fun x => 0 <= x <= 1) smooth ->
  exists w, calc_bursty_age_weights_from_u_params {| u_lgfburst := u_fb; u_lgyr_peak := u_peak; u_lgyr_max := u_max |} (fins smooth) (fins ages) = Ok (fins w)
    /\ length w = length ages /\ Forall (fun x => 0 <= x <= 1) w.
Proof.
  intros AR I u_fb u_peak u_max smooth ages N1 N2 N3 LS LN FA FS. destruct (ieee_unit AR I) as (u & UR). pose proof (good_ieee_arithmetic AR I) as G.
  destruct (burst_bounds G u_fb u_peak u_max N1 N2 N3) as (fb & peak & lo & mx & E & B1 & B2 & _ & B3 & B4).
  unfold calc_bursty_age_weights_from_u_params. rewrite E.
  assert (R : rnd peak = Fin peak /\ rnd mx = Fin mx).
  { unfold get_params_from_u_params, get_tburst_params_from_tburst_u_params in E. cbn [u_lgfburst u_lgyr_peak u_lgyr_max] in E. injection E as _ E2 E3. split.
    - unfold get_lgyr_peak_from_u_lgyr_peak, LGYR_PEAK_MIN in E2. cbv zeta in E2. eapply (sigmoid_rep G); exact E2.
    - rewrite E2 in E3. unfold get_lgyr_max_from_lgyr_peak, DLGAGE_MIN in E3. cbv zeta in E3. cbn [nadd] in E3. destruct (rnd (peak + 1)) as [l0| | |] eqn:El.
      + eapply (sigmoid_rep G); exact E3.
      + exfalso. destruct (rnd_between G 0 (peak + 1) 16) as (y & Ey & _); [apply (rnd0 G)|apply (rnd_dy G 16 0); [lia|lia|simpl; lra]|lra|congruence].
      + exfalso. destruct (rnd_between G 0 (peak + 1) 16) as (y & Ey & _); [apply (rnd0 G)|apply (rnd_dy G 16 0); [lia|lia|simpl; lra]|lra|congruence].
      + exfalso. destruct (rnd_between G 0 (peak + 1) 16) as (y & Ey & _); [apply (rnd0 G)|apply (rnd_dy G 16 0); [lia|lia|simpl; lra]|lra|congruence]. }
  destruct (C141_core AR u UR fb peak mx smooth ages) as (w & Ew & Lw & Fw & _); auto.
  { destruct R. repeat split; auto; lra. }
  exists w. split; auto. split; auto. eapply Forall_impl; [|exact Fw]. intros x Hx. apply Hx.
Qed.
Lemma C141_sum_lemma : forall AR u, accurate_to AR u -> forall lgfb peak mx smooth ages,
  rounding_burst lgfb peak mx -> length smooth = length ages -> (length ages <= 2 ^ 18)%nat ->
  Forall (fun a => -4 <= a <= 4) ages -> Forall (fun x => 0 <= x <= 1) smooth -> burst_covered peak mx ages -> Rsum smooth <= 2 ->
  exists w, calc_bursty_age_weights {| lgfburst := Fin lgfb; lgyr_peak := Fin peak; lgyr_max := Fin mx |} (fins smooth) (fins ages) = Ok (fins w)
    /\ length w = length ages /\ Forall (fun x => 0 <= x <= 1) w
    /\ Rabs (Rsum w - 1) <= Rabs (Rsum smooth - 1) + 2 * (INR (length ages) + 6) * u.
Proof.
  intros AR u UR lgfb peak mx smooth ages RB LS LN FA FS C S2. destruct (C141_core AR u UR lgfb peak mx smooth ages) as (w & Ew & Lw & Fw & S & _); auto.
  exists w. split; auto. split; auto. split; auto. eapply Forall_impl; [|exact Fw]. intros x Hx. apply Hx.
Qed.
Lemma C141_close_lemma : forall AR u, accurate_to AR u -> forall lgfb peak mx smooth smooth0 ages,
  rounding_burst lgfb peak mx -> length smooth = length ages -> length smooth0 = length ages -> (length ages <= 2 ^ 18)%nat ->
  Forall (fun a => -4 <= a <= 4) ages -> Forall (fun x => 0 <= x <= 1) smooth -> burst_covered peak mx ages ->
  distribution smooth0 -> sum_difference smooth smooth0 <= 1 ->
  let p := {| lgfburst := Fin lgfb; lgyr_peak := Fin peak; lgyr_max := Fin mx |} in
  exists w w0, @calc_bursty_age_weights AR p (fins smooth) (fins ages) = Ok (fins w)
    /\ @calc_bursty_age_weights exact p (fins smooth0) (fins ages) = Ok (fins w0)
    /\ sum_difference w w0 <= sum_difference smooth smooth0 + 12000 * INR (length ages) * u.
Proof.
  intros AR u UR lgfb peak mx smooth smooth0 ages RB LS L0 LN FA FS C D S p. destruct (C141_core AR u UR lgfb peak mx smooth ages) as (w & Ew & _ & _ & _ & K); auto.
  destruct (K smooth0 C D L0 S) as (w0 & E0 & B). exists w, w0. auto.
Qed.
