(** * Burst weights in rounded arithmetic: the public function *)
From Coq Require Import Reals List Arith Lra Lia ZArith Bool.
From Coquelicot Require Import Coquelicot.
From Flocq Require Import Core.Raux.
From Verif Require Import Num Arr MUtils MSed MDiffburst Float Spec SpecFloat SpecFloat3 RList LBcast LUtils LCalc LKern LBurst LFloat LFloat2 LFloat3 LFloat4 LFloat5 LFloat9 LFloat10 LFloat11 LFloat12 LRound1 LRound2 LRound3 LRound4 LRound5 LRound6 LRound29 LRound30 LRound31 LRound32.
Import ListNotations.
Open Scope R_scope.

Lemma C141_core : forall AR u, accurate_to AR u -> forall lgfb peak mx smooth ages,
  rounding_burst lgfb peak mx -> length smooth = length ages -> (length ages <= 2 ^ 18)%nat ->
  List.Forall (fun a => -4 <= a <= 4) ages -> List.Forall (fun x => 0 <= x <= 1) smooth ->
  exists w, calc_bursty_age_weights {| lgfburst := Fin lgfb; lgyr_peak := Fin peak; lgyr_max := Fin mx |} (fins smooth) (fins ages) = Ok (fins w)
    /\ length w = length ages /\ List.Forall (fun x => 0 <= x <= 1 /\ rnd x = Fin x) w
    /\ (burst_covered peak mx ages -> Rsum smooth <= 2 -> Rabs (Rsum w - 1) <= Rabs (Rsum smooth - 1) + 2 * (INR (length ages) + 6) * u)
    /\ forall smooth0, burst_covered peak mx ages -> distribution smooth0 -> length smooth0 = length ages -> sum_difference smooth smooth0 <= 1 ->
         exists w0, @calc_bursty_age_weights exact {| lgfburst := Fin lgfb; lgyr_peak := Fin peak; lgyr_max := Fin mx |} (fins smooth0) (fins ages) = Ok (fins w0)
           /\ sum_difference w w0 <= sum_difference smooth smooth0 + 12000 * INR (length ages) * u.
Proof.
  intros AR u UR lgfb peak mx smooth ages (L & Rp & Rm & P0 & M1 & PM) LS LN FA FS. pose proof (rel_err_unit AR u UR) as H. pose proof (u_le u H) as Hu. simpl (10 ^ 6) in Hu.
  pose proof (t_u u UR) as Ht. simpl (10 ^ 20) in Ht.
  destruct (burst_float u H peak mx ages) as (b & Eb & Lb & Fb & Kb); auto. { repeat split; auto. }
  destruct (fraction_float u UR lgfb L) as (f & g & Ef & Eg & Bf & Bg & Rf & Rg & Af & Ag & MB).
  destruct (mixf_props u UR f g Bf Bg Rf Rg Ag MB b smooth) as (E & F & S & D); [lia| |exact FS|].
  { eapply List.Forall_impl; [|exact Fb]. intros x Hx. apply Hx. }
  exists (mixf f g b smooth). split; [|split; [|split; [|split]]].
  - unfold calc_bursty_age_weights. rewrite bmap2_same by (now rewrite pureburst_len, map_length, !fins_length). f_equal. cbn [lgfburst lgyr_peak lgyr_max].
    rewrite Eb, Ef, Eg. exact E.
  - unfold mixf. rewrite map2_length. lia.
  - exact F.
  - intros C S2. destruct (Kb C) as [SB _]. set (n := INR (length ages)) in *. rewrite Lb in S. fold n in S. assert (N0 : 0 <= n) by apply pos_INR.
    assert (NU : n * u <= / 16) by (apply n_u; [apply (re_u _ _ H)|auto]).
    apply Rabs_le_inv in SB. assert (B0 : 0 <= Rsum b) by (apply Rsum_nonneg; eapply List.Forall_impl; [|exact Fb]; intros x Hx; apply Hx).
    assert (S0 : 0 <= Rsum smooth) by (apply Rsum_nonneg; eapply List.Forall_impl; [|exact FS]; intros x Hx; apply Hx).
    assert (X1 : f * Rsum b <= 1 * 1.2) by (apply Rmult_le_compat; lra). assert (X2 : g * Rsum smooth <= 1 * 2) by (apply Rmult_le_compat; lra).
    assert (X3 : 2.1 * u * (f * Rsum b + g * Rsum smooth) <= 2.1 * u * 3.2) by (apply Rmult_le_compat_l; lra).
    assert (X4 : n * (u * / 2 ^ 102) <= n * (u / 10 ^ 20)) by (apply Rmult_le_compat_l; [auto|apply (t_u u UR)]). 
    assert (X5 : n * (u / 10 ^ 20) <= 0.01 * u).
    { replace (n * (u / 10 ^ 20)) with (n * / 10 ^ 20 * u) by (unfold Rdiv; ring). apply Rmult_le_compat_r; [lra|]. unfold n. apply le_INR in LN. rewrite pow_INR in LN. simpl (INR 2) in LN. simpl (2 ^ 18) in LN. simpl (10 ^ 20). lra. }
    set (ds := Rabs (Rsum smooth - 1)). assert (DS : - ds <= Rsum smooth - 1 <= ds) by (unfold ds; split; [pose proof (Rle_abs (- (Rsum smooth - 1))) as Q; rewrite Rabs_Ropp in Q; lra|apply Rle_abs]).
    assert (DS0 : 0 <= ds) by apply Rabs_pos.
    apply Rabs_le_inv in S, Ag. assert (UF : 0 <= u * (1 - f) <= u) by (assert (0 <= u * f) by (apply Rmult_le_pos; lra); split; [apply Rmult_le_pos; lra|lra]).
    assert (Y1 : Rabs (f * (Rsum b - 1)) <= 2 * (n + 1) * u). { rewrite Rabs_mult, (Rabs_right f) by lra. assert (f * Rabs (Rsum b - 1) <= 1 * (2 * (n + 1) * u)); [|lra]. apply Rmult_le_compat; [lra|apply Rabs_pos|lra|apply Rabs_le; lra]. }
    assert (Y2 : Rabs (g * (Rsum smooth - 1)) <= ds). { rewrite Rabs_mult, (Rabs_right g) by lra. fold ds. assert (g * ds <= 1 * ds) by (apply Rmult_le_compat_r; lra). lra. }
    apply Rabs_le_inv in Y1, Y2. apply Rabs_le. lra.
  - intros smooth0 C [P1 P2] L0 D1. destruct (Kb C) as [_ SB]. exists (mix_w (pow10 lgfb) (burst_w peak mx (map (fun a => a + 9) ages)) smooth0).
    split; [apply bursty_fins; [lra|auto]|].
    assert (PL := pow10_le1 lgfb L).
    assert (BW := burst_w_nonneg peak mx (map (fun a => a + 9) ages) ltac:(lra)).
    assert (RES : Rsum (burst_w peak mx (map (fun a => a + 9) ages)) = 1).
    { apply burst_w_resolved; [lra|]. destruct C as (a & Ha & Da). exists (a + 9). split; [apply in_map_iff; exists a; auto|]. apply Rabs_le_inv in Da. lra. }
    pose proof (D (pow10 lgfb) (burst_w peak mx (map (fun a => a + 9) ages)) smooth0 ltac:(lra) Af ltac:(rewrite burst_w_length, map_length; lia) ltac:(lia) BW P1) as Q.
    rewrite RES, P2 in Q. change sum_difference with sumdiff in *. rewrite Lb in Q. set (n := INR (length ages)) in *.
    assert (N1 : 1 <= n). { unfold n. destruct C as (a & Ha & _). destruct ages; [destruct Ha|]. cbn [length]. rewrite S_INR. pose proof (pos_INR (length ages)). lra. }
    assert (NU : n * u <= / 16) by (apply n_u; [apply (re_u _ _ H)|auto]).
    assert (E5 : u <= n * u) by (rewrite <- (Rmult_1_l u) at 1; apply Rmult_le_compat_r; lra).
    assert (X4 : n * (u * / 2 ^ 102) <= n * u). { apply Rmult_le_compat_l; lra. }
    set (B := sumdiff b (burst_w peak mx (map (fun a => a + 9) ages))) in *. set (Ds := sumdiff smooth smooth0) in *.
    assert (0 <= B) by (unfold B, sumdiff; apply Rsum_nonneg; clear; generalize (burst_w peak mx (map (fun a => a + 9) ages)); induction b as [|x b IH]; intros [|y l]; cbn [map2]; constructor; auto; apply Rabs_pos).
    assert (0 <= Ds) by (unfold Ds, sumdiff; apply Rsum_nonneg; clear; revert smooth0; induction smooth as [|x b IH]; intros [|y l]; cbn [map2]; constructor; auto; apply Rabs_pos).
    assert (u * Ds <= u * 1) by (apply Rmult_le_compat_l; lra).
    assert (u * B <= 0.01 * B) by (apply Rmult_le_compat_r; lra). lra.
Qed.
