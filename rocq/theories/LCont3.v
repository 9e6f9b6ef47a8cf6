(** * Where continuity and differentiability genuinely fail *)
From Coq Require Import Reals List Arith Lra Lia Bool.
From Coquelicot Require Import Coquelicot.
From Flocq Require Import Core.Raux.
From Verif Require Import Num Arr MUtils MSed MCosmo MPhot Spec Spec2 SpecApi RList LUtils LCalc LAge LKern LKern2 LMet LBurst LDust LCosmo LPhot LDiff LDiff2 LDiff3 LDiff4 LDiff5 LCont.
Import ListNotations.
Open Scope R_scope.

Lemma max_kink c : ~ ex_derive (fun r => Rmax c r) c.
Proof.
  intros [l D]. apply is_derive_Reals in D. destruct (D (1/4) ltac:(lra)) as [d H].
  pose proof (cond_pos d) as Pd.
  pose proof (H (d / 2) ltac:(lra) ltac:(rewrite Rabs_pos_eq; lra)) as H1.
  pose proof (H (- (d / 2)) ltac:(lra) ltac:(rewrite Rabs_Ropp, Rabs_pos_eq; lra)) as H2.
  rewrite Rmax_right in H1 by lra. rewrite (Rmax_left c (c + - (d / 2))) in H2 by lra. rewrite Rmax_left in H1, H2 by lra.
  replace ((c + d / 2 - c) / (d / 2)) with 1 in H1 by (field; lra).
  replace ((c - c) / - (d / 2)) with 0 in H2 by (field; lra).
  apply Rabs_def2 in H1. apply Rabs_def2 in H2. lra.
Qed.
Lemma C126_kink_lemma : forall sfr_min (lgm : R -> list R), 0 < sfr_min ->
  (forall r, calc_logsm_table_from_sfh_table (fins [1]) (fins [r]) (Fin sfr_min) = fins (lgm r)) ->
  steady_at lgm sfr_min /\ ~ smooth_at lgm sfr_min.
Proof.
  intros c lgm P H.
  assert (I : increasing (0.001 :: [1])) by solve_increasing.
  assert (E : forall r, lgm r = map log10 (cumulative_mass [1] (floored c [r]))).
  { intros r. apply fins_inj'. rewrite <- H. now apply calc_logsm_fins. }
  split.
  - assert (S : steady_at (fun r => map log10 (cumulative_mass [1] (floored c [r]))) c).
    { assert (FS : steady_at (fun r => floored c [r]) c).
      { apply floored_steady. apply (steady_intro _ 1); auto. intros [|i] Hi; [|lia]. unfold ent. simpl. apply cp_of_derive, ex_derive_id. }
      apply steady_map; [apply (cumulative_steady [1] (fun r => floored c [r])); auto|].
      intros i Hi. rewrite cumulative_mass_length in Hi.
      destruct (cumulative_steady [1] (fun r => floored c [r]) c) as [_ D]; auto.
      apply cp_log10; [apply D|]. apply cumulative_pos; auto using floored_pos. }
    destruct S as [[n S1] S2]. split; [exists n; intros r; rewrite E; auto|]. intros i. apply (cp_eq _ _ _ (fun r => f_equal (fun l => ent l i) (eq_sym (E r)))), S2.
  - intros [_ D]. specialize (D 0%nat). apply (max_kink c).
    set (q := 10 ^ 9 * ((1 - 0.001) / 2)).
    apply (ex_derive_eq (fun r => pow10 (ent (lgm r) 0) / q - 1 / 10 ^ 14)).
    + intros r. rewrite E. unfold cumulative_mass, floored, ent. cbn [length seq map nth firstn trapezoid].
      rewrite pow10_log10.
      * unfold q. field; lra.
      * apply Rmult_lt_0_compat; [lra|]. pose proof (Rmax_l c r). assert (0 < 1 / 10 ^ 14) by lra. nra.
    + apply ex_derive_minus'; [|apply ex_derive_const0]. unfold Rdiv. apply ex_derive_mult'; [|apply ex_derive_const0].
      now apply ex_derive_pow10.
Qed.

Lemma C126_jump_lemma : exists mag : R -> R,
  (forall z, 0 <= z < 1 ->
     calc_obs_mag_no_dimming (fins [1; 2]) (fins [1; 1]) (fins [1; 2]) (fins [1; 1]) (Fin z) = Ok (Fin (mag z)))
  /\ (forall z, 0 < z < 1 -> mag z = mag 0 + 2.5 * log10 3) /\ ~ continuity_pt mag 0.
Proof.
  assert (GS : good_spectrum [1; 2] [1; 1]) by (split; [solve_increasing|split; [reflexivity|discriminate]]).
  assert (GF : good_filter [1; 2] [1; 1]).
  { split; [reflexivity|split]; [repeat (apply List.Forall_cons; [lra|]); apply List.Forall_nil|].
    unfold band_integral, ab0, ent. simpl. lra. }
  assert (F0 : band_flux (zspec [1; 2] [1; 1] 0) [1; 2] [1; 1] = / ab0).
  { unfold band_flux, band_integral, zspec, spectrum_at, ent. simpl.
    repeat destruct Rlt_dec; try lra; repeat destruct Rle_dec; try lra; unfold ab0; try (field; lra). }
  assert (F1 : forall z, 0 < z < 1 -> band_flux (zspec [1; 2] [1; 1] z) [1; 2] [1; 1] = / 3 * / ab0).
  { intros z Hz. assert (0 < / (1 + z)) by (apply Rinv_0_lt_compat; lra). assert (/ (1 + z) * (1 + z) = 1) by (apply Rinv_l; lra).
    assert (1 / (1 + z) < 1 /\ 1 < 2 / (1 + z) < 2) by (unfold Rdiv; nra).
    unfold band_flux, band_integral, zspec, spectrum_at, ent. simpl.
    repeat destruct Rlt_dec; try lra; repeat destruct Rle_dec; try lra; unfold ab0; try (field; lra). }
  assert (PA : 0 < / ab0) by (unfold ab0; apply Rinv_0_lt_compat; lra).
  exists (fun z => -2.5 * log10 (band_flux (zspec [1; 2] [1; 1] z) [1; 2] [1; 1])).
  assert (J : forall z, 0 < z < 1 -> -2.5 * log10 (band_flux (zspec [1; 2] [1; 1] z) [1; 2] [1; 1])
     = -2.5 * log10 (band_flux (zspec [1; 2] [1; 1] 0) [1; 2] [1; 1]) + 2.5 * log10 3).
  { intros z Hz. rewrite F0, F1, log10_mult by lra. pose proof (log10_mult (/3) 3 ltac:(lra) ltac:(lra)) as Q. rewrite Rinv_l, log10_1 in Q by lra. lra. }
  assert (L3 : 0 < log10 3) by (rewrite <- log10_1; apply log10_lt; lra).
  split; [|split].
  - intros z Hz. apply nodim_ok; auto; [lra|]. destruct (Req_dec z 0) as [->|Nz]; [now rewrite F0|rewrite F1; lra].
  - exact J.
  - intros C. destruct (C (log10 3) L3) as (d & Pd & Hd). set (z := Rmin (1/2) (d / 2)).
    assert (Hz : 0 < z <= 1/2 /\ z <= d / 2) by (unfold z, Rmin; destruct Rle_dec; lra).
    specialize (Hd z). simpl in Hd. unfold R_dist in Hd. rewrite J in Hd by lra.
    match type of Hd with _ -> Rabs ?e < _ => replace e with (2.5 * log10 3) in Hd by ring end.
    rewrite (Rabs_pos_eq (2.5 * _)) in Hd by lra.
    assert (2.5 * log10 3 < log10 3); [|lra]. apply Hd. split; [split; [exact I|lra]|]. rewrite Rabs_pos_eq; lra.
Qed.
