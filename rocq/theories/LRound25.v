(** * Cosmological distances and observed magnitudes in rounded arithmetic: the public statements *)
From Coq Require Import Reals List Arith Lra Lia ZArith Bool.
From Coquelicot Require Import Coquelicot.
From Flocq Require Import Core.Raux.
From Verif Require Import Num Arr MUtils MSed MCosmo MPhot Float Spec SpecFloat SpecFloat2 RList LBcast LUtils LFloat LFloat2 LFloat10 LRound1 LRound2 LRound3 LRound6 LRound14 LRound15 LRound16 LRound17 LRound18 LRound19 LRound21 LRound22 LRound23 LRound24 LCosmo LPhot LImf.
Import ListNotations.
Open Scope R_scope.

Lemma npos_pub {AR : Arith} u (H : rel_err AR u) k k' v X : npos u k v X -> 0 <= k <= 3000 -> 1.002 * k <= k' -> exists d, v = Fin d /\ 0 < X /\ Rabs (d - X) <= k' * u * X.
Proof.
  intros (x & -> & R & L) K K'. pose proof (upos u H) as U. assert (S : k * u <= / 900) by (apply Rle_trans with (3000 * / (4 * 10 ^ 6)); [apply Rmult_le_compat; lra|simpl; lra]). pose proof L as (_ & X0 & _).
  exists x. split; auto. split; auto. pose proof (lre_diff u H _ _ _ L S ltac:(lra)) as D. eapply Rle_trans; [exact D|]. apply Rmult_le_compat_r; [lra|]. apply Rmult_le_compat_r; lra.
Qed.
Lemma e37 : exp 37 <= 1.5 * 10 ^ 17.
Proof.
  assert (E8 : exp (1/8) <= 8/7). { pose proof (exp_ge1 (- (1/8))) as E. rewrite exp_Ropp in E. pose proof (exp_pos (1/8)) as P. apply Rmult_le_reg_r with (/ exp (1/8)); [now apply Rinv_0_lt_compat|]. rewrite Rinv_r by lra. lra. }
  assert (E1 : exp 1 <= 2.911). { replace 1 with (INR 8 * (1/8)) by (simpl; lra). rewrite exp_mult_nat. apply Rle_trans with ((8/7) ^ 8); [apply pow_incr; split; [apply Rlt_le, exp_pos|auto]|simpl; lra]. }
  replace 37 with (INR 37 * 1) by (rewrite INR_IZR_INZ; simpl; lra). rewrite exp_mult_nat. apply Rle_trans with (2.911 ^ 37); [apply pow_incr; split; [apply Rlt_le, exp_pos|auto]|]. simpl; lra.
Qed.
Lemma de_range2 w0 wa x : Rabs w0 <= 2 -> Rabs wa <= 1 -> 0 <= x <= 20 -> 0 < dark_energy w0 wa x <= 1.5 * 10 ^ 17.
Proof.
  intros W0 Wa X. split; [apply de_pos|]. unfold dark_energy, Rpower. rewrite <- exp_plus. pose proof (ln21 (1 + x) ltac:(lra)) as L. set (l := ln (1 + x)) in *. clearbody l. apply Rabs_le_inv in W0. apply Rabs_le_inv in Wa.
  assert (Q : 0 <= x / (1 + x) <= 1). { split; [apply Rmult_le_pos; [lra|apply Rlt_le, Rinv_0_lt_compat; lra]|]. apply Rmult_le_reg_r with (1 + x); [lra|]. unfold Rdiv. rewrite Rmult_assoc, Rinv_l by lra. lra. }
  set (q := x / (1 + x)) in *. clearbody q. eapply Rle_trans; [|exact e37]. apply exp_mono. 
  assert (A : (1 + w0 + wa) * l <= (3 + wa) * 3.06). { apply Rle_trans with ((3 + wa) * l); [apply Rmult_le_compat_r; lra|apply Rmult_le_compat_l; lra]. }
  assert (B : - (wa * q) <= 1 - wa * (if Rle_dec 0 wa then 0 else 1) - (if Rle_dec 0 wa then 1 else 1)). { destruct (Rle_dec 0 wa); [assert (0 <= wa * q) by (apply Rmult_le_pos; lra); lra|]. assert (- wa * q <= - wa * 1) by (apply Rmult_le_compat_l; lra). lra. }
  destruct (Rle_dec 0 wa); lra.
Qed.
Lemma E_range2 Om0 w0 wa x : / 1000 <= Om0 <= 999 / 1000 -> Rabs w0 <= 2 -> Rabs wa <= 1 -> 0 <= x <= 20 -> / 100 <= expansion Om0 w0 wa x <= 4 * 10 ^ 8.
Proof.
  intros HO W0 Wa X. split; [apply E_range; auto|]. pose proof (de_range2 w0 wa x W0 Wa X) as D. unfold expansion. rewrite <- (sqrt_pow2 (4 * 10 ^ 8)) by (simpl; lra). apply sqrt_le_1_alt.
  assert (T : (1 + x) ^ 3 <= 21 ^ 3) by (apply pow_incr; lra). assert (T0 : 0 <= (1 + x) ^ 3) by (apply pow_le; lra). set (t := (1 + x) ^ 3) in *. clearbody t. set (dd := dark_energy w0 wa x) in *. clearbody dd.
  assert (A : Om0 * t <= 1 * 21 ^ 3) by (apply Rmult_le_compat; lra). assert (B : (1 - Om0) * dd <= 1 * (1.5 * 10 ^ 17)) by (apply Rmult_le_compat; lra). simpl in *. lra.
Qed.
Section F.
Context {AR : Arith} (u : R) (H : rel_err AR u).
Notation G := (re_good _ _ H).
Notation lre := (lre u).
Notation npos := (npos (AR := AR) u).
Notation near := (near (AR := AR) u).
Section C.
Variables (z Om0 w0 wa h : R).
Hypothesis RC : rounding_cosmology (AR := AR) z Om0 w0 wa h.
Lemma f2_range x : 0 <= x <= 20 -> / 10 ^ 10 <= f2 Om0 w0 wa x <= 100.
Proof.
  intros X. destruct (RC' z Om0 w0 wa h RC) as (Rz & RO & R0 & Ra & Rh & Z & HO & W0 & Wa & Hh). pose proof (E_range2 Om0 w0 wa x HO W0 Wa X) as SR.
  assert (D1 : 1 / (4 * 10 ^ 8) <= 1 / expansion Om0 w0 wa x <= 1 / / 100) by (apply div_range; lra). assert (D2 : 1 / (4 * 10 ^ 8) / 21 <= 1 / expansion Om0 w0 wa x / (1 + x) <= 1 / / 100 / 1) by (apply div_range; try lra; simpl; lra).
  unfold f2. simpl in *. lra.
Qed.
Lemma f2_err x x' : 0 <= x <= 20 -> rnd x' = Fin x' -> Rabs (x' - x) <= 2.05 * u * x ->
  npos 101.2 (Fin 1 / Ez (Fin x') (Fin Om0) (Fin w0) (Fin wa) / (Fin 1 + Fin x'))%num (f2 Om0 w0 wa x).
Proof.
  intros X Rx Bx. destruct (RC' z Om0 w0 wa h RC) as (Rz & RO & R0 & Ra & Rh & Z & HO & W0 & Wa & Hh). pose proof (f2_range x X) as FR.
  destruct (f1_err u H x x' Om0 w0 wa RO HO R0 Ra W0 Wa X Rx Bx) as (F & _). destruct (de_err u H x x' w0 wa R0 Ra W0 Wa X Rx Bx) as (Z1 & _).
  apply (npos_weaken u H) with (97 + 3.1 + 1.02); [|lra]. change (f2 Om0 w0 wa x) with (f1 Om0 w0 wa x / (1 + x)) in *. apply npos_div; auto; [lra|]. apply range16. simpl in *. lra.
Qed.
Lemma tH_err : npos 103 (hubble_time (Fin 0) (Fin Om0) (Fin w0) (Fin wa) (Fin h)) (tH h) /\ / 2 <= tH h <= 1000.
Proof.
  destruct (RC' z Om0 w0 wa h RC) as (Rz & RO & R0 & Ra & Rh & Z & HO & W0 & Wa & Hh).
  assert (E : npos 95 (Ez (Fin 0) (Fin Om0) (Fin w0) (Fin wa)) 1). { rewrite <- (E_0 Om0 w0 wa). apply Ez_err; auto; [lra|apply (rnd0 G)|rewrite Rminus_diag_eq, Rabs_R0 by auto; lra]. }
  unfold hubble_time. cbv zeta. set (e := Ez _ _ _ _) in *. clearbody e. unfold MPC, YEAR.
  assert (B : npos 1.02 (lit (1 / 10 ^ 16 * (3.08567758149 * 10 ^ 24) / 31556925.2)) (1 / 10 ^ 16 * (3.08567758149 * 10 ^ 24) / 31556925.2)).
  { apply npos_lit; auto; apply range16; simpl; lra. }
  assert (TR : 9 / 10 <= tH h <= 10 / (1 / 10)) by (unfold tH; apply div_range; try lra; simpl; lra).
  split; [|lra]. replace (tH h) with (tH h / 1) by lra. apply (npos_weaken u H) with ((1.02 + 0 + 1.02) + 95 + 1.02); [|lra]. apply npos_div; auto; [|lra|apply range16; simpl; lra].
  unfold tH in *. apply npos_div; auto; [apply npos_machine; auto; lra|lra|apply range16; simpl in *; lra].
Qed.
Lemma look_err : npos 2870 (lookback_to_z (Fin z) (Fin Om0) (Fin w0) (Fin wa) (Fin h)) (look Om0 w0 wa h z) /\ 0 < look Om0 w0 wa h z <= 10 ^ 7.
Proof.
  destruct (RC' z Om0 w0 wa h RC) as (Rz & RO & R0 & Ra & Rh & Z & HO & W0 & Wa & Hh). destruct tH_err as (T & TR). assert (Z0 : 0 < z) by (simpl in Z; lra).
  assert (Q : npos 2764 (let zt := linspace (Fin 0) (Fin z) 512 in trapz_k zt (map (fun x => Fin 1 / Ez x (Fin Om0) (Fin w0) (Fin wa) / (Fin 1 + x))%num zt)) (quad 512 (f2 Om0 w0 wa) z)).
  { apply (npos_weaken u H) with (5.2 * INR (512 - 1) + 101.2 + 5).
    - apply (quad_err u H 512 z _ (f2 Om0 w0 wa) 101.2 (/ 10 ^ 10) 100); auto; try lia; try lra.
      intros x x' Hx Rx Bx. split; [apply f2_err; auto; lra|apply f2_range; lra].
    - replace (INR (512 - 1)) with 511 by (rewrite INR_IZR_INZ; reflexivity). lra. }
  assert (QR : / 10 ^ 16 <= quad 512 (f2 Om0 w0 wa) z <= 2000).
  { destruct (quad_bounds 512 (f2 Om0 w0 wa) z (/ 10 ^ 10) 100 ltac:(lia) ltac:(lra)) as [A B]; [intros x Hx; apply f2_range; lra|].
    replace (/ 10 ^ 16) with (/ 10 ^ 10 * / 10 ^ 6) by (rewrite <- Rinv_mult, <- pow_add; reflexivity). split; [eapply Rle_trans; [|exact A]; apply Rmult_le_compat_l; [apply Rlt_le, Rinv_0_lt_compat, pow_lt; lra|apply Z]|lra]. }
  unfold lookback_to_z. cbv zeta in Q |- *. set (v := trapz_k _ _) in *. clearbody v. set (w := hubble_time _ _ _ _ _) in *. clearbody w. unfold look.
  assert (LR : / 2 * / 10 ^ 16 <= tH h * quad 512 (f2 Om0 w0 wa) z <= 1000 * 2000) by (apply mul_range; auto; try lra; apply Rinv_0_lt_compat, pow_lt; lra).
  split; [|simpl in *; lra]. apply (npos_weaken u H) with (103 + 2764 + 1.02); [|lra]. apply npos_mul; auto; [lra|]. pose proof (p16 36 ltac:(lia)). simpl in *. lra.
Qed.
End C.
End F.

Lemma RC_om {AR : Arith} z Om0 w0 wa h : rounding_cosmology (AR := AR) z Om0 w0 wa h -> 0 < z /\ -1 < z /\ 0 < Om0 <= 1 /\ h <> 0 /\ 0 < h.
Proof. intros RC. destruct (RC' z Om0 w0 wa h RC) as (Rz & RO & R0 & Ra & Rh & Z & HO & W0 & Wa & Hh). simpl in Z. repeat split; lra. Qed.
Lemma C139_distance_lemma : forall AR u, accurate_to AR u -> forall z Om0 w0 wa h, rounding_cosmology (AR := AR) z Om0 w0 wa h ->
  exists d d0 l l0 a a0,
    comoving_distance_to_z (AR := AR) (Fin z) (Fin Om0) (Fin w0) (Fin wa) (Fin h) = Fin d
    /\ comoving_distance_to_z (AR := exact) (Fin z) (Fin Om0) (Fin w0) (Fin wa) (Fin h) = Fin d0
    /\ 0 < d0 /\ Rabs (d - d0) <= 1440 * u * d0
    /\ luminosity_distance_to_z (AR := AR) (Fin z) (Fin Om0) (Fin w0) (Fin wa) (Fin h) = Fin l
    /\ luminosity_distance_to_z (AR := exact) (Fin z) (Fin Om0) (Fin w0) (Fin wa) (Fin h) = Fin l0
    /\ 0 < l0 /\ Rabs (l - l0) <= 1440 * u * l0
    /\ angular_diameter_distance_to_z (AR := AR) (Fin z) (Fin Om0) (Fin w0) (Fin wa) (Fin h) = Fin a
    /\ angular_diameter_distance_to_z (AR := exact) (Fin z) (Fin Om0) (Fin w0) (Fin wa) (Fin h) = Fin a0
    /\ 0 < a0 /\ Rabs (a - a0) <= 1440 * u * a0.
Proof.
  intros AR u U z Om0 w0 wa h RC. pose proof (rel_err_unit _ _ U) as H. destruct (RC_om _ _ _ _ _ RC) as (Z0 & Z1 & HO & Hh & _).
  destruct (npos_pub u H _ 1440 _ _ (proj1 (dc_err u H _ _ _ _ _ RC)) ltac:(lra) ltac:(lra)) as (d & Ed & Pd & Dd).
  destruct (npos_pub u H _ 1440 _ _ (proj1 (dl_err u H _ _ _ _ _ RC)) ltac:(lra) ltac:(lra)) as (l & El & Pl & Dl).
  destruct (npos_pub u H _ 1440 _ _ (da_err u H _ _ _ _ _ RC) ltac:(lra) ltac:(lra)) as (a & Ea & Pa & Da).
  exists d, (dc Om0 w0 wa h z), l, (dc Om0 w0 wa h z * (1 + z)), a, (dc Om0 w0 wa h z / (1 + z)).
  split; [exact Ed|]. split; [now apply dc_fin|]. split; [exact Pd|]. split; [exact Dd|]. split; [exact El|]. split; [now apply dl_fin|]. split; [exact Pl|]. split; [exact Dl|]. split; [exact Ea|]. split; [now apply da_fin|]. split; [exact Pa|exact Da].
Qed.
Lemma C139_modulus_lemma : forall AR u, accurate_to AR u -> forall z Om0 w0 wa h, rounding_cosmology (AR := AR) z Om0 w0 wa h ->
  exists m m0, distance_modulus_to_z (AR := AR) (Fin z) (Fin Om0) (Fin w0) (Fin wa) (Fin h) = Fin m
    /\ distance_modulus_to_z (AR := exact) (Fin z) (Fin Om0) (Fin w0) (Fin wa) (Fin h) = Fin m0
    /\ Rabs (m - m0) <= 3800 * u.
Proof.
  intros AR u U z Om0 w0 wa h RC. pose proof (rel_err_unit _ _ U) as H. destruct (RC_om _ _ _ _ _ RC) as (Z0 & Z1 & HO & Hh & _). pose proof (upos u H) as Up.
  destruct (dmod_err u H _ _ _ _ _ RC) as (m & E & _ & D & _). destruct (dl_err u H _ _ _ _ _ RC) as (_ & B). exists m, (5 * log10 (dc Om0 w0 wa h z * (1 + z) * 10 ^ 5)). split; [exact E|]. split.
  - unfold distance_modulus_to_z. rewrite dl_fin by auto. cbv zeta. rewrite nmul_fin, nlog10_fin, nmul_fin; [reflexivity|]. apply Rmult_lt_0_compat; [|apply pow_lt; lra]. eapply Rlt_le_trans; [|apply B]. apply Rinv_0_lt_compat, pow_lt; lra.
  - eapply Rle_trans; [exact D|]. lra.
Qed.
Lemma C139_lookback_lemma : forall AR u, accurate_to AR u -> forall z Om0 w0 wa h, rounding_cosmology (AR := AR) z Om0 w0 wa h ->
  exists t t0, lookback_to_z (AR := AR) (Fin z) (Fin Om0) (Fin w0) (Fin wa) (Fin h) = Fin t
    /\ lookback_to_z (AR := exact) (Fin z) (Fin Om0) (Fin w0) (Fin wa) (Fin h) = Fin t0
    /\ 0 < t0 /\ Rabs (t - t0) <= 2900 * u * t0.
Proof.
  intros AR u U z Om0 w0 wa h RC. pose proof (rel_err_unit _ _ U) as H. destruct (RC_om _ _ _ _ _ RC) as (Z0 & Z1 & HO & Hh & _).
  destruct (npos_pub u H _ 2900 _ _ (proj1 (look_err u H _ _ _ _ _ RC)) ltac:(lra) ltac:(lra)) as (d & Ed & Pd & Dd).
  exists d, (look Om0 w0 wa h z). split; [exact Ed|]. split; [now apply lookback_fin|]. split; [exact Pd|exact Dd].
Qed.
Lemma C140_lemma : forall AR u, accurate_to AR u -> forall B Res ws ls wf tf z Om0 w0 wa h kappa, rounding_spectrum (AR := AR) B ws ls -> rounding_filter (AR := AR) wf tf ->
  rounding_resolution Res ws -> rounding_cosmology (AR := AR) z Om0 w0 wa h -> inside_spectrum ws wf z -> 1 / 10 ^ 18 <= B * band_integral (fun _ => 1) wf tf ->
  0 < kappa -> B <= kappa * (ab0 * band_flux (fun x => spectrum_at ws ls (x / (1 + z))) wf tf) -> 3 * (INR (length wf) + 5 * Res + 25) * u * kappa <= 1 / 1000 ->
  exists m m0, calc_obs_mag (AR := AR) (fins ws) (fins ls) (fins wf) (fins tf) (Fin z) (Fin Om0) (Fin w0) (Fin wa) (Fin h) = Ok (Fin m)
    /\ calc_obs_mag (AR := exact) (fins ws) (fins ls) (fins wf) (fins tf) (Fin z) (Fin Om0) (Fin w0) (Fin wa) (Fin h) = Ok (Fin m0)
    /\ Rabs (m - m0) <= 4 * (INR (length wf) + 5 * Res + 70) * u * kappa + 4200 * u.
Proof.
  intros AR u U B Res ws ls wf tf z Om0 w0 wa h kap RS RF RR RC INS HBI K0 HK SM. pose proof (rel_err_unit _ _ U) as H. destruct (RC_om _ _ _ _ _ RC) as (Z0 & Z1 & HO & Hh & H0). pose proof (upos u H) as Up.
  destruct (RC' z Om0 w0 wa h RC) as (Rz & _ & _ & _ & _ & Z & _).
  destruct (obs_main AR u U B Res ws ls wf tf z kap RS RF RR Rz ltac:(lra) INS HBI K0 HK SM) as (m & EK & Rm & E & F0 & A & LR & K1).
  destruct (spectrum_split _ _ _ RS) as (_ & _ & GS). destruct (filter_split _ _ RF) as (FB & _ & GF).
  destruct (dim_err u H _ _ _ _ _ RC) as (d & Ed & Rd & Dd & Md). set (f0 := band_flux (zspec ws ls z) wf tf) in *. set (D0 := 5 * log10 _ - _) in *.
  set (N := INR (length wf)) in *. assert (N1 : 0 <= N) by apply pos_INR. pose proof RR as (HR & _).
  assert (AB : Rabs (m - -2.5 * log10 f0) <= 1). { eapply Rle_trans; [exact A|]. assert (0 <= u * kap) by (apply Rmult_le_pos; lra). assert (N * (u * kap) >= 0) by (apply Rle_ge, Rmult_le_pos; lra). assert (0 <= Res * (u * kap)) by (apply Rmult_le_pos; lra). replace (4 * (N + 5 * Res + 70) * u * kap) with (4 * (N * (u * kap)) + 20 * (Res * (u * kap)) + 280 * (u * kap)) by ring. replace (3 * (N + 5 * Res + 25) * u * kap) with (3 * (N * (u * kap)) + 15 * (Res * (u * kap)) + 75 * (u * kap)) in SM by ring. lra. }
  set (eA := 4 * (N + 5 * Res + 70) * u * kap) in *.
  assert (DB : Rabs (d - D0) <= 3920 * / (4 * 10 ^ 6)). { eapply Rle_trans; [exact Dd|]. apply Rmult_le_compat_l; lra. } 
  assert (SB : Rabs (m + d) <= 200). { apply Rabs_le_inv in AB. apply Rabs_le_inv in Md. apply Rabs_le_inv in DB. simpl in DB. apply Rabs_le. lra. }
  destruct (rnd_err_B u H (m + d) 200 SB) as (s & Es & As). { split; [lra|]. apply Rle_trans with (10 ^ 3); [simpl; lra|apply Rle_pow; [lra|lia]]. }
  destruct (dl_err u H _ _ _ _ _ RC) as (_ & DLB).
  exists s, (-2.5 * log10 f0 + D0). split; [|split].
  - unfold calc_obs_mag. rewrite stretch_same by (rewrite !fins_length; symmetry; apply GF). rewrite (check_spec_gen (AR := AR)); rewrite ?fins_length; [|destruct ws; [destruct GS as (_ & _ & N'); congruence|discriminate]|destruct GS as (_ & L & _); auto|apply GF].
    change (calc_obs_mag_k (AR := AR) (fins ws) (fins ls) (fins wf) (fins tf) (Fin z) (Fin Om0) (Fin w0) (Fin wa) (Fin h))
      with (nadd (calc_obs_mag_no_dimming_k (AR := AR) (fins ws) (fins ls) (fins wf) (fins tf) (Fin z)) (cosmological_dimming (AR := AR) (Fin z) (Fin Om0) (Fin w0) (Fin wa) (Fin h))).
    rewrite EK, Ed. cbn [nadd]. now rewrite Es.
  - destruct (obs_ok ws ls wf tf z Om0 w0 wa h GS GF Z0 HO H0 F0) as (mu & Emu & ->). fold f0. assert (Em : Fin mu = Fin (5 * log10 (dc Om0 w0 wa h z * (1 + z) * 10 ^ 5))).
    { rewrite <- Emu. unfold distance_modulus_to_z. rewrite dl_fin by auto. cbv zeta. rewrite nmul_fin, nlog10_fin, nmul_fin; [reflexivity|]. apply Rmult_lt_0_compat; [|apply pow_lt; lra]. eapply Rlt_le_trans; [|apply DLB]. apply Rinv_0_lt_compat, pow_lt; lra. }
    assert (Em2 : mu = 5 * log10 (dc Om0 w0 wa h z * (1 + z) * 10 ^ 5)) by congruence. rewrite Em2. f_equal. f_equal. unfold D0. ring.
  - replace (s - (-2.5 * log10 f0 + D0)) with ((s - (m + d)) + (m - -2.5 * log10 f0) + (d - D0)) by ring. destruct As as (As & _). apply Rabs_le_inv in As. apply Rabs_le_inv in A. apply Rabs_le_inv in Dd. apply Rabs_le. lra.
Qed.
