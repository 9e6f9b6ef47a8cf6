(** * From the star formation history to the magnitude in rounded arithmetic *)
From Coq Require Import Reals List Arith Lra Lia ZArith Bool.
From Coquelicot Require Import Coquelicot.
From Flocq Require Import Core.Raux.
From Verif Require Import Num Arr MUtils MSed MCosmo MPhot Float Spec SpecFloat SpecFloat2 SpecFloat5 RList LUtils LFloat LFloat2 LFloat10 LRound1 LRound2 LRound3 LRound12 LRound17 LRound19 LRound21 LRound22 LRound23 LRound24 LRound25 LCosmo LCosmo4 LPhot LImf.
Import ListNotations.
Open Scope R_scope.

Lemma in_le_Rsum ys : List.Forall (fun y => 0 <= y) ys -> forall y, In y ys -> y <= Rsum ys.
Proof.
  induction ys as [|a ys IH]; intros F y [].
  - subst. inversion F; subst. cbn [Rsum fold_right]. assert (0 <= Rsum ys). { clear - H2. induction ys; [unfold Rsum; simpl; lra|]. inversion H2; subst. specialize (IHys H3). unfold Rsum in *. simpl. lra. } unfold Rsum in *. simpl. lra.
  - inversion F; subst. specialize (IH H3 y H). unfold Rsum in *. simpl. lra.
Qed.
Lemma spectrum_nonneg ws ls x : increasing ws -> length ws = length ls -> ws <> [] -> (forall k, (k < length ls)%nat -> 0 <= ent ls k) -> 0 <= spectrum_at ws ls x.
Proof.
  intros I L N P. unfold spectrum_at. destruct (Rlt_dec _ _); [lra|]. destruct (Rlt_dec _ _); [lra|].
  assert (F : List.Forall (fun y => 0 <= y) ls) by now apply Forall_ent.
  apply (pwlin_range ws ls x I L N 0 (Rsum ls)). apply List.Forall_forall. intros y Hy. split; [now rewrite List.Forall_forall in F; apply F|now apply in_le_Rsum].
Qed.
Lemma ent_map2_lin a b l l' k : length l = length l' -> (k < length l)%nat -> ent (map2 (fun y z => a * y + b * z) l l') k = a * ent l k + b * ent l' k.
Proof.
  revert l' k. induction l as [|y l IH]; intros [|y' l'] k L K; simpl in *; try lia. destruct k as [|k]; [reflexivity|]. apply (IH l' k); lia.
Qed.
Lemma spectrum_close ws ls ls0 eps x : good_spectrum ws ls0 -> relatively_close eps ls ls0 ->
  Rabs (spectrum_at ws ls x - spectrum_at ws ls0 x) <= eps * spectrum_at ws ls0 x.
Proof.
  intros (I & L & N) (L' & C). assert (L2 : length ws = length ls) by lia.
  pose proof (spectrum_linear ws ls0 ls (1 + eps) (-1) x L L2) as E1. pose proof (spectrum_linear ws ls0 ls (eps - 1) 1 x L L2) as E2.
  assert (A1 : 0 <= spectrum_at ws (map2 (fun y z => (1 + eps) * y + (-1) * z) ls0 ls) x).
  { apply spectrum_nonneg; auto; [rewrite map2_length; lia|]. rewrite map2_length. intros k K. rewrite ent_map2_lin by lia. specialize (C k ltac:(lia)). apply Rabs_le_inv in C. lra. }
  assert (A2 : 0 <= spectrum_at ws (map2 (fun y z => (eps - 1) * y + 1 * z) ls0 ls) x).
  { apply spectrum_nonneg; auto; [rewrite map2_length; lia|]. rewrite map2_length. intros k K. rewrite ent_map2_lin by lia. specialize (C k ltac:(lia)). apply Rabs_le_inv in C. lra. }
  apply Rabs_le. lra.
Qed.
(** the flux through a filter inherits the relative error *)
Lemma flux_close (S S0 : R -> R) eps wf tf : length wf = length tf -> increasing wf -> List.Forall (fun w => 0 < w) wf -> List.Forall (fun t => 0 <= t) tf ->
  0 < band_integral (fun _ => ab0) wf tf -> (forall x, Rabs (S x - S0 x) <= eps * S0 x) -> Rabs (band_flux S wf tf - band_flux S0 wf tf) <= eps * band_flux S0 wf tf.
Proof.
  intros L I P T D C. unfold band_flux. set (d := band_integral (fun _ => ab0) wf tf) in *.
  assert (U : band_integral S wf tf <= (1 + eps) * band_integral S0 wf tf). { rewrite <- band_scal. apply band_mono; auto. intros x _. specialize (C x). apply Rabs_le_inv in C. lra. }
  assert (V : (1 - eps) * band_integral S0 wf tf <= band_integral S wf tf). { rewrite <- band_scal. apply band_mono; auto. intros x _. specialize (C x). apply Rabs_le_inv in C. lra. }
  replace (band_integral S wf tf / d - band_integral S0 wf tf / d) with ((band_integral S wf tf - band_integral S0 wf tf) * / d) by (field; lra).
  rewrite Rabs_mult, (Rabs_right (/ d)) by (apply Rle_ge, Rlt_le, Rinv_0_lt_compat; lra).
  replace (eps * (band_integral S0 wf tf / d)) with (eps * band_integral S0 wf tf * / d) by (field; lra).
  apply Rmult_le_compat_r; [apply Rlt_le, Rinv_0_lt_compat; lra|]. apply Rabs_le. lra.
Qed.
Lemma mag_close f f0 eps : 0 < f0 -> 0 <= eps <= 1/100 -> Rabs (f - f0) <= eps * f0 -> 0 < f /\ Rabs (-2.5 * log10 f - -2.5 * log10 f0) <= 1.3 * eps.
Proof.
  intros F E C. assert (Fp : 0 < f). { apply Rabs_le_inv in C. assert (eps * f0 <= 1/100 * f0) by (apply Rmult_le_compat_r; lra). lra. } split; auto.
  pose proof (ln_close f f0 eps Fp F ltac:(lra) C) as A. unfold log10. pose proof ln10_ge as L.
  assert (Q : eps / (1 - eps) <= 1.02 * eps). { apply Rmult_le_reg_r with (1 - eps); [lra|]. unfold Rdiv. rewrite Rmult_assoc, Rinv_l by lra. assert (0 <= eps * (0.02 - 1.02 * eps)) by (apply Rmult_le_pos; lra). lra. }
  replace (-2.5 * (ln f / ln 10) - -2.5 * (ln f0 / ln 10)) with (-2.5 * (ln f - ln f0) * / ln 10) by (field; lra).
  rewrite Rabs_mult, (Rabs_mult (-2.5)), (Rabs_left (-2.5)), (Rabs_right (/ ln 10)) by (try lra; apply Rle_ge, Rlt_le, Rinv_0_lt_compat; lra).
  assert (I : / ln 10 <= / 2) by (apply Rinv_le_contravar; lra). assert (0 < / ln 10) by (apply Rinv_0_lt_compat; lra).
  pose proof (Rabs_pos (ln f - ln f0)). set (a := Rabs _) in *. clearbody a. apply Rle_trans with (- -2.5 * (1.02 * eps) * / 2); [|lra].
  apply Rmult_le_compat; try lra.
Qed.

(** the float spectrum meets the hypotheses of C135 and C140 *)
Lemma sed_spectrum {AR : Arith} B eps ws sed sed0 : rounding_wavelengths ws -> / 10 ^ 20 <= B <= 10 ^ 19 -> 0 <= eps <= 1/100 -> length ws = length sed0 ->
  relatively_close eps sed sed0 -> (forall k, (k < length sed0)%nat -> 0 <= ent sed0 k <= B) -> (forall k, (k < length sed)%nat -> rnd (ent sed k) = Fin (ent sed k)) ->
  rounding_spectrum (1.01 * B) ws sed /\ good_spectrum ws sed0.
Proof.
  intros (N & W & GP) HB He L (L' & C) P0 RM. assert (RS : rounding_spectrum (1.01 * B) ws sed).
  { split; auto. split; [lia|]. split; auto. split; auto. split; [|split; [lra|apply Rle_trans with (1.01 * 10 ^ 19); [lra|simpl; lra]]].
    intros i Hi. split; [apply RM; lia|]. specialize (C i ltac:(lia)). specialize (P0 i ltac:(lia)). apply Rabs_le_inv in C.
    assert (0 <= eps * ent sed0 i) by (apply Rmult_le_pos; lra). assert (eps * ent sed0 i <= 1/100 * ent sed0 i) by (apply Rmult_le_compat_r; lra). lra. }
  split; auto. destruct RS as (_ & L2 & RS). assert (GS : good_spectrum ws sed).
  { assert (HR : rounding_spectrum (1.01 * B) ws sed) by (split; auto). now destruct (spectrum_split _ _ _ HR) as (_ & _ & G). }
  destruct GS as (I & _ & _). split; auto.
Qed.
Section X.
Context {AR : Arith} (u : R) (U : accurate_to AR u).
Let H := rel_err_unit _ _ U.
Lemma rest_transfer B eps ws sed sed0 wf tf kap : rounding_wavelengths ws -> / 10 ^ 20 <= B <= 10 ^ 19 -> 0 <= eps <= 1/100 -> length ws = length sed0 ->
  relatively_close eps sed sed0 -> (forall k, (k < length sed0)%nat -> 0 <= ent sed0 k <= B) -> (forall k, (k < length sed)%nat -> rnd (ent sed k) = Fin (ent sed k)) ->
  rounding_filter wf tf -> 1 / 10 ^ 18 <= B * band_integral (fun _ => 1) wf tf ->
  0 < kap -> B <= kap * (ab0 * band_flux (spectrum_at ws sed0) wf tf) -> 3 * (INR (length wf) + 25) * u * kap <= 1 / 110 ->
  exists m m0, calc_rest_mag (AR := AR) (fins ws) (fins sed) (fins wf) (fins tf) = Ok (Fin m)
    /\ calc_rest_mag (AR := exact) (fins ws) (fins sed0) (fins wf) (fins tf) = Ok (Fin m0)
    /\ Rabs (m - m0) <= 5 * (INR (length wf) + 70) * u * kap + 1.3 * eps.
Proof.
  intros RW HB He L RC P0 RM RF HBI K0 HK SM. destruct (sed_spectrum B eps ws sed sed0 RW HB He L RC P0 RM) as (RS & GS).
  destruct (filter_split _ _ RF) as (FB & HI & GF). pose proof (upos u H) as Up. pose proof ab0_pos as AP. pose proof RF as (I & LF & _ & WF & TF & _).
  assert (FC : Rabs (band_flux (spectrum_at ws sed) wf tf - band_flux (spectrum_at ws sed0) wf tf) <= eps * band_flux (spectrum_at ws sed0) wf tf).
  { apply flux_close; auto; [apply GF| |apply GF|intros x; now apply spectrum_close]. apply Forall_ent. intros i Hi. destruct (TF i Hi); lra. }
  set (f0 := band_flux (spectrum_at ws sed0) wf tf) in *. set (f := band_flux (spectrum_at ws sed) wf tf) in *. assert (Bp : 0 < B). { eapply Rlt_le_trans; [|apply HB]. apply Rinv_0_lt_compat, pow_lt; lra. }
  assert (F0 : 0 < f0). { apply Rmult_lt_reg_l with (kap * ab0); [apply Rmult_lt_0_compat; lra|]. lra. }
  destruct (mag_close f f0 eps F0 He FC) as (Fp & MC). apply Rabs_le_inv in FC. assert (EF : eps * f0 <= 1/100 * f0) by (apply Rmult_le_compat_r; lra).
  set (N := INR (length wf)) in *. assert (N0 : 0 <= N) by apply pos_INR.
  destruct (C135_mag_lemma AR u U (1.01 * B) ws sed wf tf (1.03 * kap) RS RF) as (m & m1 & Em & Em1 & D).
  - lra.
  - lra.
  - fold f. apply Rle_trans with (1.01 * (kap * (ab0 * f0))); [lra|]. replace (1.01 * (kap * (ab0 * f0))) with ((kap * ab0) * (1.01 * f0)) by ring. replace (1.03 * kap * (ab0 * f)) with ((kap * ab0) * (1.03 * f)) by ring. apply Rmult_le_compat_l; [apply Rmult_le_pos; lra|lra].
  - fold N. replace (3 * (N + 25) * u * (1.03 * kap)) with (1.03 * (3 * (N + 25) * u * kap)) by ring. lra.
  - exists m, (-2.5 * log10 f0). split; auto. split; [now apply mag_ok|]. fold N in D.
    assert (GS' : good_spectrum ws sed) by (destruct (spectrum_split _ _ _ RS) as (_ & _ & G); exact G). pose proof (mag_ok ws sed wf tf GS' GF Fp) as E'. rewrite E' in Em1. injection Em1 as <-. fold f in D.
    replace (4 * (N + 70) * u * (1.03 * kap)) with (4.12 * ((N + 70) * (u * kap))) in D by lra. assert (0 <= (N + 70) * (u * kap)) by (apply Rmult_le_pos; [lra|apply Rmult_le_pos; lra]).
    replace (5 * (N + 70) * u * kap) with (5 * ((N + 70) * (u * kap))) by ring. apply Rabs_le_inv in D. apply Rabs_le_inv in MC. apply Rabs_le. lra.
Qed.
Lemma obs_transfer B Res eps ws sed sed0 wf tf z Om0 w0 wa h kap : rounding_wavelengths ws -> / 10 ^ 20 <= B <= 10 ^ 19 -> 0 <= eps <= 1/100 -> length ws = length sed0 ->
  relatively_close eps sed sed0 -> (forall k, (k < length sed0)%nat -> 0 <= ent sed0 k <= B) -> (forall k, (k < length sed)%nat -> rnd (ent sed k) = Fin (ent sed k)) ->
  rounding_filter wf tf -> rounding_resolution Res ws -> rounding_cosmology z Om0 w0 wa h -> inside_spectrum ws wf z -> 1 / 10 ^ 18 <= B * band_integral (fun _ => 1) wf tf ->
  0 < kap -> B <= kap * (ab0 * band_flux (fun x => spectrum_at ws sed0 (x / (1 + z))) wf tf) -> 3 * (INR (length wf) + 5 * Res + 25) * u * kap <= 1 / 1100 ->
  exists m m0, calc_obs_mag (AR := AR) (fins ws) (fins sed) (fins wf) (fins tf) (Fin z) (Fin Om0) (Fin w0) (Fin wa) (Fin h) = Ok (Fin m)
    /\ calc_obs_mag (AR := exact) (fins ws) (fins sed0) (fins wf) (fins tf) (Fin z) (Fin Om0) (Fin w0) (Fin wa) (Fin h) = Ok (Fin m0)
    /\ Rabs (m - m0) <= 5 * (INR (length wf) + 5 * Res + 70) * u * kap + 4200 * u + 1.3 * eps.
Proof.
  intros RW HB He L RC P0 RM RF RR CO INS HBI K0 HK SM. destruct (sed_spectrum B eps ws sed sed0 RW HB He L RC P0 RM) as (RS & GS).
  destruct (filter_split _ _ RF) as (FB & HI & GF). pose proof (upos u H) as Up. pose proof ab0_pos as AP. pose proof RF as (I & LF & _ & WF & TF & _).
  assert (FC : Rabs (band_flux (zspec ws sed z) wf tf - band_flux (zspec ws sed0 z) wf tf) <= eps * band_flux (zspec ws sed0 z) wf tf).
  { apply flux_close; auto; [apply GF| |apply GF|intros x; now apply spectrum_close]. apply Forall_ent. intros i Hi. destruct (TF i Hi); lra. }
  change (band_flux (fun x => spectrum_at ws sed0 (x / (1 + z))) wf tf) with (band_flux (zspec ws sed0 z) wf tf) in HK.
  set (f0 := band_flux (zspec ws sed0 z) wf tf) in *. set (f := band_flux (zspec ws sed z) wf tf) in *. assert (Bp : 0 < B). { eapply Rlt_le_trans; [|apply HB]. apply Rinv_0_lt_compat, pow_lt; lra. }
  assert (F0 : 0 < f0). { apply Rmult_lt_reg_l with (kap * ab0); [apply Rmult_lt_0_compat; lra|]. lra. }
  destruct (mag_close f f0 eps F0 He FC) as (Fp & MC). apply Rabs_le_inv in FC. assert (EF : eps * f0 <= 1/100 * f0) by (apply Rmult_le_compat_r; lra).
  set (N := INR (length wf)) in *. assert (N0 : 0 <= N) by apply pos_INR. pose proof RR as (HR & _). destruct (RC_om _ _ _ _ _ CO) as (Z0 & Z1 & HO & Hh & H0).
  destruct (C140_lemma AR u U (1.01 * B) Res ws sed wf tf z Om0 w0 wa h (1.03 * kap) RS RF RR CO INS) as (m & m1 & Em & Em1 & D).
  - lra.
  - lra.
  - change (band_flux (fun x => spectrum_at ws sed (x / (1 + z))) wf tf) with f. apply Rle_trans with (1.01 * (kap * (ab0 * f0))); [lra|]. replace (1.01 * (kap * (ab0 * f0))) with ((kap * ab0) * (1.01 * f0)) by ring. replace (1.03 * kap * (ab0 * f)) with ((kap * ab0) * (1.03 * f)) by ring. apply Rmult_le_compat_l; [apply Rmult_le_pos; lra|lra].
  - fold N. replace (3 * (N + 5 * Res + 25) * u * (1.03 * kap)) with (1.03 * (3 * (N + 5 * Res + 25) * u * kap)) by ring. lra.
  - destruct (obs_ok ws sed0 wf tf z Om0 w0 wa h GS GF Z0 HO H0 F0) as (mu & Emu & E0).
    assert (GS' : good_spectrum ws sed) by (destruct (spectrum_split _ _ _ RS) as (_ & _ & G); exact G).
    destruct (obs_ok ws sed wf tf z Om0 w0 wa h GS' GF Z0 HO H0 Fp) as (mu' & Emu' & E0'). rewrite Emu in Emu'. injection Emu' as <-.
    rewrite E0' in Em1. injection Em1 as <-. fold f in D. eexists. eexists. split; [exact Em|]. split; [exact E0|]. fold f0. fold N in D.
    replace (4 * (N + 5 * Res + 70) * u * (1.03 * kap)) with (4.12 * ((N + 5 * Res + 70) * (u * kap))) in D by lra. assert (0 <= (N + 5 * Res + 70) * (u * kap)) by (apply Rmult_le_pos; [lra|apply Rmult_le_pos; lra]).
    replace (5 * (N + 5 * Res + 70) * u * kap) with (5 * ((N + 5 * Res + 70) * (u * kap))) by ring. apply Rabs_le_inv in D. apply Rabs_le_inv in MC. apply Rabs_le. lra.
Qed.
End X.
