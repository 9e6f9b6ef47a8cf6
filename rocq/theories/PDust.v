(** * Properties C40-C47, C137: dust (dust/att_curves.py, dust/utils.py).  Exact real arithmetic,
    except C41 which holds in any arithmetic (any rounding) and for any numbers. *)
From Coq Require Import Reals List Arith Lra Lia.
From Verif Require Import Num Arr MUtils MDust Spec RList LDust LDust2 LDust3.
Import ListNotations.
Open Scope R_scope.

(** C40 *)
Theorem C40_transmission_is_a_fraction : exists t : R -> R -> R -> R,
  (forall k av floor, frac_transmission_from_k_lambda (Fin k) (Fin av) (Fin floor) = Fin (t k av floor))
  /\ (forall k av floor, 0 <= floor <= 1 -> floor <= t k av floor <= 1)
  /\ (forall k av floor, 0 <= floor < 1 -> floor < t k av floor)
  /\ (forall k floor, t k 0 floor = 1)
  /\ (forall k av1 av2 floor, 0 <= k -> av1 <= av2 -> 0 <= floor <= 1 -> t k av2 floor <= t k av1 floor)
  /\ (forall k1 k2 av floor, 0 <= av -> k1 <= k2 -> 0 <= floor <= 1 -> t k2 av floor <= t k1 av floor)
  /\ (forall k av1 av2, 0 <= k -> 0 <= av1 -> 0 <= av2 -> t k (av1 + av2) 0 = t k av1 0 * t k av2 0)
  /\ (forall k av, 0 < k -> 0 < av -> t k av 0 = pow10 (-0.4 * (av * k / 4.05))).
Proof. exact C40_lemma. Qed.
Print Assumptions C40_transmission_is_a_fraction.
Example C40_nonvacuous : exists t, frac_transmission_from_k_lambda (Fin 4.05) (Fin 2.5) (Fin 0) = Fin t /\ t = 1/10.
Proof.
  destruct C40_transmission_is_a_fraction as (t & E & _ & _ & _ & _ & _ & _ & H).
  exists (t 4.05 2.5 0). split; [apply E|]. rewrite H by lra.
  replace (-0.4 * (2.5 * 4.05 / 4.05)) with (- (1)) by lra.
  unfold pow10. rewrite Rpower_Ropp, Rpower_1 by lra. lra.
Qed.

(** C41: never negative, in any arithmetic and for any arguments (NaN is not negative) *)
Theorem C41_attenuation_never_negative {AR : Arith} : (forall wave av ampl slope x0 width, nltb (noll09_k_att_curve wave av ampl slope x0 width) (Fin 0) = false)
  /\ (forall wave av ampl slope x0 width, nltb (sbl18_k_att_curve wave av ampl slope x0 width) (Fin 0) = false)
  /\ (forall wave av, nltb (calzetti00_att_curve wave av) (Fin 0) = false)
  /\ (forall wave av, nltb (leitherer02_att_curve wave av) (Fin 0) = false)
  /\ (forall wave ampl slope x0 width, nltb (noll09_k_lambda wave ampl slope x0 width) (Fin 0) = false)
  /\ (forall wave ampl slope x0 width, nltb (sbl18_k_lambda wave ampl slope x0 width) (Fin 0) = false).
Proof. exact C41_lemma. Qed.
Print Assumptions C41_attenuation_never_negative.
(** and finite for finite arguments, in exact arithmetic *)
Theorem C41_attenuation_finite_nonnegative : forall wave av ampl slope x0 width, 0 < wave -> width <> 0 ->
  exists a1 a2 a3 a4,
    noll09_k_att_curve (Fin wave) (Fin av) (Fin ampl) (Fin slope) (Fin x0) (Fin width) = Fin a1
    /\ sbl18_k_att_curve (Fin wave) (Fin av) (Fin ampl) (Fin slope) (Fin x0) (Fin width) = Fin a2
    /\ calzetti00_att_curve (Fin wave) (Fin av) = Fin a3
    /\ leitherer02_att_curve (Fin wave) (Fin av) = Fin a4
    /\ 0 <= a1 /\ 0 <= a2 /\ 0 <= a3 /\ 0 <= a4.
Proof. exact C41_finite_lemma. Qed.
Print Assumptions C41_attenuation_finite_nonnegative.
Example C41_nonvacuous : exists a1 a2 a3 a4,
  noll09_k_att_curve (Fin 0.2175) (Fin (-1)) (Fin (-300)) (Fin 5) (Fin 0.2175) (Fin 0.035) = Fin a1
  /\ sbl18_k_att_curve (Fin 0.2175) (Fin (-1)) (Fin (-300)) (Fin 5) (Fin 0.2175) (Fin 0.035) = Fin a2
  /\ calzetti00_att_curve (Fin 0.2175) (Fin (-1)) = Fin a3
  /\ leitherer02_att_curve (Fin 0.2175) (Fin (-1)) = Fin a4
  /\ 0 <= a1 /\ 0 <= a2 /\ 0 <= a3 /\ 0 <= a4.
Proof. apply C41_attenuation_finite_nonnegative; lra. Qed.

(** C42 *)
Theorem C42_bump_amplitude_from_slope : exists eb : R -> R,
  (forall delta, get_eb_from_delta (Fin delta) = Fin (eb delta))
  /\ eb 0 = 0.85 /\ (forall d d', eb d' - eb d = - 1.9 * (d' - d))
  /\ (forall d, 0 <= eb d <-> d <= 0.85 / 1.9).
Proof. exact C42_eb_lemma. Qed.
Print Assumptions C42_bump_amplitude_from_slope.
Theorem C42_drude_bump : forall x0 gamma ampl, 0 < x0 -> 0 < gamma -> 0 < ampl ->
  exists b : R -> R, (forall x, 0 < x -> drude_bump (Fin x) (Fin x0) (Fin gamma) (Fin ampl) = Fin (b x))
    /\ (forall x, 0 < x -> 0 < b x <= ampl)
    /\ (forall x, 0 < x -> (b x = ampl <-> x = x0))
    /\ (forall x, 0 < x -> b x = ampl * (x * gamma) ^ 2 / ((x ^ 2 - x0 ^ 2) ^ 2 + (x * gamma) ^ 2)).
Proof. exact C42_lemma. Qed.
Print Assumptions C42_drude_bump.
Example C42_nonvacuous : drude_bump (Fin 0.2175) (Fin 0.2175) (Fin 0.035) (Fin 3) = Fin 3.
Proof.
  destruct (C42_drude_bump 0.2175 0.035 3) as (b & E & _ & H & _); try lra.
  rewrite E by lra. f_equal. apply H; lra.
Qed.

(** C43 *)
Theorem C43_power_law_normalised_at_V : exists p : R -> R -> R,
  (forall wave slope, 0 < wave -> power_law_vband_norm (Fin wave) (Fin slope) (Fin 0.55) = Fin (p wave slope))
  /\ (forall wave slope, 0 < wave -> p wave slope = Rpower (wave / 0.55) slope)
  /\ (forall slope, p 0.55 slope = 1)
  /\ (forall wave s1 s2, 0 < wave -> p wave (s1 + s2) = p wave s1 * p wave s2)
  /\ (forall slope w1 w2, slope < 0 -> 0 < w1 < w2 -> p w2 slope < p w1 slope)
  /\ (forall slope w1 w2, 0 < slope -> 0 < w1 < w2 -> p w1 slope < p w2 slope).
Proof. exact C43_lemma. Qed.
Print Assumptions C43_power_law_normalised_at_V.
Theorem C43_noll09_and_sbl18_agree_at_V : forall ampl slope x0 width av, width <> 0 ->
  noll09_k_lambda (Fin 0.55) (Fin ampl) (Fin slope) (Fin x0) (Fin width)
    = sbl18_k_lambda (Fin 0.55) (Fin ampl) (Fin slope) (Fin x0) (Fin width)
  /\ noll09_k_att_curve (Fin 0.55) (Fin av) (Fin ampl) (Fin slope) (Fin x0) (Fin width)
    = sbl18_k_att_curve (Fin 0.55) (Fin av) (Fin ampl) (Fin slope) (Fin x0) (Fin width).
Proof. exact C43_agree_lemma. Qed.
Print Assumptions C43_noll09_and_sbl18_agree_at_V.

(** C44 *)
Theorem C44_calzetti_decreasing : exists k : R -> R,
  (forall wave, 0 < wave -> calzetti00_k_lambda (Fin wave) = Fin (k wave))
  /\ (forall w1 w2, 0 < w1 < w2 -> w2 < 0.63 -> k w2 < k w1)
  /\ (forall w1 w2, 0.63 <= w1 < w2 -> k w2 < k w1)
  /\ (forall wave av, 3.2 <= wave -> 0 <= av -> calzetti00_att_curve (Fin wave) (Fin av) = Fin 0)
  /\ (forall wave, 0 < wave <= 3.1 -> 0 < k wave).
Proof. exact C44_lemma. Qed.
Print Assumptions C44_calzetti_decreasing.

(** C45: the claim that the curves are continuous at their joints is false *)
Theorem C45_curves_jump_at_joints : exists (k_c00 k_comb : R -> R) (left_c00 right_comb : R),
  (forall wave, 0 < wave -> calzetti00_k_lambda (Fin wave) = Fin (k_c00 wave))
  /\ (forall wave, 0 < wave -> l02_below_c00_above (Fin wave) (Fin 0.15) = Fin (k_comb wave))
  /\ left_limit k_c00 0.63 left_c00 /\ 0.025 < k_c00 0.63 - left_c00 < 0.0252
  /\ right_limit k_comb 0.15 right_comb /\ 0.0218 < right_comb - k_comb 0.15 < 0.0220.
Proof. exact C45_lemma. Qed.
Print Assumptions C45_curves_jump_at_joints.

(** C46 *)
Theorem C46_effective_wavelength_in_filter : forall wave trans z, length wave = length trans -> wave <> [] -> increasing wave ->
  List.Forall (fun x => 0 <= x) trans -> 0 < trapezoid wave trans -> -1 < z ->
  exists lam_eff, get_filter_effective_wavelength (fins wave) (fins trans) (Fin z) = Ok (Fin lam_eff)
    /\ ent wave 0 <= lam_eff * (1 + z) <= ent wave (length wave - 1)
    /\ (forall c, 0 < c ->
          get_filter_effective_wavelength (fins wave) (fins (map (Rmult c) trans)) (Fin z) = Ok (Fin lam_eff))
    /\ (exists rest, get_filter_effective_wavelength (fins wave) (fins trans) (Fin 0) = Ok (Fin rest)
          /\ lam_eff = rest / (1 + z)).
Proof. exact C46_lemma. Qed.
Print Assumptions C46_effective_wavelength_in_filter.
Example C46_nonvacuous : exists l,
  get_filter_effective_wavelength (fins [4000; 5000; 7000]) (fins [0; 1; 0]) (Fin 1) = Ok (Fin l)
  /\ 4000 <= l * (1 + 1) <= 7000.
Proof.
  destruct (C46_effective_wavelength_in_filter [4000; 5000; 7000] [0; 1; 0] 1) as (l & E & B & _);
    try reflexivity; try discriminate; try lra.
  - apply increasing_step. intros [|[|i]] Hi; simpl in Hi; try lia; unfold ent; simpl; lra.
  - repeat constructor; lra.
  - simpl. lra.
  - exists l. split; [exact E|exact B].
Qed.

(** C47 *)
Theorem C47_triweight_curve : forall xtp ytp x0 tw_h lo hi, tw_h <> 0 ->
  exists k : R -> R,
    (forall wave, 0 < wave ->
       triweight_k_lambda (Fin wave) (Fin xtp) (Fin ytp) (Fin x0) (Fin tw_h) (Fin lo) (Fin hi) = Fin (k wave))
    /\ (forall wave, 0 < wave -> 0 < k wave)
    /\ k (pow10 xtp) = pow10 ytp.
Proof. exact C47_lemma. Qed.
Print Assumptions C47_triweight_curve.
Theorem C47_triweight_default_decreasing : exists k : R -> R,
    (forall wave, 0 < wave -> triweight_k_lambda_default (Fin wave) = Fin (k wave))
    /\ k 0.1 = pow10 1.15
    /\ (forall w1 w2, 0.1 <= w1 < w2 -> k w2 < k w1).
Proof. exact C47_default_lemma. Qed.
Print Assumptions C47_triweight_default_decreasing.

(** C137 *)
Theorem C137_published_curves : exists k_c00 k_l02 : R -> R,
  (forall w, 0 < w < 0.63 -> k_c00 w = 2.659 * (-2.156 + 1.509 / w - 0.198 / w ^ 2 + 0.011 / w ^ 3) + 4.05)
  /\ (forall w, 0.63 <= w -> k_c00 w = 2.659 * (-1.857 + 1.040 / w) + 4.05)
  /\ (forall w, 0 < w -> k_l02 w = 5.472 + 0.671 / w - 0.009218 / w ^ 2 + 0.002620 / w ^ 3)
  /\ (forall w, 0 < w -> calzetti00_k_lambda (Fin w) = Fin (k_c00 w) /\ leitherer02_k_lambda (Fin w) = Fin (k_l02 w))
  /\ (forall w av, 0 < w -> calzetti00_att_curve (Fin w) (Fin av) = Fin (Rmax 0 (av * k_c00 w / 4.05))
        /\ leitherer02_att_curve (Fin w) (Fin av) = Fin (Rmax 0 (av * k_l02 w / 4.05)))
  /\ (forall w a s x0 g, 0 < w -> g <> 0 ->
        let base := if Rlt_dec 0.15 w then k_c00 w else k_l02 w in
        let tilt := Rpower (w / 0.55) s in
        let bump := a * (w * g) ^ 2 / ((w ^ 2 - x0 ^ 2) ^ 2 + (w * g) ^ 2) in
        noll09_k_lambda (Fin w) (Fin a) (Fin s) (Fin x0) (Fin g) = Fin (Rmax 0 ((base + bump) * tilt))
        /\ sbl18_k_lambda (Fin w) (Fin a) (Fin s) (Fin x0) (Fin g) = Fin (Rmax 0 (base * tilt + bump))
        /\ forall av, noll09_k_att_curve (Fin w) (Fin av) (Fin a) (Fin s) (Fin x0) (Fin g) = Fin (Rmax 0 (av * Rmax 0 ((base + bump) * tilt) / 4.05))
             /\ sbl18_k_att_curve (Fin w) (Fin av) (Fin a) (Fin s) (Fin x0) (Fin g) = Fin (Rmax 0 (av * Rmax 0 (base * tilt + bump) / 4.05))).
Proof. exact C137_curves_lemma. Qed.
Print Assumptions C137_published_curves.
Theorem C137_default_bump : exists bump : R -> R,
  (forall w, bump w = (0.0350 * w) ^ 2 / ((w ^ 2 - 0.2175 ^ 2) ^ 2 + (0.0350 * w) ^ 2))
  /\ bump 0.2175 = 1 /\ (forall w, 0 < w -> w <> 0.2175 -> 0 < bump w < 1)
  /\ (forall w, 0 < w -> bump w = 1 / 2 <-> w ^ 2 - 0.2175 ^ 2 = 0.0350 * w \/ 0.2175 ^ 2 - w ^ 2 = 0.0350 * w)
  /\ forall w a s, 0 < w <= 3.1 -> 0 <= a -> exists n n0 b b0,
       noll09_k_lambda (Fin w) (Fin a) (Fin s) UV_BUMP_W0 UV_BUMP_DW = Fin n /\ noll09_k_lambda (Fin w) (Fin 0) (Fin s) UV_BUMP_W0 UV_BUMP_DW = Fin n0
       /\ sbl18_k_lambda (Fin w) (Fin a) (Fin s) UV_BUMP_W0 UV_BUMP_DW = Fin b /\ sbl18_k_lambda (Fin w) (Fin 0) (Fin s) UV_BUMP_W0 UV_BUMP_DW = Fin b0
       /\ n0 = b0 /\ 0 < b0 /\ b - b0 = a * bump w /\ n - n0 = a * bump w * Rpower (w / 0.55) s.
Proof. exact C137_bump_lemma. Qed.
Print Assumptions C137_default_bump.
Example C137_nonvacuous : exists b b0, sbl18_k_lambda (Fin 0.2175) (Fin 3) (Fin (-0.5)) UV_BUMP_W0 UV_BUMP_DW = Fin b
  /\ sbl18_k_lambda (Fin 0.2175) (Fin 0) (Fin (-0.5)) UV_BUMP_W0 UV_BUMP_DW = Fin b0 /\ b - b0 = 3.
Proof.
  destruct C137_default_bump as (D & _ & D1 & _ & _ & H). destruct (H 0.2175 3 (-0.5)) as (n & n0 & b & b0 & _ & _ & E & E0 & _ & _ & Q & _); try lra.
  exists b, b0. split; auto. split; auto. rewrite Q, D1. ring.
Qed.
