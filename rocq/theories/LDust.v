(** * Dust (dsps/dust) *)
From Coq Require Import Reals List Arith Lra Lia Bool.
From Coquelicot Require Import Coquelicot.
From Flocq Require Import Core.Raux.
From Verif Require Import Num Arr MUtils MDust Spec RList LBcast LUtils LCalc LKern LKern2 LBurst.
Import ListNotations.
Open Scope R_scope.

Definition att (k av : R) : R := Rmax 0 (av * k / 4.05).
Lemma nwhere_neg_fin x : nwhere (nltb (Fin x) (Fin 0)) (Fin 0) (Fin x) = Fin (Rmax 0 x).
Proof.
  rewrite nltb_fin. unfold nwhere. case Rlt_bool_spec; intros; f_equal.
  - rewrite Rmax_left; lra.
  - rewrite Rmax_right; lra.
Qed.
Lemma att_fin k av : att_curve_from_k_lambda (Fin k) (Fin av) = Fin (att k av).
Proof.
  unfold att_curve_from_k_lambda, RV_C00. unlit. rewrite nmul_fin, ndiv_fin by lra. apply nwhere_neg_fin.
Qed.
Lemma att_nonneg k av : 0 <= att k av. Proof. apply Rmax_l. Qed.

Definition trans (k av f : R) : R := f + (1 - f) * pow10 (-0.4 * att k av).
Lemma trans_fin k av f :
  frac_transmission_from_k_lambda (Fin k) (Fin av) (Fin f) = Fin (trans k av f).
Proof.
  unfold frac_transmission_from_k_lambda. unlit.
  now rewrite att_fin, nmul_fin, npow10_fin, nsub_fin, nmul_fin, nadd_fin.
Qed.
Lemma pow10_le_1 x : x <= 0 -> 0 < pow10 x <= 1.
Proof. intros H. split; [apply pow10_pos|]. rewrite <- pow10_0. now apply pow10_le. Qed.

Lemma C40_lemma : exists t : R -> R -> R -> R,
  (forall k av floor, frac_transmission_from_k_lambda (Fin k) (Fin av) (Fin floor) = Fin (t k av floor))
  /\ (forall k av floor, 0 <= floor <= 1 -> floor <= t k av floor <= 1)
  /\ (forall k av floor, 0 <= floor < 1 -> floor < t k av floor)
  /\ (forall k floor, t k 0 floor = 1)
  /\ (forall k av1 av2 floor, 0 <= k -> av1 <= av2 -> 0 <= floor <= 1 -> t k av2 floor <= t k av1 floor)
  /\ (forall k1 k2 av floor, 0 <= av -> k1 <= k2 -> 0 <= floor <= 1 -> t k2 av floor <= t k1 av floor)
  /\ (forall k av1 av2, 0 <= k -> 0 <= av1 -> 0 <= av2 -> t k (av1 + av2) 0 = t k av1 0 * t k av2 0)
  /\ (forall k av, 0 < k -> 0 < av -> t k av 0 = pow10 (-0.4 * (av * k / 4.05))).
Proof.
  exists trans. split; [apply trans_fin|].
  assert (B : forall k av, 0 < pow10 (-0.4 * att k av) <= 1).
  { intros k av. apply pow10_le_1. pose proof (att_nonneg k av). lra. }
  split; [intros k av f Hf; specialize (B k av); unfold trans; nra|].
  split; [intros k av f Hf; specialize (B k av); unfold trans; nra|].
  split.
  { intros k f. unfold trans, att. replace (0 * k / 4.05) with 0 by lra. rewrite Rmax_left by lra.
    replace (-0.4 * 0) with 0 by lra. rewrite pow10_0. lra. }
  split.
  { intros k a1 a2 f Hk Ha Hf. unfold trans.
    assert (att k a1 <= att k a2) by (apply Rle_max_compat_l; nra).
    assert (pow10 (-0.4 * att k a2) <= pow10 (-0.4 * att k a1)) by (apply pow10_le; lra). nra. }
  split.
  { intros k1 k2 a f Ha Hk Hf. unfold trans.
    assert (att k1 a <= att k2 a) by (apply Rle_max_compat_l; nra).
    assert (pow10 (-0.4 * att k2 a) <= pow10 (-0.4 * att k1 a)) by (apply pow10_le; lra). nra. }
  split.
  { intros k a1 a2 Hk H1 H2. unfold trans, att. rewrite !Rmax_right by nra.
    replace (-0.4 * ((a1 + a2) * k / 4.05)) with (-0.4 * (a1 * k / 4.05) + -0.4 * (a2 * k / 4.05)) by lra.
    rewrite pow10_plus. lra. }
  intros k a Hk Ha. unfold trans, att. rewrite Rmax_right by nra. lra.
Qed.

(** C41: any arithmetic, any numbers *)
Lemma clip_not_neg (x : num) : nltb (nwhere (nltb x (Fin 0)) (Fin 0) x) (Fin 0) = false.
Proof.
  unfold nwhere. destruct (nltb x (Fin 0)) eqn:E; auto. simpl. case Rlt_bool_spec; auto; lra.
Qed.
Lemma C41_lemma {AR : Arith} :
  (forall wave av ampl slope x0 width, nltb (noll09_k_att_curve wave av ampl slope x0 width) (Fin 0) = false)
  /\ (forall wave av ampl slope x0 width, nltb (sbl18_k_att_curve wave av ampl slope x0 width) (Fin 0) = false)
  /\ (forall wave av, nltb (calzetti00_att_curve wave av) (Fin 0) = false)
  /\ (forall wave av, nltb (leitherer02_att_curve wave av) (Fin 0) = false)
  /\ (forall wave ampl slope x0 width, nltb (noll09_k_lambda wave ampl slope x0 width) (Fin 0) = false)
  /\ (forall wave ampl slope x0 width, nltb (sbl18_k_lambda wave ampl slope x0 width) (Fin 0) = false).
Proof. repeat split; intros; apply clip_not_neg. Qed.

(** ** the real curves *)
Definition c00a (y : R) : R := 2.659 * (-2.156 + 1.509 * y - 0.198 * y ^ 2 + 0.011 * y ^ 3) + 4.05.
Definition c00b (y : R) : R := 2.659 * (-1.857 + 1.040 * y) + 4.05.
Definition l02 (y : R) : R := 5.472 + (0.671 * y - 9.218 * 0.001 * y ^ 2 + 2.620 * 0.001 * y ^ 3).
Definition c00 (w : R) : R := if Rlt_dec w 0.63 then c00a (1 / w) else c00b (1 / w).
Definition l02c00 (w : R) : R := if Rlt_dec 0.15 w then c00 w else l02 (1 / w).
Definition drude (x x0 g a : R) : R := a * (x ^ 2 * g ^ 2 / ((x ^ 2 - x0 ^ 2) ^ 2 + x ^ 2 * g ^ 2)).

Lemma Rlt_bool_dec {A} x y (a b : A) : (if Rlt_bool x y then a else b) = if Rlt_dec x y then a else b.
Proof. case Rlt_bool_spec; intros; destruct (Rlt_dec x y); auto; lra. Qed.
Lemma calzetti_fin w : w <> 0 -> calzetti00_k_lambda (Fin w) = Fin (c00 w).
Proof.
  intros H. unfold calzetti00_k_lambda, RV_C00. unlit. rewrite ndiv_fin by auto.
  rewrite !ipow_fin. change (Pos.to_nat 2) with 2%nat. change (Pos.to_nat 3) with 3%nat.
  rewrite !nmul_fin, !nadd_fin, !nsub_fin, !nadd_fin, !nmul_fin, !nadd_fin, nltb_fin.
  unfold nwhere, c00, c00a, c00b. rewrite Rlt_bool_dec. destruct (Rlt_dec w 0.63); reflexivity.
Qed.
Lemma leitherer_fin w : w <> 0 -> leitherer02_k_lambda (Fin w) = Fin (l02 (1 / w)).
Proof.
  intros H. unfold leitherer02_k_lambda. unlit. rewrite ndiv_fin by auto.
  rewrite !ipow_fin. change (Pos.to_nat 2) with 2%nat. change (Pos.to_nat 3) with 3%nat.
  rewrite !nmul_fin, !nsub_fin, !nadd_fin. reflexivity.
Qed.
Lemma l02c00_fin w : w <> 0 -> l02_below_c00_above (Fin w) (Fin 0.15) = Fin (l02c00 w).
Proof.
  intros H. unfold l02_below_c00_above. rewrite calzetti_fin, leitherer_fin by auto.
  unfold ngtb. rewrite nltb_fin. unfold nwhere, l02c00. rewrite Rlt_bool_dec. now destruct (Rlt_dec 0.15 w).
Qed.
Lemma drude_den x x0 g : 0 < x -> g <> 0 -> 0 < (x ^ 2 - x0 ^ 2) ^ 2 + x ^ 2 * g ^ 2.
Proof.
  intros Hx Hg. pose proof (pow2_ge_0 (x ^ 2 - x0 ^ 2)).
  assert (0 < x ^ 2) by nra. assert (0 < g ^ 2) by (apply pow2_gt_0; auto). nra.
Qed.
Lemma drude_fin x x0 g a : 0 < x -> g <> 0 -> drude_bump (Fin x) (Fin x0) (Fin g) (Fin a) = Fin (drude x x0 g a).
Proof.
  intros Hx Hg. unfold drude_bump. rewrite !ipow_fin. change (Pos.to_nat 2) with 2%nat.
  rewrite !nmul_fin, !nsub_fin, !ipow_fin, !nadd_fin. change (Pos.to_nat 2) with 2%nat.
  rewrite ndiv_fin by (pose proof (drude_den x x0 g Hx Hg); lra). rewrite nmul_fin. reflexivity.
Qed.
Definition vband (w s : R) : R := Rpower (w / 0.55) s.
Lemma vband_fin w s : 0 < w -> power_law_vband_norm (Fin w) (Fin s) (Fin 0.55) = Fin (vband w s).
Proof. intros H. unfold power_law_vband_norm. rewrite ndiv_fin by lra. apply npow_fin. lra. Qed.
Definition noll (w a s x0 g : R) : R := Rmax 0 ((l02c00 w + drude w x0 g a) * vband w s).
Definition sbl (w a s x0 g : R) : R := Rmax 0 (l02c00 w * vband w s + drude w x0 g a).
Lemma noll_fin w a s x0 g : 0 < w -> g <> 0 ->
  noll09_k_lambda (Fin w) (Fin a) (Fin s) (Fin x0) (Fin g) = Fin (noll w a s x0 g).
Proof.
  intros Hw Hg. unfold noll09_k_lambda. unlit.
  rewrite l02c00_fin, drude_fin, vband_fin, nadd_fin, nmul_fin by (auto; lra). apply nwhere_neg_fin.
Qed.
Lemma sbl_fin w a s x0 g : 0 < w -> g <> 0 ->
  sbl18_k_lambda (Fin w) (Fin a) (Fin s) (Fin x0) (Fin g) = Fin (sbl w a s x0 g).
Proof.
  intros Hw Hg. unfold sbl18_k_lambda. unlit.
  rewrite l02c00_fin, drude_fin, vband_fin, nmul_fin, nadd_fin by (auto; lra). apply nwhere_neg_fin.
Qed.
Lemma C41_finite_lemma : forall wave av ampl slope x0 width, 0 < wave -> width <> 0 ->
  exists a1 a2 a3 a4,
    noll09_k_att_curve (Fin wave) (Fin av) (Fin ampl) (Fin slope) (Fin x0) (Fin width) = Fin a1
    /\ sbl18_k_att_curve (Fin wave) (Fin av) (Fin ampl) (Fin slope) (Fin x0) (Fin width) = Fin a2
    /\ calzetti00_att_curve (Fin wave) (Fin av) = Fin a3
    /\ leitherer02_att_curve (Fin wave) (Fin av) = Fin a4
    /\ 0 <= a1 /\ 0 <= a2 /\ 0 <= a3 /\ 0 <= a4.
Proof.
  intros w av a s x0 g Hw Hg. do 4 eexists.
  unfold noll09_k_att_curve, sbl18_k_att_curve, calzetti00_att_curve, leitherer02_att_curve.
  rewrite noll_fin, sbl_fin, calzetti_fin, leitherer_fin, !att_fin by (auto; lra).
  do 4 (split; [reflexivity|]). repeat split; apply att_nonneg.
Qed.

(** C42 *)
Lemma C42_lemma : forall x0 gamma ampl, 0 < x0 -> 0 < gamma -> 0 < ampl ->
  exists b : R -> R, (forall x, 0 < x -> drude_bump (Fin x) (Fin x0) (Fin gamma) (Fin ampl) = Fin (b x))
    /\ (forall x, 0 < x -> 0 < b x <= ampl)
    /\ (forall x, 0 < x -> (b x = ampl <-> x = x0))
    /\ (forall x, 0 < x -> b x = ampl * (x * gamma) ^ 2 / ((x ^ 2 - x0 ^ 2) ^ 2 + (x * gamma) ^ 2)).
Proof.
  intros x0 g a H0 Hg Ha. exists (fun x => drude x x0 g a).
  split; [intros x Hx; apply drude_fin; lra|].
  assert (D : forall x, 0 < x -> drude x x0 g a = a * (x * g) ^ 2 / ((x ^ 2 - x0 ^ 2) ^ 2 + (x * g) ^ 2)).
  { intros x Hx. unfold drude. replace ((x * g) ^ 2) with (x ^ 2 * g ^ 2) by ring. unfold Rdiv. ring. }
  assert (P : forall x, 0 < x -> 0 < (x ^ 2 - x0 ^ 2) ^ 2 + (x * g) ^ 2).
  { intros x Hx. pose proof (drude_den x x0 g Hx ltac:(lra)). replace ((x * g) ^ 2) with (x ^ 2 * g ^ 2) by ring. lra. }
  assert (Q : forall x, 0 < x -> 0 < (x * g) ^ 2) by (intros; apply pow2_gt_0; nra).
  split; [|split; [|apply D]].
  - intros x Hx. rewrite D by auto. specialize (P x Hx). specialize (Q x Hx). split.
    + apply Rdiv_lt_0_compat; nra.
    + apply div_le_iff; auto. pose proof (pow2_ge_0 (x ^ 2 - x0 ^ 2)). nra.
  - intros x Hx. rewrite D by auto. specialize (P x Hx). specialize (Q x Hx). split; intros E.
    + apply Rmult_eq_compat_r with (r := (x ^ 2 - x0 ^ 2) ^ 2 + (x * g) ^ 2) in E.
      unfold Rdiv in E. rewrite Rmult_assoc, Rinv_l in E by lra.
      assert (Z : a * (x ^ 2 - x0 ^ 2) ^ 2 = 0) by lra.
      apply Rmult_integral in Z. destruct Z as [|Z]; [lra|].
      assert (x ^ 2 - x0 ^ 2 = 0) by nra.
      assert ((x - x0) * (x + x0) = 0) by lra.
      destruct (Rmult_integral _ _ H1); lra.
    + subst x. replace (x0 ^ 2 - x0 ^ 2) with 0 by lra. field. nra.
Qed.

(** C43 *)
Lemma C43_lemma : exists p : R -> R -> R,
  (forall wave slope, 0 < wave -> power_law_vband_norm (Fin wave) (Fin slope) (Fin 0.55) = Fin (p wave slope))
  /\ (forall wave slope, 0 < wave -> p wave slope = Rpower (wave / 0.55) slope)
  /\ (forall slope, p 0.55 slope = 1)
  /\ (forall wave s1 s2, 0 < wave -> p wave (s1 + s2) = p wave s1 * p wave s2)
  /\ (forall slope w1 w2, slope < 0 -> 0 < w1 < w2 -> p w2 slope < p w1 slope)
  /\ (forall slope w1 w2, 0 < slope -> 0 < w1 < w2 -> p w1 slope < p w2 slope).
Proof.
  exists vband. split; [apply vband_fin|]. split; [reflexivity|]. split.
  { intros s. unfold vband. replace (0.55 / 0.55) with 1 by lra. unfold Rpower. rewrite ln_1, Rmult_0_r. apply exp_0. }
  split; [intros; unfold vband; apply Rpower_plus|].
  split; intros s w1 w2 Hs Hw; unfold vband.
  - apply Rpower_gt_base; [auto|lra|apply div_lt_mono; lra].
  - apply Rpower_lt_base; [auto|lra|apply div_lt_mono; lra].
Qed.
Lemma C43_agree_lemma : forall ampl slope x0 width av, width <> 0 ->
  noll09_k_lambda (Fin 0.55) (Fin ampl) (Fin slope) (Fin x0) (Fin width)
    = sbl18_k_lambda (Fin 0.55) (Fin ampl) (Fin slope) (Fin x0) (Fin width)
  /\ noll09_k_att_curve (Fin 0.55) (Fin av) (Fin ampl) (Fin slope) (Fin x0) (Fin width)
    = sbl18_k_att_curve (Fin 0.55) (Fin av) (Fin ampl) (Fin slope) (Fin x0) (Fin width).
Proof.
  intros a s x0 g av Hg. unfold noll09_k_att_curve, sbl18_k_att_curve.
  rewrite noll_fin, sbl_fin by (auto; lra).
  assert (E : noll 0.55 a s x0 g = sbl 0.55 a s x0 g).
  { unfold noll, sbl. assert (V : vband 0.55 s = 1).
    { unfold vband. replace (0.55 / 0.55) with 1 by lra. unfold Rpower. rewrite ln_1, Rmult_0_r. apply exp_0. }
    rewrite V. f_equal. lra. }
  now rewrite E.
Qed.

(** C44 *)
Lemma c00a_lt y1 y2 : y1 < y2 -> c00a y1 < c00a y2.
Proof.
  intros H. unfold c00a.
  assert (E : c00a y2 - c00a y1 = 2.659 * (y2 - y1) * (1.509 - 0.198 * (y1 + y2) + 0.011 * (y1 ^ 2 + y1 * y2 + y2 ^ 2)))
    by (unfold c00a; ring).
  unfold c00a in E.
  assert (0 < 1.509 - 0.198 * (y1 + y2) + 0.011 * (y1 ^ 2 + y1 * y2 + y2 ^ 2)).
  { pose proof (pow2_ge_0 (y1 - y2)). pose proof (pow2_ge_0 (y1 + y2 - 12)). nra. }
  assert (0 < 2.659 * (y2 - y1) * (1.509 - 0.198 * (y1 + y2) + 0.011 * (y1 ^ 2 + y1 * y2 + y2 ^ 2)))
    by (apply Rmult_lt_0_compat; lra).
  lra.
Qed.
Lemma inv_lt w1 w2 : 0 < w1 < w2 -> 0 < 1 / w2 < 1 / w1.
Proof.
  intros H. unfold Rdiv. rewrite !Rmult_1_l. split; [apply Rinv_0_lt_compat; lra|].
  apply Rinv_lt_contravar; nra.
Qed.
Lemma inv_le w1 w2 : 0 < w1 <= w2 -> 0 < 1 / w2 <= 1 / w1.
Proof. intros [H [L| ->]]; [pose proof (inv_lt w1 w2 ltac:(lra)); lra|]. split; [apply Rdiv_lt_0_compat; lra|lra]. Qed.
Lemma C44_lemma : exists k : R -> R,
  (forall wave, 0 < wave -> calzetti00_k_lambda (Fin wave) = Fin (k wave))
  /\ (forall w1 w2, 0 < w1 < w2 -> w2 < 0.63 -> k w2 < k w1)
  /\ (forall w1 w2, 0.63 <= w1 < w2 -> k w2 < k w1)
  /\ (forall wave av, 3.2 <= wave -> 0 <= av -> calzetti00_att_curve (Fin wave) (Fin av) = Fin 0)
  /\ (forall wave, 0 < wave <= 3.1 -> 0 < k wave).
Proof.
  exists c00. split; [intros; apply calzetti_fin; lra|].
  assert (B1 : forall w1 w2, 0 < w1 < w2 -> w2 < 0.63 -> c00 w2 < c00 w1).
  { intros w1 w2 H H2. unfold c00. destruct (Rlt_dec w2 0.63); [|lra]. destruct (Rlt_dec w1 0.63); [|lra].
    apply c00a_lt. apply inv_lt; lra. }
  split; [exact B1|]. split.
  { intros w1 w2 H. unfold c00. destruct (Rlt_dec w2 0.63); [lra|]. destruct (Rlt_dec w1 0.63); [lra|].
    pose proof (inv_lt w1 w2 ltac:(lra)). unfold c00b. lra. }
  split.
  - intros w av Hw Ha. unfold calzetti00_att_curve. rewrite calzetti_fin, att_fin by lra. f_equal.
    assert (c00 w <= 0).
    { unfold c00. destruct (Rlt_dec w 0.63); [lra|]. pose proof (inv_le 3.2 w ltac:(lra)). unfold c00b. lra. }
    unfold att. rewrite Rmax_left; [lra|]. nra.
  - intros w Hw. unfold c00. destruct (Rlt_dec w 0.63).
    + pose proof (inv_le w 0.63 ltac:(lra)) as I.
      assert (E : 0 < c00a 1.58). { unfold c00a. lra. }
      apply Rlt_trans with (1 := E). apply c00a_lt. lra.
    + pose proof (inv_le w 3.1 ltac:(lra)) as I. unfold c00b. lra.
Qed.

(** C45 *)
Lemma continuous_left f g x0 a : a < x0 -> (forall w, a < w < x0 -> f w = g w) -> continuous g x0 ->
  left_limit f x0 (g x0).
Proof.
  intros Ha E C eps He.
  apply continuity_pt_filterlim in C. destruct (C eps He) as (d & Hd & P).
  exists (Rmin d (x0 - a)). split; [apply Rmin_glb_lt; lra|].
  intros w Hw. pose proof (Rmin_l d (x0 - a)). pose proof (Rmin_r d (x0 - a)).
  rewrite E by lra. apply (P w). split; [split; [exact I|lra]|].
  unfold R_dist; simpl; unfold R_dist. rewrite Rabs_left; lra.
Qed.
Lemma continuous_right f g x0 b : x0 < b -> (forall w, x0 < w < b -> f w = g w) -> continuous g x0 ->
  right_limit f x0 (g x0).
Proof.
  intros Ha E C eps He.
  apply continuity_pt_filterlim in C. destruct (C eps He) as (d & Hd & P).
  exists (Rmin d (b - x0)). split; [apply Rmin_glb_lt; lra|].
  intros w Hw. pose proof (Rmin_l d (b - x0)). pose proof (Rmin_r d (b - x0)).
  rewrite E by lra. apply (P w). split; [split; [exact I|lra]|].
  unfold R_dist; simpl; unfold R_dist. rewrite Rabs_right; lra.
Qed.
Lemma C45_lemma : exists (k_c00 k_comb : R -> R) (left_c00 right_comb : R),
  (forall wave, 0 < wave -> calzetti00_k_lambda (Fin wave) = Fin (k_c00 wave))
  /\ (forall wave, 0 < wave -> l02_below_c00_above (Fin wave) (Fin 0.15) = Fin (k_comb wave))
  /\ left_limit k_c00 0.63 left_c00 /\ 0.025 < k_c00 0.63 - left_c00 < 0.0252
  /\ right_limit k_comb 0.15 right_comb /\ 0.0218 < right_comb - k_comb 0.15 < 0.0220.
Proof.
  exists c00, l02c00, (c00a (1 / 0.63)), (c00a (1 / 0.15)).
  split; [intros; apply calzetti_fin; lra|]. split; [intros; apply l02c00_fin; lra|].
  split; [|split; [|split]].
  - apply (continuous_left c00 (fun w => c00a (1 / w)) 0.63 0); [lra| |].
    + intros w Hw. unfold c00. destruct (Rlt_dec w 0.63); [auto|lra].
    + apply (ex_derive_continuous (V := R_NormedModule) (fun w => c00a (1 / w))). unfold c00a. auto_derive. lra.
  - unfold c00. destruct (Rlt_dec 0.63 0.63); [lra|]. unfold c00a, c00b. lra.
  - apply (continuous_right l02c00 (fun w => c00a (1 / w)) 0.15 0.63); [lra| |].
    + intros w Hw. unfold l02c00. destruct (Rlt_dec 0.15 w); [|lra]. unfold c00. destruct (Rlt_dec w 0.63); [auto|lra].
    + apply (ex_derive_continuous (V := R_NormedModule) (fun w => c00a (1 / w))). unfold c00a. auto_derive. lra.
  - unfold l02c00. destruct (Rlt_dec 0.15 0.15); [lra|]. unfold c00a, l02. lra.
Qed.

(** C46 *)
Definition Rtimes (a b : list R) : list R := map2 Rmult a b.
Lemma map2_const_r {A B C} (f : A -> C) (l1 : list A) (l2 : list B) : length l1 = length l2 ->
  map2 (fun x _ => f x) l1 l2 = map f l1.
Proof. revert l2. induction l1; intros [|b l2] H; try discriminate; simpl; auto. f_equal. auto. Qed.
Lemma trapezoid_scal xs ys c : length xs = length ys -> trapezoid xs (map (Rmult c) ys) = c * trapezoid xs ys.
Proof.
  intros H. pose proof (trapezoid_linear xs ys ys c 0 H H) as E.
  rewrite (map2_ext _ (fun y _ => c * y)) in E by (intros; lra).
  rewrite map2_const_r in E by auto. change (trapezoid xs (map (Rmult c) ys) = c * trapezoid xs ys + 0 * trapezoid xs ys) in E. lra.
Qed.
Lemma eff_fin w t z : length w = length t -> trapezoid w t <> 0 -> 1 + z <> 0 ->
  get_filter_effective_wavelength (fins w) (fins t) (Fin z)
  = Ok (Fin (trapezoid w (Rtimes t w) / trapezoid w t / (1 + z))).
Proof.
  intros H Hn Hz. unfold get_filter_effective_wavelength, Rtimes. rewrite trapz_ok by auto. cbn [bind].
  rewrite bmap2_same by (rewrite !fins_length; auto). rewrite (map2_fins nmul Rmult) by (intros; apply nmul_fin). cbn [bind].
  rewrite trapz_ok by (rewrite map2_length; lia). cbn [bind].
  now rewrite ndiv_fin, nadd_fin, ndiv_fin by auto.
Qed.
Lemma eff_bounds w t : length w = length t -> increasing w -> w <> [] ->
  List.Forall (fun x => 0 <= x) t ->
  ent w 0 * trapezoid w t <= trapezoid w (Rtimes t w) <= ent w (length w - 1) * trapezoid w t.
Proof.
  intros L I Hne P. rewrite <- !trapezoid_scal by auto.
  assert (forall i, (i < length w)%nat -> 0 <= ent t i).
  { intros i Hi. rewrite Forall_forall in P. apply P. apply ent_In. lia. }
  split; apply trapezoid_mono; auto using increasing_nondecreasing;
    try (unfold Rtimes; rewrite map2_length; lia); try (rewrite map_length; lia);
    intros i Hi; unfold Rtimes; rewrite ent_map, ent_map2 by lia; specialize (H i Hi).
  - assert (ent w 0 <= ent w i) by (apply increasing_le; auto; lia). nra.
  - assert (ent w i <= ent w (length w - 1)) by (apply increasing_le; auto; lia). nra.
Qed.
Lemma C46_lemma : forall wave trans z, length wave = length trans -> wave <> [] -> increasing wave ->
  List.Forall (fun x => 0 <= x) trans -> 0 < trapezoid wave trans -> -1 < z ->
  exists lam_eff, get_filter_effective_wavelength (fins wave) (fins trans) (Fin z) = Ok (Fin lam_eff)
    /\ ent wave 0 <= lam_eff * (1 + z) <= ent wave (length wave - 1)
    /\ (forall c, 0 < c ->
          get_filter_effective_wavelength (fins wave) (fins (map (Rmult c) trans)) (Fin z) = Ok (Fin lam_eff))
    /\ (exists rest, get_filter_effective_wavelength (fins wave) (fins trans) (Fin 0) = Ok (Fin rest)
          /\ lam_eff = rest / (1 + z)).
Proof.
  intros w t z L Hne I P T Hz. eexists. split; [apply eff_fin; auto; lra|].
  pose proof (eff_bounds w t L I Hne P) as B. split; [|split].
  - replace (trapezoid w (Rtimes t w) / trapezoid w t / (1 + z) * (1 + z))
      with (trapezoid w (Rtimes t w) / trapezoid w t) by (field; lra).
    split; [apply le_div_iff; lra|apply div_le_iff; lra].
  - intros c Hc. rewrite eff_fin by (try rewrite trapezoid_scal by auto; try rewrite map_length; auto; try nra; lra).
    do 2 f_equal.
    assert (E : Rtimes (map (Rmult c) t) w = map (Rmult c) (Rtimes t w)).
    { unfold Rtimes. rewrite map_map2. clear. revert t. induction w; intros [|b t]; simpl; auto. f_equal; auto. lra. }
    rewrite E, !trapezoid_scal by (auto; unfold Rtimes; rewrite map2_length; lia).
    field. repeat split; lra.
  - eexists. split; [apply eff_fin; auto; lra|]. field. lra.
Qed.

(** C47 *)
Definition twk (w xtp ytp x0 h lo hi : R) : R :=
  pow10 (ytp + (lo + (hi - lo) * triweight_cdf ((log10 w - x0) / h)) * (log10 w - xtp)).
Lemma twk_fin w xtp ytp x0 h lo hi : 0 < w -> h <> 0 ->
  triweight_k_lambda (Fin w) (Fin xtp) (Fin ytp) (Fin x0) (Fin h) (Fin lo) (Fin hi) = Fin (twk w xtp ytp x0 h lo hi).
Proof.
  intros Hw Hh. unfold triweight_k_lambda, tw_sig_slope, tw_sigmoid. rewrite nlog10_fin by auto.
  rewrite tw_kern_fin by auto. now rewrite !nsub_fin, !nmul_fin, !nadd_fin, nmul_fin, nadd_fin, npow10_fin.
Qed.
Lemma C47_lemma : forall xtp ytp x0 tw_h lo hi, tw_h <> 0 ->
  exists k : R -> R,
    (forall wave, 0 < wave ->
       triweight_k_lambda (Fin wave) (Fin xtp) (Fin ytp) (Fin x0) (Fin tw_h) (Fin lo) (Fin hi) = Fin (k wave))
    /\ (forall wave, 0 < wave -> 0 < k wave)
    /\ k (pow10 xtp) = pow10 ytp.
Proof.
  intros xtp ytp x0 h lo hi Hh. exists (fun w => twk w xtp ytp x0 h lo hi).
  split; [intros; now apply twk_fin|]. split; [intros; apply pow10_pos|].
  unfold twk. rewrite log10_pow10. f_equal. lra.
Qed.
Lemma C47_default_lemma : exists k : R -> R,
    (forall wave, 0 < wave -> triweight_k_lambda_default (Fin wave) = Fin (k wave))
    /\ k 0.1 = pow10 1.15
    /\ (forall w1 w2, 0.1 <= w1 < w2 -> k w2 < k w1).
Proof.
  exists (fun w => twk w (-1) 1.15 0.5 0.5 (-0.65) (-1.95)).
  assert (L : log10 0.1 = -1).
  { unfold log10. replace 0.1 with (/ 10) by lra. rewrite ln_Rinv by lra. pose proof ln10_pos. field. lra. }
  split; [intros; unfold triweight_k_lambda_default; unlit; apply twk_fin; lra|]. split.
  - unfold twk. rewrite L. f_equal. lra.
  - intros w1 w2 H. unfold twk. apply pow10_lt.
    pose proof (log10_lt w1 w2 ltac:(lra) ltac:(lra)).
    pose proof (log10_le 0.1 w1 ltac:(lra) ltac:(lra)). rewrite L in *.
    set (a := log10 w1) in *. set (b := log10 w2) in *.
    pose proof (tw_mono ((a - 0.5) / 0.5) ((b - 0.5) / 0.5) ltac:(lra)).
    pose proof (tw_range ((a - 0.5) / 0.5)). nra.
Qed.
