(** * Photometry (dsps/photometry) *)
From Coq Require Import Reals List Arith Lra Lia Bool.
From Coquelicot Require Import Coquelicot.
From Flocq Require Import Core.Raux.
From Verif Require Import Num Arr MUtils MCosmo MPhot Spec SpecApi RList LBcast LUtils LCalc LKern LKern2 LBurst LDust LCosmo.
Import ListNotations.
Open Scope R_scope.

(** ** linearity and monotonicity of interpolation in the values *)
Lemma pwlin_linear xs : forall ys zs a b x, length xs = length ys -> length xs = length zs ->
  pwlin (combine xs (map2 (fun y z => a * y + b * z) ys zs)) x
  = a * pwlin (combine xs ys) x + b * pwlin (combine xs zs) x.
Proof.
  induction xs as [|x0 xs IH]; intros [|y0 ys] [|z0 zs] a b x H1 H2; try discriminate; [simpl; lra|].
  destruct xs as [|x1 xs], ys as [|y1 ys], zs as [|z1 zs]; try discriminate; [simpl; lra|].
  specialize (IH (y1 :: ys) (z1 :: zs) a b x ltac:(simpl in *; lia) ltac:(simpl in *; lia)).
  cbn [map2 combine pwlin] in *. destruct (Rle_dec x x0); [lra|]. destruct (Rlt_dec x x1).
  - unfold Rdiv. ring.
  - rewrite IH. reflexivity.
Qed.
Lemma pwlin_scal xs ys s x : length xs = length ys ->
  pwlin (combine xs (map (Rmult s) ys)) x = s * pwlin (combine xs ys) x.
Proof.
  intros H. pose proof (pwlin_linear xs ys ys s 0 x H H) as E.
  rewrite (map2_ext _ (fun y _ => s * y)) in E by (intros; lra).
  rewrite map2_const_r in E by auto.
  change (pwlin (combine xs (map (Rmult s) ys)) x = s * pwlin (combine xs ys) x + 0 * pwlin (combine xs ys) x) in E. lra.
Qed.
Lemma pwlin_le xs : forall ys zs x, length xs = length ys -> length xs = length zs -> increasing xs ->
  (forall i, (i < length xs)%nat -> ent ys i <= ent zs i) ->
  pwlin (combine xs ys) x <= pwlin (combine xs zs) x.
Proof.
  induction xs as [|x0 xs IH]; intros [|y0 ys] [|z0 zs] x H1 H2 I H; try discriminate; [simpl; lra|].
  pose proof (H 0%nat ltac:(simpl; lia)) as A0. unfold ent in A0; cbn [nth] in A0.
  destruct xs as [|x1 xs], ys as [|y1 ys], zs as [|z1 zs]; try discriminate; [simpl; lra|].
  pose proof (H 1%nat ltac:(simpl; lia)) as A1. unfold ent in A1; cbn [nth] in A1.
  pose proof (I 0%nat 1%nat ltac:(simpl; lia)) as I0. unfold ent in I0; cbn [nth] in I0.
  cbn [combine pwlin]. destruct (Rle_dec x x0); [lra|]. destruct (Rlt_dec x x1).
  - assert (0 <= (x - x0) / (x1 - x0) <= 1).
    { split; [apply le_div_iff; lra|apply div_le_iff; lra]. }
    nra.
  - apply (IH (y1 :: ys) (z1 :: zs)); [simpl in *; lia|simpl in *; lia|eapply increasing_tl; eauto|].
    intros i Hi. apply (H (S i)). simpl in *. lia.
Qed.
Lemma pwlin_const xs c x : xs <> [] -> increasing xs -> pwlin (combine xs (map (fun _ => c) xs)) x = c.
Proof.
  induction xs as [|x0 xs IH]; [congruence|]. intros _ I. destruct xs as [|x1 xs]; [reflexivity|].
  cbn [map combine pwlin] in *. destruct (Rle_dec x x0); auto.
  pose proof (I 0%nat 1%nat ltac:(simpl; lia)) as I0. unfold ent in I0; cbn [nth] in I0.
  destruct (Rlt_dec x x1); [field; lra|]. apply IH; [discriminate|eapply increasing_tl; eauto].
Qed.
Lemma pwlin_stretch xs : forall ys c x, 0 < c -> length xs = length ys ->
  pwlin (combine (map (fun w => w * c) xs) ys) x = pwlin (combine xs ys) (x / c).
Proof.
  induction xs as [|x0 xs IH]; intros [|y0 ys] c x Hc H; try discriminate; [reflexivity|].
  destruct xs as [|x1 xs], ys as [|y1 ys]; try discriminate; [reflexivity|].
  specialize (IH (y1 :: ys) c x Hc ltac:(simpl in *; lia)). cbn [map combine pwlin] in *. rewrite IH.
  assert (forall u, x <= u * c <-> x / c <= u) by (intros u; symmetry; now apply div_le_iff).
  assert (forall u, x < u * c <-> x / c < u) by (intros u; symmetry; now apply div_lt_iff).
  destruct (Rle_dec x (x0 * c)) as [A|A], (Rle_dec (x / c) x0) as [B|B]; try reflexivity;
    try (exfalso; apply B; now apply H0); try (exfalso; apply A; now apply H0).
  destruct (Rlt_dec x (x1 * c)) as [A1|A1], (Rlt_dec (x / c) x1) as [B1|B1]; try reflexivity;
    try (exfalso; apply B1; now apply H1); try (exfalso; apply A1; now apply H1).
  destruct (Req_dec x1 x0) as [E|E].
  - subst. replace (x0 * c - x0 * c) with 0 by lra. replace (x0 - x0) with 0 by lra. unfold Rdiv. rewrite !Rinv_0. lra.
  - field. split; [lra|]. split; lra.
Qed.

(** ** band integrals *)
Lemma map2_seq (f : R -> R -> R) l1 l2 : length l1 = length l2 ->
  map2 f l1 l2 = map (fun i => f (ent l1 i) (ent l2 i)) (seq 0 (length l2)).
Proof.
  intros H. apply list_eq_ent.
  - rewrite map2_length, map_length, seq_length. lia.
  - intros i Hi. rewrite map2_length in Hi. rewrite ent_map2, ent_map_seq by lia. now rewrite Nat.add_0_l.
Qed.
Lemma ab0_pos : 0 < ab0. Proof. unfold ab0. lra. Qed.
Lemma norm_fin wf tf : length wf = length tf -> List.Forall (fun w => 0 < w) wf ->
  flux_ab0_at_10pc (fins wf) (fins tf) = Fin (band_integral (fun _ => ab0) wf tf).
Proof.
  intros L P. unfold flux_ab0_at_10pc, AB0. unlit. change (1.13492 / 10 ^ 13) with ab0.
  rewrite (map2_fins _ (fun t w => t * ab0 / w)).
  - rewrite trapz_fins by (rewrite map2_length; lia). unfold band_integral. now rewrite map2_seq by auto.
  - intros t w _ Hw. rewrite List.Forall_forall in P. specialize (P w Hw). now rewrite nmul_fin, ndiv_fin by lra.
Qed.
Lemma interp_spectrum ws ls x : good_spectrum ws ls ->
  interp_lr (Fin 0) (Fin 0) (Fin x) (fins ws) (fins ls) = Fin (spectrum_at ws ls x).
Proof. intros (I & L & N). now rewrite interp_lr_fins by auto. Qed.
Lemma restflux_fin ws ls wf tf : good_spectrum ws ls -> length wf = length tf -> List.Forall (fun w => 0 < w) wf ->
  rest_flux_ssp (fins ws) (fins ls) (fins wf) (fins tf) = Fin (band_integral (spectrum_at ws ls) wf tf).
Proof.
  intros G L P. unfold rest_flux_ssp.
  rewrite (map_fins _ (spectrum_at ws ls)) by (intros; now apply interp_spectrum).
  rewrite (map2_fins nmul Rmult) by (intros; apply nmul_fin).
  rewrite (map2_fins _ (fun a w => a / w)).
  - rewrite trapz_fins by (rewrite !map2_length, map_length; lia). unfold band_integral. do 2 f_equal.
    rewrite map2_seq by (rewrite map2_length, map_length; lia). apply map_ext_in. intros i Hi. apply in_seq in Hi.
    rewrite ent_map2 by (try rewrite map_length; lia). rewrite ent_map by lia. reflexivity.
  - intros a w _ Hw. rewrite List.Forall_forall in P. specialize (P w Hw). now rewrite ndiv_fin by lra.
Qed.
Lemma stretch_increasing ws c : 0 < c -> increasing ws -> increasing (map (fun w => w * c) ws).
Proof. intros Hc I. apply increasing_map; [exact I|]. intros. nra. Qed.
Lemma stretch_good ws ls c : 0 < c -> good_spectrum ws ls -> good_spectrum (map (fun w => w * c) ws) ls.
Proof.
  intros Hc (I & L & N). split; [now apply stretch_increasing|]. split; [now rewrite map_length|].
  destruct ws; [congruence|discriminate].
Qed.
Lemma stretch_at ws ls c x : 0 < c -> good_spectrum ws ls ->
  spectrum_at (map (fun w => w * c) ws) ls x = spectrum_at ws ls (x / c).
Proof.
  intros Hc (I & L & N). unfold spectrum_at. rewrite map_length.
  assert (NL : (0 < length ws)%nat) by (destruct ws; [congruence|simpl; lia]).
  rewrite !(ent_map (fun w => w * c)) by lia. rewrite pwlin_stretch by auto.
  pose proof (div_lt_iff x c (ent ws 0) Hc) as A. pose proof (lt_div_iff x c (ent ws (length ws - 1)) Hc) as B.
  destruct (Rlt_dec x (ent ws 0 * c)), (Rlt_dec (x / c) (ent ws 0)); try tauto.
  destruct (Rlt_dec (ent ws (length ws - 1) * c) x), (Rlt_dec (ent ws (length ws - 1)) (x / c)); tauto.
Qed.
Lemma band_ext S S' wf tf : (forall x, In x wf -> S x = S' x) -> band_integral S wf tf = band_integral S' wf tf.
Proof.
  intros H. unfold band_integral. f_equal. apply map_ext_in. intros i Hi. apply in_seq in Hi.
  rewrite H; auto. apply ent_In. lia.
Qed.
Lemma obsflux_fin ws ls wf tf z : good_spectrum ws ls -> length wf = length tf -> List.Forall (fun w => 0 < w) wf -> -1 < z ->
  obs_flux_ssp (fins ws) (fins ls) (fins wf) (fins tf) (Fin z)
  = Fin (band_integral (fun x => spectrum_at ws ls (x / (1 + z))) wf tf).
Proof.
  intros G L P Hz. unfold obs_flux_ssp.
  assert (E : map (fun w => nmul w (nadd (Fin 1) (Fin z))) (fins ws) = fins (map (fun w => w * (1 + z)) ws)).
  { apply map_fins. intros. now rewrite nadd_fin, nmul_fin. }
  rewrite E.
  change (rest_flux_ssp (fins (map (fun w => w * (1 + z)) ws)) (fins ls) (fins wf) (fins tf)
    = Fin (band_integral (fun x => spectrum_at ws ls (x / (1 + z))) wf tf)).
  rewrite restflux_fin by (auto; apply stretch_good; auto; lra). f_equal.
  apply band_ext. intros x _. apply stretch_at; auto; lra.
Qed.
Lemma band_linear (S1 S2 : R -> R) a b wf tf :
  band_integral (fun x => a * S1 x + b * S2 x) wf tf = a * band_integral S1 wf tf + b * band_integral S2 wf tf.
Proof.
  unfold band_integral.
  rewrite <- (trapezoid_linear wf _ _ a b) by (rewrite map_length, seq_length; auto). f_equal.
  generalize (seq 0 (length wf)). intros l. induction l; simpl; auto. f_equal; auto. unfold Rdiv. ring.
Qed.
Lemma band_scal (S : R -> R) s wf tf : band_integral (fun x => s * S x) wf tf = s * band_integral S wf tf.
Proof.
  pose proof (band_linear S S s 0 wf tf) as E. rewrite (band_ext _ (fun x => s * S x)) in E by (intros; lra). lra.
Qed.
Lemma band_trans_scal S c wf tf : length wf = length tf ->
  band_integral S wf (map (Rmult c) tf) = c * band_integral S wf tf.
Proof.
  intros L. rewrite <- band_scal. unfold band_integral. f_equal. apply map_ext_in. intros i Hi. apply in_seq in Hi.
  rewrite ent_map by lia. unfold Rdiv. ring.
Qed.
Lemma band_mono S S' wf tf : length wf = length tf -> increasing wf -> List.Forall (fun w => 0 < w) wf ->
  List.Forall (fun t => 0 <= t) tf -> (forall x, In x wf -> S x <= S' x) -> band_integral S wf tf <= band_integral S' wf tf.
Proof.
  intros L I P T H. unfold band_integral. apply trapezoid_mono; try (rewrite map_length, seq_length; auto);
    auto using increasing_nondecreasing.
  intros i Hi. rewrite !ent_map_seq by auto. rewrite !Nat.add_0_l.
  rewrite List.Forall_forall in P, T. specialize (P _ (ent_In wf i Hi)). specialize (T _ (ent_In tf i ltac:(lia))).
  specialize (H _ (ent_In wf i Hi)). apply div_le_mono; auto. nra.
Qed.
Lemma trapezoid_stretch xs : forall ys c, 0 < c -> length xs = length ys ->
  trapezoid (map (fun w => w / c) xs) (map (fun y => y * c) ys) = trapezoid xs ys.
Proof.
  induction xs as [|x0 xs IH]; intros [|y0 ys] c Hc H; try discriminate; [reflexivity|].
  destruct xs as [|x1 xs], ys as [|y1 ys]; try discriminate; [reflexivity|].
  specialize (IH (y1 :: ys) c Hc ltac:(simpl in *; lia)). cbn [map] in *. rewrite !trapezoid_cons2, IH. field. lra.
Qed.
Lemma band_stretch S wf tf c : 0 < c -> List.Forall (fun w => 0 < w) wf ->
  band_integral S (map (fun w => w / c) wf) tf = band_integral (fun x => S (x / c)) wf tf.
Proof.
  intros Hc P. unfold band_integral. rewrite map_length.
  rewrite <- (trapezoid_stretch wf _ c Hc) by (rewrite map_length, seq_length; auto). f_equal.
  rewrite map_map. apply map_ext_in. intros i Hi. apply in_seq in Hi.
  rewrite (ent_map (fun w => w / c)) by lia. rewrite List.Forall_forall in P. specialize (P _ (ent_In wf i ltac:(lia))).
  field. lra.
Qed.

(** ** API functions *)
Lemma check_spec_ok {A} ws ls wf tf (k : res A) : good_spectrum ws ls -> length wf = length tf ->
  check_spec (fins ws) (fins ls) (fins wf) (fins tf) k = k.
Proof.
  intros (I & L & N) H. unfold check_spec, check.
  rewrite (proj2 (same_len_true (fins ws) (fins ls))) by (rewrite !fins_length; auto).
  unfold filter_ok. rewrite (fits_same _ (fins tf)) by (rewrite !fins_length; auto). cbn [orb].
  rewrite fins_length. destruct ws; [congruence|]. reflexivity.
Qed.
Lemma flux_ok ws ls wf tf : good_spectrum ws ls -> good_filter wf tf ->
  calc_rest_flux (fins ws) (fins ls) (fins wf) (fins tf) = Ok (Fin (band_flux (spectrum_at ws ls) wf tf)).
Proof.
  intros G (L & P & N). unfold calc_rest_flux. rewrite check_spec_ok by auto. rewrite stretch_same by (rewrite !fins_length; symmetry; auto; apply F). f_equal.
  unfold calc_rest_flux_k. rewrite restflux_fin, norm_fin by auto. now rewrite ndiv_fin by lra.
Qed.
Lemma mag_ok ws ls wf tf : good_spectrum ws ls -> good_filter wf tf -> 0 < band_flux (spectrum_at ws ls) wf tf ->
  calc_rest_mag (fins ws) (fins ls) (fins wf) (fins tf) = Ok (Fin (-2.5 * log10 (band_flux (spectrum_at ws ls) wf tf))).
Proof.
  intros G (L & P & N) F. unfold calc_rest_mag. rewrite check_spec_ok by auto. rewrite stretch_same by (rewrite !fins_length; symmetry; auto; apply F). f_equal.
  unfold calc_rest_mag_k, calc_rest_flux_k. rewrite restflux_fin, norm_fin by auto. rewrite ndiv_fin by lra. unlit.
  fold (band_flux (spectrum_at ws ls) wf tf). now rewrite nlog10_fin, nmul_fin by auto.
Qed.
Definition zspec ws ls z (x : R) : R := spectrum_at ws ls (x / (1 + z)).
Lemma nodim_k ws ls wf tf z : good_spectrum ws ls -> good_filter wf tf -> -1 < z -> 0 < band_flux (zspec ws ls z) wf tf ->
  nmul (lit (-2.5)) (nlog10 (ndiv (obs_flux_ssp (fins ws) (fins ls) (fins wf) (fins tf) (Fin z))
     (flux_ab0_at_10pc (fins wf) (fins tf)))) = Fin (-2.5 * log10 (band_flux (zspec ws ls z) wf tf)).
Proof.
  intros G (L & P & N) Hz F. rewrite obsflux_fin, norm_fin by auto. rewrite ndiv_fin by lra. unlit.
  change (band_integral (fun x => spectrum_at ws ls (x / (1 + z))) wf tf / band_integral (fun _ => ab0) wf tf)
    with (band_flux (zspec ws ls z) wf tf). now rewrite nlog10_fin, nmul_fin by auto.
Qed.
Lemma nodim_ok ws ls wf tf z : good_spectrum ws ls -> good_filter wf tf -> -1 < z -> 0 < band_flux (zspec ws ls z) wf tf ->
  calc_obs_mag_no_dimming (fins ws) (fins ls) (fins wf) (fins tf) (Fin z)
  = Ok (Fin (-2.5 * log10 (band_flux (zspec ws ls z) wf tf))).
Proof.
  intros G F Hz H. unfold calc_obs_mag_no_dimming. rewrite check_spec_ok by (auto; apply F). rewrite stretch_same by (rewrite !fins_length; symmetry; auto; apply F). f_equal. now apply nodim_k.
Qed.

(** magnitude of any flux: +inf for no flux, NaN for a negative one *)
Definition mag_of (F : R) : num := nmul (Fin (-2.5)) (nlog10 (Fin F)).
Lemma mag_of_pos F : 0 < F -> mag_of F = Fin (-2.5 * log10 F).
Proof. intros. unfold mag_of. now rewrite nlog10_fin, nmul_fin. Qed.
Lemma mag_of_0 : mag_of 0 = PInf.
Proof.
  unfold mag_of, nlog10. rewrite Rlt_bool_false, Req_bool_true by lra. unfold nmul, inf_times.
  rewrite Rlt_bool_false, Rlt_bool_true by lra. reflexivity.
Qed.
Lemma mag_of_neg F : F < 0 -> mag_of F = NaN.
Proof. intros. unfold mag_of, nlog10. rewrite Rlt_bool_false, Req_bool_false by lra. reflexivity. Qed.
Lemma log10_mult x y : 0 < x -> 0 < y -> log10 (x * y) = log10 x + log10 y.
Proof. intros. unfold log10. rewrite ln_mult by auto. unfold Rdiv. ring. Qed.
Lemma mag_of_scal s F : 0 < s -> mag_of (s * F) = nadd (mag_of F) (Fin (-2.5 * log10 s)).
Proof.
  intros Hs. destruct (Rtotal_order F 0) as [H|[H|H]].
  - rewrite !mag_of_neg by nra. reflexivity.
  - subst. rewrite Rmult_0_r, mag_of_0. reflexivity.
  - rewrite !mag_of_pos by nra. rewrite nadd_fin, log10_mult by auto. f_equal. lra.
Qed.
Lemma restmag_gen ws ls wf tf : good_spectrum ws ls -> good_filter wf tf ->
  calc_rest_mag (fins ws) (fins ls) (fins wf) (fins tf) = Ok (mag_of (band_flux (spectrum_at ws ls) wf tf)).
Proof.
  intros G (L & P & N). unfold calc_rest_mag. rewrite check_spec_ok by auto. rewrite stretch_same by (rewrite !fins_length; symmetry; auto; apply F). f_equal.
  unfold calc_rest_mag_k, calc_rest_flux_k. rewrite restflux_fin, norm_fin by auto. rewrite ndiv_fin by lra. unlit.
  reflexivity.
Qed.
Lemma nodimk_gen ws ls wf tf z : good_spectrum ws ls -> good_filter wf tf -> -1 < z ->
  calc_obs_mag_no_dimming_k (fins ws) (fins ls) (fins wf) (fins tf) (Fin z) = mag_of (band_flux (zspec ws ls z) wf tf).
Proof.
  intros G (L & P & N) Hz. unfold calc_obs_mag_no_dimming_k. rewrite obsflux_fin, norm_fin by auto.
  rewrite ndiv_fin by lra. unlit. reflexivity.
Qed.
Lemma nodim_gen ws ls wf tf z : good_spectrum ws ls -> good_filter wf tf -> -1 < z ->
  calc_obs_mag_no_dimming (fins ws) (fins ls) (fins wf) (fins tf) (Fin z) = Ok (mag_of (band_flux (zspec ws ls z) wf tf)).
Proof. intros G F Hz. unfold calc_obs_mag_no_dimming. rewrite check_spec_ok by (auto; apply F). rewrite stretch_same by (rewrite !fins_length; symmetry; auto; apply F). f_equal. now apply nodimk_gen. Qed.
Lemma obs_gen ws ls wf tf z Om0 w0 wa h : good_spectrum ws ls -> good_filter wf tf -> -1 < z ->
  calc_obs_mag (fins ws) (fins ls) (fins wf) (fins tf) (Fin z) Om0 w0 wa h
  = Ok (nadd (mag_of (band_flux (zspec ws ls z) wf tf)) (cosmological_dimming (Fin z) Om0 w0 wa h)).
Proof.
  intros G F Hz. unfold calc_obs_mag. rewrite check_spec_ok by (auto; apply F). rewrite stretch_same by (rewrite !fins_length; symmetry; auto; apply F). f_equal.
  change (calc_obs_mag_k (fins ws) (fins ls) (fins wf) (fins tf) (Fin z) Om0 w0 wa h)
    with (nadd (calc_obs_mag_no_dimming_k (fins ws) (fins ls) (fins wf) (fins tf) (Fin z)) (cosmological_dimming (Fin z) Om0 w0 wa h)).
  now rewrite nodimk_gen.
Qed.
Lemma dimming_fin z Om0 w0 wa h : 0 < z -> 0 < Om0 <= 1 -> 0 < h -> exists mu,
  distance_modulus_to_z (Fin z) (Fin Om0) (Fin w0) (Fin wa) (Fin h) = Fin mu
  /\ cosmological_dimming (Fin z) (Fin Om0) (Fin w0) (Fin wa) (Fin h) = Fin (mu - 2.5 * log10 (1 + z)).
Proof.
  intros Hz HO Hh. destruct (C55_lemma Om0 w0 wa h HO Hh) as [H _]. destruct (H z Hz) as (dL & mu & _ & E & _).
  exists mu. split; auto. unfold cosmological_dimming. rewrite E. unlit. rewrite nadd_fin, nlog10_fin, nmul_fin, nsub_fin by lra. reflexivity.
Qed.
Lemma obs_ok ws ls wf tf z Om0 w0 wa h : good_spectrum ws ls -> good_filter wf tf -> 0 < z -> 0 < Om0 <= 1 -> 0 < h ->
  0 < band_flux (zspec ws ls z) wf tf -> exists mu,
  distance_modulus_to_z (Fin z) (Fin Om0) (Fin w0) (Fin wa) (Fin h) = Fin mu
  /\ calc_obs_mag (fins ws) (fins ls) (fins wf) (fins tf) (Fin z) (Fin Om0) (Fin w0) (Fin wa) (Fin h)
     = Ok (Fin (-2.5 * log10 (band_flux (zspec ws ls z) wf tf) + mu - 2.5 * log10 (1 + z))).
Proof.
  intros G F Hz HO Hh HF. destruct (dimming_fin z Om0 w0 wa h Hz HO Hh) as (mu & E & D). exists mu. split; auto.
  rewrite obs_gen, D, mag_of_pos, nadd_fin by (auto; lra). do 2 f_equal. lra.
Qed.

Lemma spectrum_linear ws ls ls' a b x : length ws = length ls -> length ws = length ls' ->
  spectrum_at ws (map2 (fun y z => a * y + b * z) ls ls') x = a * spectrum_at ws ls x + b * spectrum_at ws ls' x.
Proof.
  intros. unfold spectrum_at. destruct (Rlt_dec x (ent ws 0)); [lra|].
  destruct (Rlt_dec (ent ws (length ws - 1)) x); [lra|]. now apply pwlin_linear.
Qed.
Lemma spectrum_scal ws ls s x : length ws = length ls -> spectrum_at ws (map (Rmult s) ls) x = s * spectrum_at ws ls x.
Proof.
  intros. unfold spectrum_at. destruct (Rlt_dec x (ent ws 0)); [lra|].
  destruct (Rlt_dec (ent ws (length ws - 1)) x); [lra|]. now apply pwlin_scal.
Qed.
Lemma flux_scal (S : R -> R) s wf tf : band_flux (fun x => s * S x) wf tf = s * band_flux S wf tf.
Proof. unfold band_flux. rewrite band_scal. unfold Rdiv. ring. Qed.
Lemma flux_ext S S' wf tf : (forall x, In x wf -> S x = S' x) -> band_flux S wf tf = band_flux S' wf tf.
Proof. intros. unfold band_flux. now rewrite (band_ext S S'). Qed.
Lemma scal_good ws ls s : good_spectrum ws ls -> good_spectrum ws (map (Rmult s) ls).
Proof. intros (I & L & N). split; auto. now rewrite map_length. Qed.

Lemma C63_lemma : forall ws ls wf tf s, good_spectrum ws ls -> good_filter wf tf -> 0 < s ->
  (exists m, calc_rest_mag (fins ws) (fins ls) (fins wf) (fins tf) = Ok m
     /\ calc_rest_mag (fins ws) (fins (map (Rmult s) ls)) (fins wf) (fins tf) = Ok (m + Fin (-2.5 * log10 s))%num)
  /\ (forall z Om0 w0 wa h, -1 < z -> exists m,
     calc_obs_mag (fins ws) (fins ls) (fins wf) (fins tf) (Fin z) Om0 w0 wa h = Ok m
     /\ calc_obs_mag (fins ws) (fins (map (Rmult s) ls)) (fins wf) (fins tf) (Fin z) Om0 w0 wa h
        = Ok (m + Fin (-2.5 * log10 s))%num).
Proof.
  intros ws ls wf tf s G F Hs. split.
  - eexists. split; [now apply restmag_gen|]. rewrite restmag_gen by (auto using scal_good). f_equal.
    rewrite <- mag_of_scal by auto. f_equal. rewrite <- flux_scal. apply flux_ext. intros. apply spectrum_scal, G.
  - intros z Om0 w0 wa h Hz. eexists. split; [now apply obs_gen|]. rewrite obs_gen by (auto using scal_good). f_equal.
    replace (band_flux (zspec ws (map (Rmult s) ls) z) wf tf) with (s * band_flux (zspec ws ls z) wf tf).
    2:{ rewrite <- flux_scal. apply flux_ext. intros. unfold zspec. symmetry. apply spectrum_scal, G. }
    rewrite mag_of_scal by auto. destruct (mag_of (band_flux (zspec ws ls z) wf tf)); try reflexivity;
    destruct (cosmological_dimming (Fin z) Om0 w0 wa h); try reflexivity.
    rewrite !nadd_fin. f_equal. lra.
Qed.
Lemma C63_add_lemma : forall ws ls ls' wf tf, good_spectrum ws ls -> good_spectrum ws ls' -> good_filter wf tf ->
  exists f f', calc_rest_flux (fins ws) (fins ls) (fins wf) (fins tf) = Ok (Fin f)
   /\ calc_rest_flux (fins ws) (fins ls') (fins wf) (fins tf) = Ok (Fin f')
   /\ calc_rest_flux (fins ws) (fins (map2 Rplus ls ls')) (fins wf) (fins tf) = Ok (Fin (f + f')).
Proof.
  intros ws ls ls' wf tf G G' F. do 2 eexists. split; [now apply flux_ok|]. split; [now apply flux_ok|].
  destruct G as (I & L & N), G' as (_ & L' & _).
  rewrite flux_ok; auto. 2:{ split; auto. rewrite map2_length. split; auto. lia. }
  do 2 f_equal. unfold band_flux. rewrite <- Rdiv_plus_distr. f_equal.
  pose proof (band_linear (spectrum_at ws ls) (spectrum_at ws ls') 1 1 wf tf) as E. rewrite !Rmult_1_l in E.
  rewrite <- E. apply band_ext. intros x _. rewrite <- spectrum_linear by auto. f_equal. apply map2_ext. intros; lra.
Qed.
Lemma C64_lemma : forall ws wf tf s, increasing ws -> ws <> [] -> good_filter wf tf -> 0 < s ->
  (forall w, In w wf -> ent ws 0 <= w <= ent ws (length ws - 1)) ->
  calc_rest_mag (fins ws) (fins (map (fun _ => s * ab0) ws)) (fins wf) (fins tf) = Ok (Fin (-2.5 * log10 s))
  /\ calc_rest_mag (fins ws) (fins (map (fun _ => ab0) ws)) (fins wf) (fins tf) = Ok (Fin 0).
Proof.
  intros ws wf tf s I N F Hs R.
  assert (K : forall s, 0 < s ->
    calc_rest_mag (fins ws) (fins (map (fun _ => s * ab0) ws)) (fins wf) (fins tf) = Ok (Fin (-2.5 * log10 s))).
  { clear s Hs. intros s Hs.
    rewrite restmag_gen; auto. 2:{ split; [auto|split; auto; now rewrite map_length]. } f_equal.
    rewrite <- mag_of_pos by auto. f_equal.
    rewrite (flux_ext _ (fun x => s * ab0)).
    - rewrite (flux_scal (fun _ => ab0)). unfold band_flux. destruct F as (_ & _ & F). field. lra.
    - intros w Hw. specialize (R w Hw). unfold spectrum_at. destruct (Rlt_dec w (ent ws 0)); [lra|].
      destruct (Rlt_dec (ent ws (length ws - 1)) w); [lra|]. now apply pwlin_const. }
  split; [auto|]. specialize (K 1 Rlt_0_1). rewrite Rmult_1_l in K. rewrite K. unfold log10. rewrite ln_1.
  do 2 f_equal. unfold Rdiv. ring.
Qed.
Lemma filter_scal wf tf c : 0 < c -> good_filter wf tf -> good_filter wf (map (Rmult c) tf).
Proof. intros Hc (L & P & N). split; [now rewrite map_length|]. split; auto. rewrite band_trans_scal by auto. nra. Qed.
Lemma flux_trans S c wf tf : 0 < c -> good_filter wf tf -> band_flux S wf (map (Rmult c) tf) = band_flux S wf tf.
Proof. intros Hc (L & P & N). unfold band_flux. rewrite !band_trans_scal by auto. field. lra. Qed.
Lemma C65_lemma : forall ws ls wf tf c, good_spectrum ws ls -> good_filter wf tf -> 0 < c ->
  calc_rest_flux (fins ws) (fins ls) (fins wf) (fins (map (Rmult c) tf)) = calc_rest_flux (fins ws) (fins ls) (fins wf) (fins tf)
  /\ calc_rest_mag (fins ws) (fins ls) (fins wf) (fins (map (Rmult c) tf)) = calc_rest_mag (fins ws) (fins ls) (fins wf) (fins tf)
  /\ forall z Om0 w0 wa h, -1 < z ->
     calc_obs_mag (fins ws) (fins ls) (fins wf) (fins (map (Rmult c) tf)) (Fin z) Om0 w0 wa h
     = calc_obs_mag (fins ws) (fins ls) (fins wf) (fins tf) (Fin z) Om0 w0 wa h.
Proof.
  intros ws ls wf tf c G F Hc. pose proof (filter_scal wf tf c Hc F) as F'.
  split; [rewrite !flux_ok by auto; now rewrite flux_trans|].
  split; [rewrite !restmag_gen by auto; now rewrite flux_trans|].
  intros. rewrite !obs_gen by auto. now rewrite flux_trans.
Qed.
Lemma spectrum_le ws ls ls' x : good_spectrum ws ls -> length ws = length ls' ->
  (forall i, (i < length ws)%nat -> ent ls i <= ent ls' i) -> spectrum_at ws ls x <= spectrum_at ws ls' x.
Proof.
  intros (I & L & N) L' H. unfold spectrum_at. destruct (Rlt_dec x (ent ws 0)); [lra|].
  destruct (Rlt_dec (ent ws (length ws - 1)) x); [lra|]. now apply pwlin_le.
Qed.
Lemma C66_lemma : forall ws ls ls' wf tf, good_spectrum ws ls -> good_spectrum ws ls' -> good_filter wf tf ->
  increasing wf -> List.Forall (fun t => 0 <= t) tf ->
  (forall i, (i < length ws)%nat -> ent ls i <= ent ls' i) ->
  exists f f', calc_rest_flux (fins ws) (fins ls) (fins wf) (fins tf) = Ok (Fin f)
   /\ calc_rest_flux (fins ws) (fins ls') (fins wf) (fins tf) = Ok (Fin f')
   /\ f <= f'
   /\ (0 < f -> exists m m', calc_rest_mag (fins ws) (fins ls) (fins wf) (fins tf) = Ok (Fin m)
        /\ calc_rest_mag (fins ws) (fins ls') (fins wf) (fins tf) = Ok (Fin m') /\ m' <= m).
Proof.
  intros ws ls ls' wf tf G G' F I T H. do 2 eexists. split; [now apply flux_ok|]. split; [now apply flux_ok|].
  assert (K : band_flux (spectrum_at ws ls) wf tf <= band_flux (spectrum_at ws ls') wf tf).
  { destruct F as (L & P & N). unfold band_flux. apply div_le_mono; auto. apply band_mono; auto.
    intros. apply spectrum_le; auto. apply G'. }
  split; auto. intros Hp. do 2 eexists. split; [now apply mag_ok|]. split; [apply mag_ok; auto; lra|].
  assert (log10 (band_flux (spectrum_at ws ls) wf tf) <= log10 (band_flux (spectrum_at ws ls') wf tf)) by (apply log10_le; lra).
  lra.
Qed.
Lemma trapezoid_zero xs : forall ys, List.Forall (fun y => y = 0) ys -> trapezoid xs ys = 0.
Proof.
  induction xs as [|x0 xs IH]; intros ys H; [reflexivity|]. destruct xs as [|x1 xs]; [destruct ys; reflexivity|].
  destruct H as [|y0 ys H0 H]; [reflexivity|]. destruct H as [|y1 ys H1 H]; [reflexivity|].
  rewrite trapezoid_cons2, IH by (constructor; auto). subst. lra.
Qed.
Lemma C67_lemma : forall ws ls wf tf, good_spectrum ws ls -> good_filter wf tf ->
  (forall w, In w wf -> w < ent ws 0 \/ ent ws (length ws - 1) < w) ->
  calc_rest_flux (fins ws) (fins ls) (fins wf) (fins tf) = Ok (Fin 0)
  /\ calc_rest_mag (fins ws) (fins ls) (fins wf) (fins tf) = Ok PInf.
Proof.
  intros ws ls wf tf G F H.
  assert (K : band_flux (spectrum_at ws ls) wf tf = 0).
  { unfold band_flux, band_integral at 1. rewrite trapezoid_zero; [unfold Rdiv; ring|].
    apply List.Forall_forall. intros y Hy. apply in_map_iff in Hy. destruct Hy as (i & <- & Hi). apply in_seq in Hi.
    unfold spectrum_at. destruct (H _ (ent_In wf i ltac:(lia))).
    - destruct (Rlt_dec (ent wf i) (ent ws 0)); [unfold Rdiv; ring|lra].
    - destruct (Rlt_dec (ent wf i) (ent ws 0)); [unfold Rdiv; ring|].
      destruct (Rlt_dec (ent ws (length ws - 1)) (ent wf i)); [unfold Rdiv; ring|lra]. }
  rewrite flux_ok, restmag_gen, K by auto. split; auto. f_equal. apply mag_of_0.
Qed.
Lemma zspec_0 ws ls wf tf : band_flux (zspec ws ls 0) wf tf = band_flux (spectrum_at ws ls) wf tf.
Proof. apply flux_ext. intros. unfold zspec. f_equal. field. Qed.
Lemma C68_lemma : forall ws ls wf tf, good_spectrum ws ls -> good_filter wf tf ->
  calc_obs_mag_no_dimming (fins ws) (fins ls) (fins wf) (fins tf) (Fin 0) = calc_rest_mag (fins ws) (fins ls) (fins wf) (fins tf)
  /\ (forall z Om0 w0 wa h, 0 < z -> 0 < Om0 <= 1 -> 0 < h -> exists m mu,
        calc_obs_mag_no_dimming (fins ws) (fins ls) (fins wf) (fins tf) (Fin z) = Ok m
        /\ distance_modulus_to_z (Fin z) (Fin Om0) (Fin w0) (Fin wa) (Fin h) = Fin mu
        /\ calc_obs_mag (fins ws) (fins ls) (fins wf) (fins tf) (Fin z) (Fin Om0) (Fin w0) (Fin wa) (Fin h)
           = Ok (m + Fin (mu - 2.5 * log10 (1 + z)))%num)
  /\ (forall Om0 w0 wa h m, 0 < Om0 <= 1 -> 0 < h ->
        calc_rest_mag (fins ws) (fins ls) (fins wf) (fins tf) = Ok (Fin m) ->
        calc_obs_mag (fins ws) (fins ls) (fins wf) (fins tf) (Fin 0) (Fin Om0) (Fin w0) (Fin wa) (Fin h) = Ok NInf).
Proof.
  intros ws ls wf tf G F. split; [|split].
  - rewrite nodim_gen, restmag_gen by (auto; lra). now rewrite zspec_0.
  - intros z Om0 w0 wa h Hz HO Hh. destruct (dimming_fin z Om0 w0 wa h Hz HO Hh) as (mu & E & D).
    do 2 eexists. split; [apply nodim_gen; auto; lra|]. split; [eauto|]. rewrite obs_gen, D by (auto; lra). reflexivity.
  - intros Om0 w0 wa h m HO Hh Hm. rewrite restmag_gen in Hm by auto. injection Hm as Hm.
    rewrite obs_gen by (auto; lra). rewrite zspec_0, Hm. f_equal.
    destruct (C55_lemma Om0 w0 wa h HO Hh) as [_ E]. unfold cosmological_dimming. rewrite E. unlit.
    rewrite nadd_fin, nlog10_fin, nmul_fin by lra. reflexivity.
Qed.
Lemma filter_stretch wf tf c : 0 < c -> good_filter wf tf -> good_filter (map (fun w => w / c) wf) tf.
Proof.
  intros Hc (L & P & N). split; [now rewrite map_length|]. split.
  - rewrite List.Forall_forall in *. intros x Hx. apply in_map_iff in Hx. destruct Hx as (w & <- & Hw).
    apply Rdiv_lt_0_compat; auto.
  - now rewrite band_stretch.
Qed.
Lemma C69_lemma : forall ws ls wf tf z, good_spectrum ws ls -> good_filter wf tf -> -1 < z ->
  calc_obs_mag_no_dimming (fins ws) (fins ls) (fins wf) (fins tf) (Fin z)
  = calc_rest_mag (fins ws) (fins ls) (fins (map (fun w => w / (1 + z)) wf)) (fins tf).
Proof.
  intros ws ls wf tf z G F Hz.
  rewrite nodim_gen, restmag_gen by (auto; apply filter_stretch; auto; lra). do 2 f_equal.
  unfold band_flux. rewrite !band_stretch by (try apply F; lra). reflexivity.
Qed.

(** ** C70: tables *)
Lemma forallb_nth {A} (P : A -> bool) l d i : forallb P l = true -> (i < length l)%nat -> P (nth i l d) = true.
Proof. intros H Hi. rewrite forallb_forall in H. apply H. now apply nth_In. Qed.
Lemma check_pop_inv {A} w f fw ft (k : res A) t : check_pop w f fw ft k = Ok t ->
  k = Ok t /\ (length w <> 0)%nat /\ length fw = length ft
  /\ (forall im ia, (im < length f)%nat -> (ia < length (nth im f []))%nat -> length (nth ia (nth im f []) []) = length w)
  /\ (forall ib, (ib < length fw)%nat -> filter_ok (nth ib fw []) (nth ib ft []) = true).
Proof.
  unfold check_pop, check. destruct (forallb (rect (length w)) f) eqn:E1; [|discriminate].
  destruct (length w =? 0)%nat eqn:E2; [discriminate|]. cbn [negb].
  destruct (same_len fw ft) eqn:E3; [|discriminate]. cbn [andb].
  destruct (forallb _ (combine fw ft)) eqn:E4; [|discriminate].
  intros H. split; auto. apply Nat.eqb_neq in E2. apply same_len_true in E3. split; auto. split; auto. split.
  - intros im ia H1 H2. pose proof (forallb_nth _ _ [] _ E1 H1) as R. unfold rect in R.
    pose proof (forallb_nth _ _ [] _ R H2) as R2. now apply Nat.eqb_eq in R2.
  - intros ib H1. pose proof (forallb_nth _ _ ([], []) ib E4 ltac:(rewrite combine_length; lia)) as R.
    rewrite combine_nth in R by auto. exact R.
Qed.
Lemma check_pop_ok {A} w f fw ft (k : res A) : w <> [] -> length fw = length ft ->
  List.Forall (List.Forall (fun s => length s = length w)) f ->
  (forall ib, (ib < length fw)%nat -> length (nth ib fw []) = length (nth ib ft [])) ->
  check_pop w f fw ft k = k.
Proof.
  intros N L F P. unfold check_pop, check.
  assert (E1 : forallb (rect (length w)) f = true).
  { apply forallb_forall. intros m Hm. rewrite List.Forall_forall in F. specialize (F m Hm). apply forallb_forall.
    rewrite List.Forall_forall in F. intros s Hs. apply Nat.eqb_eq. auto. }
  rewrite E1. destruct w; [congruence|]. cbn [length Nat.eqb negb].
  rewrite (proj2 (same_len_true fw ft)) by auto.
  assert (E4 : forallb (fun p : list num * list num => filter_ok (fst p) (snd p)) (combine fw ft) = true).
  { apply forallb_forall. intros p Hp. apply (In_nth _ _ ([], [])) in Hp. destruct Hp as (i & Hi & <-).
    rewrite combine_length in Hi. rewrite combine_nth by auto. cbn [fst snd]. unfold filter_ok. rewrite fits_same; [reflexivity|]. symmetry. apply P. lia. }
  now rewrite E4.
Qed.
Lemma check_spec_ok_gen {AR : Arith} {A} ws ls wf tf (k : res A) : (length ws <> 0)%nat -> length ls = length ws -> filter_ok wf tf = true ->
  check_spec ws ls wf tf k = k.
Proof.
  intros H L L'. unfold check_spec, check.
  rewrite (proj2 (same_len_true ws ls)), L' by auto.
  destruct (length ws =? 0)%nat eqn:E; [apply Nat.eqb_eq in E; lia|reflexivity].
Qed.
Lemma check_spec_gen {AR : Arith} {A} ws ls wf tf (k : res A) : (length ws <> 0)%nat -> length ls = length ws -> length wf = length tf ->
  check_spec ws ls wf tf k = k.
Proof.
  intros H L L'. apply check_spec_ok_gen; auto. unfold filter_ok. now rewrite fits_same.
Qed.
Lemma nth_map_gen {A B} (f : A -> B) l i d d' : (i < length l)%nat -> nth i (map f l) d' = f (nth i l d).
Proof. intros. rewrite (nth_indep _ d' (f d)) by now rewrite map_length. apply map_nth. Qed.
Lemma nth_map2_gen {A B C} (f : A -> B -> C) l1 : forall l2 i d1 d2 d, (i < length l1)%nat -> (i < length l2)%nat ->
  nth i (map2 f l1 l2) d = f (nth i l1 d1) (nth i l2 d2).
Proof.
  induction l1; intros [|b l2] [|i] d1 d2 d H1 H2; simpl in *; try lia; auto. apply IHl1; lia.
Qed.
Lemma length_map2_gen {A B C} (f : A -> B -> C) l1 : forall l2, length l1 = length l2 -> length (map2 f l1 l2) = length l1.
Proof. induction l1; intros [|b l2] H; simpl in *; try lia; auto. Qed.

Lemma C70_obs_lemma {AR : Arith} : forall w f fw ft zt Om0 w0 wa h,
  (w <> [] -> length fw = length ft -> List.Forall (List.Forall (fun s => length s = length w)) f ->
   (forall ib, (ib < length fw)%nat -> length (nth ib fw []) = length (nth ib ft [])) ->
   exists tab, precompute_ssp_obsmags_on_z_table w f fw ft zt Om0 w0 wa h = Ok tab)
  /\ (forall tab, precompute_ssp_obsmags_on_z_table w f fw ft zt Om0 w0 wa h = Ok tab ->
   length tab = length zt
   /\ (forall iz, (iz < length zt)%nat -> length (nth iz tab []) = length f
     /\ forall im, (im < length f)%nat -> length (nth im (nth iz tab []) []) = length (nth im f [])
     /\ forall ia, (ia < length (nth im f []))%nat -> length (nth ia (nth im (nth iz tab []) []) []) = length fw
     /\ forall ib, (ib < length fw)%nat ->
        calc_obs_mag w (nth ia (nth im f []) []) (nth ib fw []) (nth ib ft []) (nth iz zt NaN) Om0 w0 wa h
        = Ok (nth ib (nth ia (nth im (nth iz tab []) []) []) NaN))).
Proof.
  intros. split.
  - intros. eexists. unfold precompute_ssp_obsmags_on_z_table. rewrite check_pop_ok by auto. reflexivity.
  - intros tab H. apply check_pop_inv in H as (E & N & L & S1 & S2). injection E as E. subst tab.
    split; [apply map_length|]. intros iz Hz. rewrite (nth_map_gen _ _ _ NaN) by auto.
    split; [apply map_length|]. intros im Hm. rewrite (nth_map_gen _ _ _ []) by auto.
    split; [apply map_length|]. intros ia Ha. rewrite (nth_map_gen _ _ _ []) by auto.
    split; [now apply length_map2_gen|]. intros ib Hb. rewrite (nth_map2_gen _ _ _ _ [] []) by (auto; lia).
    unfold calc_obs_mag. rewrite check_spec_ok_gen by auto. reflexivity.
Qed.
Lemma C70_rest_lemma {AR : Arith} : forall w f fw ft,
  (w <> [] -> length fw = length ft -> List.Forall (List.Forall (fun s => length s = length w)) f ->
   (forall ib, (ib < length fw)%nat -> length (nth ib fw []) = length (nth ib ft [])) ->
   exists tab, precompute_ssp_restmags w f fw ft = Ok tab)
  /\ (forall tab, precompute_ssp_restmags w f fw ft = Ok tab ->
   length tab = length f
   /\ forall im, (im < length f)%nat -> length (nth im tab []) = length (nth im f [])
   /\ forall ia, (ia < length (nth im f []))%nat -> length (nth ia (nth im tab []) []) = length fw
   /\ forall ib, (ib < length fw)%nat ->
      calc_rest_mag w (nth ia (nth im f []) []) (nth ib fw []) (nth ib ft [])
      = Ok (nth ib (nth ia (nth im tab []) []) NaN)).
Proof.
  intros. split.
  - intros. eexists. unfold precompute_ssp_restmags. rewrite check_pop_ok by auto. reflexivity.
  - intros tab H. apply check_pop_inv in H as (E & N & L & S1 & S2). injection E as E. subst tab.
    split; [apply map_length|]. intros im Hm. rewrite (nth_map_gen _ _ _ []) by auto.
    split; [apply map_length|]. intros ia Ha. rewrite (nth_map_gen _ _ _ []) by auto.
    split; [now apply length_map2_gen|]. intros ib Hb. rewrite (nth_map2_gen _ _ _ _ [] []) by (auto; lia).
    unfold calc_rest_mag. rewrite check_spec_ok_gen by auto. reflexivity.
Qed.
Lemma C70_kcorrect_lemma {AR : Arith} : forall w f fw ft z,
  (w <> [] -> length fw = length ft -> List.Forall (List.Forall (fun s => length s = length w)) f ->
   (forall ib, (ib < length fw)%nat -> length (nth ib fw []) = length (nth ib ft [])) ->
   exists tab, precompute_ssp_restmags_z_kcorrect w f fw ft z = Ok tab)
  /\ (forall tab, precompute_ssp_restmags_z_kcorrect w f fw ft z = Ok tab ->
   length tab = length f
   /\ forall im, (im < length f)%nat -> length (nth im tab []) = length (nth im f [])
   /\ forall ia, (ia < length (nth im f []))%nat -> length (nth ia (nth im tab []) []) = length fw
   /\ forall ib, (ib < length fw)%nat ->
      calc_obs_mag_no_dimming w (nth ia (nth im f []) []) (nth ib fw []) (nth ib ft []) z
      = Ok (nth ib (nth ia (nth im tab []) []) NaN)).
Proof.
  intros. split.
  - intros. eexists. unfold precompute_ssp_restmags_z_kcorrect. rewrite check_pop_ok by auto. reflexivity.
  - intros tab H. apply check_pop_inv in H as (E & N & L & S1 & S2). injection E as E. subst tab.
    split; [apply map_length|]. intros im Hm. rewrite (nth_map_gen _ _ _ []) by auto.
    split; [apply map_length|]. intros ia Ha. rewrite (nth_map_gen _ _ _ []) by auto.
    split; [now apply length_map2_gen|]. intros ib Hb. rewrite (nth_map2_gen _ _ _ _ [] []) by (auto; lia).
    unfold calc_obs_mag_no_dimming. rewrite check_spec_ok_gen by auto. reflexivity.
Qed.

(** ** C71: resampling *)
Lemma count_spec xs x : increasing xs -> let j := length (filter (fun e => Rle_bool e x) xs) in
  (j <= length xs)%nat /\ (forall i, (i < j)%nat -> ent xs i <= x)
  /\ (forall i, (j <= i < length xs)%nat -> x < ent xs i).
Proof.
  induction xs as [|x0 xs IH]; intros I; [simpl; split; [lia|split; intros; lia]|].
  pose proof (increasing_tl _ _ I) as I'. specialize (IH I'). cbn [filter]. destruct (Rle_bool_spec x0 x) as [H|H].
  - cbn [length]. destruct IH as (A & B & C). split; [lia|]. split.
    + intros [|i] Hi; [exact H|]. apply (B i). lia.
    + intros [|i] Hi; [lia|]. apply (C i). lia.
  - rewrite filter_none_gt.
    + cbn [length]. split; [lia|]. split; [intros; lia|]. intros [|i] Hi; [exact H|].
      pose proof (I 0%nat (S i) ltac:(simpl in *; lia)) as K. unfold ent in K at 1; cbn [nth] in K. lra.
    + intros y Hy. apply (In_nth _ _ 0) in Hy. destruct Hy as (i & Hi & <-).
      pose proof (I 0%nat (S i) ltac:(simpl in *; lia)) as K. unfold ent in K; cbn [nth] in K. lra.
Qed.
Lemma np_interp_fins xs ys x : increasing xs -> length xs = length ys -> xs <> [] ->
  np_interp (Fin x) (fins xs) (fins ys) = Fin (pwlin (combine xs ys) x).
Proof.
  intros I L N. unfold np_interp. cbn [nisnan]. rewrite count_le_fins, fins_length.
  destruct (count_spec xs x I) as (A & B & C). set (j := length (filter (fun e => Rle_bool e x) xs)) in *.
  assert (NY : ys <> []) by (destruct xs, ys; congruence || discriminate).
  assert (NL : (0 < length xs)%nat) by (destruct xs; [congruence|simpl; lia]).
  destruct (Nat.eqb_spec j 0) as [E|E].
  { rewrite first_fins by auto. rewrite pwlin_left; auto. specialize (C 0%nat ltac:(lia)). lra. }
  destruct (Nat.eqb_spec j (length xs)) as [E'|E'].
  { rewrite last_fins by auto. rewrite pwlin_right; auto. apply B. lia. }
  assert (S (j - 1) = j) as Sj by lia. rewrite Sj.
  assert (F : interp_R xs ys x = pwlin (combine xs ys) x).
  { apply interp_R_pwlin; auto; [lia|]. split; [apply B; lia|].
    specialize (C (length xs - 1)%nat ltac:(lia)). lra. }
  rewrite <- F. unfold interp_R, interp_index. fold j. unfold clip_index.
  replace (Nat.min (Nat.max j 1) (length xs - 1)) with j by lia.
  rewrite !at_fins by lia. cbn [neqb].
  pose proof (B (j - 1)%nat ltac:(lia)). pose proof (C j ltac:(lia)).
  destruct (Req_bool_spec (ent xs (j - 1)) x) as [K|K].
  - f_equal. rewrite <- K. field. lra.
  - rewrite !nsub_fin, ndiv_fin, nmul_fin, nadd_fin by lra. f_equal. field. lra.
Qed.
Lemma fold_nmin_ge l : forall a, List.Forall (fun x => a <= x) l -> fold_left nmin (fins l) (Fin a) = Fin a.
Proof.
  induction l as [|b l IH]; intros a H; [reflexivity|]. inversion H; subst. cbn [fins map fold_left].
  unfold nmin at 2. cbn [nisnan orb nltb]. rewrite Rlt_bool_false by lra. apply IH. auto.
Qed.
Lemma vmin_fins l : increasing l -> l <> [] -> vmin (fins l) = Fin (ent l 0).
Proof.
  intros I N. destruct l as [|a l]; [congruence|]. cbn [fins map vmin]. apply fold_nmin_ge.
  apply List.Forall_forall. intros y Hy. apply (In_nth _ _ 0) in Hy. destruct Hy as (i & Hi & <-).
  pose proof (I 0%nat (S i) ltac:(simpl in *; lia)) as K. unfold ent in K; cbn [nth] in K. unfold ent; cbn [nth]. lra.
Qed.
Lemma fold_nmax_le l : forall a, increasing (a :: l) -> fold_left nmax (fins l) (Fin a) = Fin (ent (a :: l) (length l)).
Proof.
  induction l as [|b l IH]; intros a I; [reflexivity|]. cbn [fins map fold_left].
  pose proof (I 0%nat 1%nat ltac:(simpl; lia)) as K. unfold ent in K; cbn [nth] in K.
  unfold nmax at 2. cbn [nisnan orb nltb]. rewrite Rlt_bool_true by lra.
  change (fold_left nmax (fins l) (Fin b) = Fin (ent (a :: b :: l) (length (b :: l)))).
  rewrite IH by (eapply increasing_tl; eauto). reflexivity.
Qed.
Lemma vmax_fins l : increasing l -> l <> [] -> vmax (fins l) = Fin (ent l (length l - 1)).
Proof.
  intros I N. destruct l as [|a l]; [congruence|]. cbn [fins map vmax].
  change (fold_left nmax (fins l) (Fin a) = Fin (ent (a :: l) (length (a :: l) - 1))). rewrite fold_nmax_le by auto.
  cbn [length]. now rewrite Nat.sub_succ, Nat.sub_0_r.
Qed.
Definition lin (a b : R) (n : nat) : list R := map (fun i => a + INR i / INR (n - 1) * (b - a)) (seq 0 n).
Lemma np_linspace_fins a b n : (2 <= n)%nat -> np_linspace (Fin a) (Fin b) n = fins (lin a b n).
Proof.
  intros Hn. pose proof (INR_n1 n Hn) as P. unfold np_linspace, lin. destruct n as [|[|n]]; try lia.
  replace (S (S n) - 1)%nat with (S n) in * by lia.
  rewrite nsub_fin, ndiv_fin by lra.
  rewrite (seq_S (S n) 0), map_app. unfold fins. rewrite map_app, map_map. f_equal.
  - apply map_ext. intros i. rewrite nmul_fin, nadd_fin. f_equal. field. lra.
  - cbn [map]. rewrite Nat.add_0_l. do 2 f_equal. field. lra.
Qed.
Lemma fold_min_spec l : forall a, (forall n, In n l -> (fold_left Nat.min l a <= n)%nat) /\ (fold_left Nat.min l a <= a)%nat
  /\ (fold_left Nat.min l a = a \/ In (fold_left Nat.min l a) l).
Proof.
  induction l as [|b l IH]; intros a; simpl; [split; [tauto|auto]|].
  destruct (IH (Nat.min a b)) as (A & B & C). split; [|split; [lia|]].
  - intros n [->|H]; [lia|]. now apply A.
  - destruct C as [C|C]; [|auto]. rewrite C. destruct (Nat.min_spec a b) as [[_ E]|[_ E]]; rewrite E; auto.
Qed.
Lemma min_size_spec waves : waves <> [] -> shortest (min_size (map fins waves)) waves.
Proof.
  destruct waves as [|w ws]; [congruence|]. intros _. cbn [map min_size]. rewrite fins_length.
  replace (map (@length num) (map fins ws)) with (map (@length R) ws) by (rewrite map_map; apply map_ext; intros; now rewrite fins_length).
  destruct (fold_min_spec (map (@length R) ws) (length w)) as (A & B & C). split.
  - intros v [<-|Hv]; [auto|]. apply A. now apply in_map.
  - destruct C as [C|C]; [exists w; split; [now left|auto]|]. apply in_map_iff in C. destruct C as (v & E & Hv). exists v. split; [now right|auto].
Qed.
Lemma shortest_unique n m waves : shortest n waves -> shortest m waves -> n = m.
Proof. intros (A & w & Hw & E) (B & v & Hv & F). specialize (A v Hv). specialize (B w Hw). lia. Qed.
Lemma C71_lemma : forall waves trans n N, waves <> [] -> length waves = length trans ->
  (forall k, (k < length waves)%nat -> length (nth k waves []) = length (nth k trans []) /\ nth k waves [] <> []
      /\ increasing (nth k waves [])) ->
  (n = Some N \/ n = None /\ shortest N waves) -> (2 <= N)%nat ->
  exists nw nt, interpolate_filter_trans_curves (map fins waves) (map fins trans) n = Ok (map fins nw, map fins nt)
  /\ length nw = length waves /\ length nt = length waves
  /\ forall k, (k < length waves)%nat ->
     let w := nth k waves [] in let t := nth k trans [] in let w' := nth k nw [] in let t' := nth k nt [] in
     length w' = N /\ length t' = N
     /\ ent w' 0 = ent w 0 /\ ent w' (N - 1) = ent w (length w - 1)
     /\ forall i, (i < N)%nat ->
        ent w' i = ent w 0 + INR i / INR (N - 1) * (ent w (length w - 1) - ent w 0)
        /\ ent t' i = pwlin (combine w t) (ent w' i)
        /\ forall lo hi, List.Forall (fun y => lo <= y <= hi) t -> lo <= ent t' i <= hi.
Proof.
  intros waves trans n N NE L G HN H2.
  set (nw := map (fun w => lin (ent w 0) (ent w (length w - 1)) N) waves).
  set (nt := map2 (fun w t => map (pwlin (combine w t)) (lin (ent w 0) (ent w (length w - 1)) N)) waves trans).
  exists nw, nt. split; [|split; [apply map_length|split; [now apply length_map2_gen|]]].
  - unfold interpolate_filter_trans_curves, check. rewrite map_length. destruct (Nat.eqb_spec (length waves) 0) as [E|_].
    { destruct waves; [congruence|discriminate]. }
    cbn [negb].
    assert (E1 : forallb (fun w : list num => negb (length w =? 0)%nat) (firstn (Nat.max 1 (length (map fins trans))) (map fins waves)) = true).
    { rewrite firstn_all2 by (rewrite !map_length; lia). apply forallb_forall. intros w Hw. apply in_map_iff in Hw. destruct Hw as (w0 & <- & Hw).
      apply (In_nth _ _ []) in Hw. destruct Hw as (k & Hk & <-). destruct (G k Hk) as (_ & Hn & _). rewrite fins_length.
      destruct (nth k waves []); [congruence|reflexivity]. }
    rewrite E1.
    assert (E2 : forallb (fun p : list num * list num => same_len (fst p) (snd p)) (combine (map fins waves) (map fins trans)) = true).
    { apply forallb_forall. intros p Hp. apply (In_nth _ _ ([], [])) in Hp. destruct Hp as (k & Hk & <-).
      rewrite combine_length, !map_length in Hk. rewrite combine_nth by (rewrite !map_length; auto). cbn [fst snd].
      apply same_len_true. rewrite !(nth_map_gen fins _ _ []), !fins_length by lia. apply G. lia. }
    rewrite E2.
    assert (EN : match n with Some n0 => n0 | None => min_size (map fins waves) end = N).
    { destruct HN as [->|[-> HN]]; auto. eapply shortest_unique; eauto. now apply min_size_spec. }
    rewrite EN.
    assert (E3 : map2 (interp_curve N) (map fins waves) (map fins trans)
      = map2 (fun w t => (fins (lin (ent w 0) (ent w (length w - 1)) N),
                          fins (map (pwlin (combine w t)) (lin (ent w 0) (ent w (length w - 1)) N)))) waves trans).
    { clear - L G H2. revert trans L G. induction waves as [|w ws IH]; intros [|t ts] L G; try discriminate; [reflexivity|].
      cbn [map map2]. f_equal.
      - destruct (G 0%nat ltac:(simpl; lia)) as (A & B & C). cbn [nth] in *. unfold interp_curve.
        rewrite vmin_fins, vmax_fins, np_linspace_fins by auto. f_equal. apply map_fins. intros. now apply np_interp_fins.
      - apply IH; [simpl in L; lia|]. intros k Hk. apply (G (S k)). simpl. lia. }
    rewrite E3. do 2 f_equal.
    + unfold nw. clear - L. revert trans L. induction waves as [|w ws IH]; intros [|t ts] L; try discriminate; [reflexivity|].
      cbn [map map2]. f_equal. apply IH. simpl in L. lia.
    + unfold nt. clear - L. revert trans L. induction waves as [|w ws IH]; intros [|t ts] L; try discriminate; [reflexivity|].
      cbn [map map2]. f_equal. apply IH. simpl in L. lia.
  - intros k Hk. cbv zeta. unfold nw, nt. rewrite (nth_map_gen _ _ _ []) by auto.
    rewrite (nth_map2_gen _ _ _ _ [] []) by lia. destruct (G k Hk) as (A & B & C).
    set (w := nth k waves []) in *. set (t := nth k trans []) in *.
    assert (LL : forall a b, length (lin a b N) = N) by (intros; unfold lin; now rewrite map_length, seq_length).
    pose proof (INR_n1 N H2) as P.
    assert (EL : forall a b i, (i < N)%nat -> ent (lin a b N) i = a + INR i / INR (N - 1) * (b - a)).
    { intros. unfold lin. rewrite ent_map_seq by auto. now rewrite Nat.add_0_l. }
    split; [apply LL|]. split; [rewrite map_length; apply LL|]. rewrite !EL by lia.
    split; [simpl (INR 0); unfold Rdiv; ring|]. split; [field; lra|].
    intros i Hi. split; [now apply EL|]. rewrite ent_map by (rewrite LL; auto). split; [reflexivity|].
    intros lo hi F. apply pwlin_range; auto.
Qed.
