(** * An array of length 1 means a constant array (C156) *)
From Coq Require Import Reals List Arith Lia Bool.
From Verif Require Import Num Arr MUtils MSed MDiffburst MEmlines MPhot Spec SpecApi LBcast LShape.
Import ListNotations.

Lemma stretch_repeat {A} n (x : A) : stretch n (repeat x n) = repeat x n.
Proof. apply stretch_same, repeat_length. Qed.
Lemma fits_repeat {A} n (x : A) : fits n (repeat x n) = fits n [x].
Proof. rewrite fits_same by apply repeat_length. symmetry. apply fits_iff. now right. Qed.
Lemma map_repeat {A B} (f : A -> B) x n : map f (repeat x n) = repeat (f x) n.
Proof. induction n; simpl; congruence. Qed.

Section S.
Context {AR : Arith}.
Lemma cum_k_one ts s : cumulative_mstar_formed_k ts (repeat s (length ts)) = cumulative_mstar_formed_k ts [s].
Proof. unfold cumulative_mstar_formed_k. now rewrite stretch_repeat. Qed.
Lemma cum_one ts s : cumulative_mstar_formed ts (repeat s (length ts)) = cumulative_mstar_formed ts [s].
Proof. unfold cumulative_mstar_formed. now rewrite cum_k_one, fits_repeat. Qed.
Lemma logsm_one ts s m : calc_logsm_table_from_sfh_table ts (repeat s (length ts)) m = calc_logsm_table_from_sfh_table ts [s] m.
Proof. unfold calc_logsm_table_from_sfh_table. rewrite map_repeat, cum_k_one. reflexivity. Qed.
Lemma age_one ts s ages t m : calc_age_weights_from_sfh_table ts (repeat s (length ts)) ages t m = calc_age_weights_from_sfh_table ts [s] ages t m.
Proof.
  unfold calc_age_weights_from_sfh_table, check_sfh_tables, calc_age_weights_from_sfh_table_k.
  now rewrite fits_repeat, logsm_one.
Qed.
Lemma mstar_one ts s t m : mstar_at_t_obs ts (repeat s (length ts)) t m = mstar_at_t_obs ts [s] t m.
Proof. unfold mstar_at_t_obs. now rewrite logsm_one. Qed.
Lemma sed_one ts s lg sc g ages f t m :
  calc_rest_sed_sfh_table_lognormal_mdf ts [s] lg sc g ages f t m
  = calc_rest_sed_sfh_table_lognormal_mdf ts (repeat s (length ts)) lg sc g ages f t m.
Proof.
  unfold calc_rest_sed_sfh_table_lognormal_mdf, calc_ssp_weights_sfh_table_lognormal_mdf.
  now rewrite age_one, mstar_one.
Qed.
Lemma sedt_one ts s lg sc g ages f t m :
  calc_rest_sed_sfh_table_met_table ts [s] lg sc g ages f t m
  = calc_rest_sed_sfh_table_met_table ts (repeat s (length ts)) lg sc g ages f t m.
Proof.
  unfold calc_rest_sed_sfh_table_met_table, calc_ssp_weights_sfh_table_met_table.
  now rewrite age_one, mstar_one.
Qed.

(** flux cubes *)
Lemma forallb_repeat {A} (P : A -> bool) x n : (1 <= n)%nat -> forallb P (repeat x n) = P x.
Proof.
  intros H. destruct n as [|n]; [lia|]. clear H. simpl. destruct (P x) eqn:E; [|reflexivity]. simpl.
  induction n; simpl; auto. now rewrite E.
Qed.
Lemma hd_repeat {A} (d x : A) n : (1 <= n)%nat -> hd d (repeat x n) = x.
Proof. destruct n; [lia|reflexivity]. Qed.
Lemma shape_planes n k p : (1 <= n)%nat -> flux_shape_ok n k (repeat p n) = flux_shape_ok n k [p].
Proof.
  intros H. unfold flux_shape_ok, flux_n_wave. rewrite fits_repeat, !hd_repeat, forallb_repeat by auto.
  simpl. now rewrite !andb_true_r.
Qed.
Lemma stretch_planes n k p : stretch_flux n k (repeat p n) = stretch_flux n k [p].
Proof. unfold stretch_flux. rewrite map_repeat, stretch_repeat. reflexivity. Qed.
Lemma hd_map {A B} (f : A -> B) l d : l <> [] -> hd (f d) (map f l) = f (hd d l).
Proof. now destruct l. Qed.
Lemma shape_spectra n k l : (1 <= k)%nat -> l <> [] ->
  flux_shape_ok n k (map (fun s => repeat s k) l) = flux_shape_ok n k (map (fun s => [s]) l).
Proof.
  intros H N. unfold flux_shape_ok, flux_n_wave. destruct l as [|s0 l]; [congruence|]. cbn [map hd].
  rewrite hd_repeat by auto. rewrite fits_repeat, repeat_length.
  assert (F : forall X, fits n (repeat s0 k :: X) = fits n ([s0] :: X)) by reflexivity. cbn [length hd].
  replace (fits n (repeat s0 k :: map (fun s => repeat s k) l)) with (fits n ([s0] :: map (fun s => [s]) l))
    by (unfold fits; simpl; now rewrite !map_length).
  assert (T : forall (l : list (list num)) w,
    forallb (fun plane => (length plane =? k)%nat && forallb (fun spec => (length spec =? w)%nat) plane) (map (fun s => repeat s k) l)
    = forallb (fun plane : list (list num) => (length plane =? 1)%nat && forallb (fun spec => (length spec =? w)%nat) plane) (map (fun s => [s]) l)).
  { clear - H. intros l w. induction l as [|s l IH]; [reflexivity|]. cbn [map forallb]. rewrite repeat_length, forallb_repeat, IH by auto.
    rewrite Nat.eqb_refl. cbn [length Nat.eqb forallb]. now rewrite ?andb_true_r. }
  pose proof (T (s0 :: l) (length s0)) as T0. cbn [map] in T0. rewrite T0. reflexivity.
Qed.
Lemma stretch_spectra n k (l : list (list num)) : stretch_flux n k (map (fun s => repeat s k) l) = stretch_flux n k (map (fun s => [s]) l).
Proof.
  unfold stretch_flux. f_equal. rewrite !map_map. apply map_ext. intros s. rewrite stretch_repeat. reflexivity.
Qed.
Lemma sed_flux_ext ts ss lg sc g ages f f' t m :
  ((3 <= length g)%nat -> (3 <= length ages)%nat -> flux_shape_ok (length g) (length ages) f = flux_shape_ok (length g) (length ages) f') ->
  stretch_flux (length g) (length ages) f = stretch_flux (length g) (length ages) f' ->
  calc_rest_sed_sfh_table_lognormal_mdf ts ss lg sc g ages f t m = calc_rest_sed_sfh_table_lognormal_mdf ts ss lg sc g ages f' t m.
Proof.
  intros H1 H2. unfold calc_rest_sed_sfh_table_lognormal_mdf.
  destruct (calc_ssp_weights_sfh_table_lognormal_mdf ts ss lg sc g ages t) eqn:E; [|reflexivity]. cbn [bind].
  destruct (proj1 (ssp_iff ts ss lg sc g ages t)) as [(_ & _ & A) B]; [eauto|]. now rewrite H1, H2 by auto.
Qed.
Lemma sedt_flux_ext ts ss lg sc g ages f f' t m :
  ((3 <= length g)%nat -> (3 <= length ages)%nat -> flux_shape_ok (length g) (length ages) f = flux_shape_ok (length g) (length ages) f') ->
  stretch_flux (length g) (length ages) f = stretch_flux (length g) (length ages) f' ->
  calc_rest_sed_sfh_table_met_table ts ss lg sc g ages f t m = calc_rest_sed_sfh_table_met_table ts ss lg sc g ages f' t m.
Proof.
  intros H1 H2. unfold calc_rest_sed_sfh_table_met_table.
  destruct (calc_ssp_weights_sfh_table_met_table ts ss lg sc g ages t) eqn:E; [|reflexivity]. cbn [bind].
  destruct (proj1 (sspt_iff ts ss lg sc g ages t)) as [(_ & _ & A) (_ & _ & B)]; [eauto|]. now rewrite H1, H2 by auto.
Qed.
End S.

Lemma C156_sfr_lemma : forall (AR : Arith) ts sfr mets lgmet scatter ssp_lgmet ages flux t_obs sfr_min,
  let constant := repeat sfr (length ts) in
  cumulative_mstar_formed ts [sfr] = cumulative_mstar_formed ts constant
  /\ calc_age_weights_from_sfh_table ts [sfr] ages t_obs sfr_min = calc_age_weights_from_sfh_table ts constant ages t_obs sfr_min
  /\ calc_rest_sed_sfh_table_lognormal_mdf ts [sfr] lgmet scatter ssp_lgmet ages flux t_obs sfr_min
     = calc_rest_sed_sfh_table_lognormal_mdf ts constant lgmet scatter ssp_lgmet ages flux t_obs sfr_min
  /\ calc_rest_sed_sfh_table_met_table ts [sfr] mets scatter ssp_lgmet ages flux t_obs sfr_min
     = calc_rest_sed_sfh_table_met_table ts constant mets scatter ssp_lgmet ages flux t_obs sfr_min.
Proof.
  intros. unfold constant. split; [now rewrite cum_one|]. split; [now rewrite age_one|].
  split; [apply sed_one|apply sedt_one].
Qed.
Lemma C156_flux_lemma : forall (AR : Arith) ts sfrs mets lgmet scatter ssp_lgmet ages t_obs sfr_min,
  let n_met := length ssp_lgmet in let n_age := length ages in
  let sed flux := calc_rest_sed_sfh_table_lognormal_mdf ts sfrs lgmet scatter ssp_lgmet ages flux t_obs sfr_min in
  let sed_met flux := calc_rest_sed_sfh_table_met_table ts sfrs mets scatter ssp_lgmet ages flux t_obs sfr_min in
  (forall plane, sed [plane] = sed (repeat plane n_met) /\ sed_met [plane] = sed_met (repeat plane n_met))
  /\ (forall spectra, spectra <> [] ->
       sed (map (fun spec => [spec]) spectra) = sed (map (fun spec => repeat spec n_age) spectra)
       /\ sed_met (map (fun spec => [spec]) spectra) = sed_met (map (fun spec => repeat spec n_age) spectra))
  /\ (forall spec, sed [[spec]] = sed (repeat (repeat spec n_age) n_met)
       /\ sed_met [[spec]] = sed_met (repeat (repeat spec n_age) n_met)).
Proof.
  intros.
  assert (P : forall plane, sed [plane] = sed (repeat plane n_met) /\ sed_met [plane] = sed_met (repeat plane n_met)).
  { intros p. split; symmetry; [apply sed_flux_ext|apply sedt_flux_ext]; try apply stretch_planes; intros; apply shape_planes; unfold n_met; lia. }
  assert (Q : forall spectra, spectra <> [] ->
       sed (map (fun spec => [spec]) spectra) = sed (map (fun spec => repeat spec n_age) spectra)
       /\ sed_met (map (fun spec => [spec]) spectra) = sed_met (map (fun spec => repeat spec n_age) spectra)).
  { intros l N. split; symmetry; [apply sed_flux_ext|apply sedt_flux_ext]; try apply stretch_spectra; intros; apply shape_spectra; auto; unfold n_age; lia. }
  split; [exact P|]. split; [exact Q|]. intros s. destruct (Q [s] ltac:(discriminate)) as [Q1 Q2]. simpl in Q1, Q2.
  rewrite Q1, Q2. apply P.
Qed.

Lemma filter_ok_repeat n wf (x : num) : length wf = n -> filter_ok wf (repeat x n) = filter_ok wf [x].
Proof.
  intros <-. unfold filter_ok. rewrite fits_repeat. replace (fits (length wf) [x]) with true by (symmetry; apply fits_iff; now right). reflexivity.
Qed.
Lemma C156_filter_lemma : forall (AR : Arith) ws ls wf tau z Om0 w0 wa h,
  let flat := repeat tau (length wf) in
  calc_rest_mag ws ls wf [tau] = calc_rest_mag ws ls wf flat
  /\ calc_rest_flux ws ls wf [tau] = calc_rest_flux ws ls wf flat
  /\ calc_obs_mag_no_dimming ws ls wf [tau] z = calc_obs_mag_no_dimming ws ls wf flat z
  /\ calc_obs_mag ws ls wf [tau] z Om0 w0 wa h = calc_obs_mag ws ls wf flat z Om0 w0 wa h.
Proof.
  intros. unfold flat, calc_rest_mag, calc_rest_flux, calc_obs_mag_no_dimming, calc_obs_mag, check_spec.
  rewrite !filter_ok_repeat, !stretch_repeat by reflexivity. auto.
Qed.
Lemma C156_misc_lemma : forall (AR : Arith) xs y,
  (forall p, calc_bursty_age_weights p [y] xs = calc_bursty_age_weights p (repeat y (length xs)) xs)
  /\ (forall u, calc_bursty_age_weights_from_u_params u [y] xs = calc_bursty_age_weights_from_u_params u (repeat y (length xs)) xs)
  /\ (forall lstsq a b c d e f g, ew_kernel lstsq xs [y] a b c d e f g = ew_kernel lstsq xs (repeat y (length xs)) a b c d e f g
       /\ continuum_line_decomp_kern lstsq xs [y] a b c d e f g = continuum_line_decomp_kern lstsq xs (repeat y (length xs)) a b c d e f g).
Proof.
  intros AR xs y.
  assert (M : forall (A : Type) (f : A -> num -> num) (l : list A), map2 f l (repeat y (length l)) = map (fun x => f x y) l).
  { intros A f l. induction l; simpl; congruence. }
  assert (B : forall p, calc_bursty_age_weights p [y] xs = calc_bursty_age_weights p (repeat y (length xs)) xs).
  { intros p. unfold calc_bursty_age_weights. set (b := pureburst_age_weights_from_params _ _ _).
    assert (L : length b = length xs) by (unfold b; now rewrite pureburst_len, map_length).
    rewrite (bmap2_same _ b (repeat y (length xs))) by (now rewrite repeat_length). rewrite <- L, M.
    unfold bmap2, same_len. destruct b as [|b0 [|b1 b]]; reflexivity. }
  split; [exact B|]. split; [intros u; apply B|]. intros. unfold ew_kernel, continuum_line_decomp_kern.
  now rewrite fits_repeat, stretch_repeat.
Qed.
(** two points of one array against any number of points of the other *)
Lemma C156_trapz_lemma : forall (AR : Arith) x0 x1 y0 y1 l, (length l <> 2)%nat ->
  trapz [x0; x1] l = Ok (nmul (Fin (1/2)) (vsum (map (nmul (nsub x1 x0)) (map2 nadd (tl l) l))))
  /\ trapz l [y0; y1] = Ok (nmul (Fin (1/2)) (vsum (map (fun d => nmul d (nadd y1 y0)) (map2 nsub (tl l) l)))).
Proof.
  intros AR x0 x1 y0 y1 l N. unfold trapz, diff. cbn [tl map2].
  assert (SW : forall l1 l2 : list num, map2 (fun a b => nsub b a) l1 l2 = map2 nsub l2 l1)
    by (intros l1; induction l1 as [|a l1 IH]; intros [|b l2]; simpl; auto; now rewrite IH).
  rewrite SW.
  assert (L1 : length (map2 nadd (tl l) l) <> 1%nat) by (rewrite map2_len, tl_len; lia).
  assert (L2 : length (map2 nsub (tl l) l) <> 1%nat) by (rewrite map2_len, tl_len; lia).
  unfold bmap2, same_len. cbn [length]. split.
  - destruct (1 =? length (map2 nadd (tl l) l))%nat eqn:E; [apply Nat.eqb_eq in E; congruence|]. reflexivity.
  - destruct (length (map2 nsub (tl l) l) =? 1)%nat eqn:E; [apply Nat.eqb_eq in E; congruence|].
    destruct (map2 nsub (tl l) l) as [|a [|b r]]; [reflexivity|simpl in L2; congruence|reflexivity].
Qed.
