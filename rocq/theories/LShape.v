(** * Shapes alone decide whether a call raises *)
From Coq Require Import Reals List Arith Lia Bool.
From Verif Require Import Num Arr MUtils MSed MDiffburst MEmlines MPhot Spec SpecApi LBcast.
Import ListNotations.

Lemma check_iff {A} (c : bool) e (k : res A) : (exists v, check c e k = Ok v) <-> c = true /\ exists v, k = Ok v.
Proof.
  unfold check. destruct c; split; intros H; try tauto.
  - destruct H; discriminate.
  - destruct H; discriminate.
Qed.
Lemma ok_iff {A} (a : A) : (exists v, Ok a = Ok v) <-> True.
Proof. split; eauto. Qed.
Lemma same_len_iff {A B} (a : list A) (b : list B) : same_len a b = true <-> length a = length b.
Proof. unfold same_len. apply Nat.eqb_eq. Qed.
Lemma nonempty_iff {A} (l : list A) : negb (length l =? 0)%nat = true <-> l <> [].
Proof. rewrite negb_true_iff, Nat.eqb_neq. destruct l; simpl; split; intros; congruence. Qed.
Lemma fits_stands {A} n (l : list A) : fits n l = true <-> stands_for (length l) n.
Proof. apply fits_iff. Qed.
Lemma bind_iff {A B} (x : res A) (f : A -> res B) (P : Prop) : (forall a, (exists v, f a = Ok v) <-> P) ->
  (exists v, bind x f = Ok v) <-> (exists a, x = Ok a) /\ P.
Proof.
  intros H. destruct x as [a|e]; simpl.
  - rewrite H. split; [eauto|tauto].
  - split; [intros [v E]; discriminate|intros [[v E] _]; discriminate].
Qed.
Ltac shp := rewrite ?check_iff, ?ok_iff, ?same_len_iff, ?fits_stands, ?nonempty_iff, ?Nat.leb_le.

Section S.
Context {AR : Arith}.
Lemma age_iff ts sfrs ages t smin : (exists w, calc_age_weights_from_sfh_table ts sfrs ages t smin = Ok w) <->
  stands_for (length sfrs) (length ts) /\ ts <> [] /\ (3 <= length ages)%nat.
Proof. unfold calc_age_weights_from_sfh_table, check_sfh_tables, check_templates. shp. tauto. Qed.
Lemma met_iff m s g : (exists w, calc_lgmet_weights_from_lognormal_mdf m s g = Ok w) <-> (3 <= length g)%nat.
Proof. unfold calc_lgmet_weights_from_lognormal_mdf, check_templates. shp. tauto. Qed.
Lemma mett_iff ts ms s g a t : (exists w, calc_lgmet_weights_from_lgmet_table ts ms s g a t = Ok w) <->
  length ts = length ms /\ ts <> [] /\ (3 <= length g)%nat.
Proof. unfold calc_lgmet_weights_from_lgmet_table, check_gal_tables, check_templates. shp. tauto. Qed.
Lemma ssp_iff ts sfrs m s g ages t : (exists w, calc_ssp_weights_sfh_table_lognormal_mdf ts sfrs m s g ages t = Ok w) <->
  (stands_for (length sfrs) (length ts) /\ ts <> [] /\ (3 <= length ages)%nat) /\ (3 <= length g)%nat.
Proof.
  unfold calc_ssp_weights_sfh_table_lognormal_mdf.
  rewrite (bind_iff _ _ (3 <= length g)%nat), age_iff; [tauto|]. intros a.
  rewrite (bind_iff _ _ True), met_iff; [tauto|]. intros b. now shp.
Qed.
Lemma sspt_iff ts sfrs ms s g ages t : (exists w, calc_ssp_weights_sfh_table_met_table ts sfrs ms s g ages t = Ok w) <->
  (stands_for (length sfrs) (length ts) /\ ts <> [] /\ (3 <= length ages)%nat)
  /\ (length ts = length ms /\ ts <> [] /\ (3 <= length g)%nat).
Proof.
  unfold calc_ssp_weights_sfh_table_met_table.
  rewrite (bind_iff _ _ (length ts = length ms /\ ts <> [] /\ (3 <= length g)%nat)), age_iff; [tauto|]. intros a.
  rewrite (bind_iff _ _ True), mett_iff; [tauto|]. intros b. now shp.
Qed.
Lemma flux_iff n k cube : (1 <= n)%nat -> (1 <= k)%nat -> (flux_shape_ok n k cube = true <-> has_shape n k cube).
Proof.
  intros Hn Hk. unfold flux_shape_ok, has_shape, stands_for. rewrite !andb_true_iff, !fits_iff, forallb_forall.
  split.
  - intros [[H1 H1'] H2]. exists (length cube), (length (hd [] cube)), (flux_n_wave cube).
    split; auto. split; auto. split; auto. apply Forall_forall. intros p Hp.
    specialize (H2 p Hp). rewrite andb_true_iff, Nat.eqb_eq, forallb_forall in H2. destruct H2 as [H2 H3].
    split; auto. apply Forall_forall. intros s Hs. specialize (H3 s Hs). now rewrite Nat.eqb_eq in H3.
  - intros (m & j & w & Hm & Hj & H1 & H2).
    destruct cube as [|p cube]; [simpl in H1; lia|]. inversion H2 as [|? ? [Hp Hs]]; subst.
    destruct p as [|s p]; [simpl in Hj; lia|]. inversion Hs; subst.
    split; [split; assumption|]. intros q Hq. rewrite Forall_forall in H2. destruct (H2 q Hq) as [Q3 Q4].
    rewrite andb_true_iff, Nat.eqb_eq, forallb_forall. split; auto. intros s' Hs'.
    rewrite Forall_forall in Q4. apply Nat.eqb_eq. now apply Q4.
Qed.
End S.

Lemma C127_sed_lemma : forall (AR : Arith) ts sfrs mets lgmet scatter ssp_lgmet ages flux t_obs sfr_min,
  let history := stands_for (length sfrs) (length ts) /\ ts <> [] in
  let metallicities := length mets = length ts /\ ts <> [] in
  let enough_ages := (3 <= length ages)%nat in let enough_lgmets := (3 <= length ssp_lgmet)%nat in
  let cube := has_shape (length ssp_lgmet) (length ages) flux in
  ((exists w, calc_age_weights_from_sfh_table ts sfrs ages t_obs sfr_min = Ok w) <-> history /\ enough_ages)
  /\ ((exists w, calc_lgmet_weights_from_lognormal_mdf lgmet scatter ssp_lgmet = Ok w) <-> enough_lgmets)
  /\ ((exists w, calc_lgmet_weights_from_lgmet_table ts mets scatter ssp_lgmet ages t_obs = Ok w) <-> metallicities /\ enough_lgmets)
  /\ ((exists w, calc_ssp_weights_sfh_table_lognormal_mdf ts sfrs lgmet scatter ssp_lgmet ages t_obs = Ok w)
      <-> history /\ enough_ages /\ enough_lgmets)
  /\ ((exists w, calc_ssp_weights_sfh_table_met_table ts sfrs mets scatter ssp_lgmet ages t_obs = Ok w)
      <-> history /\ metallicities /\ enough_ages /\ enough_lgmets)
  /\ ((exists sed, calc_rest_sed_sfh_table_lognormal_mdf ts sfrs lgmet scatter ssp_lgmet ages flux t_obs sfr_min = Ok sed)
      <-> history /\ enough_ages /\ enough_lgmets /\ cube)
  /\ ((exists sed, calc_rest_sed_sfh_table_met_table ts sfrs mets scatter ssp_lgmet ages flux t_obs sfr_min = Ok sed)
      <-> history /\ metallicities /\ enough_ages /\ enough_lgmets /\ cube).
Proof.
  intros. assert (S : length ts = length mets <-> length mets = length ts) by (split; auto).
  split; [rewrite age_iff; unfold history, enough_ages; tauto|]. split; [rewrite met_iff; unfold enough_lgmets; tauto|].
  split; [rewrite mett_iff, S; unfold metallicities, enough_lgmets; tauto|].
  split; [rewrite ssp_iff; unfold history, enough_ages, enough_lgmets; tauto|].
  split; [rewrite sspt_iff, S; unfold history, metallicities, enough_ages, enough_lgmets; tauto|].
  split.
  - unfold calc_rest_sed_sfh_table_lognormal_mdf.
    rewrite (bind_iff _ _ (flux_shape_ok (length ssp_lgmet) (length ages) flux = true)), ssp_iff; [|intros w; shp; tauto].
    unfold cube, history, metallicities, enough_ages, enough_lgmets. split.
    + intros [H1 H2]. rewrite flux_iff in H2 by lia. tauto.
    + intros H. rewrite flux_iff by lia. tauto.
  - unfold calc_rest_sed_sfh_table_met_table.
    rewrite (bind_iff _ _ (flux_shape_ok (length ssp_lgmet) (length ages) flux = true)), sspt_iff, S; [|intros w; shp; tauto].
    unfold cube, history, metallicities, enough_ages, enough_lgmets. split.
    + intros [H1 H2]. rewrite flux_iff in H2 by lia. tauto.
    + intros H. rewrite flux_iff by lia. tauto.
Qed.

Lemma filter_iff wf tf : filter_ok wf tf = true <-> stands_for (length tf) (length wf) \/ length wf = 1%nat /\ (length tf <= 2)%nat.
Proof. unfold filter_ok. now rewrite orb_true_iff, andb_true_iff, fits_stands, Nat.eqb_eq, Nat.leb_le. Qed.
Lemma spec_iff {A} {AR : Arith} ws ls wf tf (a : A) :
  (exists v, check_spec ws ls wf tf (Ok a) = Ok v) <-> ws <> [] /\ length ls = length ws
    /\ (stands_for (length tf) (length wf) \/ length wf = 1%nat /\ (length tf <= 2)%nat).
Proof.
  unfold check_spec. shp. rewrite filter_iff. assert (S : length ws = length ls <-> length ls = length ws) by (split; auto). tauto.
Qed.
Lemma pop_iff {A} {AR : Arith} ws fl fw ft (a : A) :
  (exists v, check_pop ws fl fw ft (Ok a) = Ok v) <->
  ws <> [] /\ Forall (Forall (fun spec => length spec = length ws)) fl /\ length fw = length ft
  /\ Forall (fun p => stands_for (length (snd p)) (length (fst p)) \/ length (fst p) = 1%nat /\ (length (snd p) <= 2)%nat) (combine fw ft).
Proof.
  unfold check_pop. shp. rewrite andb_true_iff, same_len_iff, !forallb_forall.
  assert (E : (forall x, In x fl -> rect (length ws) x = true) <-> Forall (Forall (fun spec => length spec = length ws)) fl).
  { rewrite Forall_forall. unfold rect. split; intros K p Hp; specialize (K p Hp).
    - rewrite forallb_forall in K. rewrite Forall_forall. intros s Hs. now apply Nat.eqb_eq, K.
    - apply forallb_forall. intros s Hs. rewrite Forall_forall in K. now apply Nat.eqb_eq, K. }
  assert (E2 : (forall x, In x (combine fw ft) -> filter_ok (fst x) (snd x) = true)
     <-> Forall (fun p : list num * list num => stands_for (length (snd p)) (length (fst p)) \/ length (fst p) = 1%nat /\ (length (snd p) <= 2)%nat) (combine fw ft)).
  { rewrite Forall_forall. split; intros K p Hp; apply filter_iff, K, Hp. }
  rewrite E, E2. tauto.
Qed.
Lemma C127_phot_lemma : forall (AR : Arith) ws ls wf tf z Om0 w0 wa h,
  let matching := ws <> [] /\ length ls = length ws
    /\ (stands_for (length tf) (length wf) \/ length wf = 1%nat /\ (length tf <= 2)%nat) in
  ((exists m, calc_rest_mag ws ls wf tf = Ok m) <-> matching)
  /\ ((exists f, calc_rest_flux ws ls wf tf = Ok f) <-> matching)
  /\ ((exists m, calc_obs_mag_no_dimming ws ls wf tf z = Ok m) <-> matching)
  /\ ((exists m, calc_obs_mag ws ls wf tf z Om0 w0 wa h = Ok m) <-> matching).
Proof. intros. split; [|split; [|split]]; apply spec_iff; auto. Qed.
Lemma C127_pop_lemma : forall (AR : Arith) ws flux fws fts zs z Om0 w0 wa h,
  let matching := ws <> [] /\ Forall (Forall (fun spec => length spec = length ws)) flux /\ length fws = length fts
    /\ Forall (fun p => stands_for (length (snd p)) (length (fst p)) \/ length (fst p) = 1%nat /\ (length (snd p) <= 2)%nat) (combine fws fts) in
  ((exists tab, precompute_ssp_restmags ws flux fws fts = Ok tab) <-> matching)
  /\ ((exists tab, precompute_ssp_restmags_z_kcorrect ws flux fws fts z = Ok tab) <-> matching)
  /\ ((exists tab, precompute_ssp_obsmags_on_z_table ws flux fws fts zs Om0 w0 wa h = Ok tab) <-> matching).
Proof. intros. split; [|split]; apply pop_iff; auto. Qed.

Lemma C127_misc_lemma : forall (AR : Arith) xs ys,
  ((exists v, trapz xs ys = Ok v)
   <-> length xs = length ys \/ length xs = 2%nat \/ length ys = 2%nat \/ (length xs <= 1)%nat /\ (length ys <= 1)%nat)
  /\ ((exists v, cumtrapz xs ys = Ok v) <-> length xs = length ys /\ xs <> [])
  /\ ((exists v, cumulative_mstar_formed xs ys = Ok v) <-> stands_for (length ys) (length xs))
  /\ (forall p, (exists v, calc_bursty_age_weights p xs ys = Ok v)
        <-> stands_for (length xs) (length ys) \/ length ys = 1%nat)
  /\ (forall u, (exists v, calc_bursty_age_weights_from_u_params u xs ys = Ok v)
        <-> stands_for (length xs) (length ys) \/ length ys = 1%nat)
  /\ (forall lstsq a b c d e f g, (exists v, ew_kernel lstsq xs ys a b c d e f g = Ok v) <-> stands_for (length ys) (length xs)).
Proof.
  intros AR xs ys.
  assert (B : forall p, (exists v, calc_bursty_age_weights p xs ys = Ok v) <-> stands_for (length xs) (length ys) \/ length ys = 1%nat).
  { intros p. unfold calc_bursty_age_weights. rewrite bmap2_iff, pureburst_len, map_length. unfold stands_for.
    intuition congruence. }
  split. { unfold trapz. rewrite (bind_iff _ _ True), bmap2_iff, diff_len, map2_len, tl_len by (intros; now shp). lia. }
  split; [unfold cumtrapz; shp; tauto|].
  split; [unfold cumulative_mstar_formed; shp; tauto|].
  split; [exact B|]. split; [intros u; apply B|].
  intros. unfold ew_kernel. shp. tauto.
Qed.
