(** * Data loaders *)
From Coq Require Import Reals List Arith String Ascii ZArith Lra Lia Bool.
From Flocq Require Import Core.Raux.
From Verif Require Import Num Arr MUtils MLoaders EmlinesDat Spec SpecLoad RList.
Import ListNotations.
Local Open Scope string_scope.

(** ** namedtuple *)
Lemma is_alpha_spec c : is_alpha_ c = true <-> letter c \/ c = "_"%char.
Proof.
  unfold is_alpha_, letter. cbv zeta. rewrite !orb_true_iff, !andb_true_iff, !Nat.leb_le, Nat.eqb_eq.
  split; [intros [H|H]; [tauto|right]|intros [H|H]; [tauto|right; now subst]].
  rewrite <- (ascii_nat_embedding c), H. reflexivity.
Qed.
Lemma is_digit_spec c : is_digit c = true <-> digit c.
Proof. unfold is_digit, digit. cbv zeta. now rewrite andb_true_iff, !Nat.leb_le. Qed.
Lemma all_chars_spec p s : all_chars p s = true <-> forall d, In d (list_ascii_of_string s) -> p d = true.
Proof.
  induction s as [|c s IH]; cbn; [split; [tauto|reflexivity]|]. rewrite andb_true_iff, IH.
  split; [intros [A B] d [<-|D]; auto|intros H; split; auto].
Qed.
Lemma existsb_eqb s l : existsb (String.eqb s) l = true <-> In s l.
Proof.
  rewrite existsb_exists. split; [intros (x & A & B); apply String.eqb_eq in B; now subst|].
  intros H. exists s. split; auto. apply String.eqb_refl.
Qed.
Lemma valid_field_spec s : valid_field s = true <-> field_name s.
Proof.
  unfold valid_field, field_name, iskeyword. rewrite !andb_true_iff, !negb_true_iff.
  assert (K : existsb (String.eqb s) keywords = false <-> ~ In s keywords).
  { rewrite <- existsb_eqb. destruct (existsb _ _); split; intros; congruence. }
  rewrite K. fold keywords. destruct s as [|c r].
  { cbn. split; [intros [[? _] _]; discriminate|intros [(? & ? & ? & _) _]; discriminate]. }
  cbn [isidentifier starts_underscore]. rewrite andb_true_iff, is_alpha_spec, all_chars_spec, Ascii.eqb_neq.
  assert (L : (forall d, In d (list_ascii_of_string r) -> is_alpha_ d || is_digit d = true)
          <-> forall d, In d (list_ascii_of_string r) -> letter d \/ digit d \/ d = "_"%char).
  { split; intros H d D; specialize (H d D); revert H; rewrite orb_true_iff, is_alpha_spec, is_digit_spec; tauto. }
  rewrite L. split.
  - intros [[[[A|A] B] C] D]; [|congruence]. split; auto. exists c, r. auto.
  - intros [(c' & r' & E & A & B) C]. injection E as <- <-. repeat split; auto.
    intros ->. unfold letter in A. cbn in A. lia.
Qed.
Lemma no_duplicates_spec l : no_duplicates l = true <-> NoDup l.
Proof.
  induction l as [|x l IH]; cbn; [split; [constructor|reflexivity]|].
  rewrite andb_true_iff, negb_true_iff, IH.
  assert (K : existsb (String.eqb x) l = false <-> ~ In x l).
  { rewrite <- existsb_eqb. destruct (existsb _ _); split; intros; congruence. }
  rewrite K. split; [intros [A B]; now constructor|]. intros H. inversion H; auto.
Qed.
Lemma namedtuple_ok names vals : field_names names -> List.length names = List.length vals ->
  namedtuple names vals = Ok (combine names vals).
Proof.
  intros [A B] L. unfold namedtuple, check, same_len. rewrite (proj2 (no_duplicates_spec _) A), (proj2 (Nat.eqb_eq _ _) L).
  replace (forallb valid_field names) with true; [reflexivity|]. symmetry. apply forallb_forall.
  intros s Hs. apply valid_field_spec. rewrite Forall_forall in B. auto.
Qed.
Lemma namedtuple_inv names vals r : namedtuple names vals = Ok r ->
  field_names names /\ List.length names = List.length vals /\ r = combine names vals.
Proof.
  unfold namedtuple, check, same_len. destruct (forallb _ _ && no_duplicates _)%bool eqn:E; [|discriminate].
  destruct (Nat.eqb_spec (List.length names) (List.length vals)); [|discriminate]. intros H; injection H as <-.
  apply andb_true_iff in E. destruct E as [A B]. repeat split; auto; [now apply no_duplicates_spec|].
  apply Forall_forall. intros s Hs. apply valid_field_spec. rewrite forallb_forall in A. auto.
Qed.
Lemma namedtuple_bad names vals : ~ field_names names -> namedtuple names vals = Raise ValueError.
Proof.
  intros N. unfold namedtuple, check. destruct (forallb _ _ && no_duplicates _)%bool eqn:E; [|reflexivity].
  exfalso. apply N. apply andb_true_iff in E. destruct E as [A B]. split; [now apply no_duplicates_spec|].
  apply Forall_forall. intros s Hs. apply valid_field_spec. rewrite forallb_forall in A. auto.
Qed.
Lemma namedtuple_short names vals : field_names names -> List.length names <> List.length vals ->
  namedtuple names vals = Raise TypeError.
Proof.
  intros [A B] L. unfold namedtuple, check, same_len. rewrite (proj2 (no_duplicates_spec _) A), (proj2 (Nat.eqb_neq _ _) L).
  replace (forallb valid_field names) with true; [reflexivity|]. symmetry. apply forallb_forall.
  intros s Hs. apply valid_field_spec. rewrite Forall_forall in B. auto.
Qed.
Lemma combine_fst {A B} (l : list A) (m : list B) : List.length l = List.length m -> map fst (combine l m) = l.
Proof. revert m; induction l as [|a l IH]; intros [|b m] H; try discriminate; cbn; f_equal; auto. Qed.
Lemma combine_snd {A B} (l : list A) (m : list B) : List.length l = List.length m -> map snd (combine l m) = m.
Proof. revert m; induction l as [|a l IH]; intros [|b m] H; try discriminate; cbn; f_equal; auto. Qed.
Lemma combine_fst_snd {A B} (l : list (A * B)) : combine (map fst l) (map snd l) = l.
Proof. induction l as [|[a b] l IH]; cbn; f_equal; auto. Qed.

(** ** os.path.join *)
Lemma ends_slash_app a : ends_slash (a ++ "/") = true.
Proof. induction a as [|c a IH]; [reflexivity|]. cbn [append]. cbn [ends_slash]. destruct (a ++ "/") eqn:E; auto. destruct a; discriminate. Qed.
Lemma join_lemma : (forall a b, os_path_join a ("/" ++ b) = "/" ++ b)
  /\ (forall a b, is_abs b = false -> os_path_join (a ++ "/") b = a ++ "/" ++ b)
  /\ (forall a b, is_abs b = false -> a <> "" -> (forall a', a <> a' ++ "/") -> os_path_join a b = a ++ "/" ++ b)
  /\ (forall b, os_path_join "" b = b).
Proof.
  assert (A : forall a b c, (a ++ b) ++ c = a ++ b ++ c).
  { induction a; intros; cbn; f_equal; auto. }
  split; [|split; [|split]]; intros; unfold os_path_join.
  - reflexivity.
  - rewrite H, ends_slash_app, orb_true_r. now rewrite A.
  - rewrite H. destruct (String.eqb_spec a ""); [contradiction|]. cbn [orb].
    destruct (ends_slash a) eqn:E; [|reflexivity]. exfalso.
    assert (exists a', a = a' ++ "/") as [a' Ha]; [|now apply (H1 a')].
    clear - E. induction a as [|c a IH]; [discriminate|]. cbn [ends_slash] in E. destruct a as [|c' a].
    + apply Ascii.eqb_eq in E. subst. now exists "".
    + destruct (IH E) as [a' Ha]. exists (String c a'). now rewrite Ha.
  - destruct (is_abs b); reflexivity.
Qed.


(** ** C82 *)
Lemma C82_lemma {AR : Arith} : forall w fake bn,
  (forall fn drn, load_ssp_templates w fake fn drn bn true = Ok fake)
  /\ (forall f drn w' drn' bn', isfile w' f = isfile w f -> h5open w' f = h5open w f ->
        load_ssp_templates w' fake (Some f) drn' bn' false = load_ssp_templates w fake (Some f) drn bn false)
  /\ (forall d, load_ssp_templates w fake None (Some d) bn false
        = load_ssp_templates w fake (Some (os_path_join d bn)) None bn false)
  /\ (forall d, env_DSPS_DRN w = Some d ->
        load_ssp_templates w fake None None bn false = load_ssp_templates w fake None (Some d) bn false)
  /\ (env_DSPS_DRN w = None -> load_ssp_templates w fake None None bn false = Raise ValueError)
  /\ (forall f drn, isfile w f = false -> load_ssp_templates w fake (Some f) drn bn false = Raise AssertionError)
  /\ (forall f drn d, load_ssp_templates w fake (Some f) drn bn false = Ok d ->
        isfile w f = true /\ exists hdf, h5open w f = Some hdf
        /\ hdf "ssp_lgmet" = Some (ssp_lgmet d) /\ hdf "ssp_lg_age_gyr" = Some (ssp_lg_age_gyr d)
        /\ hdf "ssp_wave" = Some (ssp_wave d) /\ hdf "ssp_flux" = Some (ssp_flux d)
        /\ (hdf "ssp_emline_name" = None <-> ssp_emline_wave d = None)).
Proof.
  intros w fake bn. split; [|split; [|split; [|split; [|split; [|split]]]]]; intros.
  - reflexivity.
  - unfold load_ssp_templates. cbn. now rewrite H, H0.
  - reflexivity.
  - unfold load_ssp_templates, ssp_template_path. now rewrite H.
  - unfold load_ssp_templates, ssp_template_path. now rewrite H.
  - unfold load_ssp_templates. cbn. now rewrite H.
  - split; [revert H; unfold load_ssp_templates; cbn; now destruct (isfile w f)|].
    revert H. unfold load_ssp_templates. cbn. destruct (isfile w f); [|discriminate]. cbn.
    destruct (h5open w f) as [hdf|]; [|discriminate]. intros H. exists hdf. split; auto. revert H.
    unfold read_ssp_h5, get_key. destruct (hdf "ssp_lgmet"); [|discriminate]. cbn.
    destruct (hdf "ssp_lg_age_gyr"); [|discriminate]. cbn. destruct (hdf "ssp_wave"); [|discriminate]. cbn.
    destruct (hdf "ssp_flux"); [|discriminate]. cbn. destruct (hdf "ssp_emline_name") as [nm|]; cbn.
    + destruct (decode_names nm); [|discriminate]. cbn. destruct (hdf "ssp_emline_wave") as [ew|]; [|discriminate]. cbn.
      destruct (float_list ew); [|discriminate]. cbn. destruct (hdf "ssp_emline_luminosity") as [el|]; [|discriminate]. cbn.
      destruct (scale_cube el _); [|discriminate]. cbn. destruct (namedtuple _ _); [|discriminate]. cbn.
      intros H; injection H as <-. cbn. repeat split; auto; discriminate.
    + intros H; injection H as <-. cbn. repeat split; auto.
Qed.

(** ** C83 *)
Lemma C83_lemma {AR : Arith} : forall w,
  (forall f bn_pat drn w' bn_pat' drn', isfile w' f = isfile w f -> h5open w' f = h5open w f ->
     load_transmission_curve w' (Some f) bn_pat' drn' = load_transmission_curve w (Some f) bn_pat drn)
  /\ (forall bn_pat drn tc, load_transmission_curve w None bn_pat drn = Ok tc ->
       exists d pat f, bn_pat = Some pat
         /\ (drn = Some d \/ drn = None /\ exists e, env_DSPS_DRN w = Some e /\ d = os_path_join e "filters" /\ isdir w d = true)
         /\ glob w (os_path_join d pat) = [f] /\ load_transmission_curve w (Some f) None None = Ok tc)
  /\ (forall pat d, (glob w (os_path_join d pat) = [] \/ exists f g l, glob w (os_path_join d pat) = f :: g :: l) ->
       load_transmission_curve w None (Some pat) (Some d) = Raise AssertionError)
  /\ (forall pat d f, glob w (os_path_join d pat) = [f] ->
       load_transmission_curve w None (Some pat) (Some d) = load_transmission_curve w (Some f) None None)
  /\ (forall pat e, env_DSPS_DRN w = Some e -> isdir w (os_path_join e "filters") = true ->
       load_transmission_curve w None (Some pat) None = load_transmission_curve w None (Some pat) (Some (os_path_join e "filters")))
  /\ (forall pat, env_DSPS_DRN w = None -> load_transmission_curve w None pat None = Raise ValueError)
  /\ (forall f bn_pat drn, isfile w f = false -> load_transmission_curve w (Some f) bn_pat drn = Raise AssertionError).
Proof.
  intros w. split; [|split; [|split; [|split; [|split; [|split]]]]]; intros.
  - unfold load_transmission_curve. cbn. now rewrite H, H0.
  - revert H. unfold load_transmission_curve at 1, transmission_path.
    set (dd := match drn with Some d => Ok d | None => _ end).
    destruct dd as [d|] eqn:Ed; [|discriminate]. cbn. destruct bn_pat as [pat|]; [|discriminate].
    destruct (glob w (os_path_join d pat)) as [|f [|g l]] eqn:G; try discriminate. intros H.
    exists d, pat, f. repeat split; auto. unfold dd in Ed. destruct drn as [d'|]; [left; congruence|right; split; auto].
    destruct (env_DSPS_DRN w) as [e|]; [|discriminate]. exists e. unfold check in Ed.
    destruct (isdir w (os_path_join e "filters")) eqn:D; [|discriminate]. injection Ed as <-. auto.
  - unfold load_transmission_curve, transmission_path. cbn [bind]. destruct H as [H|(f & g & l & H)]; now rewrite H.
  - unfold load_transmission_curve at 1, transmission_path. cbn [bind]. now rewrite H.
  - unfold load_transmission_curve, transmission_path. rewrite H. cbn zeta. unfold check at 1. rewrite H0. reflexivity.
  - unfold load_transmission_curve, transmission_path. now rewrite H.
  - unfold load_transmission_curve. cbn. now rewrite H.
Qed.

(** ** C84, C85: transmission values *)
Open Scope R_scope.
Lemma fold_nmin_fins l : forall a, exists m, fold_left nmin (fins l) (Fin a) = Fin m /\ In m (a :: l)
  /\ forall x, In x (a :: l) -> m <= x.
Proof.
  induction l as [|b l IH]; intros a.
  - exists a. repeat split; [now left|]. intros x [<-|[]]. lra.
  - cbn [fins map fold_left]. unfold nmin at 2. cbn [nisnan orb nltb]. destruct (Rlt_bool_spec b a) as [L|L].
    + destruct (IH b) as (m & E & I & M). exists m. repeat split; auto; [right; auto|].
      intros x [<-|H]; [|now apply M]. apply Rle_trans with b; [apply M; now left|lra].
    + destruct (IH a) as (m & E & I & M). exists m. repeat split; auto; [destruct I; [now left|right; right; auto]|].
      intros x [<-|[<-|H]]; [apply M; now left| |apply M; now right]. apply Rle_trans with a; [apply M; now left|lra].
Qed.
Lemma fold_nmax_fins l : forall a, exists m, fold_left nmax (fins l) (Fin a) = Fin m /\ In m (a :: l)
  /\ forall x, In x (a :: l) -> x <= m.
Proof.
  induction l as [|b l IH]; intros a.
  - exists a. repeat split; [now left|]. intros x [<-|[]]. lra.
  - cbn [fins map fold_left]. unfold nmax at 2. cbn [nisnan orb nltb]. destruct (Rlt_bool_spec a b) as [L|L].
    + destruct (IH b) as (m & E & I & M). exists m. repeat split; auto; [right; auto|].
      intros x [<-|H]; [|now apply M]. apply Rle_trans with b; [lra|apply M; now left].
    + destruct (IH a) as (m & E & I & M). exists m. repeat split; auto; [destruct I; [now left|right; right; auto]|].
      intros x [<-|[<-|H]]; [apply M; now left| |apply M; now right]. apply Rle_trans with a; [lra|apply M; now left].
Qed.
Lemma vmin_gen l : l <> [] -> exists m, vmin (fins l) = Fin m /\ In m l /\ forall x, In x l -> m <= x.
Proof. destruct l as [|a l]; [congruence|]. intros _. apply fold_nmin_fins. Qed.
Lemma vmax_gen l : l <> [] -> exists m, vmax (fins l) = Fin m /\ In m l /\ forall x, In x l -> x <= m.
Proof. destruct l as [|a l]; [congruence|]. intros _. apply fold_nmax_fins. Qed.

Lemma nclip01_fin x : nclip (Fin 0) (Fin 1) (Fin x) = Fin (Rmin 1 (Rmax 0 x)).
Proof.
  unfold nclip, nmax. cbn [nisnan orb nltb]. destruct (Rlt_bool_spec x 0).
  - unfold nmin. cbn [nisnan orb nltb]. rewrite Rlt_bool_false by lra. now rewrite (Rmax_left 0 x), Rmin_right by lra.
  - unfold nmin. cbn [nisnan orb nltb]. rewrite (Rmax_right 0 x) by lra.
    destruct (Rlt_bool_spec 1 x); [now rewrite Rmin_left by lra|now rewrite Rmin_right by lra].
Qed.
Lemma nclip01_any x : nclip (Fin 0) (Fin 1) x = NaN \/ exists r, nclip (Fin 0) (Fin 1) x = Fin r /\ 0 <= r <= 1.
Proof.
  destruct x; [right; eexists; split; [apply nclip01_fin|]|right; exists 1|right; exists 0|now left].
  - split; [apply Rmin_glb; [lra|apply Rmax_l]|apply Rmin_l].
  - unfold nclip, nmax, nmin. cbn. rewrite ?Rlt_bool_true by lra. split; auto; lra.
  - unfold nclip, nmax, nmin. cbn. rewrite ?Rlt_bool_false by lra. split; auto; lra.
Qed.

Lemma C84_any_lemma {AR : Arith} : forall w fn bn_pat drn tc, load_transmission_curve w fn bn_pat drn = Ok tc ->
  forall x, In x (tc_transmission tc) -> x = NaN \/ exists r, x = Fin r /\ 0 <= r <= 1.
Proof.
  intros w fn bn_pat drn tc. unfold load_transmission_curve.
  destruct (transmission_path w fn bn_pat drn) as [f|]; [|discriminate]. cbn [bind]. unfold check.
  destruct (isfile w f); [|discriminate]. destruct (h5open w f) as [hdf|]; [|discriminate].
  destruct (get_key hdf "wave") as [wv|]; [|discriminate]. cbn [bind].
  destruct (get_key hdf "transmission") as [tr|]; [|discriminate]. cbn [bind]. destruct tr as [t| |]; try discriminate.
  unfold validate_transmission. destruct t as [|a t]; [discriminate|].
  destruct (_ <? _)%num; [discriminate|]. destruct (ngtb _ _)%num; [discriminate|]. cbn [bind].
  intros H; injection H as <-. cbn [tc_transmission]. intros x Hx. change (In x (map (nclip (Fin 0) (Fin 1)) (a :: t))) in Hx.
  apply in_map_iff in Hx. destruct Hx as (y & <- & _). apply nclip01_any.
Qed.

Lemma load_tc w f hdf wave t : isfile w f = true -> h5open w f = Some hdf -> hdf "wave"%string = Some wave ->
  hdf "transmission"%string = Some (D1 (fins t)) ->
  load_transmission_curve w (Some f) None None
  = bind (validate_transmission (fins t)) (fun t' => Ok {| tc_wave := wave; tc_transmission := t' |}).
Proof.
  intros A B C D. unfold load_transmission_curve. cbn [transmission_path bind]. unfold check.
  rewrite A, B. unfold get_key. now rewrite C, D.
Qed.
Lemma validate_fins t m : t <> [] -> vmin (fins t) = Fin m ->
  validate_transmission (fins t) = if Rlt_bool m (-0.01) then Raise ValueError
    else if Rlt_bool 1.01 m then Raise ValueError else Ok (fins (map (fun x => Rmin 1 (Rmax 0 x)) t)).
Proof.
  intros N E. unfold validate_transmission. destruct t as [|a t]; [congruence|]. cbn [fins map] in *.
  change (Fin a :: map Fin t) with (fins (a :: t)) in *. rewrite E.
  unfold TOL, lit. cbn [rnd exact nopp nltb]. unfold ngtb. cbn [nadd rnd exact nltb].
  replace (- (0.01)) with (-0.01) by lra. destruct (Rlt_bool m (-0.01)); [reflexivity|].
  replace (1 + 0.01) with 1.01 by lra. destruct (Rlt_bool 1.01 m); [reflexivity|].
  change (Ok (map (nclip (Fin 0) (Fin 1)) (fins (a :: t))) = Ok (fins (map (fun x => Rmin 1 (Rmax 0 x)) (a :: t)))).
  f_equal. unfold fins. rewrite !map_map. apply map_ext. intros. apply nclip01_fin.
Qed.
Lemma C84_lemma : forall w f hdf wave t,
  isfile w f = true -> h5open w f = Some hdf -> hdf "wave"%string = Some wave ->
  hdf "transmission"%string = Some (D1 (fins t)) -> t <> [] ->
  ((exists x, In x t /\ x < -0.01) -> load_transmission_curve w (Some f) None None = Raise ValueError)
  /\ ((forall x, In x t -> -0.01 <= x) -> (exists x, In x t /\ x <= 1.01) ->
      exists t', load_transmission_curve w (Some f) None None = Ok {| tc_wave := wave; tc_transmission := fins t' |}
      /\ List.length t' = List.length t
      /\ forall i, (i < List.length t)%nat -> 0 <= ent t' i <= 1
         /\ (0 <= ent t i <= 1 -> ent t' i = ent t i) /\ (ent t i < 0 -> ent t' i = 0) /\ (1 < ent t i -> ent t' i = 1)).
Proof.
  intros w f hdf wave t A B C D N. rewrite (load_tc w f hdf wave t A B C D).
  destruct (vmin_gen t N) as (m & E & I & M). rewrite (validate_fins t m N E). split.
  - intros (x & Hx & L). rewrite Rlt_bool_true by (specialize (M x Hx); lra). reflexivity.
  - intros G (x & Hx & L). rewrite Rlt_bool_false by (apply G in I; lra). specialize (M x Hx).
    rewrite Rlt_bool_false by lra. cbn [bind]. eexists. split; [reflexivity|]. split; [now rewrite map_length|].
    intros i Hi. unfold ent. rewrite (nth_indep _ 0 (Rmin 1 (Rmax 0 0))) by (now rewrite map_length).
    rewrite (map_nth (fun x => Rmin 1 (Rmax 0 x))). set (y := nth i t 0).
    split; [split; [apply Rmin_glb; [lra|apply Rmax_l]|apply Rmin_l]|]. repeat split; intros.
    + rewrite Rmax_right, Rmin_right by lra. reflexivity.
    + rewrite Rmax_left, Rmin_right by lra. reflexivity.
    + rewrite Rmax_right, Rmin_left by lra. reflexivity.
Qed.
(** the check for excess transmission only fires when every value is in excess *)
Lemma C85_iff_lemma : forall w f hdf wave t,
  isfile w f = true -> h5open w f = Some hdf -> hdf "wave"%string = Some wave ->
  hdf "transmission"%string = Some (D1 (fins t)) -> t <> [] -> (forall x, In x t -> -0.01 <= x) ->
  (load_transmission_curve w (Some f) None None = Raise ValueError <-> forall x, In x t -> 1.01 < x).
Proof.
  intros w f hdf wave t A B C D N G. rewrite (load_tc w f hdf wave t A B C D).
  destruct (vmin_gen t N) as (m & E & I & M). rewrite (validate_fins t m N E).
  rewrite Rlt_bool_false by (apply G in I; lra). destruct (Rlt_bool_spec 1.01 m); cbn [bind]; split; intros K; auto.
  - intros x Hx. specialize (M x Hx). lra.
  - discriminate.
  - specialize (K m I). lra.
Qed.
Lemma C85_refuted_lemma : ~ (forall w f hdf wave t,
  isfile w f = true -> h5open w f = Some hdf -> hdf "wave"%string = Some wave ->
  hdf "transmission"%string = Some (D1 (fins t)) -> t <> [] -> (exists x, In x t /\ 1.01 < x) ->
  load_transmission_curve w (Some f) None None = Raise ValueError).
Proof.
  intros H. pose (hdf := h5set (h5set h5empty "wave" (D1 (fins [1; 2]))) "transmission" (D1 (fins [0.5; 40]))).
  assert (K : load_transmission_curve (one_file "f" hdf) (Some "f"%string) None None = Raise ValueError).
  { apply (H _ _ hdf (D1 (fins [1; 2])) [0.5; 40]); try reflexivity; [discriminate|]. exists 40. split; [right; now left|lra]. }
  revert K. destruct (C84_lemma (one_file "f" hdf) "f" hdf (D1 (fins [1; 2])) [0.5; 40]) as [_ L];
    try reflexivity; [discriminate|].
  destruct L as (t' & E & _); [intros x [<-|[<-|[]]]; lra|exists 0.5; split; [now left|lra]|]. rewrite E. discriminate.
Qed.
