(** * Data loaders, continued: emission lines *)
From Coq Require Import Reals List Arith String Ascii ZArith Lra Lia Bool.
From Flocq Require Import Core.Raux.
From Verif Require Import Num Arr MUtils MLoaders EmlinesDat Spec SpecLoad RList LLoad.
Import ListNotations.
Local Open Scope string_scope.

(** ** C87 *)
Lemma index_of_some n l i : index_of n l = Some i -> nth_error l i = Some n /\ forall j, (j < i)%nat -> nth_error l j <> Some n.
Proof.
  revert i; induction l as [|x l IH]; intros i; cbn; [discriminate|]. destruct (String.eqb_spec n x) as [->|D].
  - intros H; injection H as <-. split; auto. intros; lia.
  - destruct (index_of n l) as [k|]; [|discriminate]. intros H; injection H as <-. destruct (IH k eq_refl) as [A B].
    split; auto. intros [|j] Hj; cbn; [congruence|]. apply B. lia.
Qed.
Lemma index_of_none n l : index_of n l = None <-> ~ In n l.
Proof.
  induction l as [|x l IH]; cbn; [tauto|]. destruct (String.eqb_spec n x) as [->|D].
  - split; [discriminate|intros H; exfalso; apply H; now left].
  - destruct (index_of n l).
    + split; [discriminate|]. intros H. exfalso. assert (~ In n l) as K by tauto. apply IH in K. discriminate.
    + split; auto. intros _ [E|E]; [congruence|now apply IH].
Qed.
Lemma index_of_nth n l i : NoDup l -> nth_error l i = Some n -> index_of n l = Some i.
Proof.
  intros N H. destruct (index_of n l) as [k|] eqn:E.
  - apply index_of_some in E. destruct E as [A _]. f_equal. rewrite NoDup_nth_error in N. apply N; [|congruence].
    apply nth_error_Some. congruence.
  - apply index_of_none in E. exfalso. apply E. eapply nth_error_In; eauto.
Qed.
Lemma indices_of_ok fields names : incl names fields ->
  exists idx, indices_of fields names = Ok idx /\ List.length idx = List.length names
   /\ forall k n, nth_error names k = Some n -> exists i, nth_error idx k = Some i /\ index_of n fields = Some i.
Proof.
  induction names as [|n names IH]; intros I; cbn.
  - exists []. repeat split; auto. intros [|k] n; discriminate.
  - destruct (index_of n fields) as [i|] eqn:E.
    + destruct IH as (idx & E1 & E2 & E3); [intros x Hx; apply I; now right|]. rewrite E1. cbn.
      exists (i :: idx). repeat split; [cbn; auto|]. intros [|k] m; cbn; intros H; [injection H as <-|auto]. eauto.
    + apply index_of_none in E. exfalso. apply E, I. now left.
Qed.
Lemma indices_of_bad fields names : ~ incl names fields -> indices_of fields names = Raise ValueError.
Proof.
  induction names as [|n names IH]; intros I; cbn; [exfalso; apply I; intros ? []|].
  destruct (index_of n fields) as [i|] eqn:E; [|reflexivity]. rewrite IH; [reflexivity|].
  intros K. apply I. intros x [<-|H]; [|now apply K]. apply index_of_some in E. eapply nth_error_In, E.
Qed.
Lemma idx_lt fields names idx : indices_of fields names = Ok idx -> Forall (fun i => (i < List.length fields)%nat) idx.
Proof.
  revert idx; induction names as [|n names IH]; cbn; intros idx; [intros H; injection H as <-; constructor|].
  destruct (index_of n fields) as [i|] eqn:E; [|discriminate]. destruct (indices_of fields names) as [js|]; [|discriminate].
  cbn. intros H; injection H as <-. constructor; auto. apply index_of_some in E. apply nth_error_Some. destruct E. congruence.
Qed.
Lemma nth_error_at l i x : nth_error l i = Some x -> at_ l i = x.
Proof. intros H. unfold at_. now apply nth_error_nth. Qed.
Lemma at_nth_error l i : (i < List.length l)%nat -> nth_error l i = Some (at_ l i).
Proof. intros H. unfold at_. now apply nth_error_nth'. Qed.
Lemma map_fst_combine {A B} (l : list A) (m : list B) : List.length l = List.length m -> map fst (combine l m) = l.
Proof. apply combine_fst. Qed.
Lemma nth_error_map' {A B} (f : A -> B) l i : nth_error (map f l) i = option_map f (nth_error l i).
Proof. revert l; induction i; intros [|a l]; cbn; auto. Qed.
Lemma nth_error_combine' {A B} (l : list A) (m : list B) i : nth_error (combine l m) i
  = match nth_error l i, nth_error m i with Some a, Some b => Some (a, b) | _, _ => None end.
Proof. revert l m; induction i; intros [|a l] [|b m]; cbn; auto. destruct (nth_error l i); auto. Qed.

Definition sub_wave (lines : list (string * num)) (idx : list nat) := map (fun i => at_ (map snd lines) i) idx.
Definition sub_lum (lum : list (list (list num))) (idx : list nat) := map (map (fun row => map (at_ row) idx)) lum.
Lemma subset_ok {AR : Arith} d lines lum names : ssp_emline_wave d = Some lines -> ssp_emline_luminosity d = Some lum ->
  field_names (map fst lines) -> rows_of_length (List.length lines) lum -> names <> [] -> NoDup names -> incl names (map fst lines) ->
  exists idx, indices_of (map fst lines) names = Ok idx /\
  get_subset_emline_data d names = Ok {| ssp_lgmet := ssp_lgmet d; ssp_lg_age_gyr := ssp_lg_age_gyr d;
    ssp_wave := ssp_wave d; ssp_flux := ssp_flux d; ssp_emline_wave := Some (combine names (sub_wave lines idx));
    ssp_emline_luminosity := Some (sub_lum lum idx) |}.
Proof.
  intros Ew El [Nd Fn] Rl Ne Nn In_. destruct (indices_of_ok _ _ In_) as (idx & E1 & E2 & E3). exists idx. split; auto.
  unfold get_subset_emline_data. destruct names as [|n0 names0] eqn:En; [congruence|]. rewrite <- En in *. clear Ne.
  rewrite Ew, E1. cbn [bind]. rewrite namedtuple_ok.
  - cbn [bind]. rewrite El. unfold check.
    replace (forallb _ lum) with true; [reflexivity|]. symmetry. apply forallb_forall. intros m Hm.
    apply forallb_forall. intros r Hr. apply forallb_forall. intros i Hi. apply Nat.ltb_lt.
    rewrite (Rl m r Hm Hr). pose proof (idx_lt _ _ _ E1) as F. rewrite Forall_forall in F. specialize (F i Hi). now rewrite map_length in F.
  - split; auto. apply Forall_forall. intros s Hs. rewrite Forall_forall in Fn. auto.
  - now rewrite map_length.
Qed.
Lemma C87_lemma {AR : Arith} : forall d lines lum names,
  ssp_emline_wave d = Some lines -> ssp_emline_luminosity d = Some lum ->
  field_names (map fst lines) -> rows_of_length (List.length lines) lum ->
  names <> [] -> NoDup names -> incl names (map fst lines) ->
  exists lines' lum',
    get_subset_emline_data d names = Ok {| ssp_lgmet := ssp_lgmet d; ssp_lg_age_gyr := ssp_lg_age_gyr d;
      ssp_wave := ssp_wave d; ssp_flux := ssp_flux d;
      ssp_emline_wave := Some lines'; ssp_emline_luminosity := Some lum' |}
    /\ map fst lines' = names
    /\ incl lines' lines
    /\ same_rows lum' lum /\ rows_of_length (List.length names) lum'
    /\ (forall k j name, nth_error names k = Some name -> nth_error (map fst lines) j = Some name ->
          forall a b, cube_at lum' a b k = cube_at lum a b j).
Proof.
  intros d lines lum names Ew El Fn Rl Ne Nn In_.
  destruct (subset_ok d lines lum names Ew El Fn Rl Ne Nn In_) as (idx & E1 & E).
  destruct (indices_of_ok _ _ In_) as (idx' & E1' & E2 & E3). rewrite E1 in E1'. injection E1' as <-.
  pose proof (idx_lt _ _ _ E1) as F. rewrite Forall_forall, map_length in F.
  assert (Lc : List.length names = List.length (sub_wave lines idx)) by (unfold sub_wave; now rewrite map_length).
  exists (combine names (sub_wave lines idx)), (sub_lum lum idx). split; [auto|split; [|split; [|split; [|split]]]].
  - now apply combine_fst.
  - intros [n w] H. apply In_nth_error in H. destruct H as [k H]. rewrite nth_error_combine' in H.
    destruct (nth_error names k) as [n'|] eqn:Ek; [|discriminate]. destruct (E3 k n' Ek) as (i & Hi & Hx).
    unfold sub_wave in H. rewrite nth_error_map', Hi in H. cbn in H. injection H as <- <-.
    apply index_of_some in Hx. destruct Hx as [Hx _]. rewrite nth_error_map' in Hx.
    destruct (nth_error lines i) as [[a b]|] eqn:El2; [|discriminate]. cbn in Hx. injection Hx as ->.
    rewrite (nth_error_at _ _ b) by (now rewrite nth_error_map', El2). eapply nth_error_In; eauto.
  - unfold same_rows, sub_lum. rewrite map_map. apply map_ext. intros. now rewrite map_length.
  - intros m r Hm Hr. unfold sub_lum in Hm. apply in_map_iff in Hm. destruct Hm as (m0 & <- & Hm).
    apply in_map_iff in Hr. destruct Hr as (r0 & <- & _). now rewrite map_length.
  - intros k j n Hk Hj a b. unfold cube_at, sub_lum. rewrite nth_error_map'. destruct (nth_error lum a) as [m|] eqn:Em; cbn; auto.
    rewrite nth_error_map'. destruct (nth_error m b) as [r|] eqn:Er; cbn; auto.
    destruct (E3 k n Hk) as (i & Hi & Hx). rewrite nth_error_map', Hi. cbn.
    destruct Fn as [Nd _]. rewrite (index_of_nth n _ j Nd Hj) in Hx. injection Hx as <-.
    symmetry. apply at_nth_error. apply nth_error_In in Em, Er. rewrite (Rl m r Em Er). apply F. eapply nth_error_In; eauto.
Qed.
Lemma C87_raise_lemma {AR : Arith} : forall d,
  get_subset_emline_data d [] = Raise IndexError
  /\ (forall lines names, ssp_emline_wave d = Some lines -> names <> [] ->
       (~ incl names (map fst lines) \/ ~ NoDup names) -> get_subset_emline_data d names = Raise ValueError)
  /\ (forall names, names <> [] -> ssp_emline_wave d = None -> get_subset_emline_data d names = Raise AttributeError).
Proof.
  intros d. split; [|split]; intros.
  - reflexivity.
  - unfold get_subset_emline_data. destruct names as [|n0 names0] eqn:En; [congruence|]. rewrite <- En in *.
    rewrite H. destruct H1 as [I|N].
    + now rewrite indices_of_bad.
    + destruct (indices_of (map fst lines) names) as [idx|e] eqn:E; cbn [bind].
      * rewrite namedtuple_bad; [reflexivity|]. intros [K _]. contradiction.
      *
        assert (D : {incl names (map fst lines)} + {~ incl names (map fst lines)}).
        { destruct (forallb (fun x => existsb (String.eqb x) (map fst lines)) names) eqn:B.
          - left. intros x Hx. rewrite forallb_forall in B. apply existsb_eqb, B, Hx.
          - right. intros K. apply Bool.not_true_iff_false in B. apply B. apply forallb_forall. intros x Hx. apply existsb_eqb, K, Hx. }
        destruct D as [D|D]; [destruct (indices_of_ok _ _ D) as (? & K & _); congruence|].
        rewrite indices_of_bad in E by auto. congruence.
  - unfold get_subset_emline_data. destruct names; [congruence|]. now rewrite H0.
Qed.
(** selecting twice is selecting once; selecting everything changes nothing *)
Lemma list_eq_nth_error {A} (l m : list A) : (forall i, nth_error l i = nth_error m i) -> l = m.
Proof.
  revert m; induction l as [|a l IH]; intros [|b m] H; auto; try (specialize (H 0%nat); discriminate).
  pose proof (H 0%nat) as K. injection K as <-. f_equal. apply IH. intros i. apply (H (S i)).
Qed.
Lemma C87_compose_lemma {AR : Arith} : forall d lines lum names names' d',
  ssp_emline_wave d = Some lines -> ssp_emline_luminosity d = Some lum ->
  field_names (map fst lines) -> rows_of_length (List.length lines) lum ->
  get_subset_emline_data d names = Ok d' -> names' <> [] -> NoDup names' -> incl names' names ->
  get_subset_emline_data d' names' = get_subset_emline_data d names'.
Proof.
  intros d lines lum names names' d' Ew El Fn Rl E Ne Nn In_.
  assert (Nz : names <> []) by (intros ->; discriminate).
  assert (Nd : NoDup names /\ incl names (map fst lines)).
  { destruct (C87_raise_lemma d) as (_ & R & _).
    split; [|]. 
    - apply no_duplicates_spec. destruct (no_duplicates names) eqn:B; auto. exfalso.
      rewrite (R lines names Ew Nz) in E; [discriminate|]. right. intros K. apply no_duplicates_spec in K. congruence.
    - intros x Hx. destruct (in_dec string_dec x (map fst lines)); auto. exfalso.
      rewrite (R lines names Ew Nz) in E; [discriminate|]. left. intros K. now apply n, K. }
  destruct Nd as [Nd Ni]. assert (Ni' : incl names' (map fst lines)) by (intros x Hx; auto).
  destruct (subset_ok d lines lum names Ew El Fn Rl Nz Nd Ni) as (idx & E1 & E1').
  destruct (subset_ok d lines lum names' Ew El Fn Rl Ne Nn Ni') as (idx2 & E2 & E2'). rewrite E2'.
  rewrite E1' in E. injection E as <-.
  assert (Lc : List.length names = List.length (sub_wave lines idx)).
  { unfold sub_wave. rewrite map_length. destruct (indices_of_ok _ _ Ni) as (i' & Q & Q' & _). congruence. }
  assert (Ff : map fst (combine names (sub_wave lines idx)) = names) by now apply combine_fst.
  edestruct (subset_ok {| ssp_lgmet := ssp_lgmet d; ssp_lg_age_gyr := ssp_lg_age_gyr d;
    ssp_wave := ssp_wave d; ssp_flux := ssp_flux d; ssp_emline_wave := Some (combine names (sub_wave lines idx));
    ssp_emline_luminosity := Some (sub_lum lum idx) |} (combine names (sub_wave lines idx)) (sub_lum lum idx) names')
    as (idx3 & E3 & E3'); try reflexivity; auto.
  - rewrite Ff. split; auto. apply Forall_forall. intros s Hs. destruct Fn as [_ Fn]. rewrite Forall_forall in Fn. auto.
  - intros m r Hm Hr. unfold sub_lum in Hm. apply in_map_iff in Hm. destruct Hm as (m0 & <- & Hm).
    apply in_map_iff in Hr. destruct Hr as (r0 & <- & _). rewrite map_length, combine_length, <- Lc, Nat.min_id.
    destruct (indices_of_ok _ _ Ni) as (i' & Q & Q' & _). congruence.
  - now rewrite Ff.
  - rewrite E3'. rewrite Ff in E3. cbn.
    assert (C : idx2 = map (fun j => nth j idx 0%nat) idx3 /\ Forall (fun j => (j < List.length idx)%nat) idx3).
    { destruct (indices_of_ok _ _ Ni) as (i1 & Q1 & L1 & H1). rewrite E1 in Q1. injection Q1 as <-.
      destruct (indices_of_ok _ _ Ni') as (i2 & Q2 & L2 & H2). rewrite E2 in Q2. injection Q2 as <-.
      destruct (indices_of_ok _ _ In_) as (i3 & Q3 & L3 & H3). rewrite E3 in Q3. injection Q3 as <-. split.
      - apply list_eq_nth_error. intros k. rewrite nth_error_map'. destruct (nth_error names' k) as [n|] eqn:Ek.
        + destruct (H2 k n Ek) as (a & A1 & A2). destruct (H3 k n Ek) as (b & B1 & B2). rewrite A1, B1. cbn. f_equal.
          apply index_of_some in B2. destruct B2 as [B2 _]. destruct (H1 b n B2) as (c & C1 & C2).
          assert (a = c) by congruence. subst. symmetry. now apply nth_error_nth.
        + apply nth_error_None in Ek. rewrite (proj2 (nth_error_None idx2 k)) by lia.
          rewrite (proj2 (nth_error_None idx3 k)) by lia. reflexivity.
      - apply idx_lt in E3. rewrite <- L1 in E3. exact E3. }
    destruct C as [-> Fj]. rewrite Forall_forall in Fj. pose proof (combine_snd _ _ Lc) as Sn.
    f_equal. f_equal; [f_equal; f_equal|f_equal].
    + unfold sub_wave at 1 3. rewrite Sn, map_map. apply map_ext_in. intros j Hj. specialize (Fj j Hj).
      unfold at_ at 1. unfold sub_wave. rewrite (nth_indep _ NaN (at_ (map snd lines) 0)) by (now rewrite map_length).
      now rewrite (map_nth (fun i => at_ (map snd lines) i)).
    + unfold sub_lum. rewrite map_map. apply map_ext. intros m. rewrite map_map. apply map_ext. intros r.
      rewrite map_map. apply map_ext_in. intros j Hj. specialize (Fj j Hj).
      unfold at_ at 1. rewrite (nth_indep _ NaN (at_ r 0)) by (now rewrite map_length). now rewrite (map_nth (at_ r)).
Qed.
