(** * Data loaders, continued: data from python-fsps, the line dictionary, rewriting loaded data *)
From Coq Require Import Reals List Arith String Ascii ZArith Lra Lia Bool.
From Flocq Require Import Core.Raux.
From Verif Require Import Num Arr MUtils MLoaders EmlinesDat Spec SpecLoad RList LUtils LLoad LLoad3 LLoad4.
Import ListNotations.
Local Open Scope string_scope.
Ltac unlit := repeat match goal with |- context [lit ?x] => change (lit x) with (Fin x) end.

(** ** C104 *)
Lemma collect_all {AR : Arith} f zs : (forall i, In i zs -> exists e, sp_emline f i = Some e) ->
  forall acc, exists es, collect_emlines f true zs acc = Ok (acc ++ es)%list /\ map Some es = map (sp_emline f) zs.
Proof.
  induction zs as [|z zs IH]; intros H acc; cbn [collect_emlines].
  - exists []. now rewrite app_nil_r.
  - destruct (H z (or_introl eq_refl)) as (e & E). rewrite E.
    destruct (IH (fun i Hi => H i (or_intror Hi)) (acc ++ [e])%list) as (es & A & B).
    exists (e :: es). rewrite A, <- app_assoc. cbn. now rewrite E, B.
Qed.
Lemma collect_none {AR : Arith} f b zs : (forall i, In i zs -> sp_emline f i = None) ->
  forall acc, collect_emlines f b zs acc = Ok acc.
Proof.
  induction zs as [|z zs IH]; intros H acc; cbn [collect_emlines]; [reflexivity|].
  rewrite (H z (or_introl eq_refl)). apply IH. intros; apply H; now right.
Qed.
Lemma collect_unbound {AR : Arith} f zs i : In i zs -> (exists e, sp_emline f i = Some e) ->
  forall acc, collect_emlines f false zs acc = Raise UnboundLocalError.
Proof.
  intros Hi He. induction zs as [|z zs IH]; [destruct Hi|]. intros acc. cbn [collect_emlines].
  destruct (sp_emline f z) eqn:E; [reflexivity|]. destruct Hi as [->|Hi]; [|auto].
  destruct He as [e He]. congruence.
Qed.
Lemma nth_error_map_seq {A} (g : nat -> A) a n i : (i < n)%nat -> nth_error (map g (seq a n)) i = Some (g (a + i)%nat).
Proof.
  intros H. rewrite nth_error_map. rewrite (nth_error_nth' _ 0%nat) by (now rewrite seq_length).
  rewrite seq_nth by auto. reflexivity.
Qed.

Lemma C104_lines_lemma : forall (AR : Arith) f ref_wave ref_name lines,
  let n := List.length (sp_zlegend f) in
  n <> 0%nat -> (forall i, (i <= n)%nat -> exists e, sp_emline f i = Some e) ->
  get_emline_wave_namedtuple ref_wave ref_name (sp_emline_wavelengths f) = Ok lines ->
  exists d flux lum, retrieve_ssp_data_from_fsps true f ref_wave ref_name = Ok d
  /\ ssp_lgmet d = D1 (map nlog10 (sp_zlegend f))
  /\ ssp_lg_age_gyr d = D1 (map (fun x => nsub x (Fin 9)) (sp_log_age f))
  /\ ssp_wave d = D1 (fst (sp_spectrum f n))
  /\ ssp_flux d = D3 flux /\ List.length flux = n
  /\ (forall i, (i < n)%nat -> nth_error flux i = Some (snd (sp_spectrum f (i + 1))))
  /\ ssp_emline_wave d = Some lines /\ map snd lines = sp_emline_wavelengths f /\ field_names (map fst lines)
  /\ ssp_emline_luminosity d = Some lum /\ List.length lum = n
  /\ (forall i, (i < n)%nat -> nth_error lum i = sp_emline f (i + 1)).
Proof.
  intros AR f rw rn lines n Hn He Hl.
  assert (H0 : has_emline f 0 = true). { unfold has_emline. destruct (He 0%nat) as [e ->]; [lia|reflexivity]. }
  assert (Hnn : has_emline f n = true). { unfold has_emline. destruct (He n) as [e ->]; [lia|reflexivity]. }
  destruct (collect_all f (seq 1 n)) with (acc := @nil (list (list num))) as (es & A & B).
  { intros i Hi. apply in_seq in Hi. apply He. lia. }
  unfold retrieve_ssp_data_from_fsps, check. rewrite map_length. fold n. rewrite H0, A. cbn [bind app].
  rewrite Hnn, Hl. cbn [bind].
  assert (Les : List.length es = n).
  { rewrite <- (map_length Some es), B, map_length, seq_length. reflexivity. }
  unfold get_emline_wave_namedtuple in Hl. apply namedtuple_inv in Hl. destruct Hl as (F & L & ->).
  destruct n as [|n'] eqn:En; [congruence|]. rewrite <- En in *.
  eexists. exists (map (fun z => snd (sp_spectrum f z)) (seq 1 n)), es.
  split; [reflexivity|]. cbn [ssp_lgmet ssp_lg_age_gyr ssp_wave ssp_flux ssp_emline_wave ssp_emline_luminosity].
  split; [reflexivity|]. split; [reflexivity|]. split; [reflexivity|]. split; [reflexivity|].
  split; [now rewrite map_length, seq_length|]. split.
  { intros i Hi. rewrite nth_error_map_seq by auto. now rewrite Nat.add_comm. }
  split; [reflexivity|]. split; [|split; [|split; [reflexivity|split; [exact Les|]]]].
  - clear -L. revert L. generalize (map sanitize_retrieve (map (get_matched_emline_name rw rn) (sp_emline_wavelengths f))).
    induction (sp_emline_wavelengths f); intros [|x l1]; cbn; intros; try discriminate; auto. f_equal; auto.
  - clear -L F. revert L F. generalize (map sanitize_retrieve (map (get_matched_emline_name rw rn) (sp_emline_wavelengths f))).
    intros l L F. replace (map fst (combine l (sp_emline_wavelengths f))) with l; [exact F|].
    clear F. revert l L. induction (sp_emline_wavelengths f); intros [|x l']; cbn; intros; try discriminate; auto. f_equal; auto.
  - intros i Hi. assert (E : nth_error (map Some es) i = nth_error (map (sp_emline f) (seq 1 n)) i) by now rewrite B.
    rewrite nth_error_map_seq, nth_error_map in E by auto. rewrite (Nat.add_comm 1 i) in E.
    destruct (nth_error es i); cbn in E; congruence.
Qed.
Lemma C104_plain_lemma : forall (AR : Arith) f ref_wave ref_name,
  let n := List.length (sp_zlegend f) in
  n <> 0%nat -> (forall i, (i <= n)%nat -> sp_emline f i = None) ->
  exists d flux, retrieve_ssp_data_from_fsps true f ref_wave ref_name = Ok d
  /\ ssp_lgmet d = D1 (map nlog10 (sp_zlegend f))
  /\ ssp_lg_age_gyr d = D1 (map (fun x => nsub x (Fin 9)) (sp_log_age f))
  /\ ssp_wave d = D1 (fst (sp_spectrum f n))
  /\ ssp_flux d = D3 flux /\ List.length flux = n
  /\ (forall i, (i < n)%nat -> nth_error flux i = Some (snd (sp_spectrum f (i + 1))))
  /\ ssp_emline_wave d = None /\ ssp_emline_luminosity d = None.
Proof.
  intros AR f rw rn n Hn He.
  assert (Hnn : has_emline f n = false). { unfold has_emline. rewrite He; auto. }
  unfold retrieve_ssp_data_from_fsps, check. rewrite map_length. fold n.
  rewrite collect_none by (intros i Hi; apply in_seq in Hi; apply He; lia). cbn [bind]. rewrite Hnn.
  destruct n as [|n'] eqn:En; [congruence|]. rewrite <- En in *.
  eexists. exists (map (fun z => snd (sp_spectrum f z)) (seq 1 n)).
  split; [reflexivity|]. cbn [ssp_lgmet ssp_lg_age_gyr ssp_wave ssp_flux ssp_emline_wave ssp_emline_luminosity].
  split; [reflexivity|]. split; [reflexivity|]. split; [reflexivity|]. split; [reflexivity|].
  split; [now rewrite map_length, seq_length|]. split; [|split; reflexivity].
  intros i Hi. rewrite nth_error_map_seq by auto. now rewrite Nat.add_comm.
Qed.
Lemma C104_raises_lemma : forall (AR : Arith) f ref_wave ref_name,
  let n := List.length (sp_zlegend f) in
  retrieve_ssp_data_from_fsps false f ref_wave ref_name = Raise AssertionError
  /\ (n = 0%nat -> retrieve_ssp_data_from_fsps true f ref_wave ref_name = Raise UnboundLocalError)
  /\ (sp_emline f 0 = None -> (exists i e, (1 <= i <= n)%nat /\ sp_emline f i = Some e) ->
      retrieve_ssp_data_from_fsps true f ref_wave ref_name = Raise UnboundLocalError)
  /\ (n <> 0%nat -> (forall i, (i <= n)%nat -> exists e, sp_emline f i = Some e) ->
      forall e, get_emline_wave_namedtuple ref_wave ref_name (sp_emline_wavelengths f) = Raise e ->
      retrieve_ssp_data_from_fsps true f ref_wave ref_name = Raise e).
Proof.
  intros AR f rw rn n. split; [reflexivity|]. split; [|split].
  - intros E. unfold retrieve_ssp_data_from_fsps, check. rewrite map_length. fold n. rewrite E. reflexivity.
  - intros E (i & e & Hi & He). unfold retrieve_ssp_data_from_fsps, check. rewrite map_length. fold n.
    unfold has_emline at 1. rewrite E. rewrite (collect_unbound f (seq 1 n) i); [reflexivity|apply in_seq; lia|eauto].
  - intros Hn He e Hl.
    assert (H0 : has_emline f 0 = true). { unfold has_emline. destruct (He 0%nat) as [e' ->]; [lia|reflexivity]. }
    assert (Hnn : has_emline f n = true). { unfold has_emline. destruct (He n) as [e' ->]; [lia|reflexivity]. }
    destruct (collect_all f (seq 1 n)) with (acc := @nil (list (list num))) as (es & A & B).
    { intros i Hi. apply in_seq in Hi. apply He. lia. }
    unfold retrieve_ssp_data_from_fsps, check. rewrite map_length. fold n. rewrite H0, A. cbn [bind app].
    rewrite Hnn, Hl. cbn [bind]. destruct n; [congruence|reflexivity].
Qed.

(** from python-fsps through the file on disk back to the user *)
Lemma C104_pipeline_lemma : forall parse f waves, reads_decimals parse ->
  let n := List.length (sp_zlegend f) in
  n <> 0%nat -> (forall i, (i <= n)%nat -> exists e, sp_emline f i = Some e) ->
  sp_emline_wavelengths f = fins waves -> List.length waves = 166%nat ->
  (forall i, (i < 166)%nat -> exists numeral name x, nth_error emlines_info_dat i = Some (numeral ++ "," ++ name)%string
     /\ decimal numeral = Some x /\ (Rabs (ent waves i - x) <= x * 5 / 10 ^ 7)%R) ->
  exists refs names d file, get_fsps_emline_info parse emlines_info_dat = Ok (refs, names)
  /\ retrieve_ssp_data_from_fsps true f refs names = Ok d
  /\ write_ssp_data d = (file, None)
  /\ forall fake w path drn bn, isfile w path = true -> h5open w path = Some file ->
     exists d', load_ssp_templates w fake (Some path) drn bn false = Ok d'
     /\ ssp_lgmet d' = D1 (map nlog10 (sp_zlegend f))
     /\ ssp_lg_age_gyr d' = D1 (map (fun x => nsub x (Fin 9)) (sp_log_age f))
     /\ ssp_wave d' = D1 (fst (sp_spectrum f n))
     /\ (exists flux, ssp_flux d' = D3 flux /\ List.length flux = n
         /\ forall i, (i < n)%nat -> nth_error flux i = Some (snd (sp_spectrum f (i + 1))))
     /\ (exists lines, ssp_emline_wave d' = Some lines /\ List.length lines = 166%nat
         /\ forall i, (i < 166)%nat -> exists numeral name,
              nth_error emlines_info_dat i = Some (numeral ++ "," ++ name)%string
              /\ no_comma numeral /\ nth_error lines i = Some (clean name, Fin (ent waves i)))
     /\ (exists lum, ssp_emline_luminosity d' = Some lum /\ List.length lum = n
         /\ forall i, (i < n)%nat -> exists e, sp_emline f (i + 1) = Some e
              /\ nth_error lum i = Some (map (map (fun x => nmul x (Fin (3.828 * 10 ^ 33)))) e)).
Proof.
  intros parse f waves Hp n Hn He Hw Lw Hm.
  destruct (C89_shipped_lemma parse Hp) as (refs & names & Hi & Hs).
  destruct (Hs waves Lw Hm) as (lines & El & Ll & Hlines).
  destruct (C104_lines_lemma _ f (fins refs) names lines Hn He) as
    (d & flux & lum & Ed & D1' & D2 & D3' & D4 & D5 & D6 & D7 & D8 & D9 & D10 & D11 & D12).
  { now rewrite Hw. }
  destruct (C90_lemma d lines lum D7 D10 D9) as (file & Ef & Hload).
  exists (fins refs), names, d, file. split; [exact Hi|]. split; [exact Ed|]. split; [exact Ef|].
  intros fake w path drn bn H1 H2. rewrite (Hload fake w path drn bn H1 H2). eexists. split; [reflexivity|].
  cbn [ssp_lgmet ssp_lg_age_gyr ssp_wave ssp_flux ssp_emline_wave ssp_emline_luminosity].
  split; [exact D1'|]. split; [exact D2|]. split; [exact D3'|]. split; [eauto|]. split; [eauto|].
  eexists. split; [reflexivity|]. rewrite map_length. split; [exact D11|].
  intros i Hii. destruct (He (i + 1)%nat) as (e & Ee); [fold n; lia|]. exists e. split; [exact Ee|].
  rewrite nth_error_map, D12, Ee by auto. reflexivity.
Qed.

(** ** C105: the dictionary of lines *)
Definition is_last (P : list (string * num)) (k : string) (v : num) : Prop :=
  exists pre post, P = (pre ++ (k, v) :: post)%list /\ ~ In k (map fst post).
Definition keys_of (P : list (string * num)) : list string :=
  rev (nodup string_dec (rev (map fst P))).
Lemma keys_of_snoc P k v : keys_of (P ++ [(k, v)]) = if in_dec string_dec k (map fst P) then keys_of P else (keys_of P ++ [k])%list.
Proof.
  unfold keys_of. rewrite map_app, rev_app_distr. cbn [map rev app fst nodup].
  destruct (in_dec string_dec k (rev (map fst P))) as [H|H]; destruct (in_dec string_dec k (map fst P)) as [H'|H']; auto.
  - exfalso. apply H'. now apply in_rev.
  - exfalso. apply H. now apply in_rev in H'.
Qed.
Lemma keys_of_In P k : In k (keys_of P) <-> In k (map fst P).
Proof. unfold keys_of. rewrite <- in_rev, nodup_In, <- in_rev. reflexivity. Qed.
Lemma is_last_snoc P k v k' v' : is_last (P ++ [(k, v)]) k' v' <-> (k' = k /\ v' = v) \/ (k' <> k /\ is_last P k' v').
Proof.
  split.
  - intros (pre & post & E & N). destruct post as [|q post] using rev_ind.
    + apply app_inj_tail in E. destruct E as [_ E]. inversion E. now left.
    + clear IHpost. replace (pre ++ (k', v') :: post ++ [q])%list with ((pre ++ (k', v') :: post) ++ [q])%list in E
        by (rewrite <- app_assoc; reflexivity).
      apply app_inj_tail in E. destruct E as [E <-]. right. rewrite map_app, in_app_iff in N. cbn in N. split.
      * intros ->. apply N. right. now left.
      * exists pre, post. split; [exact E|]. tauto.
  - intros [[-> ->]|[N (pre & post & -> & M)]].
    + exists P, []. split; [reflexivity|intros []].
    + exists pre, (post ++ [(k, v)])%list. rewrite <- app_assoc. split; [reflexivity|].
      rewrite map_app, in_app_iff. cbn. intros [H|[H|[]]]; [auto|congruence].
Qed.
Lemma dict_set_keys {AR : Arith} d k v : map fst (dict_set d k v) =
  if in_dec string_dec k (map fst d) then map fst d else (map fst d ++ [k])%list.
Proof.
  induction d as [|[k' v'] d IH]; [reflexivity|]. cbn [dict_set map fst]. destruct (String.eqb_spec k k') as [->|N].
  - cbn [map fst]. destruct (in_dec string_dec k' (k' :: map fst d)) as [_|H]; [reflexivity|]. exfalso. apply H. now left.
  - cbn [map fst]. rewrite IH. destruct (in_dec string_dec k (map fst d)) as [H|H];
      destruct (in_dec string_dec k (k' :: map fst d)) as [H'|H']; try reflexivity.
    + exfalso. apply H'. now right.
    + exfalso. destruct H'; [congruence|contradiction].
Qed.
Lemma dict_set_In {AR : Arith} d k v k' v' : NoDup (map fst d) ->
  (In (k', v') (dict_set d k v) <-> (k' = k /\ v' = v) \/ (k' <> k /\ In (k', v') d)).
Proof.
  induction d as [|[k1 v1] d IH]; intros ND; cbn [dict_set].
  - cbn. split.
    + intros [E|[]]. inversion E. now left.
    + intros [[-> ->]|[_ []]]. now left.
  - cbn [map fst] in ND. inversion ND as [|? ? N1 N2]; subst. destruct (String.eqb_spec k k1) as [->|N].
    + cbn [In]. split.
      * intros [E|H]; [inversion E; now left|]. right. split; [|now right]. intros ->. apply N1.
        apply in_map_iff. now exists (k1, v').
      * intros [[-> ->]|[M [E|H]]]; [now left| |now right]. inversion E. congruence.
    + cbn [In]. rewrite IH by auto. split.
      * intros [E|[H|[M H]]]; [inversion E; subst; right; split; [congruence|now left]|now left|].
        right. split; [auto|now right].
      * intros [[-> ->]|[M [E|H]]]; [right; now left|now left|]. right. right. auto.
Qed.
Lemma keys_NoDup P : NoDup (keys_of P).
Proof. unfold keys_of. apply NoDup_rev, NoDup_nodup. Qed.

Lemma read_loop_ok {AR : Arith} parse rest : forall lines pairs, Forall2 (line_gives parse) lines pairs ->
  forall P d waves, map fst d = keys_of P -> (forall k v, In (k, v) d <-> is_last P k v) ->
  exists d', read_emlines_loop parse (lines ++ rest) d waves
             = read_emlines_loop parse rest d' (waves ++ map snd pairs)
  /\ map fst d' = keys_of (P ++ pairs) /\ (forall k v, In (k, v) d' <-> is_last (P ++ pairs) k v).
Proof.
  intros lines pairs F. induction F as [|l [k v] lines pairs Hl F IH]; intros P d waves K L.
  - exists d. cbn. rewrite !app_nil_r. auto.
  - destruct Hl as (numeral & name & El & N1 & N2 & Pn & Hk). cbn [fst snd] in *.
    cbn [app read_emlines_loop]. rewrite El, split_comma_two by auto. rewrite Pn. cbn [bind]. rewrite clean_read, <- Hk.
    destruct (IH (P ++ [(k, v)])%list (dict_set d k v) (waves ++ [v])%list) as (d' & E & K' & L').
    + rewrite dict_set_keys, keys_of_snoc, K.
      destruct (in_dec string_dec k (keys_of P)) as [H|H]; destruct (in_dec string_dec k (map fst P)) as [H'|H']; auto;
        exfalso; rewrite keys_of_In in H; contradiction.
    + intros k' v'. rewrite dict_set_In by (rewrite K; apply keys_NoDup). rewrite is_last_snoc, L. reflexivity.
    + exists d'. rewrite E. rewrite <- !app_assoc in *. cbn [app] in *. split; [reflexivity|]. auto.
Qed.
Lemma C105_lemma : forall (AR : Arith) parse lines pairs, Forall2 (line_gives parse) lines pairs ->
  exists d, read_emlines_info_fsps parse lines = Ok (d, map snd pairs)
  /\ map fst d = rev (nodup string_dec (rev (map fst pairs)))
  /\ (forall k v, In (k, v) d <->
        exists pre post, pairs = (pre ++ (k, v) :: post)%list /\ ~ In k (map fst post)).
Proof.
  intros AR parse lines pairs F. destruct (read_loop_ok parse [] lines pairs F [] [] []) as (d & E & K & L).
  - reflexivity.
  - intros k v. split; [intros []|]. intros (pre & post & H & _). now destruct pre.
  - exists d. rewrite app_nil_r in E. unfold read_emlines_info_fsps. rewrite E. auto.
Qed.
Lemma split_comma_nonempty s : split_comma s <> [].
Proof.
  destruct s as [|c t]; cbn [split_comma]; [discriminate|]. destruct (Ascii.eqb c ","); [discriminate|].
  destruct (split_comma t); discriminate.
Qed.
Lemma split_comma_one s x : split_comma s = [x] -> s = x /\ no_comma x.
Proof.
  revert x. induction s as [|c t IH]; cbn [split_comma]; intros x.
  - intros H. inversion H. split; [reflexivity|intros []].
  - destruct (Ascii.eqb_spec c ",").
    + intros H. exfalso. apply (split_comma_nonempty t). now inversion H.
    + pose proof (split_comma_nonempty t). destruct (split_comma t) as [|h r]; [congruence|].
      intros E. inversion E; subst. destruct (IH h eq_refl) as [-> N]. split; [reflexivity|].
      intros [K|K]; [congruence|auto].
Qed.
Lemma split_comma_inv s : forall a b, split_comma s = [a; b] -> s = (a ++ "," ++ b) /\ no_comma a /\ no_comma b.
Proof.
  induction s as [|c t IH]; cbn [split_comma]; intros a b; [discriminate|].
  destruct (Ascii.eqb_spec c ",") as [->|Nc].
  - intros H. inversion H; subst. destruct (split_comma_one t b) as [-> N]; [auto|].
    split; [reflexivity|]. split; [intros []|exact N].
  - pose proof (split_comma_nonempty t). destruct (split_comma t) as [|h r]; [congruence|].
    intros E. inversion E; subst. destruct (IH h b eq_refl) as (-> & N1 & N2). split; [reflexivity|].
    split; [|exact N2]. intros [K|K]; [congruence|auto].
Qed.
Lemma C105_malformed_lemma : forall (AR : Arith) parse lines pairs line rest, Forall2 (line_gives parse) lines pairs ->
  (forall numeral name, line = (numeral ++ "," ++ name) -> no_comma numeral -> ~ no_comma name) ->
  read_emlines_info_fsps parse (lines ++ line :: rest) = Raise ValueError.
Proof.
  intros AR parse lines pairs line rest F B.
  destruct (read_loop_ok parse (line :: rest) lines pairs F [] [] []) as (d & E & _ & _).
  - reflexivity.
  - intros k v. split; [intros []|]. intros (pre & post & H & _). now destruct pre.
  - unfold read_emlines_info_fsps. rewrite E. cbn [read_emlines_loop].
    destruct (split_comma line) as [|a [|b [|]]] eqn:S; try reflexivity.
    apply split_comma_inv in S. destruct S as (S1 & S2 & S3). exfalso. eapply B; eauto.
Qed.

(** ** C106: writing data that were loaded from disk *)
Lemma C106_lemma : forall d lines lum, ssp_emline_wave d = Some lines ->
  ssp_emline_luminosity d = Some (map (map (map Fin)) lum) -> field_names (map fst lines) ->
  exists file d1, write_ssp_data d = (file, None)
  /\ (forall fake w path drn bn, isfile w path = true -> h5open w path = Some file ->
        load_ssp_templates w fake (Some path) drn bn false = Ok d1)
  /\ exists file2 d2, write_ssp_data d1 = (file2, None)
  /\ (forall fake w path drn bn, isfile w path = true -> h5open w path = Some file2 ->
        load_ssp_templates w fake (Some path) drn bn false = Ok d2)
  /\ ssp_emline_luminosity d1 = Some (map (map (map (fun x => Fin (x * (3.828 * 10 ^ 33))%R))) lum)
  /\ ssp_emline_luminosity d2 = Some (map (map (map (fun x => Fin (x * (3.828 * 10 ^ 33) * (3.828 * 10 ^ 33))%R))) lum)
  /\ (forall m r x, In m lum -> In r m -> In x r -> x <> 0%R -> d2 <> d1).
Proof.
  intros d lines lum E1 E2 F.
  destruct (C90_lemma d lines _ E1 E2 F) as (file & W1 & L1).
  exists file. eexists. split; [exact W1|]. split; [exact L1|].
  edestruct C90_lemma as (file2 & W2 & L2); [| |exact F|].
  3:{ exists file2. eexists. split; [exact W2|]. split; [exact L2|].
      change (lit (3.828 * 10 ^ 33)%R) with L_SUN_CGS in *.
      cbn [ssp_emline_luminosity]. 
      assert (A : forall l, map (fun x => nmul x L_SUN_CGS) (map Fin l) = map (fun x => Fin (x * (3.828 * 10 ^ 33))%R) l).
      { intros l. rewrite map_map. apply map_ext. intros x. unfold L_SUN_CGS. unlit. now rewrite nmul_fin. }
      assert (B : forall l, map (fun x => nmul x L_SUN_CGS) (map (fun x => Fin (x * (3.828 * 10 ^ 33))%R) l)
                  = map (fun x => Fin (x * (3.828 * 10 ^ 33) * (3.828 * 10 ^ 33))%R) l).
      { intros l. rewrite map_map. apply map_ext. intros x. unfold L_SUN_CGS. unlit. now rewrite nmul_fin. }
      assert (C : map (map (map (fun x => nmul x L_SUN_CGS))) (map (map (map Fin)) lum)
                  = map (map (map (fun x => Fin (x * (3.828 * 10 ^ 33))%R))) lum).
      { rewrite map_map. apply map_ext. intros m. rewrite map_map. apply map_ext. intros r. apply A. }
      assert (D : map (map (map (fun x => nmul x L_SUN_CGS))) (map (map (map (fun x => nmul x L_SUN_CGS))) (map (map (map Fin)) lum))
                  = map (map (map (fun x => Fin (x * (3.828 * 10 ^ 33) * (3.828 * 10 ^ 33))%R))) lum).
      { rewrite C, map_map. apply map_ext. intros m. rewrite map_map. apply map_ext. intros r. apply B. }
      split; [now rewrite C|]. split; [now rewrite D|].
      intros m r x Hm Hr Hx Nx E. apply (f_equal ssp_emline_luminosity) in E. cbn [ssp_emline_luminosity] in E.
      rewrite D, C in E. injection E as E.
      assert (K : forall X (f g : X -> num) l a, In a l -> map f l = map g l -> f a = g a).
      { intros X f g l a. induction l; intros []; cbn; intros K; injection K; intros; subst; auto. }
      assert (K2 : forall X Y (f g : X -> Y) l a, In a l -> map f l = map g l -> f a = g a).
      { intros X Y f g l a. induction l; intros []; cbn; intros K'; injection K'; intros; subst; auto. }
      pose proof (K2 _ _ _ _ _ _ Hm E) as E'. cbv beta in E'. pose proof (K2 _ _ _ _ _ _ Hr E') as E''. cbv beta in E''.
      pose proof (K2 _ _ _ _ _ _ Hx E'') as E3. cbv beta in E3. injection E3 as E3.
      assert (P : (0 < 3.828 * 10 ^ 33 - 1)%R) by lra.
      assert (Z : (x * (3.828 * 10 ^ 33) * (3.828 * 10 ^ 33 - 1) = 0)%R) by lra.
      apply Rmult_integral in Z. destruct Z as [Z|Z]; [|lra]. apply Rmult_integral in Z. destruct Z; [auto|lra]. }
  - reflexivity.
  - reflexivity.
Qed.
