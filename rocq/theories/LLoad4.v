(** * Data loaders, continued: line names, line matching, write and load *)
From Coq Require Import Reals List Arith String Ascii ZArith Lra Lia Bool.
From Flocq Require Import Core.Raux.
From Verif Require Import Num Arr MUtils MLoaders EmlinesDat Spec SpecLoad RList LUtils LLoad LLoad3.
Import ListNotations.
Local Open Scope string_scope.

(** ** C88 *)
Lemma append_assoc (a b c : string) : (a ++ b) ++ c = a ++ (b ++ c).
Proof. induction a; cbn; f_equal; auto. Qed.
Lemma clean_read s : sanitize_read s = clean s.
Proof.
  induction s as [|c s IH]; [reflexivity|]. unfold sanitize_read in *. cbn [clean]. rewrite <- IH. clear IH.
  unfold clean_char. cbn [replace_char].
  destruct (Ascii.eqb_spec c "-"); [subst; reflexivity|]. cbn [replace_char].
  destruct (Ascii.eqb_spec c " "); [subst; reflexivity|]. cbn [replace_char].
  destruct (Ascii.eqb_spec c "."); [subst; reflexivity|]. cbn [replace_char].
  destruct (Ascii.eqb_spec c "["); [subst; reflexivity|]. cbn [replace_char].
  destruct (Ascii.eqb_spec c "]"); [subst; reflexivity|]. reflexivity.
Qed.
Lemma clean_retrieve s : sanitize_retrieve s = clean s.
Proof.
  induction s as [|c s IH]; [reflexivity|]. unfold sanitize_retrieve in *. cbn [clean]. rewrite <- IH. clear IH.
  unfold clean_char. cbn [replace_char].
  destruct (Ascii.eqb_spec c "."); [subst; reflexivity|]. cbn [replace_char].
  destruct (Ascii.eqb_spec c "-"); [subst; reflexivity|]. cbn [replace_char].
  destruct (Ascii.eqb_spec c " "); [subst; reflexivity|]. cbn [replace_char].
  destruct (Ascii.eqb_spec c "["); [subst; reflexivity|]. cbn [replace_char].
  destruct (Ascii.eqb_spec c "]"); [subst; reflexivity|]. reflexivity.
Qed.
(** splitting a line at its only comma *)
Lemma split_comma_none s : ~ In ","%char (list_ascii_of_string s) -> split_comma s = [s].
Proof.
  induction s as [|c s IH]; cbn; [reflexivity|]. intros H. destruct (Ascii.eqb_spec c ","); [exfalso; apply H; now left|].
  rewrite IH by tauto. reflexivity.
Qed.
Lemma split_comma_two a b : ~ In ","%char (list_ascii_of_string a) -> ~ In ","%char (list_ascii_of_string b) ->
  split_comma (a ++ "," ++ b) = [a; b].
Proof.
  intros A B. induction a as [|c a IH].
  - change (split_comma ("" ++ "," ++ b)) with (""%string :: split_comma b). rewrite split_comma_none by auto. reflexivity.
  - cbn [append split_comma]. cbn in A. destruct (Ascii.eqb_spec c ","); [exfalso; apply A; now left|].
    fold ("," ++ b). change (String "," b) with ("," ++ b). rewrite IH by tauto. reflexivity.
Qed.
Lemma dict_set_new d k v : ~ In k (map fst d) -> dict_set d k v = (d ++ [(k, v)])%list.
Proof.
  induction d as [|[k' v'] d IH]; cbn; intros H; [reflexivity|]. destruct (String.eqb_spec k k'); [exfalso; apply H; now left|].
  rewrite IH by tauto. reflexivity.
Qed.
(** reading a well-formed file: [rows] are the (numeral, name) pairs of its lines *)
Definition line_of (p : string * string) : string := fst p ++ "," ++ snd p.
Lemma read_loop_ok parse rows : forall dict ws waves,
  Forall (fun p => no_comma (fst p) /\ no_comma (snd p)) rows ->
  Forall2 (fun p w => parse (fst p) = Ok w) rows ws ->
  NoDup (map fst dict ++ map (fun p => clean (snd p)) rows)%list ->
  read_emlines_loop parse (map line_of rows) dict waves
  = Ok ((dict ++ combine (map (fun p => clean (snd p)) rows) ws)%list, (waves ++ ws)%list).
Proof.
  induction rows as [|[a b] rows IH]; intros dict ws waves Hc Hp Hn.
  - inversion Hp; subst. cbn. now rewrite !app_nil_r.
  - inversion Hp as [|? w ? ws' Hw Hp']; subst. inversion Hc as [|? ? [C1 C2] Hc']; subst. cbn [map read_emlines_loop].
    unfold line_of at 1. cbn [fst snd] in *. rewrite split_comma_two by auto. rewrite Hw. cbn [bind].
    rewrite clean_read. cbn [map snd] in Hn. pose proof (NoDup_remove_2 _ _ _ Hn) as Hd.
    rewrite dict_set_new by (intros K; apply Hd, in_or_app; auto).
    rewrite (IH _ ws'); auto.
    + cbn [map combine]. now rewrite <- !app_assoc.
    + rewrite map_app. cbn. rewrite <- app_assoc. exact Hn.
Qed.
Lemma read_emlines_ok parse rows ws :
  Forall (fun p => no_comma (fst p) /\ no_comma (snd p)) rows ->
  Forall2 (fun p w => parse (fst p) = Ok w) rows ws ->
  NoDup (map (fun p => clean (snd p)) rows) ->
  read_emlines_info_fsps parse (map line_of rows) = Ok (combine (map (fun p => clean (snd p)) rows) ws, ws).
Proof. intros A B C. unfold read_emlines_info_fsps. now rewrite (read_loop_ok parse rows [] ws []). Qed.
Lemma get_info_ok parse rows : forall ws,
  Forall (fun p => no_comma (fst p) /\ no_comma (snd p)) rows ->
  Forall2 (fun p w => parse (fst p) = Ok w) rows ws ->
  get_fsps_emline_info parse (map line_of rows) = Ok (ws, map snd rows).
Proof.
  induction rows as [|[a b] rows IH]; intros ws Hc Hp; inversion Hp as [|? w ? ws' Hw Hp']; subst; [reflexivity|].
  inversion Hc as [|? ? [C1 C2] Hc']; subst. cbn [map get_fsps_emline_info]. unfold line_of at 1. cbn [fst snd] in *.
  rewrite split_comma_two by auto. rewrite Hw. cbn [bind]. now rewrite (IH ws').
Qed.

(** the shipped file *)
Definition cut (l : string) : string * string := match split_comma l with [a; b] => (a, b) | _ => ("", "") end.
Definition shipped : list (string * string) := map cut emlines_info_dat.
Definition shipped_names : list string := map (fun p => clean (snd p)) shipped.
Definition comma_free (s : string) : bool := all_chars (fun c => negb (Ascii.eqb c ",")) s.
Lemma comma_free_spec s : comma_free s = true -> no_comma s.
Proof.
  unfold comma_free, no_comma. rewrite all_chars_spec. intros H K. apply H in K. cbn in K. discriminate.
Qed.
Lemma shipped_lines : emlines_info_dat = map line_of shipped.
Proof. vm_compute. reflexivity. Qed.
Lemma shipped_no_comma : Forall (fun p => no_comma (fst p) /\ no_comma (snd p)) shipped.
Proof.
  assert (H : forallb (fun p => comma_free (fst p) && comma_free (snd p))%bool shipped = true) by (vm_compute; reflexivity).
  apply Forall_forall. intros p Hp. rewrite forallb_forall in H. specialize (H p Hp). apply andb_true_iff in H.
  destruct H. split; now apply comma_free_spec.
Qed.
Lemma shipped_field_names : field_names shipped_names.
Proof.
  assert (H : (no_duplicates shipped_names && forallb valid_field shipped_names)%bool = true) by (vm_compute; reflexivity).
  apply andb_true_iff in H. destruct H as [A B]. split; [now apply no_duplicates_spec|].
  apply Forall_forall. intros s Hs. rewrite forallb_forall in B. now apply valid_field_spec, B.
Qed.
Lemma shipped_length : List.length shipped = 166%nat.
Proof. vm_compute. reflexivity. Qed.

(** wavelengths, as integer multiples of 10^-4 Angstrom *)
Definition scaled (s : string) : option Z :=
  match decimal_parts s with Some (m, k) => if (k <=? 4)%nat then Some (m * 10 ^ Z.of_nat (4 - k))%Z else None | None => None end.
Lemma scaled_spec s z : scaled s = Some z -> decimal s = Some (IZR z / 10000)%R.
Proof.
  unfold scaled, decimal. destruct (decimal_parts s) as [[m k]|]; [|discriminate]. destruct (Nat.leb_spec k 4) as [L|]; [|discriminate].
  intros H; injection H as <-. f_equal. rewrite mult_IZR. rewrite <- (pow_IZR 10).
  assert (E : (10 ^ k * 10 ^ (4 - k) = 10000)%R) by (rewrite <- pow_add; replace (k + (4 - k))%nat with 4%nat by lia; simpl; lra).
  assert (10 ^ k <> 0)%R by (apply pow_nonzero; lra). rewrite <- E.
  assert (10 ^ (4 - k) <> 0)%R by (apply pow_nonzero; lra). change (match k with 0%nat => 4%nat | 1%nat => 3%nat | 2%nat => 2%nat | 3%nat => 1%nat | _ => 0%nat end) with (4 - k)%nat. field. auto.
Qed.
Definition zwaves : list Z := map (fun p => match scaled (fst p) with Some z => z | None => 0%Z end) shipped.
Lemma zwaves_ok : forallb (fun p => match scaled (fst p) with Some z => (0 <? z)%Z | None => false end) shipped = true.
Proof. vm_compute. reflexivity. Qed.
Fixpoint spaced (l : list Z) : bool :=
  match l with
  | a :: ((b :: _) as r) => ((a * 100000 + a <? b * 100000)%Z && spaced r)%bool
  | _ => true
  end.
Lemma zwaves_spaced : spaced zwaves = true.
Proof. vm_compute. reflexivity. Qed.
Open Scope R_scope.
Definition shipped_waves : list R := map (fun z => IZR z / 10000) zwaves.
Lemma shipped_decimal i p : nth_error shipped i = Some p -> decimal (fst p) = Some (ent shipped_waves i) /\ 0 < ent shipped_waves i.
Proof.
  intros H. pose proof zwaves_ok as Z. rewrite forallb_forall in Z. pose proof (Z p (nth_error_In _ _ H)) as K.
  destruct (scaled (fst p)) as [z|] eqn:E; [|discriminate].
  assert (ent shipped_waves i = IZR z / 10000) as ->.
  { unfold ent. apply nth_error_nth. unfold shipped_waves, zwaves. rewrite !nth_error_map', H. cbn [option_map]. rewrite E. reflexivity. }
  split; [now apply scaled_spec|]. apply Z.ltb_lt, IZR_lt in K. lra.
Qed.
Lemma shipped_waves_length : List.length shipped_waves = 166%nat.
Proof. unfold shipped_waves, zwaves. rewrite !map_length. apply shipped_length. Qed.
Lemma spaced_lt l : spaced l = true -> Forall (fun z => 0 < z)%Z l -> forall i j, (i < j < List.length l)%nat ->
  (nth i l 0 * 100001 < nth j l 0 * 100000)%Z.
Proof.
  induction l as [|a l IH]; intros S P i j H; [cbn in H; lia|].
  inversion P as [|? ? P0 P']; subst. destruct l as [|b l]; [cbn in H; lia|].
  cbn [spaced] in S. apply andb_true_iff in S. destruct S as [S0 S]. apply Z.ltb_lt in S0.
  destruct j as [|j]; [lia|]. destruct i as [|i].
  - cbn [nth]. destruct j as [|j]; [lia|]. specialize (IH S P' 0%nat (Datatypes.S j) ltac:(cbn in *; lia)). cbn [nth] in IH. inversion P'; subst. cbn [nth]. lia.
  - cbn [nth]. apply (IH S P'). cbn in *. lia.
Qed.
Lemma shipped_waves_spaced i j : (i < j < 166)%nat -> ent shipped_waves i * (1 + / 10 ^ 5) < ent shipped_waves j.
Proof.
  intros H. assert (L : List.length zwaves = 166%nat) by (unfold zwaves; rewrite map_length; apply shipped_length).
  assert (P : Forall (fun z => 0 < z)%Z zwaves).
  { apply Forall_forall. intros z Hz. unfold zwaves in Hz. apply in_map_iff in Hz. destruct Hz as (p & <- & Hp).
    pose proof zwaves_ok as Z. rewrite forallb_forall in Z. specialize (Z p Hp). destruct (scaled (fst p)); [|discriminate]. now apply Z.ltb_lt. }
  pose proof (spaced_lt _ zwaves_spaced P i j ltac:(lia)) as K. apply IZR_lt in K. rewrite !mult_IZR in K.
  assert (E : forall k, ent shipped_waves k = IZR (nth k zwaves 0%Z) / 10000).
  { intros k. unfold ent, shipped_waves. replace 0 with ((fun z => IZR z / 10000) 0%Z) by (cbn; lra).
    now rewrite (map_nth (fun z => IZR z / 10000)). }
  rewrite !E. replace (/ 10 ^ 5) with (1 / 100000) by (simpl; lra). lra.
Qed.
Lemma reads_shipped parse : reads_decimals parse -> exists ws,
  Forall2 (fun p w => parse (fst p) = Ok w) shipped (fins ws)
  /\ List.length ws = 166%nat /\ forall i, (i < 166)%nat -> Rabs (ent ws i - ent shipped_waves i) <= ent shipped_waves i / 10 ^ 7.
Proof.
  intros R.
  assert (G : forall (l : list (string * string)) off, (forall i p, nth_error l i = Some p -> decimal (fst p) = Some (ent shipped_waves (off + i))) ->
    exists ws, Forall2 (fun p w => parse (fst p) = Ok w) l (fins ws)
     /\ List.length ws = List.length l
     /\ forall i, (i < List.length l)%nat -> Rabs (ent ws i - ent shipped_waves (off + i)) <= ent shipped_waves (off + i) / 10 ^ 7).
  { induction l as [|p l IH]; intros off H.
    - exists []. repeat split; [constructor|]. intros i Hi; cbn in Hi; lia.
    - destruct (R _ _ (H 0%nat p eq_refl)) as (y & Ey & By).
      destruct (IH (S off)) as (ws & A & B & C).
      { intros i q Hq. replace (S off + i)%nat with (off + S i)%nat by lia. now apply H. }
      exists (y :: ws). repeat split; [constructor; auto|cbn; auto|]. intros [|i] Hi; [exact By|].
      replace (off + S i)%nat with (S off + i)%nat by lia. apply C. cbn in Hi. lia. }
  destruct (G shipped 0%nat) as (ws & A & B & C).
  { intros i p Hp. now apply shipped_decimal. }
  exists ws. rewrite shipped_length in *. auto.
Qed.
Lemma C88_lemma : (forall s, sanitize_read s = clean s /\ sanitize_retrieve s = clean s)
  /\ (forall parse, reads_decimals parse -> exists names waves,
        read_emlines_info_fsps parse emlines_info_dat = Ok (combine names (fins waves), fins waves)
        /\ List.length names = 166%nat /\ List.length waves = 166%nat /\ field_names names
        /\ forall i, (i < 166)%nat -> exists numeral name x, nth_error emlines_info_dat i = Some (numeral ++ "," ++ name)%string
             /\ nth_error names i = Some (clean name) /\ decimal numeral = Some x /\ Rabs (ent waves i - x) <= x / 10 ^ 7).
Proof.
  split; [intros; split; [apply clean_read|apply clean_retrieve]|]. intros parse R.
  destruct (reads_shipped parse R) as (ws & A & B & C). exists shipped_names, ws.
  split; [|split; [|split; [exact B|split]]].
  - rewrite shipped_lines. apply read_emlines_ok; auto; [apply shipped_no_comma|apply shipped_field_names].
  - unfold shipped_names. rewrite map_length. apply shipped_length.
  - apply shipped_field_names.
  - intros i Hi. destruct (nth_error shipped i) as [p|] eqn:E.
    2:{ apply nth_error_None in E. rewrite shipped_length in E. lia. }
    exists (fst p), (snd p), (ent shipped_waves i). repeat split.
    + rewrite shipped_lines, nth_error_map', E. reflexivity.
    + unfold shipped_names. rewrite nth_error_map', E. reflexivity.
    + now apply shipped_decimal.
    + now apply C.
Qed.

(** ** C89 *)
Lemma isclose_fin a x : isclose (Fin a) (Fin x) = true <-> Rabs (a - x) <= Rabs x / 10 ^ 6.
Proof.
  unfold isclose, lit. cbn [rnd exact]. rewrite nsub_fin. unfold nabs. rewrite nmul_fin. cbn [nleb nltb].
  rewrite negb_true_iff. destruct (Rlt_bool_spec (1 / 10 ^ 6 * Rabs x) (Rabs (a - x))); split; intros; try discriminate; auto; lra.
Qed.
Lemma filter_unique {A} (p : A -> bool) l i x : nth_error l i = Some x -> p x = true ->
  (forall j y, nth_error l j = Some y -> p y = true -> j = i) -> filter p l = [x].
Proof.
  revert i; induction l as [|a l IH]; intros i Hi Px U; [destruct i; discriminate|]. cbn. destruct i as [|i].
  - injection Hi as ->. rewrite Px. f_equal. enough (forall y, In y l -> p y = false) as N.
    { clear -N. induction l as [|a l IH]; cbn; auto. rewrite (N a) by now left. apply IH. intros; apply N; now right. }
    intros y Hy. destruct (p y) eqn:E; auto. apply In_nth_error in Hy. destruct Hy as [j Hj].
    specialize (U (S j) y Hj E). discriminate.
  - destruct (p a) eqn:E; [specialize (U 0%nat a eq_refl E); discriminate|]. apply (IH i); auto.
    intros j y Hj Py. specialize (U (S j) y Hj Py). lia.
Qed.
Lemma filter_one {A} (p : A -> bool) l x : filter p l = [x] ->
  exists i, nth_error l i = Some x /\ p x = true /\ (forall j y, nth_error l j = Some y -> p y = true -> j = i).
Proof.
  induction l as [|a l IH]; cbn; [discriminate|]. destruct (p a) eqn:E.
  - intros H. injection H as -> H. exists 0%nat. repeat split; auto. intros [|j] y Hj Py; auto. exfalso.
    assert (In y (filter p l)) as K by (apply filter_In; split; auto; eapply nth_error_In; eauto). rewrite H in K. destruct K.
  - intros H. destruct (IH H) as (i & A1 & A2 & A3). exists (S i). repeat split; auto. intros [|j] y Hj Py.
    + injection Hj as ->. congruence.
    + f_equal. eauto.
Qed.
Lemma C89_match refs names x : List.length refs = List.length names ->
  (forall i, (close_to refs x i /\ forall j, close_to refs x j -> j = i) ->
     exists n, nth_error names i = Some n /\ get_matched_emline_name (fins refs) names (Fin x) = n)
  /\ (~ (exists i, close_to refs x i /\ forall j, close_to refs x j -> j = i) ->
     get_matched_emline_name (fins refs) names (Fin x) = ""%string).
Proof.
  intros L.
  assert (NE : forall j a m, nth_error (combine (fins refs) names) j = Some (a, m) ->
    (j < List.length refs)%nat /\ a = Fin (ent refs j) /\ nth_error names j = Some m).
  { intros j a m H. rewrite nth_error_combine' in H. unfold fins in H. rewrite nth_error_map' in H.
    destruct (nth_error refs j) as [r|] eqn:E; [|discriminate]. cbn in H. destruct (nth_error names j); [|discriminate].
    injection H as <- <-. split; [apply nth_error_Some; congruence|]. split; auto. unfold ent. f_equal. symmetry. now apply nth_error_nth. }
  assert (EN : forall j, (j < List.length refs)%nat -> exists m, nth_error names j = Some m
     /\ nth_error (combine (fins refs) names) j = Some (Fin (ent refs j), m)).
  { intros j Hj. destruct (nth_error names j) as [m|] eqn:E.
    2:{ apply nth_error_None in E. lia. }
    exists m. split; auto. rewrite nth_error_combine', E. unfold fins. rewrite nth_error_map'. unfold ent.
    rewrite (nth_error_nth' refs 0 Hj). reflexivity. }
  split.
  - intros i ((Hi & Ci) & U). destruct (EN i Hi) as (n & En & E). exists n. split; auto. unfold get_matched_emline_name.
    rewrite (filter_unique _ _ i (Fin (ent refs i), n)); auto.
    + now apply isclose_fin.
    + intros j [a m] Hj Pj. destruct (NE j a m Hj) as (H1 & -> & H3). apply U. split; auto. now apply isclose_fin in Pj.
  - intros N. unfold get_matched_emline_name. destruct (filter _ _) as [|[a m] [|? ?]] eqn:F; auto. exfalso. apply N.
    apply filter_one in F. destruct F as (i & A & B & C). destruct (NE i a m A) as (H1 & -> & H3). exists i. split.
    + split; auto. now apply isclose_fin in B.
    + intros j (Hj & Cj). destruct (EN j Hj) as (m' & Em & E). apply (C j (Fin (ent refs j), m')); auto. now apply isclose_fin.
Qed.
Lemma C89_unmatched_lemma : forall refs names waves x, List.length refs = List.length names -> In x waves ->
  ~ (exists i, close_to refs x i /\ forall j, close_to refs x j -> j = i) ->
  get_emline_wave_namedtuple (fins refs) names (fins waves) = Raise ValueError.
Proof.
  intros refs names waves x L Hx N. unfold get_emline_wave_namedtuple. apply namedtuple_bad. intros [_ F].
  rewrite Forall_forall in F. specialize (F (sanitize_retrieve "")). destruct F as [(c & r & E & _) _]; [|discriminate].
  apply in_map. destruct (C89_match refs names x L) as [_ M]. rewrite <- (M N). apply in_map_iff.
  exists (Fin x). split; auto. now apply in_map.
Qed.
Lemma Rabs_le_inv' a b : Rabs a <= b -> - b <= a <= b.
Proof. intros H. unfold Rabs in H. destruct (Rcase_abs a); lra. Qed.
(** the shipped table: the lines of FSPS are recognised, even with wavelengths off by 5e-7 *)
Lemma C89_shipped_lemma : forall parse, reads_decimals parse -> exists refs names,
  get_fsps_emline_info parse emlines_info_dat = Ok (fins refs, names)
  /\ forall waves, List.length waves = 166%nat ->
      (forall i, (i < 166)%nat -> exists numeral name x, nth_error emlines_info_dat i = Some (numeral ++ "," ++ name)%string
         /\ decimal numeral = Some x /\ Rabs (ent waves i - x) <= x * 5 / 10 ^ 7) ->
      exists lines, get_emline_wave_namedtuple (fins refs) names (fins waves) = Ok lines
        /\ List.length lines = 166%nat
        /\ forall i, (i < 166)%nat -> exists numeral name, nth_error emlines_info_dat i = Some (numeral ++ "," ++ name)%string
             /\ no_comma numeral /\ nth_error lines i = Some (clean name, Fin (ent waves i)).
Proof.
  intros parse R. destruct (reads_shipped parse R) as (ws & A & B & C). exists ws, (map snd shipped).
  split; [rewrite shipped_lines; apply get_info_ok; auto; apply shipped_no_comma|]. intros waves Lw Hw.
  assert (Hs : forall i, (i < 166)%nat -> exists p, nth_error shipped i = Some p
     /\ Rabs (ent waves i - ent shipped_waves i) <= ent shipped_waves i * 5 / 10 ^ 7 /\ 0 < ent shipped_waves i).
  { intros i Hi. destruct (nth_error shipped i) as [p|] eqn:E.
    2:{ apply nth_error_None in E. rewrite shipped_length in E. lia. }
    exists p. split; auto. pose proof (shipped_decimal i p E) as [D P]. split; auto.
    destruct (Hw i Hi) as (numeral & name & x & E1 & E2 & E3).
    assert (x = ent shipped_waves i) as ->; auto.
    rewrite shipped_lines, nth_error_map', E in E1. injection E1 as E1.
    assert (fst p = numeral) as Ef; [|congruence].
    assert (NC : no_comma numeral).
    { unfold no_comma. intros K. clear - K E2. unfold decimal, decimal_parts in E2. destruct numeral as [|c r]; [discriminate|].
      destruct (digit_of c) eqn:Dc; [|discriminate].
      assert (G : forall s m k v, In ","%char (list_ascii_of_string s) -> decimal_aux s m k = Some v -> False).
      { induction s as [|c' s IH]; intros m k v I; cbn; [destruct I|]. cbn in I. destruct I as [->|I].
        - discriminate.
        - destruct (digit_of c'); [now apply IH|]. destruct (Ascii.eqb c' "."); [|discriminate]. destruct k; [discriminate|now apply IH]. }
      destruct (decimal_aux (String c r) 0 None) as [v|] eqn:Q; [|discriminate]. exact (G _ _ _ _ K Q). }
    assert (NP : no_comma (fst p)).
    { pose proof shipped_no_comma as F. rewrite Forall_forall in F. apply (F p). eapply nth_error_In; eauto. }
    unfold line_of in E1. revert NC NP E1. generalize (fst p) (snd p). clear.
    intros a b NC NP E. revert a NP E. induction numeral as [|c r IH]; intros [|c' a] NP E; auto.
    - cbn in E. injection E as -> _. exfalso. apply NP. now left.
    - cbn in E. injection E as <- _. exfalso. apply NC. now left.
    - cbn in E. injection E as -> E. f_equal. apply IH; auto.
      + intros K. apply NC. now right.
      + intros K. apply NP. now right. }
  assert (Hm : forall i, (i < 166)%nat -> exists p, nth_error shipped i = Some p
     /\ get_matched_emline_name (fins ws) (map snd shipped) (Fin (ent waves i)) = snd p).
  { intros i Hi. destruct (Hs i Hi) as (p & Ep & Bw & Pw). exists p. split; auto.
    destruct (C89_match ws (map snd shipped) (ent waves i)) as [M _].
    { rewrite map_length, shipped_length. auto. }
    destruct (M i) as (n & En & Hn).
    - pose proof (C i Hi) as Ci. apply Rabs_le_inv' in Ci, Bw. simpl in Ci, Bw.
      set (s := ent shipped_waves i) in *. set (w := ent waves i) in *.
      assert (Ab : Rabs w = w) by (apply Rabs_right; lra).
      split.
      + split; [lia|]. rewrite Ab. apply Rabs_le. simpl. lra.
      + intros j (Hj & Cj). rewrite B in Hj. rewrite Ab in Cj. pose proof (C j Hj) as Cj'.
        apply Rabs_le_inv' in Cj, Cj'. simpl in Cj, Cj'.
        destruct (Nat.lt_trichotomy j i) as [K|[K|K]]; auto; exfalso.
        * pose proof (shipped_waves_spaced j i ltac:(lia)) as S. fold s in S. simpl in S.
          destruct (Hs j Hj) as (_ & _ & _ & Pj). lra.
        * pose proof (shipped_waves_spaced i j ltac:(lia)) as S. fold s in S. simpl in S.
          destruct (Hs j Hj) as (_ & _ & _ & Pj). lra.
    - rewrite Hn. rewrite nth_error_map', Ep in En. cbn in En. congruence. }
  assert (Hnm : map sanitize_retrieve (map (get_matched_emline_name (fins ws) (map snd shipped)) (fins waves)) = shipped_names).
  { apply list_eq_nth_error. intros i. rewrite !nth_error_map'. unfold fins at 2. rewrite nth_error_map'. destruct (Nat.lt_ge_cases i 166) as [Hi|Hi].
    - destruct (Hm i Hi) as (p & Ep & Hp). rewrite (nth_error_nth' waves 0) by lia. unfold shipped_names. rewrite nth_error_map', Ep. cbn [option_map].
      unfold ent in Hp. rewrite Hp. f_equal. apply clean_retrieve.
    - rewrite (proj2 (nth_error_None waves i)) by lia. unfold shipped_names. rewrite nth_error_map'.
      rewrite (proj2 (nth_error_None shipped i)); [reflexivity|]. rewrite shipped_length. lia. }
  assert (Ls : List.length shipped_names = List.length (fins waves)).
  { unfold shipped_names, fins. rewrite !map_length, shipped_length. auto. }
  exists (combine shipped_names (fins waves)). split; [|split].
  - unfold get_emline_wave_namedtuple. cbv zeta. rewrite Hnm. apply namedtuple_ok; auto. apply shipped_field_names.
  - rewrite combine_length, Ls, Nat.min_id. unfold fins. now rewrite map_length.
  - intros i Hi. destruct (Hs i Hi) as (p & Ep & _). exists (fst p), (snd p). split; [|split].
    + rewrite shipped_lines, nth_error_map', Ep. reflexivity.
    + pose proof shipped_no_comma as F. rewrite Forall_forall in F. apply (F p). eapply nth_error_In; eauto.
    + rewrite nth_error_combine'. unfold shipped_names, fins. rewrite !nth_error_map', Ep. cbn.
      rewrite (nth_error_nth' waves 0) by lia. reflexivity.
Qed.

(** ** C90, C91, C92 *)
Lemma scale_exact c : scale_cube (D3 (map (map (map Fin)) c)) L_SUN_CGS
  = Ok (map (map (map (fun x => nmul (Fin x) L_SUN_CGS))) c).
Proof. cbn. f_equal. rewrite map_map. apply map_ext. intros. rewrite map_map. apply map_ext. intros. now rewrite map_map. Qed.
Lemma C90_lemma {AR : Arith} : forall d lines lum,
  ssp_emline_wave d = Some lines -> ssp_emline_luminosity d = Some lum -> field_names (map fst lines) ->
  exists file, write_ssp_data d = (file, None)
  /\ (forall fake w path drn bn, isfile w path = true -> h5open w path = Some file ->
      load_ssp_templates w fake (Some path) drn bn false
      = Ok {| ssp_lgmet := ssp_lgmet d; ssp_lg_age_gyr := ssp_lg_age_gyr d; ssp_wave := ssp_wave d; ssp_flux := ssp_flux d;
              ssp_emline_wave := Some lines;
              ssp_emline_luminosity := Some (map (map (map (fun x => nmul x (lit (3.828 * 10 ^ 33)%R)))) lum) |}).
Proof.
  intros d lines lum Ew El Fn. unfold write_ssp_data. rewrite Ew, El. eexists. split; [reflexivity|].
  intros fake w path drn bn Hf Ho. unfold load_ssp_templates. cbn [bind ssp_template_path]. unfold check. rewrite Hf, Ho.
  unfold read_ssp_h5, get_key. cbn -[namedtuple L_SUN_CGS]. rewrite namedtuple_ok.
  - cbn [bind]. rewrite combine_fst_snd. reflexivity.
  - auto.
  - now rewrite !map_length.
Qed.
Lemma C91_lemma {AR : Arith} : forall d, ssp_emline_wave d = None -> ssp_emline_luminosity d = None ->
  exists file, write_ssp_data d = (file, Some AttributeError)
  /\ (forall fake w path drn bn, isfile w path = true -> h5open w path = Some file -> load_ssp_templates w fake (Some path) drn bn false = Ok d).
Proof.
  intros d Ew El. unfold write_ssp_data. rewrite Ew. eexists. split; [reflexivity|].
  intros fake w path drn bn Hf Ho. unfold load_ssp_templates. cbn [bind ssp_template_path]. unfold check. rewrite Hf, Ho.
  unfold read_ssp_h5, get_key. cbn. destruct d; cbn in *. now subst.
Qed.
Lemma C92_lemma {AR : Arith} : forall w fake path drn bn hdf names waves,
  h5open w path = Some hdf -> hdf "ssp_emline_name"%string = Some (DS names) -> hdf "ssp_emline_wave"%string = Some (D1 waves) ->
  (~ field_names names \/ List.length waves <> List.length names) ->
  forall d, load_ssp_templates w fake (Some path) drn bn false <> Ok d.
Proof.
  intros w fake path drn bn hdf names waves Ho Hn Hw Bad d. unfold load_ssp_templates. cbn [bind ssp_template_path]. unfold check.
  destruct (isfile w path); [|discriminate]. rewrite Ho. unfold read_ssp_h5, get_key.
  destruct (hdf "ssp_lgmet"%string); [|discriminate]. cbn [bind]. destruct (hdf "ssp_lg_age_gyr"%string); [|discriminate]. cbn [bind].
  destruct (hdf "ssp_wave"%string); [|discriminate]. cbn [bind]. destruct (hdf "ssp_flux"%string); [|discriminate]. cbn [bind].
  rewrite Hn, Hw. cbn [bind decode_names float_list]. destruct (hdf "ssp_emline_luminosity"%string) as [el|]; [|discriminate]. cbn [bind].
  destruct (scale_cube el _); [|discriminate]. cbn [bind]. destruct (namedtuple names waves) as [nt|] eqn:E; [|discriminate].
  apply namedtuple_inv in E. destruct E as (A & B & _). destruct Bad; [contradiction|congruence].
Qed.
(** exact errors, for a file whose other datasets are present *)
Lemma C92_errors_lemma {AR : Arith} : forall w fake path drn bn hdf names waves lgmet lgage wave flux lum,
  isfile w path = true -> h5open w path = Some hdf ->
  hdf "ssp_lgmet"%string = Some lgmet -> hdf "ssp_lg_age_gyr"%string = Some lgage -> hdf "ssp_wave"%string = Some wave ->
  hdf "ssp_flux"%string = Some flux -> hdf "ssp_emline_name"%string = Some (DS names) ->
  hdf "ssp_emline_wave"%string = Some (D1 waves) -> hdf "ssp_emline_luminosity"%string = Some (D3 lum) ->
  (~ field_names names -> load_ssp_templates w fake (Some path) drn bn false = Raise ValueError)
  /\ (field_names names -> List.length waves <> List.length names ->
      load_ssp_templates w fake (Some path) drn bn false = Raise TypeError).
Proof.
  intros w fake path drn bn hdf names waves lgmet lgage wave flux lum Hf Ho H1 H2 H3 H4 H5 H6 H7.
  unfold load_ssp_templates. cbn [bind ssp_template_path]. unfold check. rewrite Hf, Ho. unfold read_ssp_h5, get_key.
  rewrite H1, H2, H3, H4, H5. cbn [bind decode_names]. rewrite H6. cbn [bind float_list]. rewrite H7. cbn [bind scale_cube].
  split; intros; [rewrite namedtuple_bad by auto|rewrite namedtuple_short by auto]; reflexivity.
Qed.
(** a file without one of the four required datasets is refused *)
Lemma C92_missing_lemma {AR : Arith} : forall w fake path drn bn hdf k,
  isfile w path = true -> h5open w path = Some hdf ->
  In k ["ssp_lgmet"; "ssp_lg_age_gyr"; "ssp_wave"; "ssp_flux"]%string -> hdf k = None ->
  load_ssp_templates w fake (Some path) drn bn false = Raise KeyError.
Proof.
  intros w fake path drn bn hdf k Hf Ho Hk E. unfold load_ssp_templates. cbn [bind ssp_template_path]. unfold check. rewrite Hf, Ho.
  unfold read_ssp_h5, get_key. destruct Hk as [<-|[<-|[<-|[<-|[]]]]]; rewrite E;
  destruct (hdf "ssp_lgmet"%string); try reflexivity; cbn [bind];
  destruct (hdf "ssp_lg_age_gyr"%string); try reflexivity; cbn [bind];
  destruct (hdf "ssp_wave"%string); try reflexivity; cbn [bind]; reflexivity.
Qed.

(** a parser of numerals *)
Lemma decimal_aux_pos s : forall m k z n, (0 <= m)%Z -> decimal_aux s m k = Some (z, n) -> (0 <= z)%Z.
Proof.
  induction s as [|c s IH]; intros m k z n Hm; cbn [decimal_aux]; [intros H; injection H as <- _; auto|].
  unfold digit_of. destruct (_ && _)%bool eqn:E.
  - apply IH. pose proof (Zle_0_nat (nat_of_ascii c - 48)). lia.
  - destruct (Ascii.eqb c "."); [|discriminate]. destruct k; [discriminate|]. now apply IH.
Qed.
Definition exact_float (s : string) : res num := match decimal s with Some x => Ok (Fin x) | None => Raise ValueError end.
Lemma exact_float_reads : reads_decimals exact_float.
Proof.
  intros s x H. exists x. unfold exact_float. rewrite H. split; auto. replace (x - x) with 0 by lra. rewrite Rabs_R0.
  unfold decimal, decimal_parts in H. destruct s as [|c r]; [discriminate|]. destruct (digit_of c); [|discriminate].
  destruct (decimal_aux (String c r) 0 None) as [[z0 n0]|] eqn:E; [|discriminate]. injection H as <-.
  apply decimal_aux_pos in E; [|lia]. apply IZR_le in E. assert (0 < 10 ^ n0) by (apply pow_lt; lra).
  assert (0 < 10 ^ 7) by (apply pow_lt; lra).
  apply Rmult_le_pos; [apply Rmult_le_pos; auto|]; apply Rlt_le, Rinv_0_lt_compat; auto.
Qed.
