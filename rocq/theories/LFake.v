(** * The dummy data *)
From Coq Require Import Reals List Arith String Ascii ZArith Lra Lia Bool Permutation.
From Flocq Require Import Core.Raux.
From Verif Require Import Num Arr MUtils MSed MLoaders MFake Spec SpecApi SpecLoad RList LUtils LAge LBurst LPhot LMet LJoint LLoad LLoad2 LCosmo.
Import ListNotations.
Open Scope R_scope.

(** ** C107: names *)
Lemma choice_upper i : (65 <= nat_of_ascii (choice i) <= 90)%nat.
Proof.
  unfold choice. assert (H : (i mod 26 < 26)%nat) by (apply Nat.mod_upper_bound; lia).
  assert (G : forallb (fun k => (65 <=? nat_of_ascii (nth k ascii_uppercase "A"%char)) &&
                                 (nat_of_ascii (nth k ascii_uppercase "A"%char) <=? 90))%nat (seq 0 26) = true) by reflexivity.
  rewrite forallb_forall in G. specialize (G (i mod 26)%nat). rewrite in_seq in G.
  specialize (G ltac:(lia)). apply andb_true_iff in G. destruct G as [A B].
  apply Nat.leb_le in A, B. lia.
Qed.
Lemma random_name_capitals d : three_capitals (random_name d).
Proof.
  destruct d as [[i j] k]. exists (choice i), (choice j), (choice k). split; [reflexivity|].
  intros x [<-|[<-|[<-|[]]]]; apply choice_upper.
Qed.
Lemma xxx_capitals : three_capitals "XXX".
Proof.
  exists "X"%char, "X"%char, "X"%char. split; [reflexivity|].
  assert (E : nat_of_ascii "X" = 88%nat) by reflexivity. intros d [<-|[<-|[<-|[]]]]; rewrite E; lia.
Qed.
Lemma capitals_field s : three_capitals s -> field_name s.
Proof.
  intros (a & b & c & -> & H).
  assert (Ha : (65 <= nat_of_ascii a <= 90)%nat) by (apply H; cbn; auto).
  assert (Hb : (65 <= nat_of_ascii b <= 90)%nat) by (apply H; cbn; auto).
  assert (Hc : (65 <= nat_of_ascii c <= 90)%nat) by (apply H; cbn; auto).
  split.
  - exists a, (String b (String c "")). split; [reflexivity|]. split; [now left|].
    intros d [<-|[<-|[]]]; left; now left.
  - cbn. intros K. repeat (destruct K as [K|K];
      [try discriminate K; injection K; intros; subst; cbn in *; lia|]). exact K.
Qed.
Lemma set_add_spec s x : set_add s x = if in_dec string_dec x s then s else (s ++ [x])%list.
Proof.
  unfold set_add. destruct (existsb (String.eqb x) s) eqn:E; destruct (in_dec string_dec x s) as [H|H]; auto.
  - apply existsb_exists in E. destruct E as (y & Hy & E). apply String.eqb_eq in E. subst. contradiction.
  - exfalso. assert (K : existsb (String.eqb x) s = true); [|congruence].
    apply existsb_exists. exists x. split; [auto|apply String.eqb_refl].
Qed.
Lemma set_add_NoDup s x : NoDup s -> NoDup (set_add s x).
Proof.
  intros H. rewrite set_add_spec. destruct (in_dec string_dec x s); [auto|].
  apply (Permutation_NoDup (Permutation_cons_append s x)). constructor; auto.
Qed.

Lemma nodup_count (l s : list string) : NoDup s -> (forall x, In x s <-> In x l) ->
  List.length s = List.length (nodup string_dec l).
Proof.
  intros H K. apply Nat.le_antisymm.
  - apply NoDup_incl_length; auto. intros x Hx. apply nodup_In. now apply K.
  - apply NoDup_incl_length; [apply NoDup_nodup|]. intros x Hx. apply nodup_In in Hx. now apply K.
Qed.
(** the loop: [p] are the names drawn before *)
Lemma loop_spec n draws : forall s p, NoDup s -> (forall x, In x s <-> In x p) -> s <> [] ->
  (forall r, fake_names_loop n s draws = Some r ->
     NoDup r /\ incl s r /\ incl r (p ++ map random_name draws) /\ List.length r = Nat.max (List.length s) n)
  /\ (fake_names_loop n s draws = None <->
      (List.length (nodup string_dec (p ++ map random_name draws)) < n)%nat).
Proof.
  induction draws as [|d draws IH]; intros s p ND K Ne; cbn [fake_names_loop map].
  - rewrite app_nil_r. rewrite <- (nodup_count p s) by auto. destruct (Nat.ltb_spec (List.length s) n).
    + split; [discriminate|]. split; auto.
    + split; [|split; [discriminate|lia]]. intros r E. injection E as <-.
      split; [auto|]. split; [apply incl_refl|]. split; [intros x Hx; now apply K|]. lia.
  - destruct (Nat.ltb_spec (List.length s) n) as [L|L].
    + assert (K' : forall x, In x (set_add s (random_name d)) <-> In x (p ++ [random_name d])).
      { intros x. rewrite in_app_iff, <- K, set_add_spec. cbn. destruct (in_dec string_dec (random_name d) s) as [H|H].
        - split; [tauto|]. intros [|[<-|[]]]; auto.
        - rewrite in_app_iff. cbn. tauto. }
      destruct (IH (set_add s (random_name d)) (p ++ [random_name d])%list) as [A B].
      * now apply set_add_NoDup.
      * exact K'.
      * rewrite set_add_spec. destruct (in_dec string_dec (random_name d) s); [auto|]. destruct s; discriminate.
      * rewrite <- app_assoc in *. cbn [app] in *. split; [|exact B].
        intros r E. destruct (A r E) as (A1 & A2 & A3 & A4). split; [auto|]. split.
        { intros x Hx. apply A2. apply K'. rewrite in_app_iff, <- K. auto. }
        split; [exact A3|]. rewrite A4. rewrite set_add_spec. destruct (in_dec string_dec (random_name d) s); [lia|].
        rewrite app_length. cbn. lia.
    + split.
      * intros r E. injection E as <-. split; [auto|]. split; [apply incl_refl|]. split; [|lia].
        intros x Hx. rewrite in_app_iff. left. now apply K.
      * split; [discriminate|]. intros H. exfalso.
        assert (List.length s <= List.length (nodup string_dec (p ++ random_name d :: map random_name draws)))%nat; [|lia].
        apply NoDup_incl_length; auto. intros x Hx. apply nodup_In. rewrite in_app_iff. left. now apply K.
Qed.
Lemma np_logspace_length n : List.length (np_logspace (Fin 3) (Fin 6) n) = n.
Proof.
  unfold np_logspace. rewrite map_length. unfold np_linspace. destruct n as [|[|n]]; [reflexivity|reflexivity|].
  rewrite app_length, map_length, seq_length. cbn. lia.
Qed.
Lemma C107_lemma : forall n draws order, (1 <= n)%nat -> (forall s, Permutation s (order s)) ->
  (fake_emline_wave_namedtuple n draws order = None <->
     (List.length (nodup string_dec ("XXX"%string :: map random_name draws)) < n)%nat)
  /\ (forall r, fake_emline_wave_namedtuple n draws order = Some r ->
       exists lines, r = Ok lines /\ List.length lines = n
       /\ NoDup (map fst lines) /\ In "XXX"%string (map fst lines)
       /\ (forall name, In name (map fst lines) -> three_capitals name /\ field_name name
             /\ (name = "XXX"%string \/ In name (map random_name draws)))
       /\ (forall i, (i < n)%nat -> at_ (map snd lines) i = Fin (pow10 (3 + 3 * INR i / INR (Nat.max 1 (n - 1)))))).
Proof.
  intros n draws order Hn Ho. unfold fake_emline_wave_namedtuple.
  destruct (loop_spec n draws ["XXX"%string] ["XXX"%string]) as [A B].
  { constructor; [intros []|constructor]. } { tauto. } { discriminate. }
  split.
  - rewrite <- B. destruct (fake_names_loop n ["XXX"%string] draws); split; intros; congruence.
  - intros r E. destruct (fake_names_loop n ["XXX"%string] draws) as [s|]; [|discriminate]. injection E as <-.
    destruct (A s eq_refl) as (A1 & A2 & A3 & A4). cbn [List.length] in A4.
    assert (Cap : forall name, In name s -> three_capitals name /\ (name = "XXX"%string \/ In name (map random_name draws))).
    { intros name H. apply A3 in H. cbn in H. destruct H as [<-|H]; [split; [apply xxx_capitals|auto]|].
      split; [|auto]. apply in_map_iff in H. destruct H as (d & <- & _). apply random_name_capitals. }
    assert (F : field_names (order s)).
    { split; [eapply Permutation_NoDup; eauto|]. apply Forall_forall. intros x Hx.
      apply capitals_field, Cap. apply (Permutation_in x (Permutation_sym (Ho s)) Hx). }
    assert (L : List.length (order s) = List.length (np_logspace (Fin 3) (Fin 6) n)).
    { rewrite np_logspace_length, <- (Permutation_length (Ho s)). lia. }
    assert (Ef : map fst (combine (order s) (np_logspace (Fin 3) (Fin 6) n)) = order s).
    { clear -L. revert L. generalize (np_logspace (Fin 3) (Fin 6) n). induction (order s); intros [|? ?]; cbn; intros; try discriminate; auto. f_equal; auto. }
    assert (Es : map snd (combine (order s) (np_logspace (Fin 3) (Fin 6) n)) = np_logspace (Fin 3) (Fin 6) n).
    { clear -L. revert L. generalize (np_logspace (Fin 3) (Fin 6) n). induction (order s); intros [|? ?]; cbn; intros; try discriminate; auto. f_equal; auto. }
    eexists. split; [apply namedtuple_ok; auto|]. rewrite Ef, Es.
    split; [rewrite combine_length, L, Nat.min_id; apply np_logspace_length|].
    split; [apply F|]. split; [apply (Permutation_in _ (Ho s)), A2; now left|]. split.
    + intros name H. apply (Permutation_in _ (Permutation_sym (Ho s))) in H. destruct (Cap name H) as [C1 C2].
      split; [auto|]. split; [now apply capitals_field|auto].
    + intros i Hi. destruct (Nat.eq_dec n 1) as [->|N1].
      * assert (i = O) as -> by lia. change (npow10 (Fin 3) = Fin (pow10 (3 + 3 * 0 / 1))). rewrite npow10_fin.
        f_equal. f_equal. lra.
      * unfold np_logspace. rewrite np_linspace_fins by lia. unfold fins. rewrite map_map.
        rewrite (map_ext _ (fun x => Fin (pow10 x))) by (intros; apply npow10_fin).
        change (at_ (map (fun x => Fin (pow10 x)) (lin 3 6 n)) i) with (nth i (map (fun x => Fin (pow10 x)) (lin 3 6 n)) NaN).
        rewrite nth_map_gen with (d := 0) by (unfold lin; now rewrite map_length, seq_length).
        change (nth i (lin 3 6 n) 0) with (ent (lin 3 6 n) i). unfold lin. rewrite ent_map_seq by auto.
        rewrite Nat.add_0_l. replace (Nat.max 1 (n - 1)) with (n - 1)%nat by lia.
        do 2 f_equal. pose proof (INR_n1 n ltac:(lia)). field. lra.
Qed.
Lemma capitals_count l : NoDup l -> Forall three_capitals l -> (List.length l <= 26 * 26 * 26)%nat.
Proof.
  intros ND F. set (r := seq 0 26).
  assert (E : (26 * 26 * 26)%nat = List.length (map random_name (list_prod (list_prod r r) r))).
  { rewrite map_length, !prod_length. unfold r. rewrite seq_length. reflexivity. }
  rewrite E. apply NoDup_incl_length; auto. intros s Hs. rewrite Forall_forall in F.
  destruct (F s Hs) as (a & b & c & -> & H).
  assert (G : forall d, (65 <= nat_of_ascii d <= 90)%nat -> exists i, In i r /\ choice i = d).
  { intros d Hd. exists (nat_of_ascii d - 65)%nat. split; [apply in_seq; lia|].
    unfold choice. rewrite Nat.mod_small by lia.
    assert (K : forallb (fun k => Ascii.eqb (nth k ascii_uppercase "A"%char) (ascii_of_nat (65 + k))) (seq 0 26) = true) by reflexivity.
    rewrite forallb_forall in K. specialize (K (nat_of_ascii d - 65)%nat). rewrite in_seq in K.
    specialize (K ltac:(lia)). apply Ascii.eqb_eq in K. rewrite K.
    replace (65 + (nat_of_ascii d - 65))%nat with (nat_of_ascii d) by lia. apply ascii_nat_embedding. }
  destruct (G a) as (i & Hi & <-); [apply H; cbn; auto|].
  destruct (G b) as (j & Hj & <-); [apply H; cbn; auto|].
  destruct (G c) as (k & Hk & <-); [apply H; cbn; auto|].
  apply in_map_iff. exists (i, j, k). split; [reflexivity|]. repeat apply in_prod; auto.
Qed.
Lemma C107_never_lemma : forall n draws order, (26 * 26 * 26 < n)%nat ->
  fake_emline_wave_namedtuple n draws order = None.
Proof.
  intros n draws order Hn. unfold fake_emline_wave_namedtuple.
  destruct (loop_spec n draws ["XXX"%string] ["XXX"%string]) as [A B].
  { constructor; [intros []|constructor]. } { tauto. } { discriminate. }
  rewrite (proj2 B); [reflexivity|]. eapply Nat.le_lt_trans; [|exact Hn].
  apply capitals_count; [apply NoDup_nodup|]. apply Forall_forall. intros x Hx. apply nodup_In in Hx.
  cbn in Hx. destruct Hx as [<-|Hx]; [apply xxx_capitals|]. apply in_map_iff in Hx. destruct Hx as (d & <- & _).
  apply random_name_capitals.
Qed.

(** ** C108: grids *)
Lemma dummy_ages_length : List.length dummy_ages = 94%nat.
Proof. unfold dummy_ages. now rewrite map_length, seq_length. Qed.
Lemma dummy_ages_ent i : (i < 94)%nat -> ent dummy_ages i = -3.5 + INR i * 0.05.
Proof. intros. unfold dummy_ages. now rewrite ent_map_seq. Qed.
Lemma fake_ages_fins : fake_log_age_gyr = fins dummy_ages.
Proof.
  unfold fake_log_age_gyr, np_arange. unlit. rewrite nsub_fin, ndiv_fin by lra.
  replace (Zceil ((1.2 - -3.5) / 0.05)) with 94%Z.
  2:{ symmetry. apply Zceil_imp. split; simpl IZR; lra. }
  change (Z.to_nat 94) with 94%nat. unfold fins, dummy_ages. rewrite map_map. apply map_ext. intros i.
  rewrite nadd_fin, nsub_fin, nmul_fin, nadd_fin. f_equal. lra.
Qed.
Lemma fake_mets_fins : fake_lgzlegend = fins (map log10 dummy_mets).
Proof.
  unfold fake_lgzlegend, zlegend, dummy_mets. cbn [map fins]. unlit.
  repeat (apply f_equal2; [rewrite nlog10_fin by lra; do 2 f_equal; lra|]). reflexivity.
Qed.
Lemma fake_wave_fins : fake_ssp_wave = fins dummy_waves.
Proof.
  unfold fake_ssp_wave. rewrite np_linspace_fins by lia. f_equal. unfold lin, dummy_waves.
  apply map_ext. intros i. replace (INR (1963 - 1)) with 1962 by (change (1963 - 1)%nat with 1962%nat; rewrite INR_IZR_INZ; reflexivity).
  lra.
Qed.
Lemma dummy_ages_increasing : increasing dummy_ages.
Proof.
  apply increasing_step. rewrite dummy_ages_length. intros i H. rewrite !dummy_ages_ent, S_INR by lia. lra.
Qed.
Lemma dummy_ages_gap i : (S i < 94)%nat -> gap dummy_ages i = 0.05.
Proof. intros. unfold gap. rewrite !dummy_ages_ent, S_INR by lia. lra. Qed.
Lemma dummy_age_edges : nondecreasing (age_edges dummy_ages).
Proof.
  apply age_edges_ordered_iff; [rewrite dummy_ages_length; lia|apply dummy_ages_increasing|].
  rewrite dummy_ages_length. split.
  - rewrite !dummy_ages_gap by lia. lra.
  - intros i H1 H2. rewrite !dummy_ages_gap by lia. lra.
Qed.
Lemma log_cond a b c d : 0 < a -> 0 < b -> 0 < c -> 0 < d -> d * (b * b * b) * a <= c * c * c * c * c ->
  log10 d - log10 c <= 4 * (log10 c - log10 b) + (log10 b - log10 a).
Proof.
  intros Ha Hb Hc Hd H. assert (Hbb : 0 < b * b) by nra. assert (Hbbb : 0 < b * b * b) by nra.
  assert (Hcc : 0 < c * c) by nra. assert (Hc3 : 0 < c * c * c) by nra. assert (Hc4 : 0 < c * c * c * c) by nra.
  assert (0 < d * (b * b * b)) by nra.
  apply log10_le in H; [|nra]. rewrite !RList.log10_mult in H by auto. lra.
Qed.
Lemma dummy_mets_pos : forall z, In z dummy_mets -> 0.0002 <= z <= 0.03.
Proof. unfold dummy_mets. cbn [map In]. intros z H. repeat (destruct H as [<-|H]; [lra|]). destruct H. Qed.
Lemma dummy_mets_increasing : increasing dummy_mets.
Proof.
  apply increasing_step. unfold dummy_mets. cbn [map List.length].
  intros i H. do 21 (destruct i as [|i]; [unfold ent; cbn [nth]; lra|]). lia.
Qed.
Lemma lgmets_increasing : increasing (map log10 dummy_mets).
Proof.
  apply log10_increasing; [|apply dummy_mets_increasing]. intros z H. apply dummy_mets_pos in H. lra.
Qed.
Lemma lgmets_range i : (i < 22)%nat -> -4 <= ent (map log10 dummy_mets) i <= 0.
Proof.
  intros H. rewrite ent_map by exact H. pose proof (dummy_mets_pos _ (ent_In dummy_mets i H)) as P.
  split; [|rewrite <- log10_1; apply log10_le; lra].
  rewrite <- (log10_pow10 (-4)). apply log10_le; [apply pow10_pos|].
  replace (pow10 (-4)) with (/ 10000); [lra|].
  unfold pow10. rewrite <- (Rinv_inv (Rpower _ _)).

  f_equal. rewrite <- Rpower_Ropp. replace (- -4) with (INR 4) by (simpl; lra).
  rewrite Rpower_pow by lra. simpl. lra.
Qed.
Lemma dummy_met_edges : nondecreasing (met_edges (map log10 dummy_mets)).
Proof.
  assert (L : List.length (map log10 dummy_mets) = 22%nat) by reflexivity.
  apply met_edges_ordered_iff; [rewrite L; lia|apply lgmets_increasing|]. rewrite L.
  split; [|split].
  - rewrite met_edge_mid by (try rewrite L; lia). rewrite node_width_mid by (try rewrite L; lia). unfold gap.
    change (1 - 1)%nat with 0%nat.
    pose proof (lgmets_range 0 ltac:(lia)). pose proof (lgmets_range 1 ltac:(lia)). pose proof (lgmets_range 2 ltac:(lia)). lra.
  - change (22 - 1)%nat with (List.length (map log10 dummy_mets) - 1)%nat.
    rewrite met_edge_mid by (try rewrite L; lia). rewrite node_width_last by (try rewrite L; lia). rewrite L. unfold gap.
    cbn [Nat.sub].
    pose proof (lgmets_range 19 ltac:(lia)). pose proof (lgmets_range 20 ltac:(lia)). pose proof (lgmets_range 21 ltac:(lia)).
    pose proof (lgmets_increasing 19 20 ltac:(rewrite L; lia))%nat.
    pose proof (lgmets_increasing 20 21 ltac:(rewrite L; lia))%nat. lra.
  - intros i H1 H2. unfold gap. destruct i as [|i]; [lia|]. replace (S i - 1)%nat with i by lia.
    rewrite !(ent_map log10 dummy_mets) by (change (List.length dummy_mets) with 22%nat; lia).
    do 19 (destruct i as [|i]; [unfold ent, dummy_mets; cbn [map nth]; apply log_cond; lra|]). lia.
Qed.
Lemma dummy_waves_increasing : increasing dummy_waves.
Proof.
  apply increasing_step. intros i H. unfold dummy_waves in *. rewrite map_length, seq_length in H.
  rewrite !ent_map_seq by lia. rewrite !Nat.add_0_l, S_INR. lra.
Qed.

Lemma C108_grids_lemma :
  fake_log_age_gyr = fins dummy_ages /\ fake_lgzlegend = fins (map log10 dummy_mets) /\ fake_ssp_wave = fins dummy_waves
  /\ increasing dummy_ages /\ increasing dummy_mets /\ increasing dummy_waves
  /\ nondecreasing (age_edges dummy_ages) /\ nondecreasing (met_edges (map log10 dummy_mets)).
Proof.
  split; [apply fake_ages_fins|]. split; [apply fake_mets_fins|]. split; [apply fake_wave_fins|].
  split; [apply dummy_ages_increasing|]. split; [apply dummy_mets_increasing|]. split; [apply dummy_waves_increasing|].
  split; [apply dummy_age_edges|apply dummy_met_edges].
Qed.

(** 10^(-3.525) < 0.0003 and 14 < 10^1.175 *)
Lemma pow10_frac p q x : (0 < q)%nat -> 0 < x -> x ^ q < 10 ^ p -> x < pow10 (INR p / INR q).
Proof.
  intros Hq Hx H. apply lt_0_INR in Hq. apply log10_lt_inv; auto; [apply pow10_pos|]. rewrite log10_pow10.
  assert (K : log10 (x ^ q) < log10 (10 ^ p)) by (apply log10_lt; [now apply pow_lt|exact H]).
  assert (G : forall y n, 0 < y -> log10 (y ^ n) = INR n * log10 y).
  { intros y n Hy. induction n as [|n IH]; [simpl; rewrite log10_1; ring|].
    rewrite <- tech_pow_Rmult, RList.log10_mult, IH, S_INR by (auto; apply pow_lt; auto). ring. }
  rewrite !G in K by lra. replace (log10 10) with 1 in K.
  2:{ rewrite <- (log10_pow10 1). f_equal. unfold pow10. rewrite Rpower_1; lra. }
  apply Rmult_lt_reg_l with (INR q); auto. replace (INR q * (INR p / INR q)) with (INR p) by (field; lra). lra.
Qed.
Lemma dummy_edges : age_edge dummy_ages 0 = -3.525 /\ age_edge dummy_ages 94 = 1.175.
Proof.
  split.
  - rewrite age_edge_lt by (rewrite dummy_ages_length; lia). rewrite node_width_0, dummy_ages_gap, dummy_ages_ent by lia. simpl. lra.
  - unfold age_edge. rewrite dummy_ages_length. change (94 =? 94)%nat with true. cbv iota.
    assert (W : node_width dummy_ages (94 - 1) = 0.05).
    { rewrite <- dummy_ages_length. rewrite node_width_last by (rewrite dummy_ages_length; lia).
      rewrite dummy_ages_length. rewrite !dummy_ages_gap by lia. lra. }
    rewrite W, dummy_ages_ent by lia. replace (INR (94 - 1)) with 93 by (rewrite INR_IZR_INZ; reflexivity). lra.
Qed.
Lemma lower_time : pow10 (-3.525) < 0.0003.
Proof.
  assert (K : 10000 / 3 < pow10 (INR 141 / INR 40)).
  { apply pow10_frac; [lia|lra|]. unfold Rdiv. rewrite Rpow_mult_distr, <- Rinv_pow by lra.
    apply Rmult_lt_reg_r with (3 ^ 40); [apply pow_lt; lra|].
    rewrite Rmult_assoc, Rinv_l, Rmult_1_r by (apply pow_nonzero; lra).
    rewrite !pow_IZR, <- mult_IZR. apply IZR_lt. reflexivity. }
  replace (INR 141 / INR 40) with 3.525 in K by (rewrite !INR_IZR_INZ; simpl IZR; lra).
  unfold pow10 in *. replace (Rpower 10 (-3.525)) with (/ Rpower 10 3.525).
  2:{ rewrite <- Rpower_Ropp. f_equal. lra. }
  assert (0 < Rpower 10 3.525) by (unfold Rpower; apply exp_pos).
  apply Rmult_lt_reg_l with (Rpower 10 3.525); auto. rewrite Rinv_r by lra. lra.
Qed.
Lemma upper_time : 14 < pow10 1.175.
Proof.
  assert (K : 14 < pow10 (INR 47 / INR 40)).
  { apply pow10_frac; [lia|lra|]. rewrite !pow_IZR. apply IZR_lt. reflexivity. }
  replace (INR 47 / INR 40) with 1.175 in K by (rewrite !INR_IZR_INZ; simpl IZR; lra). exact K.
Qed.
Lemma dummy_good_grids ts sfrs scatter t_obs :
  List.length ts = List.length sfrs -> (2 <= List.length ts)%nat -> increasing (0.001 :: ts) ->
  0 < scatter -> ent ts 0 + 0.0003 <= t_obs <= 14 ->
  good_grids ts sfrs scatter (map log10 dummy_mets) dummy_ages t_obs.
Proof.
  intros Hl H2 Hi Hs Ht. destruct dummy_edges as [E0 E1].
  pose proof dummy_ages_length as La. assert (Lm : List.length (map log10 dummy_mets) = 22%nat) by reflexivity.
  split; [auto|]. split; [now apply nil_neq_len; lia|]. split; [auto|]. split; [rewrite La; lia|].
  split; [apply dummy_age_edges|]. split; [auto|]. split; [rewrite Lm; lia|]. split; [apply dummy_met_edges|].
  assert (T0 : 0.001 < ent ts 0). { apply increasing_cons in Hi as [Hi _]. apply Hi, ent_In. lia. }
  assert (T1 : ent ts 0 < ent ts (List.length ts - 1)).
  { apply increasing_cons in Hi as [_ Hi]. apply Hi. lia. }
  pose proof lower_time. pose proof upper_time.
  intros formed. apply (edge_mass_neq ts sfrs dummy_ages t_obs (1 / 10 ^ 14)); auto.
  - apply Rdiv_lt_0_compat; [lra|apply pow_lt; lra].
  - rewrite La, E0, E1. lra.
  - rewrite E0. lra.
  - rewrite La, E1. lra.
Qed.
Lemma C108_weights_lemma : forall ts sfrs lgmet scatter t_obs,
  List.length ts = List.length sfrs -> (2 <= List.length ts)%nat -> increasing (0.001 :: ts) ->
  0 < scatter -> ent ts 0 + 0.0003 <= t_obs <= 14 ->
  exists W mw aw,
    calc_ssp_weights_sfh_table_lognormal_mdf (fins ts) (fins sfrs) (Fin lgmet) (Fin scatter)
      fake_lgzlegend fake_log_age_gyr (Fin t_obs)
    = Ok {| weights := map fins W; lgmet_weights := fins mw; age_weights := fins aw |}
    /\ is_matrix 22 94 W /\ distribution mw /\ distribution aw
    /\ (forall i j, (i < 22)%nat -> (j < 94)%nat -> ent2 W i j = ent mw i * ent aw j /\ 0 <= ent2 W i j)
    /\ Rsum2 W = 1.
Proof.
  intros ts sfrs lgmet scatter t_obs Hl H2 Hi Hs Ht.
  pose proof (dummy_good_grids ts sfrs scatter t_obs Hl H2 Hi Hs Ht) as G.
  destruct (C15_lemma ts sfrs lgmet scatter _ _ t_obs G) as (W & mw & aw & E & Ea & Em & M & P & S & R1 & R2).
  exists W, mw, aw. rewrite fake_ages_fins, fake_mets_fins.
  split; [exact E|]. split; [rewrite dummy_ages_length in M; exact M|].
  destruct G as (G1 & G2 & G3 & G4 & G5 & G6 & G7 & G8 & G9).
  destruct (C10_lemma lgmet scatter _ G6 G7 G8) as (mw' & Em' & _ & Dm).
  destruct (C01_lemma ts sfrs dummy_ages t_obs (1 / 10 ^ 14) G1 G2 G3 ltac:(apply Rdiv_lt_0_compat; [lra|apply pow_lt; lra]) G4 G5 G9)
    as (aw' & Ea' & _ & Da).
  rewrite Em in Em'. injection Em' as Em'. apply fins_inj in Em'. rewrite <- Em' in Dm.
  rewrite Ea in Ea'. injection Ea' as Ea'. apply fins_inj in Ea'. rewrite <- Ea' in Da.
  split; [exact Dm|]. split; [exact Da|]. split; [|exact S].
  intros i j H H'. apply P; [exact H|rewrite dummy_ages_length; exact H'].
Qed.
