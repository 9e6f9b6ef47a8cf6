(** * Grid cells, time tables, Maiolino relation, tabulated dimming *)
From Coq Require Import Reals List Arith Lra Lia Bool.
From Coquelicot Require Import Coquelicot.
From Flocq Require Import Core.Raux.
From Verif Require Import Num Arr MUtils MSed MMzr MCosmo MPhot Spec SpecApi RList LUtils LAge LCalc LKern LKern2 LBurst LDust LCosmo LPhot.
Import ListNotations.
Open Scope R_scope.

(** ** C101: cells around the nodes of a grid *)
Lemma gap_pos a i : increasing a -> (S i < length a)%nat -> 0 < gap a i.
Proof. intros I H. unfold gap. assert (ent a i < ent a (S i)) by (apply I; lia). lra. Qed.
Lemma node_width_pos a i : increasing a -> (3 <= length a)%nat -> (i < length a)%nat -> 0 < node_width a i.
Proof.
  intros I H Hi. destruct i as [|i].
  - rewrite node_width_0. apply gap_pos; auto. lia.
  - destruct (Nat.eq_dec (S i) (length a - 1)) as [E|E].
    + rewrite E, node_width_last by auto.
      pose proof (gap_pos a (length a - 2) I ltac:(lia)). pose proof (gap_pos a (length a - 3) I ltac:(lia)). lra.
    + rewrite node_width_mid by lia. replace (S i - 1)%nat with i by lia.
      pose proof (gap_pos a i I ltac:(lia)). pose proof (gap_pos a (S i) I ltac:(lia)). lra.
Qed.
Lemma widths_partial_sum a j : (3 <= length a)%nat -> (1 <= j)%nat -> (j <= length a - 1)%nat ->
  Rsum (map (node_width a) (seq 0 j)) = (ent a (j - 1) + ent a j) / 2 - ent a 0 + (ent a 1 - ent a 0) / 2.
Proof.
  intros H H1 Hj. induction j as [|j IH]; [lia|]. destruct j as [|j].
  - cbn [seq map Rsum]. rewrite node_width_0. unfold gap. replace (1 - 1)%nat with O by lia. lra.
  - rewrite seq_S, map_app, Rsum_app, IH by lia. cbn [map Rsum].
    rewrite Nat.add_0_l, node_width_mid by lia. unfold gap.
    replace (S (S j) - 1)%nat with (S j) by lia. replace (S j - 1)%nat with j by lia. lra.
Qed.
Lemma C101_cells_lemma : forall a, (3 <= length a)%nat ->
  exists w, get_dt_array (fins a) = Ok (fins w) /\ length w = length a
    /\ (forall i, (0 < i < length a - 1)%nat -> ent w i = (ent a (i + 1) - ent a (i - 1)) / 2)
    /\ (increasing a -> List.Forall (fun d => 0 < d) w)
    /\ Rsum w = ent a (length a - 1) - ent a 0
                + (ent a 1 - ent a 0) / 2 + (ent a (length a - 1) - ent a (length a - 3)) / 4.
Proof.
  intros a H. exists (widths a). split.
  { unfold get_dt_array, check. rewrite fins_length. destruct (Nat.leb_spec 3 (length a)); [|lia].
    now rewrite get_dt_array_fins. }
  split; [apply widths_length|]. split; [|split].
  - intros i Hi. unfold widths. rewrite ent_map_seq by lia. cbn [Nat.add]. unfold node_width.
    destruct (Nat.eqb_spec i 0); [lia|]. destruct (Nat.eqb_spec i (length a - 1)); [lia|]. reflexivity.
  - intros I. unfold widths. apply List.Forall_forall. intros x Hx. apply in_map_iff in Hx as (i & <- & Hi).
    apply in_seq in Hi. apply node_width_pos; auto; lia.
  - unfold widths. replace (length a) with (S (length a - 1)) at 1 by lia.
    rewrite seq_S, map_app, Rsum_app, Nat.add_0_l, widths_partial_sum by lia. cbn [map Rsum].
    rewrite node_width_last by auto. unfold gap.
    replace (S (length a - 2)) with (length a - 1)%nat by lia.
    replace (S (length a - 3)) with (length a - 2)%nat by lia.
    replace (length a - 1 - 1)%nat with (length a - 2)%nat by lia. lra.
Qed.
Lemma C101_raises_lemma : forall (AR : Arith) t, (length t < 3)%nat -> get_dt_array t = Raise IndexError.
Proof.
  intros AR t H. unfold get_dt_array, check. destruct (Nat.leb_spec 3 (length t)); [lia|reflexivity].
Qed.

Lemma linspace_gen n a b : (2 <= n)%nat -> linspace (Fin a) (Fin b) n = fins (lin a b n).
Proof.
  intros Hn. unfold linspace, lin, fins. rewrite map_map.
  replace (seq 0 n) with (seq 0 (n - 1) ++ [(n - 1)%nat]).
  2:{ replace n with (S (n - 1)) at 3 by lia. rewrite seq_S. now rewrite Nat.add_0_l. }
  rewrite map_app. pose proof (INR_n1 n Hn). f_equal.
  - apply map_ext. intros i. rewrite ndiv_fin, nsub_fin, !nmul_fin, nadd_fin by lra. f_equal. lra.
  - simpl map. do 2 f_equal. field. lra.
Qed.
Lemma lin_ent a b n i : (i < n)%nat -> ent (lin a b n) i = a + INR i / INR (n - 1) * (b - a).
Proof. intros H. unfold lin. rewrite ent_map_seq by auto. now rewrite Nat.add_0_l. Qed.
Lemma lin_length a b n : length (lin a b n) = n.
Proof. unfold lin. now rewrite map_length, seq_length. Qed.
Lemma lin_gap a b n i : (2 <= n)%nat -> (S i < n)%nat -> gap (lin a b n) i = (b - a) / INR (n - 1).
Proof.
  intros Hn Hi. unfold gap. rewrite !lin_ent by lia. rewrite S_INR. pose proof (INR_n1 n Hn). field. lra.
Qed.
Lemma lin_increasing a b n : (2 <= n)%nat -> a < b -> increasing (lin a b n).
Proof.
  intros Hn Hab. apply increasing_step. intros i Hi. rewrite lin_length in Hi.
  pose proof (lin_gap a b n i Hn ltac:(lia)) as G. unfold gap in G. pose proof (INR_n1 n Hn).
  assert (0 < (b - a) / INR (n - 1)) by (apply Rdiv_lt_0_compat; lra). lra.
Qed.

Lemma C101_tables_lemma : forall t0, 0.001 < t0 ->
  exists t lgt dt,
    get_linspace_time_tables (Fin t0) = (fins t, fins lgt, fins dt)
    /\ length t = 100%nat /\ lgt = map log10 t /\ length dt = 100%nat
    /\ (forall i, (i < 100)%nat -> ent t i = 0.001 + INR i * (t0 - 0.001) / 99)
    /\ (forall i, (i < 100)%nat -> ent dt i = (t0 - 0.001) / 99).
Proof.
  intros t0 H. exists (lin 0.001 t0 100), (map log10 (lin 0.001 t0 100)), (widths (lin 0.001 t0 100)).
  assert (N : (2 <= 100)%nat) by (apply Nat.leb_le; reflexivity).
  assert (N3 : (3 <= 100)%nat) by (apply Nat.leb_le; reflexivity).
  assert (E99 : INR (100 - 1) = 99) by (rewrite INR_IZR_INZ; reflexivity).
  split; [|split; [|split; [|split; [|split]]]].
  - unfold get_linspace_time_tables, T_BIRTH_MIN, N_T_LGSM_INTEGRATION. change (lit 0.001) with (Fin 0.001).
    rewrite linspace_gen by exact N. rewrite get_dt_array_fins by (rewrite lin_length; exact N3).
    f_equal. f_equal. apply (map_fins nlog10 log10). intros x Hx. apply nlog10_fin.
    apply In_nth with (d := 0) in Hx as (i & Hi & Ex). rewrite lin_length in Hi.
    change (nth i (lin 0.001 t0 100) 0) with (ent (lin 0.001 t0 100) i) in Ex.
    rewrite lin_ent in Ex by auto. rewrite <- Ex, E99. pose proof (pos_INR i).
    assert (0 <= INR i / 99) by (apply Rmult_le_pos; lra). nra.
  - apply lin_length.
  - reflexivity.
  - rewrite widths_length. apply lin_length.
  - intros i Hi. rewrite lin_ent by auto. rewrite E99. field.
  - intros i Hi. unfold widths. rewrite ent_map_seq by (rewrite lin_length; auto). cbn [Nat.add].
    destruct i as [|i].
    + rewrite node_width_0, lin_gap by (try exact N; lia). now rewrite E99.
    + destruct (Nat.eq_dec (S i) (100 - 1)) as [E|E].
      * pose proof (node_width_last (lin 0.001 t0 100)) as W. rewrite lin_length in W.
        rewrite E, W by exact N3. rewrite !lin_gap by (try exact N; lia). rewrite E99. field.
      * rewrite node_width_mid by (rewrite ?lin_length; lia). rewrite !lin_gap by (try exact N; lia).
        rewrite E99. field.
Qed.

(** ** C102: Maiolino et al. (2008) relation *)
Lemma C102_lemma : forall logm0 k0,
  exists f : R -> R,
    (forall m, maiolino08_metallicity_evolution (Fin m) (Fin logm0) (Fin k0) = Fin (f m))
    /\ f logm0 = k0 - 12
    /\ (forall m, m <> logm0 -> f m < f logm0)
    /\ (forall d, f (logm0 + d) = f (logm0 - d))
    /\ (forall m m', m < m' -> m' <= logm0 -> f m < f m').
Proof.
  intros m0 k0. exists (fun m => -12 - 0.0864 * ((m - m0) * (m - m0)) + k0).
  split; [|split; [|split; [|split]]].
  - intros m. unfold maiolino08_metallicity_evolution. unlit. now rewrite nsub_fin, !nmul_fin, nsub_fin, nadd_fin.
  - lra.
  - intros m Hm. assert (0 < (m - m0) * (m - m0)).
    { assert (m - m0 <> 0) by lra. pose proof (Rsqr_pos_lt _ H). unfold Rsqr in *. lra. } nra.
  - intros d. f_equal. f_equal. f_equal. ring.
  - intros m m' H1 H2. assert ((m' - m0) * (m' - m0) < (m - m0) * (m - m0)) by nra. lra.
Qed.

(** ** C103: tabulated dimming *)
Lemma C103_lemma : forall Om0 w0 wa h zs, 0 < Om0 <= 1 -> 0 < h ->
  zs <> [] -> increasing (0 :: zs) ->
  let table := map (fun z => distance_modulus_to_z (Fin z) (Fin Om0) (Fin w0) (Fin wa) (Fin h)) zs in
  (forall i, (i < length zs)%nat ->
     cosmological_dimming_from_table (Fin (ent zs i)) (fins zs) table
     = cosmological_dimming (Fin (ent zs i)) (Fin Om0) (Fin w0) (Fin wa) (Fin h)
     /\ exists d, cosmological_dimming (Fin (ent zs i)) (Fin Om0) (Fin w0) (Fin wa) (Fin h) = Fin d).
Proof.
  intros Om0 w0 wa h zs HO Hh Hn Hi table i Hii.
  destruct (C55_lemma Om0 w0 wa h HO Hh) as [D _].
  assert (P : forall z, In z zs -> 0 < z).
  { intros z Hz. apply In_nth with (d := 0) in Hz as (k & Hk & <-).
    apply (Hi 0%nat (S k)). simpl. lia. }
  assert (T : exists mus, table = fins mus /\ length mus = length zs).
  { unfold table. clear Hi Hii Hn table. induction zs as [|z zs IH].
    - exists []. split; reflexivity.
    - destruct IH as (mus & E & L); [intros; apply P; now right|].
      destruct (D z) as (dL & mu & _ & Em & _); [apply P; now left|].
      exists (mu :: mus). cbn [map]. rewrite Em, E. split; [reflexivity|simpl; congruence]. }
  destruct T as (mus & ET & L).
  assert (Emu : distance_modulus_to_z (Fin (ent zs i)) (Fin Om0) (Fin w0) (Fin wa) (Fin h) = Fin (ent mus i)).
  { assert (E : nth i table NaN = Fin (ent mus i)).
    { rewrite ET. change (at_ (fins mus) i = Fin (ent mus i)). rewrite at_fins; [reflexivity|lia]. }
    rewrite <- E. unfold table. rewrite nth_map_gen with (d := 0) by auto. reflexivity. }
  pose proof (P (ent zs i) (ent_In zs i Hii)) as Pz.
  unfold cosmological_dimming_from_table, cosmological_dimming. rewrite Emu, ET.
  rewrite interp_fins by (auto; eapply increasing_tl; eauto).
  rewrite pwlin_node by (auto; eapply increasing_tl; eauto).
  split; [reflexivity|]. unlit. rewrite nadd_fin, nlog10_fin, nmul_fin, nsub_fin by lra. eauto.
Qed.

(** a table that starts at redshift 0 *)
Lemma C103_zero_lemma : forall Om0 w0 wa h z1 zs z, 0 < Om0 <= 1 -> 0 < h ->
  increasing (0 :: z1 :: zs) -> 0 <= z < z1 ->
  let table := map (fun z => distance_modulus_to_z (Fin z) (Fin Om0) (Fin w0) (Fin wa) (Fin h))
                   (0 :: z1 :: zs) in
  cosmological_dimming_from_table (Fin z) (fins (0 :: z1 :: zs)) table = NaN.
Proof.
  intros Om0 w0 wa h z1 zs z HO Hh Hi Hz table.
  destruct (C55_lemma Om0 w0 wa h HO Hh) as [D D0].
  destruct (D z1) as (dL & mu & _ & Em & _); [lra|].
  unfold cosmological_dimming_from_table.
  assert (E : interp (Fin z) (fins (0 :: z1 :: zs)) table = NaN).
  { unfold interp, interp_lr.
    assert (F1 : nltb (Fin z) (first (fins (0 :: z1 :: zs))) = false).
    { cbn. apply Rlt_bool_false. lra. }
    rewrite F1.
    assert (F2 : ngtb (Fin z) (last_ (fins (0 :: z1 :: zs))) = false).
    { unfold ngtb. rewrite last_fins by congruence. cbn [nltb]. apply Rlt_bool_false.
      assert (z1 <= ent (0 :: z1 :: zs) (length (0 :: z1 :: zs) - 1)); [|lra].
      change z1 with (ent (0 :: z1 :: zs) 1) at 1. apply increasing_le; auto; simpl; lia. }
    rewrite F2. unfold nwhere.
    unfold interp_core. rewrite count_le_fins.
    assert (C : length (filter (fun e => Rle_bool e z) (0 :: z1 :: zs)) = 1%nat).
    { cbn [filter]. rewrite Rle_bool_true by lra. rewrite Rle_bool_false by lra.
      replace (filter _ zs) with (@nil R); [reflexivity|].
      symmetry. clear - Hi Hz. assert (K : forall x, In x zs -> z < x).
      { intros x Hx. apply In_nth with (d := 0) in Hx as (k & Hk & <-).
        pose proof (Hi 1%nat (S (S k)) ltac:(simpl; lia)) as K. unfold ent in K. cbn [nth] in K. lra. }
      clear Hi. induction zs; [reflexivity|]. cbn [filter]. rewrite Rle_bool_false by (apply K; now left).
      apply IHzs. intros; apply K; now right. }
    rewrite C. rewrite fins_length. cbn [length clip_index Nat.max Nat.min Nat.sub].
    change (at_ (fins (0 :: z1 :: zs)) 1) with (Fin z1). change (at_ (fins (0 :: z1 :: zs)) 0) with (Fin 0).
    unfold table. cbn [map]. change (at_ (?a :: ?b :: ?l) 1) with b. change (at_ (?a :: ?l) 0) with a.
    rewrite D0, Em. rewrite !nsub_fin. cbn [nabs nleb nltb negb].
    change (@interp_eps exact) with 0. rewrite Rlt_bool_true by (apply Rabs_pos_lt; lra). cbn [negb].
    unfold nwhere. rewrite ndiv_fin by lra.
    cbn [nsub nopp nadd]. unfold nsub. cbn [nopp nadd nmul]. unfold inf_times.
    destruct (Rlt_bool 0 ((z - 0) / (z1 - 0))); [reflexivity|].
    destruct (Rlt_bool ((z - 0) / (z1 - 0)) 0) eqn:E; [|reflexivity].
    exfalso. destruct (Rlt_bool_spec ((z - 0) / (z1 - 0)) 0); [|discriminate].
    assert (0 <= (z - 0) / (z1 - 0)) by (apply Rdiv_le_0_compat'; lra). lra. }
  rewrite E. reflexivity.
Qed.
