(** * The dummy data, continued: spectra, luminosities, filters *)
From Coq Require Import Reals List Arith String Ascii ZArith Lra Lia Bool Permutation.
From Flocq Require Import Core.Raux.
From Verif Require Import Num Arr MUtils MSed MLoaders MFake Spec SpecApi SpecLoad RList LUtils LAge LBurst LPhot LMet LJoint LLoad LLoad2 LCosmo LFake.
Import ListNotations.
Open Scope R_scope.

(** ** C109 *)
Lemma dummy_wave_pos w : In w dummy_waves -> 100 <= w <= 20000.
Proof.
  unfold dummy_waves. rewrite in_map_iff. intros (i & <- & Hi). apply in_seq in Hi.
  pose proof (pos_INR i). assert (INR i <= 1962).
  { replace 1962 with (INR 1962) by (rewrite INR_IZR_INZ; reflexivity). apply le_INR. lia. }
  lra.
Qed.
Lemma C109_flux_lemma : forall n k c0 c1, (1 <= n)%nat -> is_matrix n k c0 -> is_matrix n k c1 ->
  exists f, fake_spec_ssp (map fins c0) (map fins c1) = Ok (map (map fins) f)
  /\ is_cube n k 1963 f
  /\ forall i j w, (i < n)%nat -> (j < k)%nat -> (w < 1963)%nat ->
     ent3 f i j w = pow10 (ent2 c0 i j + ent2 c1 i j * log10 (ent dummy_waves w))
     /\ 0 < ent3 f i j w.
Proof.
  intros n k c0 c1 Hn [L0 F0] [L1 F1].
  set (g := fun i j => map (fun w => pow10 (ent2 c0 i j + ent2 c1 i j * log10 w)) dummy_waves).
  exists (map (fun i => map (g i) (seq 0 k)) (seq 0 n)).
  assert (R0 : forall i, (i < n)%nat -> List.length (nth i c0 []) = k).
  { intros i Hi. rewrite Forall_forall in F0. apply F0, nth_In. lia. }
  assert (R1 : forall i, (i < n)%nat -> List.length (nth i c1 []) = k).
  { intros i Hi. rewrite Forall_forall in F1. apply F1, nth_In. lia. }
  assert (N : forall c i, nth i (map fins c) [] = fins (nth i c [])).
  { intros c i. change (@nil num) with (fins []). apply map_nth. }
  split.
  - unfold fake_spec_ssp, check. rewrite map_length, L0, !N, fins_length, R0 by lia.
    replace (forallb _ _) with true.
    2:{ symmetry. apply forallb_forall. intros i Hi. apply in_seq in Hi. rewrite N, fins_length, R1 by lia. apply Nat.leb_refl. }
    f_equal. rewrite map_map. apply map_ext_in. intros i Hi. apply in_seq in Hi. rewrite map_map. apply map_ext_in.
    intros j Hj. apply in_seq in Hj. unfold g. rewrite fake_wave_fins. unfold fins at 3 4. rewrite !map_map.
    apply map_ext_in. intros w Hw. apply dummy_wave_pos in Hw. rewrite !N.
    rewrite !at_fins by (rewrite ?R0, ?R1; lia). rewrite nlog10_fin, nmul_fin, nadd_fin, npow10_fin by lra. reflexivity.
  - assert (LW : List.length dummy_waves = 1963%nat) by (unfold dummy_waves; rewrite map_length, seq_length; reflexivity).
    split.
    + split; [rewrite map_length, seq_length; reflexivity|]. apply Forall_forall. intros m Hm.
      apply in_map_iff in Hm. destruct Hm as (i & <- & Hi). split; [rewrite map_length, seq_length; reflexivity|].
      apply Forall_forall. intros r Hr. apply in_map_iff in Hr. destruct Hr as (j & <- & Hj). unfold g. now rewrite map_length.
    + intros i j w Hi Hj Hw. unfold ent3, ent2.
      rewrite nth_map_gen with (d := 0%nat) by (rewrite seq_length; auto). rewrite seq_nth, Nat.add_0_l by auto.
      rewrite nth_map_gen with (d := 0%nat) by (rewrite seq_length; auto). rewrite seq_nth, Nat.add_0_l by auto.
      unfold g. rewrite ent_map by (rewrite LW; auto). split; [reflexivity|apply pow10_pos].
Qed.
Lemma n_low_lt n : (1 <= n)%nat -> (Z.to_nat (Zfloor (0.2 * INR n)) < n)%nat.
Proof.
  intros H. assert (0 <= 0.2 * INR n). { pose proof (pos_INR n). lra. }
  assert (K : (Zfloor (0.2 * INR n) < Z.of_nat n)%Z).
  { apply lt_IZR. eapply Rle_lt_trans; [apply Zfloor_lb|]. rewrite <- INR_IZR_INZ.
    assert (1 <= INR n) by (change 1 with (INR 1); apply le_INR; lia). lra. }
  lia.
Qed.
Lemma pow10_int_neg n : pow10 (- INR n) = / 10 ^ n.
Proof. unfold pow10. rewrite Rpower_Ropp, Rpower_pow by lra. reflexivity. Qed.
Lemma pow10_int n : pow10 (INR n) = 10 ^ n.
Proof. unfold pow10. now rewrite Rpower_pow by lra. Qed.
Lemma pow10_le x y : x <= y -> pow10 x <= pow10 y.
Proof. intros [H| ->]; [left; now apply pow10_lt|lra]. Qed.
Lemma lum_row n ul uh shuffle : (1 <= n)%nat -> (forall l, 0 <= ul l < 1) -> (forall l, 0 <= uh l < 1) ->
  (forall s, Permutation s (shuffle s)) ->
  exists r, map (fun x => nmul x L_SUN_CGS) (fake_lum_row n (fun l => Fin (ul l)) (fun l => Fin (uh l)) shuffle) = fins r
  /\ List.length r = n
  /\ (forall x, In x r -> / 10 ^ 70 * (3.828 * 10 ^ 33) <= x < 10 ^ 3 * (3.828 * 10 ^ 33))
  /\ exists x, In x r /\ 10 ^ 20 < x.
Proof.
  intros Hn Hl Hh Hs. unfold fake_lum_row. unlit. rewrite nmul_fin. unfold int_of.
  set (nl := Z.to_nat (Zfloor (0.2 * INR n))). pose proof (n_low_lt n Hn) as Hlt. fold nl in Hlt.
  set (low := map (fun i => pow10 (-70 + 68 * ul i)) (seq 0 nl)).
  set (high := map (fun i => pow10 (-2 + 5 * uh i)) (seq 0 (n - nl))).
  replace (_ ++ _)%list with (fins (low ++ high)).
  2:{ unfold fins, low, high. rewrite map_app, !map_map. f_equal; apply map_ext; intros i;
      unfold uniform; rewrite nsub_fin, nmul_fin, nadd_fin, npow10_fin; do 2 f_equal; lra. }
  destruct (Permutation_map_inv Fin _ (Permutation_sym (Hs (fins (low ++ high))))) as (r & Er & Pr).
  exists (map (fun x => x * (3.828 * 10 ^ 33)) r).
  assert (B : forall x, In x (low ++ high) -> / 10 ^ 70 <= x < 10 ^ 3).
  { intros x Hx. replace (/ 10 ^ 70) with (pow10 (-70)) by (rewrite <- (pow10_int_neg 70); f_equal; rewrite INR_IZR_INZ; simpl; lra).
    replace (10 ^ 3) with (pow10 3) by (rewrite <- (pow10_int 3); f_equal; simpl; lra).
    apply in_app_iff in Hx. destruct Hx as [Hx|Hx]; apply in_map_iff in Hx; destruct Hx as (i & <- & _).
    - specialize (Hl i). split; [apply pow10_le|apply pow10_lt]; lra.
    - specialize (Hh i). split; [apply pow10_le|apply pow10_lt]; lra. }
  split; [|split; [|split]].
  - rewrite Er. unfold fins. rewrite !map_map. apply map_ext. intros x. unfold L_SUN_CGS. unlit. now rewrite nmul_fin.
  - rewrite map_length, <- (Permutation_length Pr), app_length. unfold low, high. rewrite !map_length, !seq_length. lia.
  - intros x Hx. apply in_map_iff in Hx. destruct Hx as (y & <- & Hy).
    apply (Permutation_in _ (Permutation_sym Pr)) in Hy. apply B in Hy. split.
    + apply Rmult_le_compat_r; lra.
    + apply Rmult_lt_compat_r; lra.
  - exists (pow10 (-2 + 5 * uh 0%nat) * (3.828 * 10 ^ 33)). split.
    + apply (in_map (fun x => x * (3.828 * 10 ^ 33))). apply (Permutation_in _ Pr). apply in_app_iff. right.
      unfold high. apply (in_map (fun i => pow10 (-2 + 5 * uh i))). apply in_seq. lia.
    + assert (pow10 (-2) <= pow10 (-2 + 5 * uh 0%nat)) by (apply pow10_le; specialize (Hh 0%nat); lra).
      replace (pow10 (-2)) with (/ 10 ^ 2) in H by (rewrite <- (pow10_int_neg 2); f_equal; simpl; lra). lra.
Qed.
Definition strip (x : num) : R := match x with Fin r => r | _ => 0 end.
Lemma strip_fins l : map strip (fins l) = l.
Proof. unfold fins. rewrite map_map. cbn. apply map_id. Qed.
Lemma C109_lum_lemma : forall n k c0 n_line ul uh shuffle, (1 <= n)%nat -> is_matrix n k c0 -> (1 <= n_line)%nat ->
  (forall i j l, 0 <= ul i j l < 1) -> (forall i j l, 0 <= uh i j l < 1) ->
  (forall i j s, Permutation s (shuffle i j s)) ->
  exists lum, fake_emline_luminosity (map fins c0) n_line (fun i j l => Fin (ul i j l)) (fun i j l => Fin (uh i j l)) shuffle
              = fins3 lum
  /\ is_cube n k n_line lum
  /\ forall i j, (i < n)%nat -> (j < k)%nat ->
     (forall l, (l < n_line)%nat ->
        / 10 ^ 70 * (3.828 * 10 ^ 33) <= ent3 lum i j l < 10 ^ 3 * (3.828 * 10 ^ 33))
     /\ exists l, (l < n_line)%nat /\ 10 ^ 20 < ent3 lum i j l.
Proof.
  intros n k c0 n_line ul uh shuffle Hn [L0 F0] Hnl Hul Huh Hs.
  assert (N : nth 0 (map fins c0) [] = fins (nth 0 c0 [])) by (change (@nil num) with (fins []); apply map_nth).
  assert (R0 : List.length (nth 0 c0 []) = k). { rewrite Forall_forall in F0. apply F0, nth_In. lia. }
  unfold fake_emline_luminosity. rewrite N, fins_length, R0, map_length, L0.
  pose (g := fun i j => map (fun x => nmul x L_SUN_CGS)
     (fake_lum_row n_line (fun l => Fin (ul i j l)) (fun l => Fin (uh i j l)) (shuffle i j))).
  assert (G : forall i j, exists r, g i j = fins r /\ map strip (g i j) = r /\ List.length r = n_line
     /\ (forall x, In x r -> / 10 ^ 70 * (3.828 * 10 ^ 33) <= x < 10 ^ 3 * (3.828 * 10 ^ 33))
     /\ exists x, In x r /\ 10 ^ 20 < x).
  { intros i j. destruct (lum_row n_line (ul i j) (uh i j) (shuffle i j)) as (r & E & R); auto.
    exists r. split; [exact E|]. split; [unfold g; rewrite E; apply strip_fins|exact R]. }
  exists (map (fun i => map (fun j => map strip (g i j)) (seq 0 k)) (seq 0 n)). split; [|split].
  - unfold fins3. rewrite map_map. apply map_ext. intros i. rewrite map_map. apply map_ext. intros j.
    destruct (G i j) as (r & E & S & _). rewrite S. exact E.
  - split; [rewrite map_length, seq_length; reflexivity|]. apply Forall_forall. intros m Hm.
    apply in_map_iff in Hm. destruct Hm as (i & <- & Hi). split; [rewrite map_length, seq_length; reflexivity|].
    apply Forall_forall. intros r Hr. apply in_map_iff in Hr. destruct Hr as (j & <- & Hj).
    destruct (G i j) as (r & E & S & L & _). now rewrite S.
  - intros i j Hi Hj. unfold ent3, ent2.
    rewrite nth_map_gen with (d := 0%nat) by (rewrite seq_length; auto). rewrite seq_nth, Nat.add_0_l by auto.
    rewrite nth_map_gen with (d := 0%nat) by (rewrite seq_length; auto). rewrite seq_nth, Nat.add_0_l by auto.
    destruct (G i j) as (r & E & S & L & B & (x & Hx & Bx)). rewrite S. split.
    + intros l Hl. apply B, ent_In. lia.
    + apply In_nth with (d := 0) in Hx. destruct Hx as (l & Hl & <-). exists l. split; [lia|exact Bx].
Qed.

(** ** C110: filters *)
Lemma gauss_pos c s x : 0 < gauss c s x.
Proof. apply exp_pos. Qed.
Lemma gauss_sq c s x : 0 < s -> gauss c s x * gauss c s x <= 1 / (6 * (s * s)).
Proof.
  intros Hs. unfold gauss. rewrite <- exp_plus. assert (0 < s * s) by nra. assert (HP : 3 < PI) by (pose proof PI2_3_2; lra).
  assert (0 < 2 * PI * (s * s)) by (apply Rmult_lt_0_compat; lra).
  replace ((ln (2 * PI * (s * s)) + (x - c) * (x - c) / (s * s)) / -2 + (ln (2 * PI * (s * s)) + (x - c) * (x - c) / (s * s)) / -2)
    with (- ln (2 * PI * (s * s)) + - ((x - c) * (x - c) / (s * s))) by lra.
  rewrite exp_plus. rewrite <- ln_Rinv, exp_ln by (auto; apply Rinv_0_lt_compat; auto).
  assert (0 <= (x - c) * (x - c) / (s * s)).
  { apply Rmult_le_pos; [apply Rle_0_sqr|left; now apply Rinv_0_lt_compat]. }
  assert (exp (- ((x - c) * (x - c) / (s * s))) <= 1).
  { rewrite <- exp_0. match goal with H : 0 <= (x - c) * _ / _ |- _ => destruct H as [H| <-]; [left; apply exp_increasing; lra|rewrite Ropp_0; lra] end. }
  assert (/ (2 * PI * (s * s)) <= / (6 * (s * s))).
  { apply Rinv_le_contravar; [lra|]. apply Rmult_le_compat_r; lra. }
  assert (0 < / (2 * PI * (s * s))) by (now apply Rinv_0_lt_compat).
  pose proof (exp_pos (- ((x - c) * (x - c) / (s * s)))).
  apply Rle_trans with (/ (2 * PI * (s * s)) * 1); [apply Rmult_le_compat_l; lra|]. lra.
Qed.
Lemma gauss_lt c s x k : 0 < s -> 0 < k -> 1 / (6 * (s * s)) < (0.55 * k) * (0.55 * k) -> gauss c s x / k < 0.55.
Proof.
  intros Hs Hk H. pose proof (gauss_sq c s x Hs). pose proof (gauss_pos c s x).
  assert (gauss c s x < 0.55 * k).
  { destruct (Rlt_le_dec (gauss c s x) (0.55 * k)); auto. exfalso.
    assert ((0.55 * k) * (0.55 * k) <= gauss c s x * gauss c s x) by (apply Rmult_le_compat; lra). lra. }
  apply Rmult_lt_reg_r with k; auto. unfold Rdiv. rewrite Rmult_assoc, Rinv_l by lra. lra.
Qed.
Lemma gauss_peak c s x : 0 < s -> x <> c -> gauss c s x < gauss c s c.
Proof.
  intros Hs N. unfold gauss. apply exp_increasing. assert (0 < s * s) by nra.
  assert (0 < (x - c) * (x - c) / (s * s)).
  { apply Rdiv_lt_0_compat; auto. assert (x - c < 0 \/ 0 < x - c) by lra. nra. }
  replace ((c - c) * (c - c) / (s * s)) with 0 by (unfold Rdiv; ring). lra.
Qed.
Lemma lsst_fin c s k x : 0 < s -> 0 < k -> lsst_trans c s k (Fin x) = Fin (gauss c s x / k).
Proof. intros. unfold lsst_trans. unlit. rewrite norm_pdf_fin, ndiv_fin by lra. reflexivity. Qed.
Lemma C110_lemma : forall i, (i < 6)%nat -> exists T : R -> R,
  (forall x, nth i lsst_bands (fun _ => NaN) (Fin x) = Fin (T x))
  /\ (forall x, 0 < T x < 0.55)
  /\ (forall x, x <> ent lsst_centres i -> T x < T (ent lsst_centres i)).
Proof.
  assert (G : forall c s k, 0 < s -> 0 < k -> 1 / (6 * (s * s)) < (0.55 * k) * (0.55 * k) -> exists T : R -> R,
    (forall x, lsst_trans c s k (Fin x) = Fin (T x)) /\ (forall x, 0 < T x < 0.55) /\ (forall x, x <> c -> T x < T c)).
  { intros c s k Hs Hk H. exists (fun x => gauss c s x / k). split; [intros; now apply lsst_fin|]. split.
    - intros x. split; [apply Rdiv_lt_0_compat; [apply gauss_pos|auto]|now apply gauss_lt].
    - intros x N. apply Rmult_lt_compat_r; [now apply Rinv_0_lt_compat|now apply gauss_peak]. }
  intros i Hi. do 6 (destruct i as [|i]; [unfold lsst_centres, ent; cbn [nth lsst_bands]; apply G; lra|]). lia.
Qed.
Lemma validate_unit t : t <> [] -> (forall x, In x t -> 0 < x < 0.55) -> validate_transmission (fins t) = Ok (fins t).
Proof.
  intros N H. destruct (vmin_gen t N) as (m & E & I & M). rewrite (validate_fins t m N E).
  pose proof (H m I). rewrite Rlt_bool_false by lra. rewrite Rlt_bool_false by lra. do 2 f_equal.
  rewrite <- (map_id t) at 2. apply map_ext_in. intros x Hx. specialize (H x Hx).
  rewrite Rmax_right, Rmin_right; lra.
Qed.
Lemma band_curve i wave : (i < 6)%nat -> (forall w, In w wave -> 0 < w) -> wave <> [] -> exists t,
  map (fun w => nth i lsst_bands (fun _ => NaN) (nlog10 w)) (fins wave) = fins t
  /\ List.length t = List.length wave /\ (forall x, In x t -> 0 < x < 0.55)
  /\ (forall j, (j < List.length wave)%nat -> nth i lsst_bands (fun _ => NaN) (Fin (log10 (ent wave j))) = Fin (ent t j))
  /\ validate_transmission (fins t) = Ok (fins t).
Proof.
  intros Hi Hw Ne. destruct (C110_lemma i Hi) as (T & E & B & _).
  exists (map (fun w => T (log10 w)) wave).
  assert (B' : forall x, In x (map (fun w => T (log10 w)) wave) -> 0 < x < 0.55).
  { intros x Hx. apply in_map_iff in Hx. destruct Hx as (w & <- & _). apply B. }
  split; [|split; [apply map_length|split; [exact B'|split]]].
  - unfold fins. rewrite !map_map. apply map_ext_in. intros w H. rewrite nlog10_fin by auto. apply E.
  - intros j Hj. rewrite ent_map by auto. apply E.
  - apply validate_unit; auto. intros K. apply map_eq_nil in K. contradiction.
Qed.
Lemma C110_curves_lemma : exists curves,
  load_fake_filter_transmission_curves = (fins dummy_waves, map fins curves)
  /\ is_matrix 6 1963 curves
  /\ forall i, (i < 6)%nat ->
     (forall j, (j < 1963)%nat -> 0 < ent2 curves i j < 0.55
        /\ nth i lsst_bands (fun _ => NaN) (Fin (log10 (ent dummy_waves j))) = Fin (ent2 curves i j))
     /\ validate_transmission (fins (nth i curves [])) = Ok (fins (nth i curves [])).
Proof.
  assert (LW : List.length dummy_waves = 1963%nat) by (unfold dummy_waves; rewrite map_length, seq_length; reflexivity).
  assert (G : forall i, (i < 6)%nat -> exists t, map (fun w => nth i lsst_bands (fun _ => NaN) (nlog10 w)) (fins dummy_waves) = fins t
     /\ List.length t = 1963%nat /\ (forall x, In x t -> 0 < x < 0.55)
     /\ (forall j, (j < 1963)%nat -> nth i lsst_bands (fun _ => NaN) (Fin (log10 (ent dummy_waves j))) = Fin (ent t j))
     /\ validate_transmission (fins t) = Ok (fins t)).
  { intros i Hi. rewrite <- LW. apply band_curve; auto.
    - intros w Hw. apply dummy_wave_pos in Hw. lra.
    - intros K. rewrite K in LW. discriminate. }
  destruct (G 0%nat ltac:(lia)) as (t0 & E0 & P0). destruct (G 1%nat ltac:(lia)) as (t1 & E1 & P1).
  destruct (G 2%nat ltac:(lia)) as (t2 & E2 & P2). destruct (G 3%nat ltac:(lia)) as (t3 & E3 & P3).
  destruct (G 4%nat ltac:(lia)) as (t4 & E4 & P4). destruct (G 5%nat ltac:(lia)) as (t5 & E5 & P5). clear G.
  exists [t0; t1; t2; t3; t4; t5]. split; [|split].
  - unfold load_fake_filter_transmission_curves. rewrite fake_wave_fins. f_equal. cbn [map].
    rewrite <- E0, <- E1, <- E2, <- E3, <- E4, <- E5. reflexivity.
  - split; [reflexivity|]. repeat (constructor; [tauto|]). constructor.
  - intros i Hi. unfold ent2.
    do 6 (destruct i as [|i]; [cbn [nth]; match goal with |- context [fins ?t] =>
      match goal with H : List.length t = _ /\ _ |- _ => destruct H as (L & B & V & W) end end;
      split; [intros j Hj; split; [apply B, ent_In; lia|apply V; lia]|exact W]|]). lia.
Qed.
Lemma C110_tables_lemma : exists waves trans,
  fake_filter_waves = map fins waves /\ fake_filter_trans = map fins trans
  /\ is_matrix 6 1906 waves /\ is_matrix 6 1906 trans
  /\ forall i, (i < 6)%nat -> increasing (nth i waves [])
     /\ forall j, (j < 1906)%nat -> 0 < ent2 waves i j /\ 0 < ent2 trans i j < 0.55
        /\ nth i lsst_bands (fun _ => NaN) (Fin (log10 (ent2 waves i j))) = Fin (ent2 trans i j).
Proof.
  set (ranges := [(3200, 9084); (3200, 9085); (3200, 9086); (4084, 10987); (4084, 10988); (4085, 10989)]).
  set (W := fun p : R * R => lin (fst p) (snd p) 1906).
  assert (LL : forall p, List.length (W p) = 1906%nat) by (intros; unfold W, lin; rewrite map_length, seq_length; reflexivity).
  assert (HW : forall p, In p ranges -> increasing (W p) /\ forall w, In w (W p) -> 0 < w).
  { intros p Hp. assert (P : 0 < fst p < snd p) by (unfold ranges in Hp; cbn [In] in Hp; repeat (destruct Hp as [<-|Hp]; [cbn; lra|]); destruct Hp).
    assert (I95 : INR (1906 - 1) = 1905) by (change (1906 - 1)%nat with 1905%nat; rewrite INR_IZR_INZ; reflexivity).
    split.
    - apply increasing_step. rewrite LL. intros i Hi. unfold W, lin. rewrite !ent_map_seq by lia. rewrite !Nat.add_0_l, S_INR, I95.
      assert (INR i / 1905 < (INR i + 1) / 1905) by lra. nra.
    - intros w Hw. unfold W, lin in Hw. apply in_map_iff in Hw. destruct Hw as (i & <- & _). rewrite I95.
      pose proof (pos_INR i). assert (0 <= INR i / 1905) by lra. nra. }
  assert (G : forall i p, (i < 6)%nat -> In p ranges -> exists t,
     map (fun w => nth i lsst_bands (fun _ => NaN) (nlog10 w)) (fins (W p)) = fins t
     /\ List.length t = 1906%nat /\ (forall x, In x t -> 0 < x < 0.55)
     /\ (forall j, (j < 1906)%nat -> nth i lsst_bands (fun _ => NaN) (Fin (log10 (ent (W p) j))) = Fin (ent t j))).
  { intros i p Hi Hp. destruct (band_curve i (W p)) as (t & A & B & C & D & _); auto.
    - now apply HW.
    - intros K. specialize (LL p). rewrite K in LL. discriminate.
    - rewrite LL in *. eauto. }
  destruct (G 0%nat (3200, 9084) ltac:(lia) ltac:(unfold ranges; cbn; tauto)) as (t0 & E0 & L0 & B0 & V0).
  destruct (G 1%nat (3200, 9085) ltac:(lia) ltac:(unfold ranges; cbn; tauto)) as (t1 & E1 & L1 & B1 & V1).
  destruct (G 2%nat (3200, 9086) ltac:(lia) ltac:(unfold ranges; cbn; tauto)) as (t2 & E2 & L2 & B2 & V2).
  destruct (G 3%nat (4084, 10987) ltac:(lia) ltac:(unfold ranges; cbn; tauto)) as (t3 & E3 & L3 & B3 & V3).
  destruct (G 4%nat (4084, 10988) ltac:(lia) ltac:(unfold ranges; cbn; tauto)) as (t4 & E4 & L4 & B4 & V4).
  destruct (G 5%nat (4085, 10989) ltac:(lia) ltac:(unfold ranges; cbn; tauto)) as (t5 & E5 & L5 & B5 & V5). clear G.
  assert (EW : fake_filter_waves = map fins (map W ranges)).
  { unfold fake_filter_waves. fold ranges. rewrite map_map. apply map_ext. intros p. rewrite np_linspace_fins by lia. reflexivity. }
  exists (map W ranges), [t0; t1; t2; t3; t4; t5]. split; [exact EW|]. split; [|split; [|split]].
  - unfold fake_filter_trans. rewrite EW. unfold ranges, lsst_bands. cbn [map map2].
    rewrite <- E0, <- E1, <- E2, <- E3, <- E4, <- E5. reflexivity.
  - split; [reflexivity|]. apply Forall_forall. intros r Hr. apply in_map_iff in Hr. destruct Hr as (p & <- & _). apply LL.
  - split; [reflexivity|]. repeat (constructor; [assumption|]). constructor.
  - intros i Hi. unfold ent2.
    assert (Hp : In (nth i ranges (0, 0)) ranges) by (apply nth_In; exact Hi).
    assert (En : nth i (map W ranges) [] = W (nth i ranges (0, 0))) by (apply nth_map_gen; exact Hi).
    rewrite En. split; [now apply HW|]. intros j Hj. split; [apply (proj2 (HW _ Hp)), ent_In; rewrite LL; lia|].
    do 6 (destruct i as [|i]; [unfold ranges; cbn [nth];
      match goal with V : forall j, _ -> nth ?k lsst_bands _ _ = Fin (ent ?t j) |- context [ent ?t _] =>
        split; [match goal with B : forall x, In x t -> _ |- _ => apply B, ent_In; lia end|apply V; lia] end|]). lia.
Qed.

(** ** the whole record *)
Lemma C109_lemma : forall n k c0 c1 n_line r, (1 <= n)%nat -> is_matrix n k c0 -> is_matrix n k c1 ->
  (forall s, Permutation s (set_order r s)) ->
  exists flux, fake_spec_ssp (map fins c0) (map fins c1) = Ok (fins3 flux) /\ is_cube n k 1963 flux
  /\ (n_line = 0%nat ->
      load_fake_ssp_data (map fins c0) (map fins c1) n_line r
      = Some (Ok {| ssp_lgmet := D1 (fins (map log10 dummy_mets)); ssp_lg_age_gyr := D1 (fins dummy_ages);
                    ssp_wave := D1 (fins dummy_waves); ssp_flux := D3 (fins3 flux);
                    ssp_emline_wave := None; ssp_emline_luminosity := None |}))
  /\ ((1 <= n_line)%nat ->
      load_fake_ssp_data (map fins c0) (map fins c1) n_line r = None
      \/ exists lines,
         load_fake_ssp_data (map fins c0) (map fins c1) n_line r
         = Some (Ok {| ssp_lgmet := D1 (fins (map log10 dummy_mets)); ssp_lg_age_gyr := D1 (fins dummy_ages);
                       ssp_wave := D1 (fins dummy_waves); ssp_flux := D3 (fins3 flux);
                       ssp_emline_wave := Some lines;
                       ssp_emline_luminosity := Some (fake_emline_luminosity (map fins c0) n_line
                          (low_draws r) (high_draws r) (shuffles r)) |})
         /\ fake_emline_wave_namedtuple n_line (name_draws r) (set_order r) = Some (Ok lines)
         /\ List.length lines = n_line /\ field_names (map fst lines)).
Proof.
  intros n k c0 c1 n_line r Hn M0 M1 Hs.
  destruct (C109_flux_lemma n k c0 c1 Hn M0 M1) as (flux & E & Cu & _). exists flux. split; [exact E|]. split; [exact Cu|].
  unfold load_fake_ssp_data. rewrite E, fake_ages_fins, fake_mets_fins, fake_wave_fins. split.
  - intros ->. reflexivity.
  - intros H. destruct (C107_lemma n_line (name_draws r) (set_order r) H Hs) as [_ A].
    destruct n_line as [|m] eqn:En; [lia|]. rewrite <- En in *.
    destruct (fake_emline_wave_namedtuple n_line (name_draws r) (set_order r)) as [x|]; [|now left].
    right. destruct (A x eq_refl) as (lines & -> & L & ND & _ & F & _). exists lines.
    split; [reflexivity|]. split; [reflexivity|]. split; [exact L|]. split; [exact ND|].
    apply Forall_forall. intros s H'. now apply F.
Qed.
