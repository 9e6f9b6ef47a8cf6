(** * The triweight kernel (dsps/utils.py:56-110) *)
From Coq Require Import Reals List Arith Lra Lia.
From Coquelicot Require Import Coquelicot.
From Flocq Require Import Core.Raux.
From Verif Require Import Num Arr MUtils Spec RList LUtils LCalc.
Import ListNotations.
Open Scope R_scope.

(** the polynomial of the code *)
Definition tw_poly (z : R) : R := 1/2 + 35/96 * (z - z ^ 3 / 9 + z ^ 5 / 135 - z ^ 7 / 5103).
Definition tw_dens (z : R) : R := 35/96 * (1 - (z / 3) ^ 2) ^ 3.

Lemma tw_poly_derive z : is_derive tw_poly z (tw_dens z).
Proof. unfold tw_poly, tw_dens. auto_derive; [auto|]. field. Qed.
Lemma tw_poly_3 : tw_poly 3 = 1. Proof. unfold tw_poly. field. Qed.
Lemma tw_poly_m3 : tw_poly (-3) = 0. Proof. unfold tw_poly. field. Qed.
Lemma tw_dens_pos z : -3 < z < 3 -> 0 < tw_dens z.
Proof.
  intros H. unfold tw_dens. assert (0 < 1 - (z / 3) ^ 2) by nra.
  apply Rmult_lt_0_compat; [lra|]. now apply pow_lt.
Qed.
Lemma tw_poly_strict a b : -3 <= a -> a < b -> b <= 3 -> tw_poly a < tw_poly b.
Proof.
  intros. apply increasing_of_derive with (f' := tw_dens); auto.
  - intros. apply tw_poly_derive.
  - intros c Hc. apply tw_dens_pos. lra.
Qed.

Lemma tw_lo z : z <= -3 -> triweight_cdf z = 0.
Proof. intros. unfold triweight_cdf. destruct (Rle_dec z (-3)); [auto|lra]. Qed.
Lemma tw_hi z : 3 <= z -> triweight_cdf z = 1.
Proof.
  intros. unfold triweight_cdf. destruct (Rle_dec z (-3)); [lra|].
  destruct (Rle_dec 3 z); [auto|lra].
Qed.
Lemma tw_mid z : -3 <= z <= 3 -> triweight_cdf z = tw_poly z.
Proof.
  intros. unfold triweight_cdf. destruct (Rle_dec z (-3)).
  - assert (z = -3) by lra. subst. now rewrite tw_poly_m3.
  - destruct (Rle_dec 3 z); [|reflexivity]. assert (z = 3) by lra. subst. now rewrite tw_poly_3.
Qed.
Lemma tw_strict a b : a < b -> -3 < b -> a < 3 -> triweight_cdf a < triweight_cdf b.
Proof.
  intros H Hb Ha.
  assert (L : forall z, -3 <= z -> z < 3 -> tw_poly z < 1)
    by (intros; rewrite <- tw_poly_3; apply tw_poly_strict; lra).
  assert (L0 : forall z, -3 < z -> z <= 3 -> 0 < tw_poly z)
    by (intros; rewrite <- tw_poly_m3; apply tw_poly_strict; lra).
  destruct (Rle_dec a (-3)).
  - rewrite (tw_lo a) by auto. destruct (Rle_dec 3 b).
    + rewrite tw_hi by auto. lra.
    + rewrite tw_mid by lra. apply L0; lra.
  - rewrite (tw_mid a) by lra. destruct (Rle_dec 3 b).
    + rewrite tw_hi by auto. apply L; lra.
    + rewrite tw_mid by lra. apply tw_poly_strict; lra.
Qed.
Lemma tw_mono a b : a <= b -> triweight_cdf a <= triweight_cdf b.
Proof.
  intros [H| ->]; [|lra].
  destruct (Rle_dec b (-3)); [rewrite !tw_lo by lra; lra|].
  destruct (Rle_dec 3 a); [rewrite !tw_hi by lra; lra|].
  left. apply tw_strict; lra.
Qed.
Lemma tw_range z : 0 <= triweight_cdf z <= 1.
Proof.
  split.
  - destruct (Rle_dec z (-3)); [rewrite tw_lo by auto; lra|].
    rewrite <- (tw_lo (-3)) by lra. apply tw_mono. lra.
  - destruct (Rle_dec 3 z); [rewrite tw_hi by auto; lra|].
    rewrite <- (tw_hi 3) by lra. apply tw_mono. lra.
Qed.
Lemma tw_0 : triweight_cdf 0 = 1/2.
Proof. rewrite tw_mid by lra. unfold tw_poly. field. Qed.
Lemma tw_sym z : triweight_cdf (- z) = 1 - triweight_cdf z.
Proof.
  destruct (Rle_dec z (-3)); [rewrite (tw_hi (- z)), (tw_lo z) by lra; lra|].
  destruct (Rle_dec 3 z); [rewrite (tw_lo (- z)), (tw_hi z) by lra; lra|].
  rewrite !tw_mid by lra. unfold tw_poly. field.
Qed.

Lemma tw_kern_fin x m h : h <> 0 ->
  tw_cuml_kern (Fin x) (Fin m) (Fin h) = Fin (triweight_cdf ((x - m) / h)).
Proof.
  intros Hh. unfold tw_cuml_kern. rewrite nsub_fin, ndiv_fin by auto.
  set (z := (x - m) / h). rewrite !ipow_fin.
  change (Pos.to_nat 7) with 7%nat. change (Pos.to_nat 5) with 5%nat. change (Pos.to_nat 3) with 3%nat.
  rewrite !nmul_fin, !ndiv_fin by lra. rewrite !nadd_fin, nsub_fin, !nadd_fin.
  unfold ngtb. rewrite !nltb_fin. unfold nwhere.
  destruct (Rlt_bool_spec 3 z).
  - rewrite tw_hi by lra. reflexivity.
  - destruct (Rlt_bool_spec z (-3)).
    + rewrite tw_lo by lra. reflexivity.
    + rewrite tw_mid by lra. f_equal. unfold tw_poly. field.
Qed.

(** scatter zero: infinities of the right sign *)
Lemma ndiv_pos_0 x : 0 < x -> ndiv (Fin x) (Fin 0) = PInf.
Proof. intros. simpl. rewrite Req_bool_true, Rlt_bool_true; auto. Qed.
Lemma ndiv_neg_0 x : x < 0 -> ndiv (Fin x) (Fin 0) = NInf.
Proof. intros. simpl. rewrite Req_bool_true, Rlt_bool_false, Rlt_bool_true; auto; lra. Qed.
Lemma tw_kern_0_gt x m : m < x -> tw_cuml_kern (Fin x) (Fin m) (Fin 0) = Fin 1.
Proof.
  intros H. unfold tw_cuml_kern. rewrite nsub_fin, ndiv_pos_0 by lra. reflexivity.
Qed.
Lemma tw_kern_0_lt x m : x < m -> tw_cuml_kern (Fin x) (Fin m) (Fin 0) = Fin 0.
Proof.
  intros H. unfold tw_cuml_kern. rewrite nsub_fin, ndiv_neg_0 by lra. reflexivity.
Qed.
Lemma tw_kern_0_eq x : tw_cuml_kern (Fin x) (Fin x) (Fin 0) = NaN.
Proof.
  unfold tw_cuml_kern. rewrite nsub_fin. replace (x - x) with 0 by lra. rewrite ndiv_0_0.
  reflexivity.
Qed.

(** ** C22 *)
Lemma div_lt_iff a h c : 0 < h -> (a / h < c <-> a < c * h).
Proof.
  intros. split; intros.
  - apply Rmult_lt_reg_r with (/ h); [now apply Rinv_0_lt_compat|].
    replace (c * h * / h) with c by (field; lra). exact H0.
  - apply Rmult_lt_reg_r with h; auto. replace (a / h * h) with a by (field; lra). auto.
Qed.
Lemma div_le_iff a h c : 0 < h -> (a / h <= c <-> a <= c * h).
Proof.
  intros. split; intros.
  - apply Rmult_le_reg_r with (/ h); [now apply Rinv_0_lt_compat|].
    replace (c * h * / h) with c by (field; lra). exact H0.
  - apply Rmult_le_reg_r with h; auto. replace (a / h * h) with a by (field; lra). auto.
Qed.
Lemma le_div_iff a h c : 0 < h -> (c <= a / h <-> c * h <= a).
Proof.
  intros. split; intros.
  - apply Rmult_le_reg_r with (/ h); [now apply Rinv_0_lt_compat|].
    replace (c * h * / h) with c by (field; lra). exact H0.
  - apply Rmult_le_reg_r with h; auto. replace (a / h * h) with a by (field; lra). auto.
Qed.
Lemma lt_div_iff a h c : 0 < h -> (c < a / h <-> c * h < a).
Proof.
  intros. split; intros.
  - apply Rmult_lt_reg_r with (/ h); [now apply Rinv_0_lt_compat|].
    replace (c * h * / h) with c by (field; lra). exact H0.
  - apply Rmult_lt_reg_r with h; auto. replace (a / h * h) with a by (field; lra). auto.
Qed.

Lemma div_lt_mono a b h : 0 < h -> a < b -> a / h < b / h.
Proof. intros. apply Rmult_lt_compat_r; auto. now apply Rinv_0_lt_compat. Qed.
Lemma div_le_mono a b h : 0 < h -> a <= b -> a / h <= b / h.
Proof. intros. apply Rmult_le_compat_r; auto. left. now apply Rinv_0_lt_compat. Qed.

Lemma C22_lemma : forall m h, 0 < h -> exists cdf : R -> R,
  (forall x, tw_cuml_kern (Fin x) (Fin m) (Fin h) = Fin (cdf x))
  /\ (forall x, x <= m - 3 * h -> cdf x = 0)
  /\ (forall x, m + 3 * h <= x -> cdf x = 1)
  /\ cdf m = 1/2
  /\ (forall x, 0 <= cdf x <= 1)
  /\ (forall x y, x <= y -> cdf x <= cdf y)
  /\ (forall x y, m - 3 * h <= x -> x < y -> y <= m + 3 * h -> cdf x < cdf y)
  /\ (forall d, cdf (m - d) = 1 - cdf (m + d)).
Proof.
  intros m h Hh. exists (fun x => triweight_cdf ((x - m) / h)).
  split; [intros; apply tw_kern_fin; lra|].
  split; [intros; apply tw_lo; apply div_le_iff; lra|].
  split; [intros; apply tw_hi; apply le_div_iff; lra|].
  split; [replace ((m - m) / h) with 0 by (field; lra); apply tw_0|].
  split; [intros; apply tw_range|].
  split; [intros; apply tw_mono, div_le_mono; lra|].
  split.
  - intros x y H1 H2 H3. apply tw_strict.
    + apply div_lt_mono; lra.
    + apply lt_div_iff; lra.
    + apply div_lt_iff; lra.
  - intros d. rewrite <- tw_sym. f_equal. field. lra.
Qed.

(** ** C23: density *)
Lemma glue_derive (f g1 g2 : R -> R) (c l : R) : 
  (forall x, x <= c -> f x = g1 x) -> (forall x, c <= x -> f x = g2 x) ->
  is_derive g1 c l -> is_derive g2 c l -> is_derive f c l.
Proof.
  intros E1 E2 D1 D2. apply is_derive_Reals in D1. apply is_derive_Reals in D2.
  apply is_derive_Reals. intros eps Heps.
  destruct (D1 eps Heps) as [d1 H1]. destruct (D2 eps Heps) as [d2 H2].
  assert (Hd : 0 < Rmin d1 d2) by (apply Rmin_pos; [apply cond_pos|apply cond_pos]).
  exists (mkposreal _ Hd). intros h Hn Hh. simpl in Hh.
  destruct (Rle_dec h 0).
  - rewrite (E1 (c + h)), (E1 c) by lra. apply H1; auto.
    eapply Rlt_le_trans; [exact Hh|apply Rmin_l].
  - rewrite (E2 (c + h)), (E2 c) by lra. apply H2; auto.
    eapply Rlt_le_trans; [exact Hh|apply Rmin_r].
Qed.

Definition tw_density (z : R) : R := if Rlt_dec (-3) z then if Rlt_dec z 3 then tw_dens z else 0 else 0.

Lemma is_derive_const0 (c x : R) : is_derive (fun _ : R => c) x 0.
Proof. apply (is_derive_const c x). Qed.

Lemma tw_derive z : is_derive triweight_cdf z (tw_density z).
Proof.
  assert (D3 : tw_dens 3 = 0) by (unfold tw_dens; field).
  assert (Dm3 : tw_dens (-3) = 0) by (unfold tw_dens; field).
  unfold tw_density.
  destruct (Rlt_dec (-3) z) as [H1|H1]; [destruct (Rlt_dec z 3) as [H2|H2]|].
  - apply (is_derive_ext_loc tw_poly); [|apply tw_poly_derive].
    assert (He : 0 < Rmin (z + 3) (3 - z)) by (apply Rmin_pos; lra).
    exists (mkposreal _ He). intros y Hy. symmetry. apply tw_mid.
    unfold ball in Hy; simpl in Hy. unfold AbsRing_ball, abs, minus, plus, opp in Hy; simpl in Hy.
    apply Rabs_def2 in Hy. pose proof (Rmin_l (z + 3) (3 - z)). pose proof (Rmin_r (z + 3) (3 - z)). lra.
  - destruct (Req_dec z 3) as [->|Hne].
    + (* left: the polynomial near 3; right: constant 1 *)
      apply (is_derive_ext_loc (fun x => if Rle_dec x 3 then tw_poly x else 1)).
      * exists (mkposreal 1 Rlt_0_1). intros y Hy.
        unfold ball in Hy; simpl in Hy. unfold AbsRing_ball, abs, minus, plus, opp in Hy; simpl in Hy.
        apply Rabs_def2 in Hy. destruct (Rle_dec y 3); [rewrite tw_mid by lra; auto|rewrite tw_hi by lra; auto].
      * apply (glue_derive _ tw_poly (fun _ => 1)).
        -- intros x Hx. destruct (Rle_dec x 3); [auto|lra].
        -- intros x Hx. destruct (Rle_dec x 3); [|auto]. assert (x = 3) by lra. subst. apply tw_poly_3.
        -- rewrite <- D3. apply tw_poly_derive.
        -- apply is_derive_const0.
    + apply (is_derive_ext_loc (fun _ => 1)); [|apply is_derive_const0].
      assert (He : 0 < z - 3) by lra. exists (mkposreal _ He). intros y Hy. symmetry. apply tw_hi.
      unfold ball in Hy; simpl in Hy. unfold AbsRing_ball, abs, minus, plus, opp in Hy; simpl in Hy.
      apply Rabs_def2 in Hy. lra.
  - destruct (Req_dec z (-3)) as [->|Hne].
    + apply (is_derive_ext_loc (fun x => if Rle_dec x (-3) then 0 else tw_poly x)).
      * exists (mkposreal 1 Rlt_0_1). intros y Hy.
        unfold ball in Hy; simpl in Hy. unfold AbsRing_ball, abs, minus, plus, opp in Hy; simpl in Hy.
        apply Rabs_def2 in Hy. destruct (Rle_dec y (-3)); [rewrite tw_lo by lra; auto|rewrite tw_mid by lra; auto].
      * apply (glue_derive _ (fun _ => 0) tw_poly).
        -- intros x Hx. destruct (Rle_dec x (-3)); [auto|lra].
        -- intros x Hx. destruct (Rle_dec x (-3)); [|auto]. assert (x = -3) by lra. subst. symmetry. apply tw_poly_m3.
        -- apply is_derive_const0.
        -- rewrite <- Dm3. apply tw_poly_derive.
    + apply (is_derive_ext_loc (fun _ => 0)); [|apply is_derive_const0].
      assert (He : 0 < -3 - z) by lra. exists (mkposreal _ He). intros y Hy. symmetry. apply tw_lo.
      unfold ball in Hy; simpl in Hy. unfold AbsRing_ball, abs, minus, plus, opp in Hy; simpl in Hy.
      apply Rabs_def2 in Hy. lra.
Qed.

Definition pos_part (x : R) : R := (x + Rabs x) / 2.
Lemma pos_part_pos x : 0 <= x -> pos_part x = x.
Proof. intros. unfold pos_part. rewrite Rabs_pos_eq by auto. lra. Qed.
Lemma pos_part_neg x : x <= 0 -> pos_part x = 0.
Proof. intros. unfold pos_part. rewrite Rabs_left1 by auto. lra. Qed.
Lemma tw_density_alt z : tw_density z = 35/96 * pos_part (1 - (z / 3) ^ 2) ^ 3.
Proof.
  unfold tw_density. destruct (Rlt_dec (-3) z); [destruct (Rlt_dec z 3)|].
  - rewrite pos_part_pos by nra. reflexivity.
  - rewrite pos_part_neg by nra. ring.
  - rewrite pos_part_neg by nra. ring.
Qed.
Lemma tw_density_nonneg z : 0 <= tw_density z.
Proof.
  unfold tw_density. destruct (Rlt_dec (-3) z); [destruct (Rlt_dec z 3)|]; try lra.
  left. apply tw_dens_pos; lra.
Qed.
Lemma tw_density_continuous z : continuity_pt tw_density z.
Proof.
  apply continuity_pt_ext with (f := fun z => 35/96 * pos_part (1 - (z / 3) ^ 2) ^ 3).
  { intros; symmetry; apply tw_density_alt. }
  assert (C1 : continuity_pt (fun z => 1 - (z / 3) ^ 2) z).
  { apply derivable_continuous_pt. apply ex_derive_Reals_0. auto_derive. auto. }
  assert (C2 : continuity_pt (fun z => pos_part (1 - (z / 3) ^ 2)) z).
  { unfold pos_part, Rdiv. apply (continuity_pt_mult (fun z => 1 - (z * / 3) ^ 2 + Rabs (1 - (z * / 3) ^ 2)) (fun _ => / 2)).
    - apply (continuity_pt_plus (fun z => 1 - (z * / 3) ^ 2) (fun z => Rabs (1 - (z * / 3) ^ 2))); [exact C1|].
      apply (continuity_pt_comp (fun z => 1 - (z * / 3) ^ 2) Rabs); [exact C1|].
      apply Rcontinuity_abs.
    - apply continuity_pt_const. intros x y. reflexivity. }
  apply (continuity_pt_mult (fun _ => 35/96) (fun z => pos_part (1 - (z / 3) ^ 2) ^ 3)).
  - apply continuity_pt_const. intros x y. reflexivity.
  - apply (continuity_pt_comp (fun z => pos_part (1 - (z / 3) ^ 2)) (fun y => y ^ 3)); [exact C2|].
    apply derivable_continuous_pt, derivable_pt_pow.
Qed.

Lemma triweight_gaussian_fin x m h : h <> 0 ->
  triweight_gaussian (Fin x) (Fin m) (Fin h) = Fin (tw_density ((x - m) / h) / h).
Proof.
  intros Hh. unfold triweight_gaussian. rewrite nsub_fin, ndiv_fin by auto.
  set (z := (x - m) / h). rewrite ndiv_fin by lra. rewrite !ipow_fin.
  change (Pos.to_nat 2) with 2%nat. change (Pos.to_nat 3) with 3%nat.
  rewrite nsub_fin, ipow_fin. change (Pos.to_nat 3) with 3%nat.
  change (lit (35/96)) with (Fin (35/96)). rewrite nmul_fin, ndiv_fin by auto.
  unfold ngtb. rewrite !nltb_fin. unfold nwhere, tw_density.
  destruct (Rlt_bool_spec z (-3)); destruct (Rlt_bool_spec 3 z); simpl orb; cbv iota.
  - lra.
  - destruct (Rlt_dec (-3) z); [lra|]. f_equal. field. auto.
  - destruct (Rlt_dec (-3) z); [|f_equal; field; auto]. destruct (Rlt_dec z 3); [lra|]. f_equal. field. auto.
  - unfold tw_dens. destruct (Rlt_dec (-3) z).
    + destruct (Rlt_dec z 3); [reflexivity|]. assert (E : z = 3) by lra. rewrite E. f_equal. field. auto.
    + assert (E : z = -3) by lra. rewrite E. f_equal. field. auto.
Qed.

Lemma C23_lemma : forall m h, 0 < h -> exists cdf dens : R -> R,
  (forall x, tw_cuml_kern (Fin x) (Fin m) (Fin h) = Fin (cdf x))
  /\ (forall x, triweight_gaussian (Fin x) (Fin m) (Fin h) = Fin (dens x))
  /\ (forall x, 0 <= dens x)
  /\ (forall x, is_derive cdf x (dens x))
  /\ (forall a b, is_RInt dens a b (cdf b - cdf a))
  /\ (forall a b, a <= m - 3 * h -> m + 3 * h <= b -> is_RInt dens a b 1).
Proof.
  intros m h Hh.
  set (cdf := fun x => triweight_cdf ((x - m) / h)).
  set (dens := fun x => tw_density ((x - m) / h) / h).
  assert (D : forall x, is_derive cdf x (dens x)).
  { intros x. unfold cdf, dens.
    replace (tw_density ((x - m) / h) / h) with (scal (/ h) (tw_density ((x - m) / h)))
      by (unfold scal; simpl; unfold mult; simpl; field; lra).
    apply (is_derive_comp triweight_cdf (fun x => (x - m) / h)); [apply tw_derive|].
    auto_derive; [lra|]. field. lra. }
  assert (I : forall a b, is_RInt dens a b (cdf b - cdf a)).
  { intros a b. apply (is_RInt_derive cdf dens).
    - intros x _. apply D.
    - intros x _. apply continuity_pt_filterlim. unfold dens, Rdiv.
      apply (continuity_pt_mult (fun x => tw_density ((x - m) * / h)) (fun _ => / h)).
      + apply (continuity_pt_comp (fun x => (x - m) * / h) tw_density).
        * apply derivable_continuous_pt, ex_derive_Reals_0. auto_derive. auto.
        * apply tw_density_continuous.
      + apply continuity_pt_const. intros ? ?. reflexivity. }
  exists cdf, dens. split; [intros; apply tw_kern_fin; lra|].
  split; [intros; apply triweight_gaussian_fin; lra|].
  split. { intros x. unfold dens. apply Rdiv_le_0_compat'; auto. apply tw_density_nonneg. }
  split; [exact D|]. split; [exact I|].
  intros a b Ha Hb. replace 1 with (cdf b - cdf a); [apply I|].
  unfold cdf. rewrite tw_hi by (apply le_div_iff; lra). rewrite tw_lo by (apply div_le_iff; lra). lra.
Qed.

(** ** C24: triweighted histogram *)
Definition tw_hist (x h : R) (edges : list R) : list R :=
  map2 (fun lo hi => triweight_cdf ((x - lo) / h) - triweight_cdf ((x - hi) / h)) edges (tl edges).
Lemma tw_hist_fins x h edges : h <> 0 ->
  triweighted_histogram (Fin x) (Fin h) (fins edges) = fins (tw_hist x h edges).
Proof.
  intros Hh. unfold triweighted_histogram, tw_hist. rewrite <- fins_tl. apply map2_fins'.
  intros lo hi. unfold triweighted_histogram_kernel. rewrite !tw_kern_fin by auto. reflexivity.
Qed.
Lemma tw_hist_length x h edges : length (tw_hist x h edges) = (length edges - 1)%nat.
Proof. unfold tw_hist. rewrite map2_length, tl_length. lia. Qed.
Lemma tw_hist_ent x h edges k : (S k < length edges)%nat ->
  ent (tw_hist x h edges) k =
  triweight_cdf ((x - ent edges k) / h) - triweight_cdf ((x - ent edges (S k)) / h).
Proof.
  intros. unfold tw_hist. rewrite ent_map2 by (rewrite ?tl_length; lia).
  unfold ent. now rewrite tl_nth.
Qed.
Lemma tw_hist_sum x h edges : edges <> [] ->
  Rsum (tw_hist x h edges) =
  triweight_cdf ((x - ent edges 0) / h) - triweight_cdf ((x - ent edges (length edges - 1)) / h).
Proof.
  destruct edges as [|e edges]; [congruence|]. intros _.
  revert e; induction edges as [|e1 edges IH]; intros e; [simpl; lra|].
  change (tw_hist x h (e :: e1 :: edges)) with
    ((triweight_cdf ((x - e) / h) - triweight_cdf ((x - e1) / h)) :: tw_hist x h (e1 :: edges)).
  cbn [Rsum]. rewrite IH.
  replace (ent (e :: e1 :: edges) (length (e :: e1 :: edges) - 1))
    with (ent (e1 :: edges) (length (e1 :: edges) - 1))
    by (cbn [length]; rewrite !Nat.sub_succ, !Nat.sub_0_r; reflexivity).
  rewrite !ent_0. lra.
Qed.
Lemma tw_hist_nonneg x h edges : 0 < h -> nondecreasing edges ->
  List.Forall (fun w => 0 <= w <= 1) (tw_hist x h edges).
Proof.
  intros Hh Hi. apply Forall_ent. rewrite tw_hist_length. intros k Hk.
  rewrite tw_hist_ent by lia.
  assert (ent edges k <= ent edges (S k)) by (apply Hi; lia).
  pose proof (tw_mono ((x - ent edges (S k)) / h) ((x - ent edges k) / h)
    ltac:(apply div_le_mono; lra)).
  pose proof (tw_range ((x - ent edges k) / h)). pose proof (tw_range ((x - ent edges (S k)) / h)).
  lra.
Qed.

Lemma C24_lemma : forall x h edges, 0 < h -> (1 <= length edges)%nat -> nondecreasing edges ->
  let first := ent edges 0 in
  let last := ent edges (length edges - 1) in
  exists w,
    triweighted_histogram (Fin x) (Fin h) (fins edges) = fins w
    /\ length w = (length edges - 1)%nat
    /\ List.Forall (fun v => 0 <= v <= 1) w
    /\ Rsum w = triweight_cdf ((x - first) / h) - triweight_cdf ((x - last) / h)
    /\ (first <= x - 3 * h -> x + 3 * h <= last -> Rsum w = 1).
Proof.
  intros x h edges Hh Hl Hi first last. exists (tw_hist x h edges).
  split; [apply tw_hist_fins; lra|]. split; [apply tw_hist_length|].
  split; [now apply tw_hist_nonneg|].
  assert (E := tw_hist_sum x h edges (nil_neq_len _ Hl)). split; [exact E|].
  intros H1 H2. rewrite E. rewrite tw_hi by (apply le_div_iff; unfold first in *; lra).
  rewrite tw_lo by (apply div_le_iff; unfold last in *; lra). lra.
Qed.
