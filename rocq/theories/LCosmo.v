(** * Cosmology (dsps/cosmology/flat_wcdm.py) *)
From Coq Require Import Reals List Arith Lra Lia Bool.
From Coquelicot Require Import Coquelicot.
From Flocq Require Import Core.Raux.
From Verif Require Import Num Arr MUtils MCosmo Spec SpecApi RList LUtils LCalc LKern LKern2 LBurst LDust.
Import ListNotations.
Open Scope R_scope.

(** ** quadrature tables *)
Definition grid (n : nat) (z : R) : list R := map (fun i => z * (INR i / INR (n - 1))) (seq 0 n).
Lemma grid_length n z : length (grid n z) = n.
Proof. unfold grid. now rewrite map_length, seq_length. Qed.
Lemma grid_ent n z i : (i < n)%nat -> ent (grid n z) i = z * (INR i / INR (n - 1)).
Proof. intros H. unfold grid. rewrite ent_map_seq by auto. now rewrite Nat.add_0_l. Qed.
Lemma INR_n1 n : (2 <= n)%nat -> 0 < INR (n - 1).
Proof. intros H. apply lt_0_INR. lia. Qed.
Lemma linspace_fins n z : (2 <= n)%nat -> linspace (Fin 0) (Fin z) n = fins (grid n z).
Proof.
  intros Hn. unfold linspace, grid, fins. rewrite map_map.
  replace (seq 0 n) with (seq 0 (n - 1) ++ [(n - 1)%nat]).
  2:{ replace n with (S (n - 1)) at 3 by lia. rewrite seq_S. now rewrite Nat.add_0_l. }
  rewrite map_app. pose proof (INR_n1 n Hn). f_equal.
  - apply map_ext. intros i. rewrite ndiv_fin, nsub_fin, !nmul_fin, nadd_fin by lra. f_equal. lra.
  - simpl map. do 2 f_equal. field. lra.
Qed.
Lemma grid_range n z i : (2 <= n)%nat -> (i < n)%nat -> 0 <= z -> 0 <= ent (grid n z) i <= z.
Proof.
  intros Hn Hi Hz. rewrite grid_ent by auto. pose proof (INR_n1 n Hn). pose proof (pos_INR i).
  assert (INR i <= INR (n - 1)) by (apply le_INR; lia).
  assert (0 <= INR i / INR (n - 1) <= 1).
  { split; [apply le_div_iff; lra|apply div_le_iff; lra]. }
  nra.
Qed.
Lemma grid_gt n z i : (2 <= n)%nat -> (i < n)%nat -> -1 < z -> -1 < ent (grid n z) i.
Proof.
  intros Hn Hi Hz. destruct (Rle_or_lt 0 z); [pose proof (grid_range n z i Hn Hi H); lra|].
  rewrite grid_ent by auto. pose proof (INR_n1 n Hn). pose proof (pos_INR i).
  assert (INR i <= INR (n - 1)) by (apply le_INR; lia).
  assert (0 <= INR i / INR (n - 1) <= 1).
  { split; [apply le_div_iff; lra|apply div_le_iff; lra]. }
  nra.
Qed.
Lemma grid_0 n z : (2 <= n)%nat -> ent (grid n z) 0 = 0.
Proof. intros H. rewrite grid_ent by lia. simpl INR at 1. unfold Rdiv. lra. Qed.
Lemma grid_last n z : (2 <= n)%nat -> ent (grid n z) (n - 1) = z.
Proof. intros H. rewrite grid_ent by lia. pose proof (INR_n1 n H). field. lra. Qed.
Lemma grid_step n z i : (2 <= n)%nat -> (S i < n)%nat -> ent (grid n z) (S i) - ent (grid n z) i = z / INR (n - 1).
Proof. intros H Hi. rewrite !grid_ent by lia. rewrite S_INR. pose proof (INR_n1 n H). field. lra. Qed.
Lemma grid_increasing n z : (2 <= n)%nat -> 0 < z -> increasing (grid n z).
Proof.
  intros H Hz. apply increasing_step. intros i Hi. rewrite grid_length in Hi.
  pose proof (grid_step n z i H ltac:(lia)). pose proof (INR_n1 n H).
  assert (0 < z / INR (n - 1)) by (apply Rdiv_lt_0_compat; auto). lra.
Qed.

Definition quad (n : nat) (f : R -> R) (z : R) : R := trapezoid (grid n z) (map f (grid n z)).
Lemma quad_fins n f g z : (2 <= n)%nat ->
  (forall x, In x (grid n z) -> f (Fin x) = Fin (g x)) ->
  trapz_k (linspace (Fin 0) (Fin z) n) (map f (linspace (Fin 0) (Fin z) n)) = Fin (quad n g z).
Proof.
  intros Hn H. rewrite linspace_fins by auto. rewrite (map_fins f g) by auto.
  rewrite trapz_fins by (now rewrite map_length). reflexivity.
Qed.
Lemma trapezoid_const xs c : xs <> [] -> trapezoid xs (map (fun _ => c) xs) = c * (ent xs (length xs - 1) - ent xs 0).
Proof.
  induction xs as [|x xs IH]; [congruence|]. intros _. destruct xs as [|x1 xs]; [simpl; unfold ent; simpl; lra|].
  cbn [map] in *. rewrite trapezoid_cons2. rewrite IH by discriminate.
  replace (length (x :: x1 :: xs) - 1)%nat with (S (length (x1 :: xs) - 1)) by (simpl; lia).
  rewrite ent_cons_S. rewrite (ent_0 x), (ent_0 x1). lra.
Qed.
Lemma trapezoid_pos xs : forall ys, length xs = length ys -> (2 <= length xs)%nat -> increasing xs ->
  List.Forall (fun y => 0 < y) ys -> 0 < trapezoid xs ys.
Proof.
  induction xs as [|x xs IH]; intros [|y ys] H L I P; try (simpl in *; lia).
  destruct xs as [|x1 xs], ys as [|y1 ys]; try (simpl in *; lia).
  inversion P as [|? ? P0 P1]; subst. inversion P1 as [|? ? P2 P3]; subst.
  pose proof (I 0%nat 1%nat ltac:(simpl; lia)) as I0. unfold ent in I0; simpl in I0.
  assert (0 < (x1 - x) * (y + y1) / 2) by nra. rewrite trapezoid_cons2.
  destruct xs as [|x2 xs].
  - destruct ys; [|discriminate]. simpl. lra.
  - assert (0 < trapezoid (x1 :: x2 :: xs) (y1 :: ys)); [|lra].
    apply IH; [simpl in *; lia|simpl; lia|eapply increasing_tl; eauto|auto].
Qed.
Lemma grid_ne n z : (2 <= n)%nat -> grid n z <> [].
Proof. intros H E. apply (f_equal (@length R)) in E. rewrite grid_length in E. simpl in E. lia. Qed.
Lemma quad_0 n f : (2 <= n)%nat -> quad n f 0 = 0.
Proof.
  intros H. unfold quad. rewrite (map_ext_in _ (fun _ => f 0)).
  - rewrite trapezoid_const by (now apply grid_ne). rewrite grid_length, grid_last, grid_0 by auto. lra.
  - intros x Hx. unfold grid in Hx. apply in_map_iff in Hx. destruct Hx as (i & <- & _). f_equal. lra.
Qed.
Lemma grid_In n z x : In x (grid n z) -> exists i, (i < n)%nat /\ x = ent (grid n z) i.
Proof. intros H. apply In_ent in H. destruct H as (i & Hi & E). rewrite grid_length in Hi. eauto. Qed.
Lemma quad_pos n f z : (2 <= n)%nat -> 0 < z -> (forall x, 0 <= x <= z -> 0 < f x) -> 0 < quad n f z.
Proof.
  intros Hn Hz P. unfold quad. apply trapezoid_pos.
  - now rewrite map_length.
  - now rewrite grid_length.
  - now apply grid_increasing.
  - apply List.Forall_forall. intros y Hy. apply in_map_iff in Hy. destruct Hy as (x & <- & Hx).
    apply grid_In in Hx. destruct Hx as (i & Hi & ->). apply P. apply grid_range; auto; lra.
Qed.
Lemma quad_bounds n f z lo hi : (2 <= n)%nat -> 0 <= z -> (forall x, 0 <= x <= z -> lo <= f x <= hi) ->
  lo * z <= quad n f z <= hi * z.
Proof.
  intros Hn Hz P. unfold quad.
  assert (N : nondecreasing (grid n z)).
  { apply nondecreasing_step. intros i Hi. rewrite grid_length in Hi.
    pose proof (grid_step n z i Hn ltac:(lia)). pose proof (INR_n1 n Hn).
    assert (0 <= z / INR (n - 1)) by (apply le_div_iff; lra). lra. }
  assert (E : forall c, trapezoid (grid n z) (map (fun _ => c) (grid n z)) = c * z).
  { intros c. rewrite trapezoid_const, grid_length, grid_last, grid_0 by (auto using grid_ne). lra. }
  rewrite <- (E lo), <- (E hi).
  assert (G : forall i, (i < length (grid n z))%nat -> lo <= f (ent (grid n z) i) <= hi).
  { intros i Hi. rewrite grid_length in Hi. apply P. apply grid_range; auto. }
  split; apply trapezoid_mono; auto; try (now rewrite map_length);
    intros i Hi; rewrite !ent_map by auto; apply G; auto.
Qed.

(** quadrature error for a non-increasing integrand *)
Lemma trapezoid_error xs : forall (f : R -> R), xs <> [] -> increasing xs ->
  (forall x y, ent xs 0 <= x -> x <= y -> y <= ent xs (length xs - 1) -> f y <= f x) ->
  (forall x, ent xs 0 <= x <= ent xs (length xs - 1) -> continuous f x) ->
  forall d, (forall i, (S i < length xs)%nat -> gap xs i <= d) ->
  Rabs (trapezoid xs (map f xs) - RInt f (ent xs 0) (ent xs (length xs - 1)))
    <= d / 2 * (f (ent xs 0) - f (ent xs (length xs - 1))).
Proof.
  induction xs as [|x xs IH]; [congruence|]. intros f _ I M C d D.
  destruct xs as [|x1 xs].
  { unfold ent; simpl. rewrite RInt_point. unfold zero; simpl. rewrite Rminus_0_r, Rabs_R0. lra. }
  specialize (IH f ltac:(discriminate) (increasing_tl _ _ I)).
  change (map f (x :: x1 :: xs)) with (f x :: f x1 :: map f xs). rewrite trapezoid_cons2.
  change (f x1 :: map f xs) with (map f (x1 :: xs)).
  replace (length (x :: x1 :: xs) - 1)%nat with (S (length (x1 :: xs) - 1)) in * by (simpl; lia).
  rewrite ent_cons_S in *. rewrite (ent_0 x) in *. rewrite (ent_0 x1) in *.
  set (b := ent (x1 :: xs) (length (x1 :: xs) - 1)) in *.
  assert (X01 : x < x1). { pose proof (I 0%nat 1%nat ltac:(simpl; lia)) as I0. exact I0. }
  assert (X1b : x1 <= b).
  { unfold b. pose proof (increasing_le (x1 :: xs) 0 (length (x1 :: xs) - 1) (increasing_tl _ _ I)) as H.
    rewrite ent_0 in H. apply H; simpl; lia. }
  specialize (IH ltac:(intros; apply M; lra) ltac:(intros; apply C; lra) d
    ltac:(intros i Hi; apply (D (S i)); simpl in *; lia)).
  assert (EX : forall a c, x <= a -> a <= c -> c <= b -> ex_RInt f a c).
  { intros a c Ha Hac Hc. apply (ex_RInt_continuous (V := R_CompleteNormedModule)). intros y Hy.
    rewrite Rmin_left, Rmax_right in Hy by lra. apply C. lra. }
  assert (CH : RInt f x b = RInt f x x1 + RInt f x1 b).
  { symmetry. apply (RInt_Chasles (V := R_CompleteNormedModule)); apply EX; lra. }
  assert (LO : (x1 - x) * f x1 <= RInt f x x1).
  { replace ((x1 - x) * f x1) with (RInt (fun _ => f x1) x x1)
      by (rewrite RInt_const; unfold scal; simpl; unfold mult; simpl; reflexivity).
    apply RInt_le; [lra|apply ex_RInt_const|apply EX; lra|]. intros y Hy. apply M; lra. }
  assert (HI : RInt f x x1 <= (x1 - x) * f x).
  { replace ((x1 - x) * f x) with (RInt (fun _ => f x) x x1)
      by (rewrite RInt_const; unfold scal; simpl; unfold mult; simpl; reflexivity).
    apply RInt_le; [lra|apply EX; lra|apply ex_RInt_const|]. intros y Hy. apply M; lra. }
  pose proof (D 0%nat ltac:(simpl; lia)) as D0. unfold gap, ent in D0. simpl in D0.
  assert (F01 : f x1 <= f x) by (apply M; lra).
  rewrite CH. apply Rabs_le_between in IH. apply Rabs_le_between. split; nra.
Qed.
Lemma quad_error n f z : (2 <= n)%nat -> 0 < z ->
  (forall x y, 0 <= x -> x <= y -> y <= z -> f y <= f x) ->
  (forall x, 0 <= x <= z -> continuous f x) ->
  Rabs (quad n f z - RInt f 0 z) <= z / INR (n - 1) / 2 * (f 0 - f z).
Proof.
  intros Hn Hz M C. unfold quad.
  pose proof (trapezoid_error (grid n z) f (grid_ne n z Hn) (grid_increasing n z Hn Hz)) as T.
  rewrite grid_length, grid_last, grid_0 in T by auto. apply T; auto.
  intros i Hi. unfold gap. rewrite grid_step; auto. lra.
Qed.

(** ** expansion rate *)
Definition de (w0 wa z : R) : R := Rpower (1 / (1 + z)) (-3 * (1 + w0 + wa)) * exp (-3 * wa * (1 - 1 / (1 + z))).
Lemma de_eq w0 wa z : -1 < z -> de w0 wa z = dark_energy w0 wa z.
Proof.
  intros H. unfold de, dark_energy. f_equal.
  - unfold Rpower. f_equal. replace (1 / (1 + z)) with (/ (1 + z)) by lra. rewrite ln_Rinv by lra. lra.
  - f_equal. field. lra.
Qed.
Lemma de_pos w0 wa z : 0 < dark_energy w0 wa z.
Proof. apply Rmult_lt_0_compat; apply exp_pos. Qed.
Lemma rho_de_fin w0 wa z : -1 < z -> rho_de_z (Fin z) (Fin w0) (Fin wa) = Fin (dark_energy w0 wa z).
Proof.
  intros H. rewrite <- de_eq by auto. unfold rho_de_z. rewrite nadd_fin, ndiv_fin by lra.
  rewrite !nadd_fin, !nmul_fin, nsub_fin, nmul_fin, nexp_fin, npow_fin; [now rewrite nmul_fin|].
  apply Rdiv_lt_0_compat; lra.
Qed.
Lemma E2_pos Om0 w0 wa z : 0 < Om0 <= 1 -> -1 < z -> 0 < Om0 * (1 + z) ^ 3 + (1 - Om0) * dark_energy w0 wa z.
Proof.
  intros HO Hz. pose proof (de_pos w0 wa z). assert (0 < (1 + z) ^ 3) by (apply pow_lt; lra). nra.
Qed.
Lemma Ez_fin Om0 w0 wa z : 0 < Om0 <= 1 -> -1 < z -> Ez (Fin z) (Fin Om0) (Fin w0) (Fin wa) = Fin (expansion Om0 w0 wa z).
Proof.
  intros HO Hz. unfold Ez. rewrite rho_de_fin by auto. rewrite !nadd_fin, ipow_fin, nsub_fin, !nmul_fin, nadd_fin.
  change (Pos.to_nat 3) with 3%nat. apply nsqrt_fin. pose proof (E2_pos Om0 w0 wa z HO Hz). lra.
Qed.
Lemma E_pos Om0 w0 wa z : 0 < Om0 <= 1 -> -1 < z -> 0 < expansion Om0 w0 wa z.
Proof. intros HO Hz. apply sqrt_lt_R0. now apply E2_pos. Qed.
Lemma E_0 Om0 w0 wa : expansion Om0 w0 wa 0 = 1.
Proof.
  unfold expansion, dark_energy. replace (0 / (1 + 0)) with 0 by lra. rewrite Rmult_0_r, exp_0.
  rewrite Rplus_0_r. unfold Rpower. rewrite ln_1, Rmult_0_r, exp_0.
  replace (Om0 * 1 ^ 3 + (1 - Om0) * (1 * 1)) with 1 by ring. apply sqrt_1.
Qed.
Lemma de_lcdm z : dark_energy (-1) 0 z = 1.
Proof.
  unfold dark_energy. replace (3 * (1 + -1 + 0)) with 0 by lra. replace (-3 * 0 * (z / (1 + z))) with 0 by lra.
  unfold Rpower. rewrite Rmult_0_l, exp_0. lra.
Qed.
Lemma E_lcdm Om0 z : expansion Om0 (-1) 0 z = sqrt (Om0 * (1 + z) ^ 3 + (1 - Om0)).
Proof. unfold expansion. rewrite de_lcdm. f_equal. lra. Qed.
Lemma E_lcdm_lt Om0 x y : 0 < Om0 <= 1 -> -1 < x < y -> expansion Om0 (-1) 0 x < expansion Om0 (-1) 0 y.
Proof.
  intros HO H. rewrite !E_lcdm. apply sqrt_lt_1_alt.
  assert ((1 + x) ^ 3 < (1 + y) ^ 3).
  { assert (0 < (1 + y - (1 + x)) * ((1 + x) ^ 2 + (1 + x) * (1 + y) + (1 + y) ^ 2)) by (apply Rmult_lt_0_compat; nra). lra. }
  assert (0 < (1 + x) ^ 3) by (apply pow_lt; lra). nra.
Qed.
Lemma E_lcdm_le Om0 x y : 0 < Om0 <= 1 -> -1 < x <= y -> expansion Om0 (-1) 0 x <= expansion Om0 (-1) 0 y.
Proof. intros HO [H [L| ->]]; [left; apply E_lcdm_lt; auto|lra]. Qed.

Lemma C52_lemma : forall Om0 w0 wa, 0 < Om0 <= 1 -> exists E : R -> R,
  (forall z, -1 < z -> Ez (Fin z) (Fin Om0) (Fin w0) (Fin wa) = Fin (E z))
  /\ (forall z, -1 < z -> E z = expansion Om0 w0 wa z)
  /\ E 0 = 1
  /\ (forall z, -1 < z -> 0 < E z)
  /\ (w0 = -1 -> wa = 0 -> forall x y, -1 < x < y -> E x < E y).
Proof.
  intros Om0 w0 wa HO. exists (expansion Om0 w0 wa).
  split; [intros; now apply Ez_fin|]. split; [auto|]. split; [apply E_0|].
  split; [intros; now apply E_pos|]. intros -> ->. intros. now apply E_lcdm_lt.
Qed.

(** ** distances *)
Definition f1 (Om0 w0 wa z : R) : R := 1 / expansion Om0 w0 wa z.
Definition f2 (Om0 w0 wa z : R) : R := 1 / expansion Om0 w0 wa z / (1 + z).
Lemma f1_pos Om0 w0 wa z : 0 < Om0 <= 1 -> -1 < z -> 0 < f1 Om0 w0 wa z.
Proof. intros. apply Rdiv_lt_0_compat; [lra|now apply E_pos]. Qed.
Lemma f2_pos Om0 w0 wa z : 0 < Om0 <= 1 -> -1 < z -> 0 < f2 Om0 w0 wa z.
Proof. intros. apply Rdiv_lt_0_compat; [now apply f1_pos|lra]. Qed.
Lemma f1_fin Om0 w0 wa z : 0 < Om0 <= 1 -> -1 < z -> integrand_oneOverEz (Fin z) (Fin Om0) (Fin w0) (Fin wa) = Fin (f1 Om0 w0 wa z).
Proof.
  intros HO Hz. unfold integrand_oneOverEz. rewrite Ez_fin by auto. apply ndiv_fin. pose proof (E_pos Om0 w0 wa z HO Hz). lra.
Qed.
Lemma f2_fin Om0 w0 wa z : 0 < Om0 <= 1 -> -1 < z ->
  ndiv (ndiv (Fin 1) (Ez (Fin z) (Fin Om0) (Fin w0) (Fin wa))) (nadd (Fin 1) (Fin z)) = Fin (f2 Om0 w0 wa z).
Proof.
  intros HO Hz. rewrite Ez_fin by auto. pose proof (E_pos Om0 w0 wa z HO Hz). rewrite ndiv_fin, nadd_fin, ndiv_fin by lra. reflexivity.
Qed.
Definition dc (Om0 w0 wa h z : R) : R := hubble_dist h * quad 256 (f1 Om0 w0 wa) z.
Lemma dc_fin Om0 w0 wa h z : 0 < Om0 <= 1 -> -1 < z -> h <> 0 ->
  comoving_distance_to_z (Fin z) (Fin Om0) (Fin w0) (Fin wa) (Fin h) = Fin (dc Om0 w0 wa h z).
Proof.
  intros HO Hz Hh. unfold comoving_distance_to_z.
  rewrite (quad_fins 256 (fun z => integrand_oneOverEz z (Fin Om0) (Fin w0) (Fin wa)) (f1 Om0 w0 wa)).
  - unfold C_SPEED. unlit. rewrite !nmul_fin, ndiv_fin by auto. f_equal. unfold dc, hubble_dist, c_light. field. auto.
  - lia.
  - intros x Hx. apply grid_In in Hx. destruct Hx as (i & Hi & ->). apply f1_fin; auto. apply grid_gt; auto. lia.
Qed.
Lemma hubble_dist_pos h : 0 < h -> 0 < hubble_dist h.
Proof. intros H. unfold hubble_dist, c_light. apply Rdiv_lt_0_compat; lra. Qed.
Lemma f1_lcdm_le Om0 x y : 0 < Om0 <= 1 -> -1 < x <= y -> f1 Om0 (-1) 0 y <= f1 Om0 (-1) 0 x.
Proof.
  intros HO H. unfold f1, Rdiv. rewrite !Rmult_1_l. apply Rinv_le_contravar; [apply E_pos; auto; lra|].
  now apply E_lcdm_le.
Qed.
Lemma f1_0 Om0 w0 wa : f1 Om0 w0 wa 0 = 1.
Proof. unfold f1. rewrite E_0. lra. Qed.
Lemma n256 : (2 <= 256)%nat. Proof. lia. Qed.
Lemma n512 : (2 <= 512)%nat. Proof. lia. Qed.

Lemma C53_lemma : forall Om0 w0 wa h, 0 < Om0 <= 1 -> 0 < h -> exists D : R -> R,
  (forall z, -1 < z -> comoving_distance_to_z (Fin z) (Fin Om0) (Fin w0) (Fin wa) (Fin h) = Fin (D z))
  /\ D 0 = 0
  /\ (forall z, 0 < z -> 0 < D z)
  /\ (w0 = -1 -> wa = 0 -> forall z, 0 <= z ->
        hubble_dist h * z / expansion Om0 (-1) 0 z <= D z <= hubble_dist h * z).
Proof.
  intros Om0 w0 wa h HO Hh. exists (dc Om0 w0 wa h). pose proof (hubble_dist_pos h Hh) as HD.
  split; [intros; apply dc_fin; auto; lra|].
  split; [unfold dc; rewrite quad_0 by apply n256; lra|].
  split.
  - intros z Hz. apply Rmult_lt_0_compat; auto. apply quad_pos; [apply n256|auto|]. intros x Hx. apply f1_pos; auto; lra.
  - intros -> ->. intros z Hz. unfold dc.
    pose proof (quad_bounds 256 (f1 Om0 (-1) 0) z (f1 Om0 (-1) 0 z) 1 n256 Hz) as B.
    assert (forall x, 0 <= x <= z -> f1 Om0 (-1) 0 z <= f1 Om0 (-1) 0 x <= 1).
    { intros x Hx. split; [apply f1_lcdm_le; auto; lra|]. rewrite <- (f1_0 Om0 (-1) 0). apply f1_lcdm_le; auto; lra. }
    specialize (B H). unfold f1 at 1 in B.
    pose proof (E_pos Om0 (-1) 0 z HO ltac:(lra)).
    replace (hubble_dist h * z / expansion Om0 (-1) 0 z) with (hubble_dist h * (1 / expansion Om0 (-1) 0 z * z))
      by (field; lra).
    split; apply Rmult_le_compat_l; lra.
Qed.

Lemma dl_fin Om0 w0 wa h z : 0 < Om0 <= 1 -> -1 < z -> h <> 0 ->
  luminosity_distance_to_z (Fin z) (Fin Om0) (Fin w0) (Fin wa) (Fin h) = Fin (dc Om0 w0 wa h z * (1 + z)).
Proof. intros. unfold luminosity_distance_to_z. now rewrite dc_fin, nadd_fin, nmul_fin by auto. Qed.
Lemma da_fin Om0 w0 wa h z : 0 < Om0 <= 1 -> -1 < z -> h <> 0 ->
  angular_diameter_distance_to_z (Fin z) (Fin Om0) (Fin w0) (Fin wa) (Fin h) = Fin (dc Om0 w0 wa h z / (1 + z)).
Proof. intros. unfold angular_diameter_distance_to_z. now rewrite dc_fin, nadd_fin, ndiv_fin by (auto; lra). Qed.

Lemma C54_lemma : forall z Om0 w0 wa h, -1 < z -> 0 < Om0 <= 1 -> h <> 0 -> exists dC dL dA,
  comoving_distance_to_z (Fin z) (Fin Om0) (Fin w0) (Fin wa) (Fin h) = Fin dC
  /\ luminosity_distance_to_z (Fin z) (Fin Om0) (Fin w0) (Fin wa) (Fin h) = Fin dL
  /\ angular_diameter_distance_to_z (Fin z) (Fin Om0) (Fin w0) (Fin wa) (Fin h) = Fin dA
  /\ dL = (1 + z) ^ 2 * dA /\ dL = (1 + z) * dC /\ dC = (1 + z) * dA.
Proof.
  intros z Om0 w0 wa h Hz HO Hh. do 3 eexists.
  split; [apply dc_fin; auto|]. split; [apply dl_fin; auto|]. split; [apply da_fin; auto|].
  repeat split; field; lra.
Qed.

Lemma C55_lemma : forall Om0 w0 wa h, 0 < Om0 <= 1 -> 0 < h ->
  (forall z, 0 < z -> exists dL mu,
     luminosity_distance_to_z (Fin z) (Fin Om0) (Fin w0) (Fin wa) (Fin h) = Fin dL
     /\ distance_modulus_to_z (Fin z) (Fin Om0) (Fin w0) (Fin wa) (Fin h) = Fin mu
     /\ 0 < dL /\ mu = 5 * log10 (dL * 10 ^ 6 / 10))
  /\ distance_modulus_to_z (Fin 0) (Fin Om0) (Fin w0) (Fin wa) (Fin h) = NInf.
Proof.
  intros Om0 w0 wa h HO Hh. split.
  - intros z Hz. do 2 eexists. split; [apply dl_fin; auto; lra|].
    assert (P : 0 < dc Om0 w0 wa h z * (1 + z)).
    { apply Rmult_lt_0_compat; [|lra]. apply Rmult_lt_0_compat; [now apply hubble_dist_pos|].
      apply quad_pos; [apply n256|auto|]. intros x Hx. apply f1_pos; auto; lra. }
    unfold distance_modulus_to_z. rewrite dl_fin, nmul_fin, nlog10_fin, nmul_fin by (auto; lra).
    split; [reflexivity|]. split; [auto|]. do 2 f_equal. lra.
  - unfold distance_modulus_to_z. rewrite dl_fin by (auto; lra).
    unfold dc. rewrite quad_0 by apply n256. rewrite nmul_fin.
    replace (hubble_dist h * 0 * (1 + 0) * 10 ^ 5) with 0 by lra. rewrite nlog10_0.
    simpl. unfold inf_times. rewrite Rlt_bool_true by lra. reflexivity.
Qed.

(** ** times *)
Definition tH (h : R) : R := 1 / 10 ^ 16 * (3.08567758149 * 10 ^ 24) / 31556925.2 / h.
Lemma tH_pos h : 0 < h -> 0 < tH h.
Proof. intros H. unfold tH. apply Rdiv_lt_0_compat; lra. Qed.
Lemma hubble_time_fin Om0 w0 wa h z : 0 < Om0 <= 1 -> -1 < z -> h <> 0 ->
  hubble_time (Fin z) (Fin Om0) (Fin w0) (Fin wa) (Fin h) = Fin (tH h / expansion Om0 w0 wa z).
Proof.
  intros HO Hz Hh. unfold hubble_time, MPC, YEAR. unlit. rewrite Ez_fin by auto.
  pose proof (E_pos Om0 w0 wa z HO Hz). now rewrite !ndiv_fin by lra.
Qed.
Definition look (Om0 w0 wa h z : R) : R := tH h * quad 512 (f2 Om0 w0 wa) z.
Lemma lookback_fin Om0 w0 wa h z : 0 < Om0 <= 1 -> -1 < z -> h <> 0 ->
  lookback_to_z (Fin z) (Fin Om0) (Fin w0) (Fin wa) (Fin h) = Fin (look Om0 w0 wa h z).
Proof.
  intros HO Hz Hh. unfold lookback_to_z.
  rewrite (quad_fins 512 (fun z => ndiv (ndiv (Fin 1) (Ez z (Fin Om0) (Fin w0) (Fin wa))) (nadd (Fin 1) z)) (f2 Om0 w0 wa)).
  - rewrite hubble_time_fin, E_0, nmul_fin by (auto; lra). f_equal. unfold look. lra.
  - lia.
  - intros x Hx. apply grid_In in Hx. destruct Hx as (i & Hi & ->). apply f2_fin; auto. apply grid_gt; auto. lia.
Qed.
Definition agrid : list R := map (fun x => pow10 x - 1) (grid 512 3).
Definition aint (Om0 w0 wa : R) : R := trapezoid agrid (map (f2 Om0 w0 wa) agrid).
Definition age0 (Om0 w0 wa h : R) : R := tH h * aint Om0 w0 wa.
Lemma agrid_In x : In x agrid -> 0 <= x <= 999.
Proof.
  intros H. unfold agrid in H. apply in_map_iff in H. destruct H as (y & <- & Hy).
  apply grid_In in Hy. destruct Hy as (i & Hi & ->).
  pose proof (grid_range 512 3 i n512 Hi ltac:(lra)) as G.
  pose proof (pow10_le 0 (ent (grid 512 3) i) ltac:(lra)) as P1. rewrite pow10_0 in P1.
  pose proof (pow10_le (ent (grid 512 3) i) 3 ltac:(lra)) as P2.
  assert (E3 : pow10 3 = 1000).
  { unfold pow10. replace 3 with (INR 3) by (simpl; lra). rewrite Rpower_pow by lra. lra. }
  lra.
Qed.
Lemma age0_fin Om0 w0 wa h : 0 < Om0 <= 1 -> h <> 0 ->
  age_at_z0 (Fin Om0) (Fin w0) (Fin wa) (Fin h) = Fin (age0 Om0 w0 wa h).
Proof.
  intros HO Hh. unfold age_at_z0.
  assert (EG : map (fun x => nsub x (Fin 1)) (logspace (Fin 0) (Fin 3) 512) = fins agrid).
  { unfold logspace. rewrite linspace_fins by apply n512. rewrite map_map. unfold agrid. apply map_fins.
    intros x _. now rewrite npow10_fin, nsub_fin. }
  rewrite EG. rewrite (map_fins _ (f2 Om0 w0 wa)).
  - rewrite trapz_fins by (now rewrite map_length). rewrite hubble_time_fin, E_0, nmul_fin by (auto; lra).
    f_equal. unfold age0, aint. lra.
  - intros x Hx. apply f2_fin; auto. apply agrid_In in Hx. lra.
Qed.
Lemma agekern_fin Om0 w0 wa h z : 0 < Om0 <= 1 -> -1 < z -> h <> 0 ->
  age_at_z_kern (Fin z) (Fin Om0) (Fin w0) (Fin wa) (Fin h) = Fin (age0 Om0 w0 wa h - look Om0 w0 wa h z).
Proof. intros. unfold age_at_z_kern. now rewrite age0_fin, lookback_fin, nsub_fin by auto. Qed.

(** C56 *)
Lemma C56_lemma : forall z Om0 w0 wa, -1 < z -> 0 < Om0 <= 1 ->
  exists dC tL t0 rho, forall h, 0 < h ->
    comoving_distance_to_z (Fin z) (Fin Om0) (Fin w0) (Fin wa) (Fin h) = Fin (dC / h)
    /\ lookback_to_z (Fin z) (Fin Om0) (Fin w0) (Fin wa) (Fin h) = Fin (tL / h)
    /\ age_at_z0 (Fin Om0) (Fin w0) (Fin wa) (Fin h) = Fin (t0 / h)
    /\ rho_crit (Fin z) (Fin Om0) (Fin w0) (Fin wa) (Fin h) = Fin (rho * h ^ 2).
Proof.
  intros z Om0 w0 wa Hz HO.
  exists (dc Om0 w0 wa 1 z), (look Om0 w0 wa 1 z), (age0 Om0 w0 wa 1), (277.536627 * expansion Om0 w0 wa z ^ 2).
  intros h Hh. rewrite dc_fin, lookback_fin, age0_fin by (auto; lra).
  split; [apply f_equal; unfold dc, hubble_dist; generalize (quad 256 (f1 Om0 w0 wa) z); intros q; field; lra|].
  split; [apply f_equal; unfold look, tH; generalize (quad 512 (f2 Om0 w0 wa) z); intros q; field; lra|].
  split; [apply f_equal; unfold age0, tH; generalize (aint Om0 w0 wa); intros q; field; lra|].
  unfold rho_crit, RHO_CRIT0_KPC3_UNITY_H. unlit. rewrite Ez_fin by auto. rewrite ipow_fin, !nmul_fin.
  change (Pos.to_nat 2) with 2%nat. f_equal. ring.
Qed.

(** C57 *)
Lemma C57_lemma : forall Om0 w0 wa h, 0 < Om0 <= 1 -> 0 < h -> exists (t0 : R) (look age : R -> R),
  age_at_z0 (Fin Om0) (Fin w0) (Fin wa) (Fin h) = Fin t0
  /\ (forall z, -1 < z -> lookback_to_z (Fin z) (Fin Om0) (Fin w0) (Fin wa) (Fin h) = Fin (look z))
  /\ (forall z, -1 < z -> age_at_z (Scalar (Fin z)) (Fin Om0) (Fin w0) (Fin wa) (Fin h) = [Fin (age z)])
  /\ (forall zs, List.Forall (fun z => -1 < z) zs ->
        age_at_z (Vector (fins zs)) (Fin Om0) (Fin w0) (Fin wa) (Fin h) = fins (map age zs))
  /\ 0 < t0
  /\ (forall z, -1 < z -> age z + look z = t0)
  /\ age 0 = t0 /\ look 0 = 0 /\ (forall z, 0 < z -> 0 < look z).
Proof.
  intros Om0 w0 wa h HO Hh. pose proof (tH_pos h Hh) as HT.
  exists (age0 Om0 w0 wa h), (look Om0 w0 wa h), (fun z => age0 Om0 w0 wa h - look Om0 w0 wa h z).
  split; [apply age0_fin; auto; lra|]. split; [intros; apply lookback_fin; auto; lra|].
  split; [intros; unfold age_at_z; simpl; rewrite agekern_fin by (auto; lra); reflexivity|].
  split.
  { intros zs Hzs. unfold age_at_z, atleast_1d. apply map_fins. intros z Hz. rewrite List.Forall_forall in Hzs.
    apply agekern_fin; auto; lra. }
  assert (L0 : look Om0 w0 wa h 0 = 0) by (unfold look; rewrite quad_0 by apply n512; lra).
  split.
  { apply Rmult_lt_0_compat; auto. unfold aint. apply trapezoid_pos.
    - now rewrite map_length.
    - unfold agrid. rewrite map_length, grid_length. lia.
    - unfold agrid. apply increasing_map; [apply grid_increasing; [apply n512|lra]|].
      intros x y _ _ Hxy. pose proof (pow10_lt x y Hxy). lra.
    - apply List.Forall_forall. intros y Hy. apply in_map_iff in Hy. destruct Hy as (x & <- & Hx).
      apply f2_pos; auto. apply agrid_In in Hx. lra. }
  split; [intros; lra|]. split; [rewrite L0; lra|]. split; [auto|].
  intros z Hz. apply Rmult_lt_0_compat; auto. apply quad_pos; [apply n512|auto|]. intros x Hx. apply f2_pos; auto; lra.
Qed.

(** C58 *)
Lemma trapezoid_log_bound r xs : forall ys, length xs = length ys -> xs <> [] ->
  List.Forall (fun x => 0 <= x) xs -> increasing xs ->
  (forall i, (S i < length xs)%nat -> 1 + ent xs (S i) <= r * (1 + ent xs i)) ->
  (forall i, (i < length xs)%nat -> 0 <= ent ys i <= 1 / (1 + ent xs i)) ->
  trapezoid xs ys <= (r - 1) * INR (length xs - 1).
Proof.
  induction xs as [|x xs IH]; intros [|y ys] L Hne P I R B; try discriminate; [congruence|].
  destruct xs as [|x1 xs], ys as [|y1 ys]; try discriminate; [simpl; lra|].
  rewrite trapezoid_cons2.
  assert (S1 : (length (x :: x1 :: xs) - 1 = S (length (x1 :: xs) - 1))%nat) by (simpl; lia).
  rewrite S1, S_INR.
  inversion P as [|? ? P0 P1]; subst.
  assert (T : trapezoid (x1 :: xs) (y1 :: ys) <= (r - 1) * INR (length (x1 :: xs) - 1)).
  { apply IH; auto; try discriminate.
    - eapply increasing_tl; eauto.
    - intros i Hi. apply (R (S i)). simpl in *. lia.
    - intros i Hi. apply (B (S i)). simpl in *. lia. }
  pose proof (R 0%nat ltac:(simpl; lia)) as R0. pose proof (B 0%nat ltac:(simpl; lia)) as B0.
  pose proof (B 1%nat ltac:(simpl; lia)) as B1. pose proof (I 0%nat 1%nat ltac:(simpl; lia)) as I0.
  unfold ent in R0, B0, B1, I0. cbn [nth] in R0, B0, B1, I0.
  pose proof (inv_lt (1 + x) (1 + x1) ltac:(lra)) as V.
  assert (W : (x1 - x) * (1 / (1 + x)) <= r - 1).
  { replace ((x1 - x) * (1 / (1 + x))) with ((x1 - x) / (1 + x)) by (field; lra). apply div_le_iff; lra. }
  assert ((x1 - x) * (y + y1) / 2 <= (x1 - x) * (1 / (1 + x))) by nra.
  lra.
Qed.
Lemma pow_lb x c a b n m k : 0 <= a -> 0 <= b -> a <= x ^ n -> b <= x ^ m -> c <= a * b -> k = (n + m)%nat -> c <= x ^ k.
Proof.
  intros Ha Hb A B C ->. rewrite pow_add. apply Rle_trans with (1 := C). now apply Rmult_le_compat.
Qed.
Lemma q_pow : 1000 < 1.014 ^ 511.
Proof.
  assert (A0 : 1.014 <= 1.014 ^ 1) by lra.
  assert (A1 : 1.02819 <= 1.014 ^ 2) by (refine (pow_lb _ _ _ _ 1 1 2 _ _ A0 A0 _ eq_refl); clear; lra).
  assert (A2 : 1.057 <= 1.014 ^ 4) by (refine (pow_lb _ _ _ _ 2 2 4 _ _ A1 A1 _ eq_refl); clear; lra).
  assert (A3 : 1.117 <= 1.014 ^ 8) by (refine (pow_lb _ _ _ _ 4 4 8 _ _ A2 A2 _ eq_refl); clear; lra).
  assert (A4 : 1.247 <= 1.014 ^ 16) by (refine (pow_lb _ _ _ _ 8 8 16 _ _ A3 A3 _ eq_refl); clear; lra).
  assert (A5 : 1.555 <= 1.014 ^ 32) by (refine (pow_lb _ _ _ _ 16 16 32 _ _ A4 A4 _ eq_refl); clear; lra).
  assert (A6 : 2.418 <= 1.014 ^ 64) by (refine (pow_lb _ _ _ _ 32 32 64 _ _ A5 A5 _ eq_refl); clear; lra).
  assert (A7 : 5.846 <= 1.014 ^ 128) by (refine (pow_lb _ _ _ _ 64 64 128 _ _ A6 A6 _ eq_refl); clear; lra).
  assert (A8 : 34.17 <= 1.014 ^ 256) by (refine (pow_lb _ _ _ _ 128 128 256 _ _ A7 A7 _ eq_refl); clear; lra).
  assert (B1 : 199.7 <= 1.014 ^ 384) by (refine (pow_lb _ _ _ _ 256 128 384 _ _ A8 A7 _ eq_refl); clear; lra).
  assert (B2 : 482 <= 1.014 ^ 448) by (refine (pow_lb _ _ _ _ 384 64 448 _ _ B1 A6 _ eq_refl); clear; lra).
  assert (B3 : 749 <= 1.014 ^ 480) by (refine (pow_lb _ _ _ _ 448 32 480 _ _ B2 A5 _ eq_refl); clear; lra).
  assert (B4 : 933 <= 1.014 ^ 496) by (refine (pow_lb _ _ _ _ 480 16 496 _ _ B3 A4 _ eq_refl); clear; lra).
  assert (B5 : 1042 <= 1.014 ^ 504) by (refine (pow_lb _ _ _ _ 496 8 504 _ _ B4 A3 _ eq_refl); clear; lra).
  assert (B6 : 1 <= 1.014 ^ 7) by (apply pow_R1_Rle; lra).
  apply Rlt_le_trans with 1042; [lra|].
  refine (pow_lb _ _ _ _ 504 7 511 _ _ B5 B6 _ eq_refl); clear; lra.
Qed.
Lemma q_bound : pow10 (3 / 511) <= 1.014.
Proof.
  destruct (Rle_or_lt (pow10 (3 / 511)) 1.014) as [|L]; auto. exfalso.
  assert (E : pow10 (3 / 511) ^ 511 = 1000).
  { unfold pow10. rewrite <- Rpower_pow by apply exp_pos. rewrite Rpower_mult.
    replace (3 / 511 * INR 511) with (INR 3) by (rewrite !INR_IZR_INZ; simpl Z.of_nat; lra).
    rewrite Rpower_pow by lra. lra. }
  apply (Rlt_irrefl 1000). rewrite <- E at 2. apply Rlt_le_trans with (1 := q_pow).
  apply pow_incr. clear E. lra.
Qed.
Lemma f2_lcdm_bound Om0 z : 0 < Om0 <= 1 -> 0 <= z -> 0 <= f2 Om0 (-1) 0 z <= 1 / (1 + z).
Proof.
  intros HO Hz. pose proof (f2_pos Om0 (-1) 0 z HO ltac:(lra)).
  pose proof (f1_lcdm_le Om0 0 z HO ltac:(lra)) as F. rewrite f1_0 in F.
  split; [lra|]. unfold f2. fold (f1 Om0 (-1) 0 z). apply div_le_mono; lra.
Qed.
Lemma aint_bound Om0 : 0 < Om0 <= 1 -> aint Om0 (-1) 0 <= 7.154.
Proof.
  intros HO. unfold aint.
  apply Rle_trans with ((1.014 - 1) * INR (length agrid - 1)).
  2:{ unfold agrid. rewrite map_length, grid_length. rewrite INR_IZR_INZ. simpl Z.of_nat. lra. }
  assert (G : forall x, In x agrid -> 0 <= x) by (intros x Hx; apply agrid_In in Hx; lra).
  apply trapezoid_log_bound.
  - now rewrite map_length.
  - unfold agrid. intros E. apply (f_equal (@length R)) in E. rewrite map_length, grid_length in E. discriminate.
  - apply List.Forall_forall. exact G.
  - unfold agrid. apply increasing_map; [apply grid_increasing; [apply n512|lra]|].
    intros x y _ _ Hxy. pose proof (pow10_lt x y Hxy). lra.
  - intros i Hi. unfold agrid in *. rewrite map_length, grid_length in Hi.
    rewrite !ent_map by (rewrite grid_length; lia).
    replace (ent (grid 512 3) (S i)) with (ent (grid 512 3) i + 3 / 511).
    + rewrite pow10_plus. pose proof q_bound. pose proof (pow10_pos (ent (grid 512 3) i)). nra.
    + pose proof (grid_step 512 3 i n512 Hi) as S. rewrite INR_IZR_INZ in S. simpl Z.of_nat in S. lra.
  - intros i Hi. rewrite ent_map by auto. apply f2_lcdm_bound; auto. apply G, ent_In; auto.
Qed.
Lemma trapezoid_nonneg xs ys : length xs = length ys -> nondecreasing xs -> List.Forall (fun y => 0 <= y) ys ->
  0 <= trapezoid xs ys.
Proof.
  intros L N P. destruct xs as [|x xs]; [destruct ys; simpl; lra|].
  apply Rle_trans with (trapezoid (x :: xs) (map (fun _ => 0) (x :: xs))).
  - rewrite trapezoid_const by discriminate. lra.
  - apply trapezoid_mono; auto; [now rewrite map_length|]. intros i Hi. rewrite ent_map by auto.
    rewrite List.Forall_forall in P. apply P, ent_In. lia.
Qed.
Lemma quad_first n f z : (2 <= n)%nat -> 0 < z -> (forall x, 0 <= x <= z -> 0 <= f x) ->
  z / INR (n - 1) * f 0 / 2 <= quad n f z.
Proof.
  intros Hn Hz P. unfold quad.
  assert (F : List.Forall (fun y => 0 <= y) (map f (grid n z))).
  { apply List.Forall_forall. intros y Hy. apply in_map_iff in Hy. destruct Hy as (x & <- & Hx).
    apply grid_In in Hx. destruct Hx as (i & Hi & ->). apply P. apply grid_range; auto; lra. }
  pose proof (grid_step n z 0 Hn ltac:(lia)) as ST. pose proof (grid_0 n z Hn) as G0.
  pose proof (grid_increasing n z Hn Hz) as I. pose proof (grid_length n z) as L.
  destruct (grid n z) as [|x0 [|x1 xs]]; simpl in L; try lia. clear L.
  rewrite ent_cons_S in ST. rewrite !ent_0 in *. rewrite G0 in *.
  change (map f (0 :: x1 :: xs)) with (f 0 :: f x1 :: map f xs) in *. rewrite trapezoid_cons2.
  inversion F as [|? ? F0 F1]; subst. inversion F1 as [|? ? F2 F3]; subst.
  pose proof (trapezoid_nonneg (x1 :: xs) (f x1 :: map f xs) ltac:(simpl; now rewrite map_length)
    ltac:(apply increasing_nondecreasing; eapply increasing_tl; eauto) F1) as T.
  assert (0 < x1). { pose proof (I 0%nat 1%nat ltac:(simpl; lia)) as I0. exact I0. }
  replace (z / INR (n - 1)) with (x1 - 0) by lra. nra.
Qed.
Lemma f2_0 Om0 w0 wa : f2 Om0 w0 wa 0 = 1.
Proof. unfold f2. rewrite E_0. lra. Qed.
Lemma C58_lemma : forall Om0 h z, 0 < Om0 <= 1 -> 0 < h -> 7500 <= z -> exists age,
  age_at_z (Scalar (Fin z)) (Fin Om0) (Fin (-1)) (Fin 0) (Fin h) = [Fin age] /\ age < 0.
Proof.
  intros Om0 h z HO Hh Hz. eexists. split.
  - unfold age_at_z. simpl. rewrite agekern_fin by (auto; lra). reflexivity.
  - unfold age0, look. pose proof (tH_pos h Hh). pose proof (aint_bound Om0 HO).
    assert (Q : z / INR (512 - 1) * f2 Om0 (-1) 0 0 / 2 <= quad 512 (f2 Om0 (-1) 0) z).
    { apply quad_first; [apply n512|lra|]. intros x Hx. apply f2_lcdm_bound; auto; lra. }
    rewrite f2_0, INR_IZR_INZ in Q. simpl Z.of_nat in Q. nra.
Qed.

(** C59 *)
Lemma PI_lb : 3.136 < PI.
Proof.
  destruct (Rlt_or_le 3.136 PI) as [|L]; auto. exfalso.
  pose proof PI_RGT_0 as P0. pose proof sin_PI6 as S6.
  assert (M : sin (PI / 6) <= sin (3.136 / 6)).
  { pose proof PI2_3_2. apply sin_incr_1; lra. }
  pose proof PI2_3_2. pose proof (sin_bound (3.136 / 6) 0 ltac:(lra) ltac:(lra)) as [_ SB].
  unfold sin_approx, sin_term in SB. simpl in SB. lra.
Qed.
Definition omz (Om0 w0 wa z : R) : R := Om0 * (1 + z) ^ 3 / (Om0 * (1 + z) ^ 3 + (1 - Om0) * dark_energy w0 wa z).
Lemma om_fin Om0 w0 wa z : 0 < Om0 <= 1 -> -1 < z ->
  Om_at_z (Fin z) (Fin Om0) (Fin w0) (Fin wa) = Fin (omz Om0 w0 wa z).
Proof.
  intros HO Hz. unfold Om_at_z. rewrite Ez_fin by auto. pose proof (E_pos Om0 w0 wa z HO Hz) as EP.
  pose proof (E2_pos Om0 w0 wa z HO Hz) as E2.
  rewrite nadd_fin, ipow_fin, nmul_fin, !ndiv_fin by lra. change (Pos.to_nat 3) with 3%nat. f_equal. unfold omz.
  rewrite <- (sqrt_sqrt (Om0 * (1 + z) ^ 3 + (1 - Om0) * dark_energy w0 wa z)) by lra.
  change (sqrt (Om0 * (1 + z) ^ 3 + (1 - Om0) * dark_energy w0 wa z)) with (expansion Om0 w0 wa z). field. lra.
Qed.
Lemma om_range Om0 w0 wa z : 0 < Om0 <= 1 -> -1 < z -> 0 < omz Om0 w0 wa z <= 1.
Proof.
  intros HO Hz. pose proof (E2_pos Om0 w0 wa z HO Hz) as E2. pose proof (de_pos w0 wa z).
  assert (0 < (1 + z) ^ 3) by (apply pow_lt; lra). unfold omz. split.
  - apply Rdiv_lt_0_compat; nra.
  - apply div_le_iff; nra.
Qed.
Definition dvir (om : R) : R := 18 * PI ^ 2 + 82 * (om - 1) - 39 * (om - 1) ^ 2.
Lemma dvir_range om : 0 < om <= 1 -> 56 < dvir om <= 18 * PI ^ 2.
Proof. intros H. pose proof PI_lb. unfold dvir. split; nra. Qed.
Lemma delta_vir_fin Om0 w0 wa zs : 0 < Om0 <= 1 -> List.Forall (fun z => -1 < z) zs ->
  delta_vir (Vector (fins zs)) (Fin Om0) (Fin w0) (Fin wa) = Ok (fins (map (fun z => dvir (omz Om0 w0 wa z)) zs)).
Proof.
  intros HO Hz. unfold delta_vir, Om, vmap0. cbn [bind]. f_equal.
  rewrite (map_fins _ (omz Om0 w0 wa)).
  - rewrite <- (map_map (omz Om0 w0 wa) dvir). apply map_fins. intros x _. unlit. cbv zeta.
    rewrite nsub_fin, nmul_fin, nadd_fin, ipow_fin, nmul_fin, nsub_fin. reflexivity.
  - intros x Hx. rewrite List.Forall_forall in Hz. apply om_fin; auto.
Qed.
Definition tvir (Om0 w0 wa h z : R) : R :=
  Rpower 2 1.5 * (tH h / expansion Om0 w0 wa z) * Rpower (dvir (omz Om0 w0 wa z)) (-1/2).
Lemma virial_fin Om0 w0 wa h zs : 0 < Om0 <= 1 -> 0 < h -> List.Forall (fun z => -1 < z) zs ->
  virial_dynamical_time (Vector (fins zs)) (Fin Om0) (Fin w0) (Fin wa) (Fin h) = Ok (fins (map (tvir Om0 w0 wa h) zs)).
Proof.
  intros HO Hh Hz. unfold virial_dynamical_time. rewrite delta_vir_fin by auto. cbn [bind atleast_1d]. f_equal.
  induction zs as [|z zs IH]; [reflexivity|]. inversion Hz as [|? ? Hz0 Hz1]; subst.
  cbn [map]. rewrite !fins_cons. cbn [map2]. f_equal; [|apply IH; auto].
  unlit. rewrite hubble_time_fin, nmul_fin, npow_fin, nmul_fin by (auto; try lra; pose proof (dvir_range _ (om_range Om0 w0 wa z HO Hz0)); lra).
  reflexivity.
Qed.
Lemma C59_lemma : forall Om0 w0 wa h, 0 < Om0 <= 1 -> 0 < h -> exists om rho delta tdyn : R -> R,
  (forall zs, List.Forall (fun z => -1 < z) zs ->
     Om (Vector (fins zs)) (Fin Om0) (Fin w0) (Fin wa) = Ok (fins (map om zs))
     /\ delta_vir (Vector (fins zs)) (Fin Om0) (Fin w0) (Fin wa) = Ok (fins (map delta zs))
     /\ virial_dynamical_time (Vector (fins zs)) (Fin Om0) (Fin w0) (Fin wa) (Fin h) = Ok (fins (map tdyn zs)))
  /\ (forall z, -1 < z -> rho_crit (Fin z) (Fin Om0) (Fin w0) (Fin wa) (Fin h) = Fin (rho z))
  /\ om 0 = Om0
  /\ (forall z, -1 < z -> 0 < om z <= 1)
  /\ (forall z, -1 < z -> 0 < rho z /\ om z * rho z = Om0 * rho 0 * (1 + z) ^ 3)
  /\ (forall z, -1 < z -> 56 < delta z <= 18 * PI ^ 2)
  /\ (forall z, -1 < z -> 0 < tdyn z).
Proof.
  intros Om0 w0 wa h HO Hh.
  exists (omz Om0 w0 wa), (fun z => 277.536627 * h * h * expansion Om0 w0 wa z ^ 2),
    (fun z => dvir (omz Om0 w0 wa z)), (tvir Om0 w0 wa h).
  split.
  { intros zs Hz. split; [|split; [now apply delta_vir_fin|now apply virial_fin]].
    unfold Om, vmap0. f_equal. apply map_fins. intros x Hx. rewrite List.Forall_forall in Hz. apply om_fin; auto. }
  split.
  { intros z Hz. unfold rho_crit, RHO_CRIT0_KPC3_UNITY_H. unlit. rewrite Ez_fin by auto. now rewrite ipow_fin, !nmul_fin. }
  split.
  { unfold omz, dark_energy. replace (0 / (1 + 0)) with 0 by lra. rewrite Rmult_0_r, exp_0.
    rewrite Rplus_0_r. unfold Rpower. rewrite ln_1, Rmult_0_r, exp_0. field. lra. }
  split; [intros; now apply om_range|]. split.
  { intros z Hz. pose proof (E_pos Om0 w0 wa z HO Hz). pose proof (E2_pos Om0 w0 wa z HO Hz).
    assert (SQ : expansion Om0 w0 wa z ^ 2 = Om0 * (1 + z) ^ 3 + (1 - Om0) * dark_energy w0 wa z).
    { unfold expansion. rewrite <- (sqrt_sqrt (Om0 * (1 + z) ^ 3 + (1 - Om0) * dark_energy w0 wa z)) at 2 by lra. ring. }
    split.
    - assert (0 < expansion Om0 w0 wa z ^ 2) by lra. apply Rmult_lt_0_compat; auto. apply Rmult_lt_0_compat; lra.
    - rewrite E_0, SQ. unfold omz. field. lra. }
  split; [intros; apply dvir_range; now apply om_range|].
  intros z Hz. unfold tvir. apply Rmult_lt_0_compat; [|apply exp_pos].
  apply Rmult_lt_0_compat; [apply exp_pos|]. apply Rdiv_lt_0_compat; [now apply tH_pos|now apply E_pos].
Qed.

(** C60 *)
Lemma C60_lemma {AR : Arith} : forall z Om0 w0 wa h,
  virial_dynamical_time (Scalar z) Om0 w0 wa h = Raise ValueError
  /\ (forall zs, exists l, virial_dynamical_time (Vector zs) Om0 w0 wa h = Ok l /\ length l = length zs).
Proof.
  intros z Om0 w0 wa h. split; [reflexivity|]. intros zs. eexists. split; [reflexivity|].
  rewrite map2_length. simpl. rewrite !map_length. lia.
Qed.

(** C61 *)
Lemma npow_2 x : npow (Fin x) (Fin 2) = Fin (x ^ 2).
Proof.
  unfold npow. rewrite Req_bool_false by lra. case Rlt_bool_spec; intros H.
  - cbn [elem exact elem_value]. change 2 with (INR 2). rewrite Rpower_pow by auto. reflexivity.
  - case Req_bool_spec; intros E.
    + rewrite Rlt_bool_true by lra. subst. f_equal. ring.
    + assert (Z2 : Zfloor 2 = 2%Z) by (change 2 with (IZR 2); apply Zfloor_IZR).
      unfold is_integer. rewrite Z2, Req_bool_true by auto. reflexivity.
Qed.
Lemma C61_lemma : forall z Om0 w0 wa h, -1 < z -> 0 < Om0 <= 1 -> 0 < h -> exists dC dV,
  comoving_distance_to_z (Fin z) (Fin Om0) (Fin w0) (Fin wa) (Fin h) = Fin dC
  /\ differential_comoving_volume_at_z (Fin z) (Fin Om0) (Fin w0) (Fin wa) (Fin h) = Fin dV
  /\ dV = hubble_dist h * dC ^ 2 / expansion Om0 w0 wa z
  /\ 0 <= dV /\ (z = 0 -> dV = 0) /\ (0 < z -> 0 < dV).
Proof.
  intros z Om0 w0 wa h Hz HO Hh. pose proof (E_pos Om0 w0 wa z HO Hz) as EP.
  exists (dc Om0 w0 wa h z), (hubble_dist h * dc Om0 w0 wa h z ^ 2 / expansion Om0 w0 wa z).
  pose proof (hubble_dist_pos h Hh).
  split; [apply dc_fin; auto; lra|]. split.
  { unfold differential_comoving_volume_at_z, hubble_distance_mpc. unlit.
    rewrite nmul_fin, !ndiv_fin by lra. rewrite da_fin, nadd_fin, nmul_fin, npow_2, nmul_fin, Ez_fin, ndiv_fin by (auto; lra).
    f_equal. unfold hubble_dist, c_light. field. lra. }
  split; [reflexivity|]. split; [|split].
  - apply le_div_iff; auto. pose proof (pow2_ge_0 (dc Om0 w0 wa h z)). nra.
  - intros ->. unfold dc. rewrite quad_0 by apply n256. rewrite E_0. lra.
  - intros Hp. apply Rdiv_lt_0_compat; auto. apply Rmult_lt_0_compat; auto. apply pow_lt.
    apply Rmult_lt_0_compat; auto. apply quad_pos; [apply n256|auto|]. intros x Hx. apply f1_pos; auto; lra.
Qed.

(** C62 *)
Lemma vmap0_lemma {AR : Arith} (f : num -> num) zs i : (i < length zs)%nat ->
  exists l, vmap0 f (Vector zs) = Ok l /\ length l = length zs /\ nth i l NaN = f (nth i zs NaN).
Proof.
  intros H. eexists. split; [reflexivity|]. split; [apply map_length|].
  now rewrite (nth_map' f zs i NaN NaN).
Qed.
Lemma pointwise_vmap0 {AR : Arith} f : pointwise (fun a Om0 w0 wa h => vmap0 (fun z => f z Om0 w0 wa h) a) f.
Proof.
  split; [|reflexivity]. intros zs Om0 w0 wa h. eexists. split; [reflexivity|]. split; [apply map_length|].
  intros i Hi. now rewrite (nth_map' _ zs i NaN NaN).
Qed.
Lemma C62_lemma {AR : Arith} :
  pointwise comoving_distance comoving_distance_to_z
  /\ pointwise distance_modulus distance_modulus_to_z
  /\ pointwise luminosity_distance luminosity_distance_to_z
  /\ pointwise angular_diameter_distance angular_diameter_distance_to_z
  /\ pointwise lookback_time lookback_to_z
  /\ pointwise differential_comoving_volume differential_comoving_volume_at_z.
Proof. repeat (split; [apply pointwise_vmap0|]). apply pointwise_vmap0. Qed.
Lemma C62_age_lemma {AR : Arith} : forall Om0 w0 wa h,
  (forall z, age_at_z (Scalar z) Om0 w0 wa h = [age_at_z_kern z Om0 w0 wa h])
  /\ (forall zs, length (age_at_z (Vector zs) Om0 w0 wa h) = length zs
       /\ forall i, (i < length zs)%nat ->
          [nth i (age_at_z (Vector zs) Om0 w0 wa h) NaN] = age_at_z (Scalar (nth i zs NaN)) Om0 w0 wa h).
Proof.
  intros Om0 w0 wa h. split; [reflexivity|]. intros zs. unfold age_at_z. simpl. rewrite map_length. split; auto.
  intros i Hi. now rewrite (nth_map' _ zs i NaN NaN).
Qed.

(** C95: quadrature error *)
Lemma f1_continuous Om0 z : 0 < Om0 <= 1 -> -1 < z -> continuous (f1 Om0 (-1) 0) z.
Proof.
  intros HO Hz.
  apply (continuous_ext (fun z => 1 / sqrt (Om0 * (1 + z) ^ 3 + (1 - Om0)))).
  { intros x. unfold f1. now rewrite E_lcdm. }
  assert (P : 0 < Om0 * (1 + z) ^ 3 + (1 - Om0)).
  { assert (0 < (1 + z) ^ 3) by (apply pow_lt; lra). nra. }
  apply (ex_derive_continuous (V := R_NormedModule) (fun z => 1 / sqrt (Om0 * (1 + z) ^ 3 + (1 - Om0)))).
  pose proof (sqrt_lt_R0 _ P). auto_derive. replace (1 + z) with (1 + z) in * by lra. simpl in *. repeat split; lra.
Qed.
Lemma C95_lemma : forall Om0 h z, 0 < Om0 <= 1 -> 0 < h -> 0 < z -> exists D,
  comoving_distance_to_z (Fin z) (Fin Om0) (Fin (-1)) (Fin 0) (Fin h) = Fin D
  /\ Rabs (D - hubble_dist h * RInt (fun x => 1 / expansion Om0 (-1) 0 x) 0 z)
     <= hubble_dist h * (z / 510 * (1 - 1 / expansion Om0 (-1) 0 z)).
Proof.
  intros Om0 h z HO Hh Hz. eexists. split; [apply dc_fin; auto; lra|].
  pose proof (hubble_dist_pos h Hh) as HD. unfold dc.
  pose proof (quad_error 256 (f1 Om0 (-1) 0) z n256 Hz) as Q.
  specialize (Q ltac:(intros; apply f1_lcdm_le; auto; lra) ltac:(intros; apply f1_continuous; auto; lra)).
  rewrite f1_0 in Q. rewrite INR_IZR_INZ in Q. simpl Z.of_nat in Q.
  change (RInt (fun x => 1 / expansion Om0 (-1) 0 x) 0 z) with (RInt (f1 Om0 (-1) 0) 0 z).
  rewrite <- Rmult_minus_distr_l, Rabs_mult, (Rabs_right (hubble_dist h)) by lra.
  apply Rmult_le_compat_l; [lra|]. apply Rle_trans with (1 := Q). unfold f1. lra.
Qed.
Lemma f2_lcdm_le Om0 x y : 0 < Om0 <= 1 -> -1 < x <= y -> f2 Om0 (-1) 0 y <= f2 Om0 (-1) 0 x.
Proof.
  intros HO H. unfold f2. fold (f1 Om0 (-1) 0 x) (f1 Om0 (-1) 0 y).
  pose proof (f1_lcdm_le Om0 x y HO H). pose proof (f1_pos Om0 (-1) 0 y HO ltac:(lra)).
  pose proof (inv_le (1 + x) (1 + y) ltac:(lra)). unfold Rdiv in *. nra.
Qed.
Lemma f2_continuous Om0 z : 0 < Om0 <= 1 -> -1 < z -> continuous (f2 Om0 (-1) 0) z.
Proof.
  intros HO Hz. apply (continuous_mult (f1 Om0 (-1) 0) (fun z => / (1 + z))); [now apply f1_continuous|].
  apply (ex_derive_continuous (V := R_NormedModule) (fun z => / (1 + z))). auto_derive. lra.
Qed.
Lemma C95_lookback_lemma : forall Om0 h z, 0 < Om0 <= 1 -> 0 < h -> 0 < z -> exists t tH,
  lookback_to_z (Fin z) (Fin Om0) (Fin (-1)) (Fin 0) (Fin h) = Fin t
  /\ hubble_time (Fin 0) (Fin Om0) (Fin (-1)) (Fin 0) (Fin h) = Fin tH
  /\ Rabs (t - tH * RInt (fun x => 1 / expansion Om0 (-1) 0 x / (1 + x)) 0 z)
     <= tH * (z / 1022 * (1 - 1 / expansion Om0 (-1) 0 z / (1 + z))).
Proof.
  intros Om0 h z HO Hh Hz. do 2 eexists. split; [apply lookback_fin; auto; lra|].
  split; [rewrite hubble_time_fin, E_0 by (auto; lra); reflexivity|]. replace (tH h / 1) with (tH h) by lra.
  pose proof (tH_pos h Hh) as HD. unfold look.
  pose proof (quad_error 512 (f2 Om0 (-1) 0) z n512 Hz) as Q.
  specialize (Q ltac:(intros; apply f2_lcdm_le; auto; lra) ltac:(intros; apply f2_continuous; auto; lra)).
  rewrite f2_0 in Q. rewrite INR_IZR_INZ in Q. simpl Z.of_nat in Q.
  change (RInt (fun x => 1 / expansion Om0 (-1) 0 x / (1 + x)) 0 z) with (RInt (f2 Om0 (-1) 0) 0 z).
  rewrite <- Rmult_minus_distr_l, Rabs_mult, (Rabs_right (tH h)) by lra.
  apply Rmult_le_compat_l; [lra|]. apply Rle_trans with (1 := Q). unfold f2. lra.
Qed.
