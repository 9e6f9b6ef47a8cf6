(** * Broadcasting leaves arrays of matching length alone *)
From Coq Require Import Reals List Arith Lia Bool.
From Verif Require Import Num Arr MUtils MDiffburst.
Import ListNotations.

Lemma fits_same {A} n (l : list A) : length l = n -> fits n l = true.
Proof. intros <-. unfold fits. now rewrite Nat.eqb_refl. Qed.
Lemma fits_iff {A} n (l : list A) : fits n l = true <-> length l = n \/ length l = 1%nat.
Proof. unfold fits. now rewrite orb_true_iff, !Nat.eqb_eq. Qed.
Lemma stretch_same {A} n (l : list A) : length l = n -> stretch n l = l.
Proof. intros <-. destruct l as [|x [|y l]]; reflexivity. Qed.
Lemma stretch_len {A} n (l : list A) : fits n l = true -> length (stretch n l) = n.
Proof.
  rewrite fits_iff. destruct l as [|x [|y l]]; simpl; intros [H|H]; try lia; auto; apply repeat_length.
Qed.
Lemma stretch_map {A B} (f : A -> B) n l : stretch n (map f l) = map f (stretch n l).
Proof. destruct l as [|x [|y l]]; try reflexivity. simpl. induction n; simpl; congruence. Qed.
Lemma bmap2_same {A B C} (f : A -> B -> C) l1 l2 : length l1 = length l2 -> bmap2 f l1 l2 = Ok (map2 f l1 l2).
Proof. intros H. unfold bmap2, same_len. now rewrite H, Nat.eqb_refl. Qed.
Lemma bmap2_iff {A B C} (f : A -> B -> C) l1 l2 : (exists v, bmap2 f l1 l2 = Ok v) <-> length l1 = length l2 \/ length l1 = 1%nat \/ length l2 = 1%nat.
Proof.
  unfold bmap2, same_len. destruct (length l1 =? length l2)%nat eqn:E.
  - apply Nat.eqb_eq in E. split; eauto.
  - apply Nat.eqb_neq in E. destruct l1 as [|a [|b l1]], l2 as [|c [|d l2]]; simpl in *; split; eauto; try lia; intros [v H]; discriminate.
Qed.
Lemma map2_len {A B C} (f : A -> B -> C) l1 l2 : length (map2 f l1 l2) = Nat.min (length l1) (length l2).
Proof. revert l2. induction l1 as [|a l1 IH]; intros [|b l2]; simpl; auto. Qed.
Lemma tl_len {A} (l : list A) : length (tl l) = (length l - 1)%nat.
Proof. destruct l; simpl; lia. Qed.
Lemma diff_len {AR : Arith} l : length (diff l) = (length l - 1)%nat.
Proof. unfold diff. rewrite map2_len, tl_len. lia. Qed.
Lemma trapz_same {AR : Arith} xs ys : length xs = length ys -> trapz xs ys = Ok (trapz_k xs ys).
Proof.
  intros H. unfold trapz, trapz_k. rewrite bmap2_same; [reflexivity|]. rewrite diff_len, map2_len, tl_len. lia.
Qed.
Lemma pureburst_len {AR : Arith} lgyr a b : length (pureburst_age_weights_from_params lgyr a b) = length lgyr.
Proof. unfold pureburst_age_weights_from_params, zero_safe_normalize. now rewrite !map_length. Qed.
Lemma cum_k_same {AR : Arith} ts ss : length ts = length ss ->
  cumulative_mstar_formed_k ts ss = map (fun m => nmul m YEAR_PER_GYR) (tl (cumtrapz_k (T_BIRTH_MIN :: ts) (SFR_MIN :: ss))).
Proof. intros H. unfold cumulative_mstar_formed_k. now rewrite stretch_same. Qed.
Lemma cum_same {AR : Arith} ts ss : length ts = length ss -> cumulative_mstar_formed ts ss = Ok (cumulative_mstar_formed_k ts ss).
Proof. intros H. unfold cumulative_mstar_formed, check. now rewrite fits_same. Qed.
Lemma cum_ok {AR : Arith} ts ss m : cumulative_mstar_formed ts ss = Ok m -> cumulative_mstar_formed_k ts ss = m.
Proof. unfold cumulative_mstar_formed, check. destruct (fits _ _); congruence. Qed.
