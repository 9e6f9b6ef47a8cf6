(** * Sums in any order *)
From Coq Require Import Reals List Arith Lra Lia Bool Permutation.
From Verif Require Import Num Arr Spec.
Import ListNotations.
Open Scope R_scope.

Lemma left_to_right_any_order : any_order left_to_right.
Proof.
  intros f [|x l] N; [congruence|]. clear N. cbn [left_to_right]. induction l as [|y l IH] using rev_ind; [constructor|].
  rewrite fold_left_app. cbn [fold_left]. apply combines_parts with (l1 := x :: l) (l2 := [y]); auto; constructor.
Qed.
Lemma combines_nonempty f l v : combines f l v -> l <> [].
Proof.
  induction 1 as [x|l l1 l2 v1 v2 P A IA B IB]; [congruence|]. intros ->. apply Permutation_nil in P. apply app_eq_nil in P. tauto.
Qed.
(** a sum of finite numbers, described on the real list *)
Lemma combines_fins_ind f (P : list R -> num -> Prop) : (forall x, P [x] (Fin x)) ->
  (forall l a b va vb, Permutation l (a ++ b) -> (0 < length a)%nat -> (0 < length b)%nat -> P a va -> P b vb -> P l (f va vb)) ->
  forall l v, combines f (fins l) v -> P l v.
Proof.
  intros P1 P2 l v C. remember (fins l) as L eqn:E. revert l E. induction C as [x|L L1 L2 v1 v2 PM C1 I1 C2 I2]; intros l E.
  - destruct l as [|a [|b l]]; try discriminate. injection E as ->. apply P1.
  - subst L. apply Permutation_sym, Permutation_map_inv in PM. destruct PM as (m & E & PM). apply eq_sym in E. apply map_eq_app in E. destruct E as (a & b & -> & <- & <-).
    apply P2 with a b; auto.
    + apply combines_nonempty in C1. destruct a; [now elim C1|simpl; lia].
    + apply combines_nonempty in C2. destruct b; [now elim C2|simpl; lia].
Qed.
Lemma Forall2_permute {A B} (Q : A -> B -> Prop) l l' : Permutation l l' -> forall m, Forall2 Q l m -> exists m', Permutation m m' /\ Forall2 Q l' m'.
Proof.
  induction 1 as [|x l l' P IH|x y l|l l' l'' P1 I1 P2 I2]; intros m F.
  - exists m. auto.
  - inversion F as [|? y ? m0 Hxy F0]; subst. destruct (IH _ F0) as (m' & Pm & Fm). exists (y :: m'). auto.
  - inversion F as [|? a ? m0 Ha F0]; subst. inversion F0 as [|? b ? m1 Hb F1]; subst. exists (b :: a :: m1). split; [apply perm_swap|auto].
  - destruct (I1 _ F) as (m' & Pm & Fm). destruct (I2 _ Fm) as (m'' & Pm' & Fm'). exists m''. split; auto. now apply perm_trans with m'.
Qed.
Lemma Rsum_perm l m : Permutation l m -> Rsum l = Rsum m.
Proof. induction 1 as [|x l l' P IH|x y l|l l' l'' P1 I1 P2 I2]; cbn [Rsum fold_right] in *; auto; try lra. Qed.
Lemma Rsum_app' l m : Rsum (l ++ m) = Rsum l + Rsum m.
Proof. induction l as [|x l IH]; cbn [app Rsum]; lra. Qed.
Lemma vsum_comb {AR : Arith} l : any_order reduce -> l <> [] -> combines nadd l (vsum l).
Proof. intros O N. unfold vsum. destruct l; [congruence|]. now apply O. Qed.
Lemma Rsum_abs_le l : Rabs (Rsum l) <= Rsum (map Rabs l).
Proof. induction l as [|x l IH]; cbn [map Rsum]; [rewrite Rabs_R0; lra|]. eapply Rle_trans; [apply Rabs_triang|]. lra. Qed.
(** other orders: last to first *)
Lemma combines_perm f l m v : Permutation m l -> combines f l v -> combines f m v.
Proof.
  intros P C. destruct C as [x|l l1 l2 v1 v2 Q A B].
  - apply Permutation_sym, Permutation_length_1_inv in P. subst. constructor.
  - apply combines_parts with l1 l2; auto. now apply perm_trans with l.
Qed.
Definition right_to_left (f : num -> num -> num) (l : list num) : num := left_to_right f (rev l).
Lemma right_to_left_any_order : any_order right_to_left.
Proof.
  intros f l N. apply combines_perm with (rev l); [apply Permutation_rev|]. apply left_to_right_any_order.
  intros E. apply N. rewrite <- (rev_involutive l), E. reflexivity.
Qed.
