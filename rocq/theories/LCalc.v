(** * Calculus helpers: monotonicity from the derivative, integral of the
      piecewise-linear function *)
From Coq Require Import Reals List Arith Lra Lia.
From Coquelicot Require Import Coquelicot.
From Verif Require Import Num Spec RList LUtils.
Import ListNotations.
Open Scope R_scope.

(** mean value theorem in the form used below *)
Lemma mvt_is_derive f f' a b : a < b ->
  (forall c, a <= c <= b -> is_derive f c (f' c)) ->
  exists c, f b - f a = f' c * (b - a) /\ a < c < b.
Proof.
  intros Hab H. apply MVT_cor2; auto. intros c Hc. apply is_derive_Reals. auto.
Qed.

Lemma increasing_of_derive f f' a b : a < b ->
  (forall c, a <= c <= b -> is_derive f c (f' c)) ->
  (forall c, a < c < b -> 0 < f' c) -> f a < f b.
Proof.
  intros Hab H Hp. destruct (mvt_is_derive f f' a b Hab H) as [c [E Hc]].
  specialize (Hp c Hc). assert (0 < f' c * (b - a)) by (apply Rmult_lt_0_compat; lra). lra.
Qed.
Lemma nondecreasing_of_derive f f' a b : a <= b ->
  (forall c, a <= c <= b -> is_derive f c (f' c)) ->
  (forall c, a < c < b -> 0 <= f' c) -> f a <= f b.
Proof.
  intros [Hab|<-] H Hp; [|lra]. destruct (mvt_is_derive f f' a b Hab H) as [c [E Hc]].
  specialize (Hp c Hc). assert (0 <= f' c * (b - a)) by (apply Rmult_le_pos; lra). lra.
Qed.

(** ** integral of the piecewise-linear function *)
Lemma is_RInt_segment x0 x1 y0 y1 : x0 < x1 ->
  is_RInt (fun x => y0 + (x - x0) / (x1 - x0) * (y1 - y0)) x0 x1 ((x1 - x0) * (y0 + y1) / 2).
Proof.
  intros H.
  set (F := fun x => y0 * x + (x - x0) ^ 2 / (2 * (x1 - x0)) * (y1 - y0)).
  replace ((x1 - x0) * (y0 + y1) / 2) with (minus (F x1) (F x0)).
  2:{ unfold minus, plus, opp, F; simpl. field. lra. }
  apply (is_RInt_derive F).
  - intros x _. unfold F. auto_derive; [lra|]. field. lra.
  - intros x _. apply (ex_derive_continuous (fun x => y0 + (x - x0) / (x1 - x0) * (y1 - y0))).
    auto_derive. lra.
Qed.

Lemma is_RInt_pwlin xs : forall ys,
  increasing xs -> length xs = length ys -> xs <> [] ->
  is_RInt (pwlin (combine xs ys)) (ent xs 0) (ent xs (length xs - 1)) (trapezoid xs ys).
Proof.
  induction xs as [|x0 xs IH]; intros ys Hi Hl Hn; [congruence|].
  destruct ys as [|y0 ys]; [discriminate|].
  destruct xs as [|x1 xs]; destruct ys as [|y1 ys]; try discriminate.
  - cbn [length Nat.sub trapezoid]. apply (is_RInt_point (pwlin (combine [x0] [y0]))).
  - pose proof Hi as Hi'. apply increasing_cons in Hi as [H0 Hi].
    assert (x0 < x1) by (apply H0; simpl; auto).
    rewrite trapezoid_cons2.
    apply (is_RInt_Chasles (pwlin (combine (x0 :: x1 :: xs) (y0 :: y1 :: ys))) _ x1).
    + rewrite ent_0.
      apply (is_RInt_ext (fun x => y0 + (x - x0) / (x1 - x0) * (y1 - y0)));
        [|now apply is_RInt_segment].
      rewrite Rmin_left, Rmax_right by lra. intros x Hx. cbn [combine pwlin].
      destruct (Rle_dec x x0); [lra|]. destruct (Rlt_dec x x1); [reflexivity|lra].
    + specialize (IH (y1 :: ys) Hi ltac:(simpl in *; lia) ltac:(congruence)).
      rewrite ent_0 in IH.
      replace (ent (x0 :: x1 :: xs) (length (x0 :: x1 :: xs) - 1))
        with (ent (x1 :: xs) (length (x1 :: xs) - 1))
        by (cbn [length]; rewrite !Nat.sub_succ, !Nat.sub_0_r; reflexivity).
      assert (x1 <= ent (x1 :: xs) (length (x1 :: xs) - 1)).
      { rewrite <- (ent_0 x1 xs) at 1. apply increasing_le; auto. simpl. lia. }
      eapply is_RInt_ext; [|exact IH].
      rewrite Rmin_left, Rmax_right by lra. intros x Hx. cbn [combine pwlin].
      destruct (Rle_dec x x0); [lra|]. destruct (Rlt_dec x x1); [lra|reflexivity].
Qed.

Lemma increasing_firstn l n : increasing l -> increasing (firstn n l).
Proof.
  intros H i j Hij. rewrite firstn_length in Hij. rewrite !ent_firstn by lia. apply H. lia.
Qed.

Lemma firstn_snoc_ent l n : (n < length l)%nat -> ent (firstn (S n) l) (length (firstn (S n) l) - 1) = ent l n.
Proof.
  intros H. rewrite firstn_length, Nat.min_l by lia. rewrite Nat.sub_succ, Nat.sub_0_r.
  apply ent_firstn. lia.
Qed.

(** restricted to a prefix, the piecewise-linear function is the same function *)
Lemma pwlin_firstn xs : forall ys n x,
  increasing xs -> length xs = length ys -> (n < length xs)%nat -> x <= ent xs n ->
  pwlin (combine (firstn (S n) xs) (firstn (S n) ys)) x = pwlin (combine xs ys) x.
Proof.
  induction xs as [|x0 xs IH]; intros ys n x Hi Hl Hn Hx; [simpl in Hn; lia|].
  destruct ys as [|y0 ys]; [discriminate|].
  destruct n as [|n].
  - rewrite ent_0 in Hx. destruct xs as [|x1 xs]; destruct ys as [|y1 ys]; try discriminate; [reflexivity|].
    cbn [firstn combine pwlin]. destruct (Rle_dec x x0); [reflexivity|lra].
  - destruct xs as [|x1 xs]; [simpl in Hn; lia|]. destruct ys as [|y1 ys]; try discriminate.
    apply increasing_cons in Hi as [H0 Hi].
    specialize (IH (y1 :: ys) n x Hi ltac:(simpl in *; lia) ltac:(simpl in *; lia)).
    rewrite ent_cons_S in Hx. specialize (IH Hx).
    rewrite (firstn_cons (S n)), (firstn_cons (S n) y0).
    cbn [combine]. rewrite (firstn_cons n x1), (firstn_cons n y1) in *.
    cbn [combine pwlin] in *.
    destruct (Rle_dec x x0); [reflexivity|]. destruct (Rlt_dec x x1); [reflexivity|]. exact IH.
Qed.

Lemma is_RInt_pwlin_prefix xs ys n :
  increasing xs -> length xs = length ys -> (n < length xs)%nat ->
  is_RInt (pwlin (combine xs ys)) (ent xs 0) (ent xs n)
    (trapezoid (firstn (S n) xs) (firstn (S n) ys)).
Proof.
  intros Hi Hl Hn.
  pose proof (is_RInt_pwlin (firstn (S n) xs) (firstn (S n) ys)
    (increasing_firstn _ _ Hi) ltac:(rewrite !firstn_length; lia)
    ltac:(destruct xs; simpl in *; [lia|congruence])) as H.
  rewrite firstn_snoc_ent in H by auto. rewrite ent_firstn in H by lia.
  eapply is_RInt_ext; [|exact H]. 
  pose proof (increasing_le xs 0 n Hi ltac:(lia)).
  rewrite Rmin_left, Rmax_right by auto. intros x Hx. apply pwlin_firstn; auto. lra.
Qed.
