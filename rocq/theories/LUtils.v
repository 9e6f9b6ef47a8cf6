(** * Lemmas about the model of dsps/utils.py (grids, cumulative integrals) *)
From Coq Require Import Reals List Arith Lra Lia Bool.
From Flocq Require Import Core.Raux.
From Verif Require Import LBcast Num Arr Spec RList MUtils.
Import ListNotations.
Open Scope R_scope.

Lemma ent_0 x l : ent (x :: l) 0 = x.
Proof. reflexivity. Qed.
Lemma nil_neq_len {A} (l : list A) : (1 <= length l)%nat -> l <> [].
Proof. destruct l; simpl; [lia|congruence]. Qed.

(** ** widths and edges of grids *)
Definition Rtmids (a : list R) : list R := map2 (fun x y => 1/2 * (x + y)) a (tl a).
Lemma tmids_fins a : tmids (fins a) = fins (Rtmids a).
Proof. unfold tmids, Rtmids. rewrite <- fins_tl. apply map2_fins'. reflexivity. Qed.
Lemma Rtmids_length a : length (Rtmids a) = (length a - 1)%nat.
Proof. unfold Rtmids. rewrite map2_length, tl_length. lia. Qed.
Lemma Rtmids_ent a i : (S i < length a)%nat -> ent (Rtmids a) i = 1/2 * (ent a i + ent a (S i)).
Proof.
  intros. unfold Rtmids. rewrite ent_map2 by (rewrite ?tl_length; lia).
  unfold ent. now rewrite tl_nth.
Qed.

Definition widths (a : list R) : list R := map (node_width a) (seq 0 (length a)).
Lemma widths_length a : length (widths a) = length a.
Proof. unfold widths. now rewrite map_length, seq_length. Qed.

Lemma get_dt_array_fins a : (3 <= length a)%nat -> get_dt_array_k (fins a) = fins (widths a).
Proof.
  intros H. unfold get_dt_array_k. rewrite tmids_fins, diff_fins.
  set (n := length a) in *.
  assert (Htm : length (Rtmids a) = (n - 1)%nat) by apply Rtmids_length.
  assert (Hdt : length (Rdiff (Rtmids a)) = (n - 2)%nat) by (rewrite Rdiff_length; lia).
  rewrite (last_fins a), (first_fins (Rtmids a)), (last_fins (Rtmids a)),
    (last_fins (Rdiff (Rtmids a))) by (apply nil_neq_len; unfold n in *; lia).
  rewrite !at_fins by (unfold n in *; lia).
  rewrite !nsub_fin, !ndiv_fin by lra. rewrite !nsub_fin, !nadd_fin, nsub_fin.
  change [Fin ?x] with (fins [x]). rewrite <- fins_app, <- fins_cons. f_equal.
  apply list_eq_ent.
  - cbn [length]. rewrite app_length, widths_length, Hdt. simpl. unfold n in *. lia.
  - cbn [length]. rewrite app_length, Hdt. cbn [length]. intros i Hi.
    unfold widths. rewrite ent_map_seq by (unfold n in *; lia). cbn [Nat.add].
    unfold node_width. fold n.
    destruct i as [|i].
    + cbn [Nat.eqb]. rewrite ent_0, Rtmids_ent by (unfold n in *; lia). lra.
    + change (S i =? 0)%nat with false. cbv iota. rewrite ent_cons_S.
      destruct (Nat.eqb_spec (S i) (n - 1)) as [E|E].
      * rewrite ent_app_r by lia. replace (i - length (Rdiff (Rtmids a)))%nat with O by lia.
        rewrite ent_0, ?Hdt, ?Htm.
        rewrite Rdiff_ent by lia. rewrite !Rtmids_ent by (unfold n in *; lia). fold n.
        replace (S i - 1)%nat with (n - 2)%nat by lia.
        replace (S i - 2)%nat with (n - 3)%nat by lia.
        replace (n - 1 - 1)%nat with (n - 2)%nat by lia.
        replace (n - 2 - 1)%nat with (n - 3)%nat by lia.
        replace (S (n - 2))%nat with (n - 1)%nat by lia.
        replace (S (n - 3))%nat with (n - 2)%nat by lia.
        replace (S (n - 2))%nat with (n - 1)%nat by lia.
        replace (S i) with (n - 1)%nat by lia. lra.
      * rewrite ent_app_l by lia. rewrite Rdiff_ent by lia.
        rewrite !Rtmids_ent by (unfold n in *; lia).
        replace (S i - 1)%nat with i by lia. replace (S i + 1)%nat with (S (S i)) by lia. lra.
Qed.

Lemma at_cons_S x l i : at_ (x :: l) (S i) = at_ l i.
Proof. reflexivity. Qed.

(** edges with given outer values *)
Definition edges_lohi (a : list R) (lo hi : R) : list R :=
  map (fun i => if (i =? 0)%nat then lo else if (i =? length a)%nat then hi
                else ent a i - node_width a i / 2) (seq 0 (S (length a))).
Lemma edges_lohi_length a lo hi : length (edges_lohi a lo hi) = S (length a).
Proof. unfold edges_lohi. now rewrite map_length, seq_length. Qed.
Lemma edges_lohi_ent a lo hi i : (i <= length a)%nat ->
  ent (edges_lohi a lo hi) i =
  if (i =? 0)%nat then lo else if (i =? length a)%nat then hi
  else ent a i - node_width a i / 2.
Proof. intros. unfold edges_lohi. rewrite ent_map_seq by lia. reflexivity. Qed.

Lemma edges_aux a lo hi : (3 <= length a)%nat ->
  Fin lo :: tl (map2 (fun m d => m - d / Fin 2)%num (fins a) (fins (widths a))) ++ [Fin hi]
  = fins (edges_lohi a lo hi).
Proof.
  intros H.
  rewrite (map2_fins' _ (fun m d => m - d / 2)).
  2:{ intros. rewrite ndiv_fin by lra. reflexivity. }
  rewrite <- fins_tl. change [Fin hi] with (fins [hi]).
  rewrite <- fins_app, <- fins_cons. f_equal.
  set (n := length a) in *.
  assert (L : length (map2 (fun m d => m - d / 2) a (widths a)) = n).
  { rewrite map2_length, widths_length. unfold n. lia. }
  apply list_eq_ent.
  - cbn [length]. rewrite app_length, tl_length, edges_lohi_length, L. simpl. unfold n in *. lia.
  - cbn [length]. rewrite app_length, tl_length, L. cbn [length]. intros i Hi.
    rewrite edges_lohi_ent by (unfold n in *; lia). fold n.
    destruct i as [|i]; [reflexivity|]. change (S i =? 0)%nat with false. cbv iota. rewrite ent_cons_S.
    destruct (Nat.eqb_spec (S i) n).
    + rewrite ent_app_r by (rewrite tl_length; lia). rewrite tl_length, L.
      replace (i - (n - 1))%nat with O by lia. reflexivity.
    + rewrite ent_app_l by (rewrite tl_length; lia). unfold ent at 1. rewrite tl_nth.
      change (ent (map2 (fun m d => m - d / 2) a (widths a)) (S i) =
              ent a (S i) - node_width a (S i) / 2).
      rewrite ent_map2 by (rewrite ?widths_length; unfold n in *; lia).
      unfold widths. rewrite ent_map_seq by (unfold n in *; lia). reflexivity.
Qed.

Lemma get_bin_edges_fins a lo hi : (3 <= length a)%nat ->
  get_bin_edges_k (fins a) (Fin lo) (Fin hi) = fins (edges_lohi a lo hi).
Proof.
  intros H. unfold get_bin_edges_k. rewrite get_dt_array_fins by auto. now apply edges_aux.
Qed.

Lemma met_edges_eq a : met_edges a = edges_lohi a (-10) 10.
Proof. reflexivity. Qed.

Lemma age_edges_length a : length (age_edges a) = S (length a).
Proof. unfold age_edges. now rewrite map_length, seq_length. Qed.
Lemma age_edges_ent a i : (i <= length a)%nat -> ent (age_edges a) i = age_edge a i.
Proof. intros. unfold age_edges. rewrite ent_map_seq by lia. reflexivity. Qed.
Lemma met_edges_length a : length (met_edges a) = S (length a).
Proof. unfold met_edges. now rewrite map_length, seq_length. Qed.
Lemma met_edges_ent a i : (i <= length a)%nat -> ent (met_edges a) i = met_edge a i.
Proof. intros. unfold met_edges. rewrite ent_map_seq by lia. reflexivity. Qed.

Lemma age_edges_lohi a : (3 <= length a)%nat ->
  edges_lohi a (ent a 0 - node_width a 0 / 2)
    (ent a (length a - 1) + node_width a (length a - 1) / 2) = age_edges a.
Proof.
  intros H. apply list_eq_ent.
  - now rewrite edges_lohi_length, age_edges_length.
  - rewrite edges_lohi_length. intros i Hi.
    rewrite edges_lohi_ent, age_edges_ent by lia. unfold age_edge.
    destruct (Nat.eqb_spec i 0) as [->|].
    + destruct (Nat.eqb_spec 0 (length a)); [lia|]. reflexivity.
    + destruct (Nat.eqb_spec i (length a)); reflexivity.
Qed.

(** ** cumulative trapezoid *)
Lemma trapezoid_cons2 x0 x1 xs y0 y1 ys :
  trapezoid (x0 :: x1 :: xs) (y0 :: y1 :: ys) =
  (x1 - x0) * (y0 + y1) / 2 + trapezoid (x1 :: xs) (y1 :: ys).
Proof. reflexivity. Qed.
Lemma map_cons' {A B} (f : A -> B) x l : map f (x :: l) = f x :: map f l.
Proof. reflexivity. Qed.
Lemma scan_cumtrapz xs : forall ys x0 y0 c, length xs = length ys ->
  scan cumtrapz_scan_func (Fin x0, Fin y0, Fin c) (combine (fins xs) (fins ys)) =
  fins (map (fun i => c + trapezoid (x0 :: firstn (S i) xs) (y0 :: firstn (S i) ys))
            (seq 0 (length xs))).
Proof.
  induction xs as [|x xs IH]; intros [|y ys] x0 y0 c H; try discriminate; [reflexivity|].
  rewrite !fins_cons. cbn [combine scan cumtrapz_scan_func length seq].
  rewrite !nsub_fin, !nadd_fin, nmul_fin, ndiv_fin by lra. rewrite nadd_fin.
  rewrite IH by (simpl in H; lia).
  rewrite <- seq_shift, map_cons', map_map. cbn [firstn].
  rewrite fins_cons. f_equal.
  - f_equal. cbn [trapezoid]. lra.
  - f_equal. apply map_ext. intros i. rewrite trapezoid_cons2. lra.
Qed.

Lemma trapezoid_dup x0 y0 xs ys :
  trapezoid (x0 :: x0 :: xs) (y0 :: y0 :: ys) = trapezoid (x0 :: xs) (y0 :: ys).
Proof. cbn [trapezoid]. destruct xs, ys; lra. Qed.

Lemma cumtrapz_fins xs ys : length xs = length ys -> xs <> [] ->
  cumtrapz_k (fins xs) (fins ys) =
  fins (map (fun i => trapezoid (firstn (S i) xs) (firstn (S i) ys)) (seq 0 (length xs))).
Proof.
  intros H Hn. unfold cumtrapz_k.
  rewrite !first_fins by (try apply nil_neq_len; destruct xs, ys; simpl in *; try congruence; lia).
  rewrite scan_cumtrapz by auto. f_equal. apply map_ext. intros i.
  destruct xs as [|x xs], ys as [|y ys]; try discriminate; [congruence|].
  rewrite !ent_0. rewrite (firstn_cons i x xs), (firstn_cons i y ys), trapezoid_dup. lra.
Qed.

Lemma cumulative_mass_fins ts ss : length ts = length ss ->
  cumulative_mstar_formed_k (fins ts) (fins ss) = fins (cumulative_mass ts ss).
Proof.
  intros H. unfold cumulative_mstar_formed_k, cumtrapz_k, T_BIRTH_MIN, SFR_MIN. rewrite (stretch_same _ (fins ss)) by (unfold fins; rewrite !map_length; auto).
  rewrite !lit_fin. rewrite <- !fins_cons.
  rewrite !first_fins by congruence. rewrite !ent_0.
  cbn [fins map combine scan cumtrapz_scan_func tl]. fold (fins ts). fold (fins ss).
  rewrite !nsub_fin, nadd_fin, nmul_fin, ndiv_fin by lra. rewrite nadd_fin.
  rewrite scan_cumtrapz by auto.
  rewrite map_fins with (g := fun m => m * 10 ^ 9) by reflexivity.
  f_equal. unfold cumulative_mass. rewrite map_map. apply map_ext. intros i. lra.
Qed.

(** mass history: positivity and growth *)
Lemma cumulative_mass_length ts ss : length (cumulative_mass ts ss) = length ts.
Proof. unfold cumulative_mass. now rewrite map_length, seq_length. Qed.
Lemma cumulative_mass_ent ts ss i : (i < length ts)%nat ->
  ent (cumulative_mass ts ss) i =
  10 ^ 9 * trapezoid (0.001 :: firstn (S i) ts) (1 / 10 ^ 14 :: firstn (S i) ss).
Proof. intros. unfold cumulative_mass. now rewrite ent_map_seq. Qed.

Lemma trapezoid_snoc xs : forall ys x0 y0 i, length xs = length ys -> (S i < length xs)%nat ->
  trapezoid (x0 :: firstn (S (S i)) xs) (y0 :: firstn (S (S i)) ys) =
  trapezoid (x0 :: firstn (S i) xs) (y0 :: firstn (S i) ys) +
  (ent xs (S i) - ent xs i) * (ent ys i + ent ys (S i)) / 2.
Proof.
  induction xs as [|x xs IH]; intros [|y ys] x0 y0 i H Hi; simpl in Hi, H; try lia.
  destruct i as [|i].
  - destruct xs as [|x1 xs]; destruct ys as [|y1 ys]; simpl in *; try lia.
    unfold ent. simpl. destruct xs, ys; simpl; lra.
  - rewrite !ent_cons_S. 
    rewrite (firstn_cons (S (S i)) x xs), (firstn_cons (S (S i)) y ys),
      (firstn_cons (S i) x xs), (firstn_cons (S i) y ys).
    change (trapezoid (x0 :: x :: firstn (S (S i)) xs) (y0 :: y :: firstn (S (S i)) ys))
      with ((x - x0) * (y0 + y) / 2 + trapezoid (x :: firstn (S (S i)) xs) (y :: firstn (S (S i)) ys)).
    change (trapezoid (x0 :: x :: firstn (S i) xs) (y0 :: y :: firstn (S i) ys))
      with ((x - x0) * (y0 + y) / 2 + trapezoid (x :: firstn (S i) xs) (y :: firstn (S i) ys)).
    rewrite IH by lia. lra.
Qed.

Lemma cumulative_mass_0 t ts s ss :
  ent (cumulative_mass (t :: ts) (s :: ss)) 0 = 10 ^ 9 * ((t - 0.001) * (1 / 10 ^ 14 + s) / 2).
Proof. rewrite cumulative_mass_ent by (simpl; lia). cbn [firstn trapezoid]. lra. Qed.

Lemma cumulative_mass_step ts ss i : length ts = length ss -> (S i < length ts)%nat ->
  ent (cumulative_mass ts ss) (S i) - ent (cumulative_mass ts ss) i =
  10 ^ 9 * ((ent ts (S i) - ent ts i) * (ent ss i + ent ss (S i)) / 2).
Proof.
  intros. rewrite !cumulative_mass_ent by lia. rewrite trapezoid_snoc by lia. lra.
Qed.

Lemma cumulative_mass_increasing ts ss :
  length ts = length ss -> increasing (0.001 :: ts) -> Forall (fun s => 0 < s) ss ->
  increasing (cumulative_mass ts ss) /\ Forall (fun m => 0 < m) (cumulative_mass ts ss).
Proof.
  intros Hl Hi Hp. pose proof Hi as Hi'. apply increasing_cons in Hi' as [H0 Hi1].
  assert (Hinc : increasing (cumulative_mass ts ss)).
  { apply increasing_step. rewrite cumulative_mass_length. intros i Hlt.
    pose proof (cumulative_mass_step ts ss i Hl Hlt) as E.
    assert (ent ts i < ent ts (S i)) by (apply Hi1; lia).
    rewrite Forall_ent in Hp. assert (0 < ent ss i) by (apply Hp; lia).
    assert (0 < ent ss (S i)) by (apply Hp; lia).
    assert (0 < (ent ts (S i) - ent ts i) * (ent ss i + ent ss (S i))) by (apply Rmult_lt_0_compat; lra).
    lra. }
  split; auto.
  destruct ts as [|t ts]; [constructor|]. destruct ss as [|s ss]; [discriminate|].
  apply Forall_ent. rewrite cumulative_mass_length. intros i Hlt.
  apply Rlt_le_trans with (ent (cumulative_mass (t :: ts) (s :: ss)) 0).
  - rewrite cumulative_mass_0. inversion Hp; subst.
    assert (0.001 < t) by (apply H0; simpl; auto).
    assert (0 < (t - 0.001) * (1 / 10 ^ 14 + s)) by (apply Rmult_lt_0_compat; lra).
    lra.
  - apply increasing_le; auto. rewrite cumulative_mass_length. lia.
Qed.
