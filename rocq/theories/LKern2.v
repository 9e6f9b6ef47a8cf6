(** * Sigmoid, trapezoid rule, weight matrices, power law, bin edges (dsps/utils.py) *)
From Coq Require Import Reals List Arith Lra Lia Bool.
From Coquelicot Require Import Coquelicot.
From Flocq Require Import Core.Raux.
From Verif Require Import Num Arr MUtils Spec RList LBcast LUtils LCalc LKern.
Import ListNotations.
Open Scope R_scope.

(** ** logistic *)
Lemma logistic_bounds x : 0 < logistic x < 1.
Proof.
  unfold logistic. pose proof (exp_pos (- x)). split.
  - apply Rdiv_lt_0_compat; lra.
  - apply div_lt_iff; lra.
Qed.
Lemma logistic_lt x y : x < y -> logistic x < logistic y.
Proof.
  intros H. unfold logistic. pose proof (exp_pos (- x)). pose proof (exp_pos (- y)).
  pose proof (exp_increasing (- y) (- x) ltac:(lra)).
  unfold Rdiv. rewrite !Rmult_1_l. apply Rinv_lt_contravar; [apply Rmult_lt_0_compat; lra|lra].
Qed.
Lemma logistic_le x y : x <= y -> logistic x <= logistic y.
Proof. intros [H| ->]; [left; now apply logistic_lt|lra]. Qed.
Lemma logistic_0 : logistic 0 = 1/2.
Proof. unfold logistic. rewrite Ropp_0, exp_0. lra. Qed.
Lemma logistic_opp x : logistic (- x) = 1 - logistic x.
Proof.
  unfold logistic. rewrite Ropp_involutive, exp_Ropp. pose proof (exp_pos x). field. split; lra.
Qed.
(** odds *)
Lemma logistic_odds x : 1 / logistic x - 1 = exp (- x).
Proof. unfold logistic. pose proof (exp_pos (- x)). field. lra. Qed.

Lemma sigmoid_fin x x0 k ylo yhi :
  sigmoid (Fin x) (Fin x0) (Fin k) (Fin ylo) (Fin yhi) =
  Fin (ylo + (yhi - ylo) * logistic (k * (x - x0))).
Proof. unfold sigmoid. now rewrite !nsub_fin, !nmul_fin, nlogistic_fin, nmul_fin, nadd_fin. Qed.

Lemma inverse_sigmoid_fin y x0 k ylo yhi : k <> 0 -> ylo < y < yhi ->
  inverse_sigmoid (Fin y) (Fin x0) (Fin k) (Fin ylo) (Fin yhi) =
  Fin (x0 - ln ((yhi - ylo) / (y - ylo) - 1) / k).
Proof.
  intros Hk Hy. unfold inverse_sigmoid. rewrite !nsub_fin, ndiv_fin by lra. rewrite nsub_fin.
  rewrite nln_fin, ndiv_fin, nsub_fin; auto.
  assert (1 < (yhi - ylo) / (y - ylo)) by (apply lt_div_iff; lra). lra.
Qed.

Lemma sigmoid_inverse x x0 k ylo yhi : k <> 0 -> ylo < yhi ->
  inverse_sigmoid (sigmoid (Fin x) (Fin x0) (Fin k) (Fin ylo) (Fin yhi)) (Fin x0) (Fin k) (Fin ylo) (Fin yhi)
  = Fin x.
Proof.
  intros Hk Hy. rewrite sigmoid_fin. set (l := logistic (k * (x - x0))).
  assert (Hl : 0 < l < 1) by apply logistic_bounds.
  rewrite inverse_sigmoid_fin; [|assumption|split; nra]. f_equal.
  replace ((yhi - ylo) / (ylo + (yhi - ylo) * l - ylo) - 1) with (1 / l - 1).
  2:{ replace (ylo + (yhi - ylo) * l - ylo) with ((yhi - ylo) * l) by lra. field. lra. }
  unfold l. rewrite logistic_odds, ln_exp. field. auto.
Qed.
Lemma inverse_sigmoid_inverse y x0 k ylo yhi : k <> 0 -> ylo < y < yhi ->
  sigmoid (inverse_sigmoid (Fin y) (Fin x0) (Fin k) (Fin ylo) (Fin yhi)) (Fin x0) (Fin k) (Fin ylo) (Fin yhi)
  = Fin y.
Proof.
  intros Hk Hy. rewrite inverse_sigmoid_fin, sigmoid_fin by auto. f_equal.
  assert (1 < (yhi - ylo) / (y - ylo)) by (apply lt_div_iff; lra).
  replace (k * (x0 - ln ((yhi - ylo) / (y - ylo) - 1) / k - x0)) with
    (- ln ((yhi - ylo) / (y - ylo) - 1)) by (field; auto).
  unfold logistic. rewrite Ropp_involutive, exp_ln by lra. field. lra.
Qed.

Lemma C25_lemma : forall x0 k ylo yhi, 0 < k -> ylo < yhi ->
  let sig x := sigmoid x (Fin x0) (Fin k) (Fin ylo) (Fin yhi) in
  let inv y := inverse_sigmoid y (Fin x0) (Fin k) (Fin ylo) (Fin yhi) in
  exists f : R -> R,
    (forall x, sig (Fin x) = Fin (f x) /\ ylo < f x < yhi /\ inv (sig (Fin x)) = Fin x)
    /\ (forall x y, x < y -> f x < f y)
    /\ f x0 = (ylo + yhi) / 2
    /\ (forall y, ylo < y < yhi -> exists x, inv (Fin y) = Fin x /\ f x = y)
    /\ inv (Fin ylo) = NInf /\ inv (Fin yhi) = PInf
    /\ (forall y, y < ylo \/ yhi < y -> inv (Fin y) = NaN).
Proof.
  intros x0 k ylo yhi Hk Hy sig inv.
  exists (fun x => ylo + (yhi - ylo) * logistic (k * (x - x0))).
  split; [|split; [|split; [|split; [|split; [|split]]]]].
  - intros x. split; [apply sigmoid_fin|]. split.
    + pose proof (logistic_bounds (k * (x - x0))). split; nra.
    + apply sigmoid_inverse; lra.
  - intros x y H. assert (logistic (k * (x - x0)) < logistic (k * (y - x0))).
    { apply logistic_lt. apply Rmult_lt_compat_l; lra. }
    nra.
  - rewrite Rminus_eq_0, Rmult_0_r, logistic_0. lra.
  - intros y H. exists (x0 - ln ((yhi - ylo) / (y - ylo) - 1) / k). split.
    + apply inverse_sigmoid_fin; lra.
    + pose proof (inverse_sigmoid_inverse y x0 k ylo yhi ltac:(lra) H) as E.
      rewrite inverse_sigmoid_fin, sigmoid_fin in E by (lra || auto). now injection E.
  - unfold inv, inverse_sigmoid. rewrite !nsub_fin. replace (ylo - ylo) with 0 by lra.
    rewrite ndiv_pos_0 by lra. simpl. rewrite Rlt_bool_false by lra. reflexivity.
  - unfold inv, inverse_sigmoid. rewrite !nsub_fin, ndiv_fin by lra. rewrite nsub_fin.
    replace ((yhi - ylo) / (yhi - ylo) - 1) with 0 by (field; lra).
    simpl. rewrite Rlt_bool_false, Req_bool_true by lra. simpl. rewrite Rlt_bool_false by lra. reflexivity.
  - intros y H. unfold inv, inverse_sigmoid. rewrite !nsub_fin, ndiv_fin by lra. rewrite nsub_fin.
    assert ((yhi - ylo) / (y - ylo) - 1 < 0).
    { destruct H.
      - assert (0 < (yhi - ylo) / (ylo - y)) by (apply Rdiv_lt_0_compat; lra).
        replace ((yhi - ylo) / (y - ylo)) with (- ((yhi - ylo) / (ylo - y))) by (field; lra). lra.
      - assert ((yhi - ylo) / (y - ylo) < 1) by (apply div_lt_iff; lra). lra. }
    simpl. rewrite Rlt_bool_false, Req_bool_false by lra. reflexivity.
Qed.

(** ** C26, C27 *)
Lemma trapz_ok xs ys : length xs = length ys -> trapz (fins xs) (fins ys) = Ok (Fin (trapezoid xs ys)).
Proof.
  intros H. rewrite trapz_same by (now rewrite !fins_length). now rewrite trapz_fins.
Qed.
Lemma cumtrapz_ok xs ys : length xs = length ys -> xs <> [] ->
  cumtrapz (fins xs) (fins ys) =
  Ok (fins (map (fun i => trapezoid (firstn (S i) xs) (firstn (S i) ys)) (seq 0 (length xs)))).
Proof.
  intros H Hn. unfold cumtrapz, check. rewrite (proj2 (same_len_true _ _)) by (now rewrite !fins_length).
  rewrite fins_length. destruct xs as [|x xs]; [congruence|]. cbn [length Nat.eqb negb].
  now rewrite cumtrapz_fins.
Qed.

Lemma C26_lemma : forall xs ys, length xs = length ys -> xs <> [] ->
  exists c,
    cumtrapz (fins xs) (fins ys) = Ok (fins c)
    /\ length c = length xs /\ ent c 0 = 0
    /\ trapz (fins xs) (fins ys) = Ok (Fin (ent c (length xs - 1)))
    /\ forall i, (i < length xs)%nat ->
       trapz (fins (firstn (S i) xs)) (fins (firstn (S i) ys)) = Ok (Fin (ent c i)).
Proof.
  intros xs ys H Hn. eexists. split; [now apply cumtrapz_ok|].
  rewrite map_length, seq_length. split; auto.
  assert (0 < length xs)%nat by (destruct xs; [congruence|simpl; lia]). split; [|split].
  - rewrite ent_map_seq by auto. destruct xs, ys; try discriminate; reflexivity.
  - rewrite trapz_ok by auto. rewrite ent_map_seq by lia.
    replace (S (0 + (length xs - 1))) with (length xs) by lia.
    rewrite firstn_all, H, firstn_all. reflexivity.
  - intros i Hi. rewrite trapz_ok by (rewrite !firstn_length; lia). rewrite ent_map_seq by lia. reflexivity.
Qed.

Lemma trapezoid_linear xs : forall ys zs a b, length xs = length ys -> length xs = length zs ->
  trapezoid xs (map2 (fun y z => a * y + b * z) ys zs) = a * trapezoid xs ys + b * trapezoid xs zs.
Proof.
  induction xs as [|x xs IH]; intros [|y ys] [|z zs] a b H1 H2; try discriminate; [simpl; lra|].
  destruct xs as [|x1 xs], ys as [|y1 ys], zs as [|z1 zs]; try discriminate; [simpl; lra|].
  cbn [map2]. rewrite !trapezoid_cons2.
  specialize (IH (y1 :: ys) (z1 :: zs) a b ltac:(simpl in *; lia) ltac:(simpl in *; lia)). cbn [map2] in IH.
  rewrite IH. lra.
Qed.
Lemma trapezoid_mono xs : forall ys zs, length xs = length ys -> length xs = length zs ->
  nondecreasing xs -> (forall i, (i < length xs)%nat -> ent ys i <= ent zs i) ->
  trapezoid xs ys <= trapezoid xs zs.
Proof.
  induction xs as [|x xs IH]; intros [|y ys] [|z zs] H1 H2 Hx H; try discriminate; [simpl; lra|].
  destruct xs as [|x1 xs], ys as [|y1 ys], zs as [|z1 zs]; try discriminate; [simpl; lra|].
  rewrite !trapezoid_cons2.
  specialize (IH (y1 :: ys) (z1 :: zs) ltac:(simpl in *; lia) ltac:(simpl in *; lia)).
  pose proof (Hx 0%nat 1%nat ltac:(simpl; lia)) as Hx0.
  pose proof (H 0%nat ltac:(simpl; lia)) as A0. pose proof (H 1%nat ltac:(simpl; lia)) as A1.
  unfold ent in Hx0, A0, A1. cbn [nth] in Hx0, A0, A1.
  assert (trapezoid (x1 :: xs) (y1 :: ys) <= trapezoid (x1 :: xs) (z1 :: zs)).
  { apply IH.
    - intros i j Hij. apply (Hx (S i) (S j)). simpl in *. lia.
    - intros i Hi. apply (H (S i)). simpl in *. lia. }
  nra.
Qed.
Lemma trapezoid_app_last xs : forall ys x y x1 y1, length xs = length ys ->
  trapezoid ((xs ++ [x1]) ++ [x]) ((ys ++ [y1]) ++ [y]) =
  trapezoid (xs ++ [x1]) (ys ++ [y1]) + (x - x1) * (y1 + y) / 2.
Proof.
  induction xs as [|a xs IH]; intros [|b ys] x y x1 y1 H; try discriminate; [simpl; lra|].
  destruct xs as [|a1 xs], ys as [|b1 ys]; try discriminate; [simpl; lra|].
  specialize (IH (b1 :: ys) x y x1 y1 ltac:(simpl in *; lia)). simpl in *. rewrite IH. lra.
Qed.
Lemma trapezoid_rev xs : forall ys, length xs = length ys ->
  trapezoid (rev xs) (rev ys) = - trapezoid xs ys.
Proof.
  induction xs as [|x xs IH]; intros [|y ys] H; try discriminate; [simpl; lra|].
  destruct xs as [|x1 xs], ys as [|y1 ys]; try discriminate; [simpl; lra|].
  specialize (IH (y1 :: ys) ltac:(simpl in *; lia)). cbn [rev] in *.
  rewrite trapezoid_app_last, IH by (rewrite !rev_length; simpl in *; lia).
  rewrite trapezoid_cons2. lra.
Qed.

Lemma C27_integral_lemma : forall xs ys, length xs = length ys -> xs <> [] -> increasing xs ->
  exists a, trapz (fins xs) (fins ys) = Ok (Fin a)
    /\ is_RInt (pwlin (combine xs ys)) (ent xs 0) (ent xs (length xs - 1)) a.
Proof. intros xs ys H Hn Hi. eexists. split; [now apply trapz_ok|now apply is_RInt_pwlin]. Qed.

Lemma C27_algebra_lemma : forall xs ys zs, length xs = length ys -> length xs = length zs ->
  exists a b,
    trapz (fins xs) (fins ys) = Ok (Fin a) /\ trapz (fins xs) (fins zs) = Ok (Fin b)
    /\ (forall c d, trapz (fins xs) (fins (map2 (fun y z => c * y + d * z) ys zs))
                    = Ok (Fin (c * a + d * b)))
    /\ (nondecreasing xs -> (forall i, (i < length xs)%nat -> ent ys i <= ent zs i) -> a <= b)
    /\ trapz (fins (rev xs)) (fins (rev ys)) = Ok (Fin (- a)).
Proof.
  intros xs ys zs H1 H2. exists (trapezoid xs ys), (trapezoid xs zs).
  split; [now apply trapz_ok|]. split; [now apply trapz_ok|]. split; [|split].
  - intros c d. rewrite trapz_ok by (rewrite map2_length; lia). now rewrite trapezoid_linear.
  - intros; now apply trapezoid_mono.
  - rewrite trapz_ok by (now rewrite !rev_length). now rewrite trapezoid_rev.
Qed.

(** ** C28 *)
Definition outer2 (a b : list R) : list (list R) := map (fun x => map (fun y => x * y) b) a.
Definition outer3 (a b c : list R) : list (list (list R)) :=
  map (fun x => map (fun y => map (fun z => x * y * z) c) b) a.
Lemma mult_2d_fins a b : mult_2d_vmap (fins a) (fins b) = map fins (outer2 a b).
Proof.
  unfold mult_2d_vmap, outer2, fins. rewrite !map_map. apply map_ext. intros x. rewrite !map_map. reflexivity.
Qed.
Lemma mult_3d_fins a b c : mult_3d_vmap (fins a) (fins b) (fins c) = map (map fins) (outer3 a b c).
Proof.
  unfold mult_3d_vmap, outer3, fins. rewrite !map_map. apply map_ext. intros x. rewrite !map_map.
  apply map_ext. intros y. rewrite !map_map. reflexivity.
Qed.
Lemma outer2_ent a b i j : (i < length a)%nat -> (j < length b)%nat ->
  ent2 (outer2 a b) i j = ent a i * ent b j.
Proof.
  intros Hi Hj. unfold ent2, outer2. rewrite nth_map' with (d := 0) by auto.
  rewrite ent_map by auto. reflexivity.
Qed.
Lemma outer3_ent a b c i j k : (i < length a)%nat -> (j < length b)%nat -> (k < length c)%nat ->
  ent3 (outer3 a b c) i j k = ent a i * ent b j * ent c k.
Proof.
  intros Hi Hj Hk. unfold ent3, ent2, outer3. rewrite nth_map' with (d := 0) by auto.
  rewrite nth_map' with (d := 0) by auto. rewrite ent_map by auto. reflexivity.
Qed.
Lemma Rsum_map_mul c l : Rsum (map (fun y => c * y) l) = c * Rsum l.
Proof. apply (Rsum_scal c l). Qed.
Lemma outer2_sum a b : Rsum2 (outer2 a b) = Rsum a * Rsum b.
Proof.
  unfold Rsum2, outer2. rewrite map_map.
  rewrite (map_ext _ (fun x => x * Rsum b)) by (intros; apply Rsum_map_mul). apply Rsum_scal_r.
Qed.
Lemma outer3_sum a b c : Rsum (map Rsum2 (outer3 a b c)) = Rsum a * Rsum b * Rsum c.
Proof.
  unfold outer3. rewrite map_map. rewrite (map_ext _ (fun x => x * (Rsum b * Rsum c))).
  - rewrite Rsum_scal_r. lra.
  - intros x. unfold Rsum2. rewrite map_map.
    rewrite (map_ext _ (fun y => (x * Rsum c) * y)).
    + rewrite Rsum_map_mul. lra.
    + intros y. rewrite Rsum_map_mul. lra.
Qed.
Lemma map2_nth_some {A B C} (f : A -> B -> C) l1 l2 g d1 d2 d :
  (g < length l1)%nat -> (g < length l2)%nat -> nth g (map2 f l1 l2) d = f (nth g l1 d1) (nth g l2 d2).
Proof. intros. now apply map2_nth. Qed.

Lemma C28_lemma : forall (ws1 ws2 : list (list R)), length ws1 = length ws2 ->
  exists out : list (list (list R)),
    get_weight_matrices_2d (map fins ws1) (map fins ws2) = map (map fins) out
    /\ length out = length ws1
    /\ forall g, (g < length ws1)%nat ->
       let w1 := nth g ws1 [] in let w2 := nth g ws2 [] in let m := nth g out [] in
       is_matrix (length w1) (length w2) m
       /\ (forall i j, (i < length w1)%nat -> (j < length w2)%nat -> ent2 m i j = ent w1 i * ent w2 j)
       /\ Rsum2 m = Rsum w1 * Rsum w2.
Proof.
  intros ws1 ws2 H. exists (map2 outer2 ws1 ws2). split; [|split].
  - unfold get_weight_matrices_2d. rewrite map2_map, map_map2. apply map2_ext. intros. apply mult_2d_fins.
  - rewrite map2_length. lia.
  - intros g Hg w1 w2 m. unfold m. rewrite map2_nth with (d1 := []) (d2 := []) by lia.
    fold w1 w2. split; [|split].
    + split; [apply map_length|]. apply Forall_forall. intros row Hr.
      apply in_map_iff in Hr as [x [<- _]]. apply map_length.
    + intros; now apply outer2_ent.
    + apply outer2_sum.
Qed.

Lemma C28_3d_lemma : forall (ws1 ws2 ws3 : list (list R)),
  length ws1 = length ws2 -> length ws1 = length ws3 ->
  exists out : list (list (list (list R))),
    get_weight_matrices_3d (map fins ws1) (map fins ws2) (map fins ws3) = map (map (map fins)) out
    /\ length out = length ws1
    /\ forall g, (g < length ws1)%nat ->
       let w1 := nth g ws1 [] in let w2 := nth g ws2 [] in let w3 := nth g ws3 [] in
       let m := nth g out [] in
       is_cube (length w1) (length w2) (length w3) m
       /\ (forall i j k, (i < length w1)%nat -> (j < length w2)%nat -> (k < length w3)%nat ->
           ent3 m i j k = ent w1 i * ent w2 j * ent w3 k)
       /\ Rsum (map Rsum2 m) = Rsum w1 * Rsum w2 * Rsum w3.
Proof.
  intros ws1 ws2 ws3 H H3. exists (map2 (fun f c => f c) (map2 outer3 ws1 ws2) ws3). split; [|split].
  - unfold get_weight_matrices_3d.
    revert ws2 ws3 H H3. induction ws1 as [|w1 ws1 IH]; intros [|w2 ws2] [|w3 ws3] H H3; try discriminate; auto.
    simpl. rewrite mult_3d_fins. f_equal. apply IH; simpl in *; lia.
  - rewrite !map2_length. lia.
  - intros g Hg w1 w2 w3 m. unfold m.
    rewrite map2_nth with (d1 := outer3 [] []) (d2 := []) by (rewrite ?map2_length; lia).
    rewrite map2_nth with (d1 := []) (d2 := []) by lia.
    fold w1 w2 w3. split; [|split].
    + split; [apply map_length|]. apply Forall_forall. intros row Hr.
      apply in_map_iff in Hr as [x [<- _]]. split; [apply map_length|]. apply Forall_forall. intros r2 Hr.
      apply in_map_iff in Hr as [y [<- _]]. apply map_length.
    + intros; now apply outer3_ent.
    + apply outer3_sum.
Qed.

(** ** C29 *)
Lemma Rpower_pos x y : 0 < Rpower x y. Proof. apply exp_pos. Qed.
Lemma Rpower_lt_base x y g : 0 < g -> 0 < x -> x < y -> Rpower x g < Rpower y g.
Proof.
  intros Hg Hx Hy. unfold Rpower. apply exp_increasing. apply Rmult_lt_compat_l; auto.
  now apply ln_increasing.
Qed.
Lemma Rpower_gt_base x y g : g < 0 -> 0 < x -> x < y -> Rpower y g < Rpower x g.
Proof.
  intros Hg Hx Hy. unfold Rpower. apply exp_increasing. pose proof (ln_increasing x y Hx Hy). nra.
Qed.
Lemma Rpower_is_derive x g : 0 < x -> is_derive (fun x => Rpower x g) x (g * Rpower x (g - 1)).
Proof.
  intros Hx. apply is_derive_Reals. unfold Rpower.
  replace (g * exp ((g - 1) * ln x)) with (g * Rpower x (g - 1)) by reflexivity.
  apply derivable_pt_lim_power. auto.
Qed.

Lemma powerlaw_denom a b g : 0 < a < b -> g <> 0 -> 0 < g / (Rpower b g - Rpower a g)
  /\ Rpower b g - Rpower a g <> 0.
Proof.
  intros Hab Hg. destruct (Rdichotomy g 0 Hg) as [H|H].
  - pose proof (Rpower_gt_base a b g H ltac:(lra) ltac:(lra)). split; [|lra].
    replace (g / (Rpower b g - Rpower a g)) with ((- g) / (Rpower a g - Rpower b g)) by (field; lra).
    apply Rdiv_lt_0_compat; lra.
  - pose proof (Rpower_lt_base a b g H ltac:(lra) ltac:(lra)). split; [|lra].
    apply Rdiv_lt_0_compat; lra.
Qed.

Lemma powerlaw_pdf_fin x a b g : 0 < a < b -> g <> 0 -> 0 < x ->
  powerlaw_pdf (Fin x) (Fin a) (Fin b) (Fin g) =
  Fin (g * Rpower x (g - 1) / (Rpower b g - Rpower a g)).
Proof.
  intros Hab Hg Hx. destruct (powerlaw_denom a b g Hab Hg) as [_ Hd].
  unfold powerlaw_pdf. rewrite nsub_fin, !npow_fin by lra.
  rewrite nmul_fin, nsub_fin, ndiv_fin by auto. reflexivity.
Qed.
Lemma powerlaw_rvs_fin r a b g : 0 < a < b -> g <> 0 -> 0 <= r < 1 ->
  powerlaw_rvs (Fin r) (Fin a) (Fin b) (Fin g) =
  Fin (Rpower (Rpower a g + (Rpower b g - Rpower a g) * r) (1 / g)).
Proof.
  intros Hab Hg Hr. unfold powerlaw_rvs. rewrite !npow_fin by lra.
  rewrite nsub_fin, nmul_fin, nadd_fin, ndiv_fin by auto.
  rewrite npow_fin; auto. pose proof (Rpower_pos a g). pose proof (Rpower_pos b g). nra.
Qed.

Lemma C29_lemma : forall a b g, 0 < a < b -> g <> 0 ->
  exists pdf rvs : R -> R,
    (forall x, 0 < x -> powerlaw_pdf (Fin x) (Fin a) (Fin b) (Fin g) = Fin (pdf x) /\ 0 < pdf x)
    /\ is_RInt pdf a b 1
    /\ (forall r, 0 <= r < 1 ->
        powerlaw_rvs (Fin r) (Fin a) (Fin b) (Fin g) = Fin (rvs r)
        /\ a <= rvs r < b /\ is_RInt pdf a (rvs r) r)
    /\ (forall r r', 0 <= r -> r < r' -> r' < 1 -> rvs r < rvs r').
Proof.
  intros a b g Hab Hg. destruct (powerlaw_denom a b g Hab Hg) as [Hp Hd].
  set (D := Rpower b g - Rpower a g) in *.
  set (pdf := fun x => g * Rpower x (g - 1) / D).
  set (rvs := fun r => Rpower (Rpower a g + D * r) (1 / g)).
  assert (Int : forall y, a <= y -> is_RInt pdf a y ((Rpower y g - Rpower a g) / D)).
  { intros y Hy.
    replace ((Rpower y g - Rpower a g) / D) with (minus (Rpower y g / D) (Rpower a g / D))
      by (unfold minus, plus, opp; simpl; field; auto).
    apply (is_RInt_derive (fun x => Rpower x g / D) pdf).
    - intros x Hx. rewrite Rmin_left, Rmax_right in Hx by lra. unfold pdf.
      apply (is_derive_ext (fun x => / D * Rpower x g)); [intros; match goal with |- ?u = ?v => change (@eq R u v) end; field; auto|].
      replace (g * Rpower x (g - 1) / D) with (/ D * (g * Rpower x (g - 1))) by (field; auto).
      apply is_derive_scal. apply Rpower_is_derive. lra.
    - intros x Hx. rewrite Rmin_left, Rmax_right in Hx by lra.
      apply continuity_pt_filterlim. apply derivable_continuous_pt.
      exists (g * ((g - 1) * Rpower x (g - 1 - 1)) / D). apply is_derive_Reals. unfold pdf.
      apply (is_derive_ext (fun x => (g / D) * Rpower x (g - 1))); [intros; match goal with |- ?u = ?v => change (@eq R u v) end; field; auto|].
      replace (g * ((g - 1) * Rpower x (g - 1 - 1)) / D)
        with (g / D * ((g - 1) * Rpower x (g - 1 - 1))) by (field; auto).
      apply is_derive_scal. apply Rpower_is_derive. lra. }
  assert (Base : forall r, 0 <= r < 1 -> 0 < Rpower a g + D * r).
  { intros r Hr. unfold D. pose proof (Rpower_pos a g). pose proof (Rpower_pos b g). nra. }
  assert (Inv : forall x, Rpower (Rpower x g) (1 / g) = Rpower x 1).
  { intros x. rewrite Rpower_mult. f_equal. field. auto. }
  assert (Pow : forall r, 0 <= r < 1 -> Rpower (rvs r) g = Rpower a g + D * r).
  { intros r Hr. unfold rvs. rewrite Rpower_mult. replace (1 / g * g) with 1 by (field; auto).
    apply Rpower_1. auto. }
  assert (Mono : forall r r', 0 <= r -> r < r' -> r' < 1 -> rvs r < rvs r').
  { intros r r' H0 H1 H2. unfold rvs. pose proof (Base r ltac:(lra)). pose proof (Base r' ltac:(lra)).
    destruct (Rdichotomy g 0 Hg) as [Hn|Hn].
    - assert (D < 0) by (pose proof (Rpower_gt_base a b g Hn ltac:(lra) ltac:(lra)); unfold D; lra).
      apply Rpower_gt_base; [|auto|nra]. 
      replace (1 / g) with (- (1 / - g)) by (field; auto).
      assert (0 < 1 / - g) by (apply Rdiv_lt_0_compat; lra). lra.
    - assert (0 < D) by (pose proof (Rpower_lt_base a b g Hn ltac:(lra) ltac:(lra)); unfold D; lra).
      apply Rpower_lt_base; [apply Rdiv_lt_0_compat; lra|auto|nra]. }
  assert (R0 : rvs 0 = a).
  { unfold rvs. rewrite Rmult_0_r, Rplus_0_r, Inv. apply Rpower_1. lra. }
  assert (Rb : forall r, 0 <= r < 1 -> rvs r < b).
  { intros r Hr. unfold rvs. rewrite <- (Rpower_1 b) by lra. rewrite <- Inv.
    pose proof (Base r Hr). pose proof (Rpower_pos b g).
    destruct (Rdichotomy g 0 Hg) as [Hn|Hn].
    - assert (D < 0) by (pose proof (Rpower_gt_base a b g Hn ltac:(lra) ltac:(lra)); unfold D; lra).
      apply Rpower_gt_base; auto.
      + replace (1 / g) with (- (1 / - g)) by (field; auto).
        assert (0 < 1 / - g) by (apply Rdiv_lt_0_compat; lra). lra.
      + unfold D in *. nra.
    - assert (0 < D) by (pose proof (Rpower_lt_base a b g Hn ltac:(lra) ltac:(lra)); unfold D; lra).
      apply Rpower_lt_base; auto; [apply Rdiv_lt_0_compat; lra|]. unfold D in *. nra. }
  exists pdf, rvs. split; [|split; [|split; [|exact Mono]]].
  - intros x Hx. split; [now apply powerlaw_pdf_fin|]. unfold pdf.
    replace (g * Rpower x (g - 1) / D) with (g / D * Rpower x (g - 1)) by (field; auto).
    apply Rmult_lt_0_compat; auto. apply Rpower_pos.
  - replace 1 with ((Rpower b g - Rpower a g) / D) by (unfold D in *; field; auto). apply Int. lra.
  - intros r Hr. split; [now apply powerlaw_rvs_fin|].
    assert (a <= rvs r).
    { destruct (Req_dec r 0) as [->|]; [rewrite R0; lra|]. rewrite <- R0 at 1. left. apply Mono; lra. }
    split; [split; auto|].
    pose proof (Int (rvs r) H) as HI. rewrite Pow in HI by auto.
    replace ((Rpower a g + D * r - Rpower a g) / D) with r in HI by (field; auto). exact HI.
Qed.

Lemma C29_zero_lemma : forall x a b, 0 < x -> 0 < a -> 0 < b ->
  powerlaw_pdf (Fin x) (Fin a) (Fin b) (Fin 0) = NaN.
Proof.
  intros x a b Hx Ha Hb. unfold powerlaw_pdf. rewrite nsub_fin.
  rewrite !npow_fin by auto. rewrite !Rpower_O by auto. rewrite nmul_fin, nsub_fin.
  replace (1 - 1) with 0 by lra. rewrite Rmult_0_l. apply ndiv_0_0.
Qed.

(** ** C30 *)
Lemma get_bin_edges_ok a lo hi : (3 <= length a)%nat ->
  get_bin_edges (fins a) (Fin lo) (Fin hi) = Ok (fins (edges_lohi a lo hi)).
Proof.
  intros H. unfold get_bin_edges, check. rewrite fins_length, (proj2 (Nat.leb_le _ _)) by auto.
  now rewrite get_bin_edges_fins.
Qed.
Lemma node_width_regular a d i : (3 <= length a)%nat -> (0 < i)%nat -> (i < length a)%nat ->
  (forall j, (S j < length a)%nat -> ent a (S j) - ent a j = d) -> node_width a i = d.
Proof.
  intros H Hi Hl Hd. unfold node_width. destruct i as [|i]; [lia|].
  change (S i =? 0)%nat with false. cbv iota. cbn [Nat.sub]. rewrite Nat.sub_0_r.
  pose proof (Hd i Hl) as Hi0.
  destruct (Nat.eqb_spec (S i) (length a - 1)).
  - destruct i as [|i]; [lia|]. cbn [Nat.sub]. rewrite ?Nat.sub_0_r. pose proof (Hd i ltac:(lia)). lra.
  - rewrite Nat.add_1_r. pose proof (Hd (S i) ltac:(lia)). lra.
Qed.

Lemma C30_lemma : forall a lo hi, (3 <= length a)%nat ->
  exists e, get_bin_edges (fins a) (Fin lo) (Fin hi) = Ok (fins e)
    /\ length e = S (length a) /\ ent e 0 = lo /\ ent e (length a) = hi
    /\ forall d, (forall j, (S j < length a)%nat -> ent a (S j) - ent a j = d) ->
       forall i, (0 < i < length a)%nat -> ent e i = (ent a (i - 1) + ent a i) / 2.
Proof.
  intros a lo hi H. exists (edges_lohi a lo hi). split; [now apply get_bin_edges_ok|].
  split; [apply edges_lohi_length|].
  split; [rewrite edges_lohi_ent by lia; reflexivity|]. split.
  { rewrite edges_lohi_ent by lia. rewrite Nat.eqb_refl.
    destruct (Nat.eqb_spec (length a) 0); [lia|reflexivity]. }
  intros d Hd i Hi. rewrite edges_lohi_ent by lia.
  destruct (Nat.eqb_spec i 0); [lia|]. destruct (Nat.eqb_spec i (length a)); [lia|].
  rewrite (node_width_regular a d) by (auto; lia). pose proof (Hd (i - 1)%nat ltac:(lia)) as E.
  replace (S (i - 1)) with i in E by lia. lra.
Qed.

Lemma C30_raises_lemma : forall a lo hi, (length a < 3)%nat ->
  get_bin_edges a lo hi = Raise IndexError.
Proof. intros a lo hi H. unfold get_bin_edges, check. now rewrite (proj2 (Nat.leb_gt _ _)) by lia. Qed.
