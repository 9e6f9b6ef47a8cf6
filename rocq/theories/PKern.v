(** * Properties C22-C30: triweight kernel and the other helpers of utils.py.  Exact real arithmetic. *)
From Coq Require Import Reals List Arith Lra Lia.
From Coquelicot Require Import Coquelicot.
From Verif Require Import Num Arr MUtils Spec RList LUtils LKern LKern2 Demo.
Import ListNotations.
Open Scope R_scope.

(** C22 *)
Theorem C22_triweight_cdf : forall m h, 0 < h -> exists cdf : R -> R,
  (forall x, tw_cuml_kern (Fin x) (Fin m) (Fin h) = Fin (cdf x))
  /\ (forall x, x <= m - 3 * h -> cdf x = 0)
  /\ (forall x, m + 3 * h <= x -> cdf x = 1)
  /\ cdf m = 1/2
  /\ (forall x, 0 <= cdf x <= 1)
  /\ (forall x y, x <= y -> cdf x <= cdf y)
  /\ (forall x y, m - 3 * h <= x -> x < y -> y <= m + 3 * h -> cdf x < cdf y)
  /\ (forall d, cdf (m - d) = 1 - cdf (m + d)).
Proof. exact C22_lemma. Qed.
Print Assumptions C22_triweight_cdf.
(** the hypothesis is just [0 < h]; two values of the function *)
Example C22_nonvacuous : exists cdf : R -> R,
  (forall x, tw_cuml_kern (Fin x) (Fin 2) (Fin (1/2)) = Fin (cdf x)) /\ cdf 2 = 1/2 /\ cdf 7 = 1.
Proof.
  destruct (C22_triweight_cdf 2 (1/2)) as (c & E & _ & H1 & H2 & _); [lra|].
  exists c. split; [exact E|]. split; [exact H2|apply H1; lra].
Qed.

(** C23 *)
Theorem C23_triweight_density : forall m h, 0 < h -> exists cdf dens : R -> R,
  (forall x, tw_cuml_kern (Fin x) (Fin m) (Fin h) = Fin (cdf x))
  /\ (forall x, triweight_gaussian (Fin x) (Fin m) (Fin h) = Fin (dens x))
  /\ (forall x, 0 <= dens x)
  /\ (forall x, is_derive cdf x (dens x))
  /\ (forall a b, is_RInt dens a b (cdf b - cdf a))
  /\ (forall a b, a <= m - 3 * h -> m + 3 * h <= b -> is_RInt dens a b 1).
Proof. exact C23_lemma. Qed.
Print Assumptions C23_triweight_density.
Example C23_nonvacuous : exists dens : R -> R,
  (forall x, triweight_gaussian (Fin x) (Fin 2) (Fin (1/2)) = Fin (dens x)) /\ is_RInt dens 0 10 1.
Proof.
  destruct (C23_triweight_density 2 (1/2)) as (c & d & _ & E & _ & _ & _ & H); [lra|].
  exists d. split; [exact E|apply H; lra].
Qed.

(** C24 *)
Theorem C24_histogram_conserves_probability : forall x h edges, 0 < h -> (1 <= length edges)%nat -> nondecreasing edges ->
  let first := ent edges 0 in
  let last := ent edges (length edges - 1) in
  exists w,
    triweighted_histogram (Fin x) (Fin h) (fins edges) = fins w
    /\ length w = (length edges - 1)%nat
    /\ List.Forall (fun v => 0 <= v <= 1) w
    /\ Rsum w = triweight_cdf ((x - first) / h) - triweight_cdf ((x - last) / h)
    /\ (first <= x - 3 * h -> x + 3 * h <= last -> Rsum w = 1).
Proof. exact C24_lemma. Qed.
Print Assumptions C24_histogram_conserves_probability.
Example C24_nonvacuous : exists w,
  triweighted_histogram (Fin 0) (Fin 1) (fins [-4; -1; 0; 2; 5]) = fins w /\ Rsum w = 1.
Proof.
  destruct (C24_histogram_conserves_probability 0 1 [-4; -1; 0; 2; 5]) as (w & E & _ & _ & _ & H).
  - lra.
  - simpl; lia.
  - apply increasing_nondecreasing.
    apply increasing_step. intros i Hi. simpl in Hi.
    destruct i as [|[|[|[|i]]]]; try lia; unfold ent; simpl; lra.
  - exists w. split; [exact E|]. apply H; unfold ent; simpl; lra.
Qed.

(** C25 *)
Theorem C25_sigmoid_bijection : forall x0 k ylo yhi, 0 < k -> ylo < yhi ->
  let sig x := sigmoid x (Fin x0) (Fin k) (Fin ylo) (Fin yhi) in
  let inv y := inverse_sigmoid y (Fin x0) (Fin k) (Fin ylo) (Fin yhi) in
  exists f : R -> R,
    (forall x, sig (Fin x) = Fin (f x) /\ ylo < f x < yhi /\ inv (sig (Fin x)) = Fin x)
    /\ (forall x y, x < y -> f x < f y)
    /\ f x0 = (ylo + yhi) / 2
    /\ (forall y, ylo < y < yhi -> exists x, inv (Fin y) = Fin x /\ f x = y)
    /\ inv (Fin ylo) = NInf /\ inv (Fin yhi) = PInf
    /\ (forall y, y < ylo \/ yhi < y -> inv (Fin y) = NaN).
Proof. exact C25_lemma. Qed.
Print Assumptions C25_sigmoid_bijection.
Example C25_nonvacuous :
  inverse_sigmoid (sigmoid (Fin 3) (Fin 1) (Fin (1/10)) (Fin (-8)) (Fin (-1)))
    (Fin 1) (Fin (1/10)) (Fin (-8)) (Fin (-1)) = Fin 3.
Proof. destruct (C25_sigmoid_bijection 1 (1/10) (-8) (-1)) as (f & H & _); try lra. apply H. Qed.

(** C26 *)
Theorem C26_cumtrapz_and_trapz_agree : forall xs ys, length xs = length ys -> xs <> [] ->
  exists c,
    cumtrapz (fins xs) (fins ys) = Ok (fins c)
    /\ length c = length xs /\ ent c 0 = 0
    /\ trapz (fins xs) (fins ys) = Ok (Fin (ent c (length xs - 1)))
    /\ forall i, (i < length xs)%nat ->
       trapz (fins (firstn (S i) xs)) (fins (firstn (S i) ys)) = Ok (Fin (ent c i)).
Proof. exact C26_lemma. Qed.
Print Assumptions C26_cumtrapz_and_trapz_agree.
Example C26_nonvacuous : exists c, cumtrapz (fins [0; 1; 3]) (fins [2; 2; 4]) = Ok (fins c)
  /\ length c = 3%nat.
Proof.
  destruct (C26_cumtrapz_and_trapz_agree [0; 1; 3] [2; 2; 4]) as (c & E & L & _); eauto. discriminate.
Qed.

(** C27 *)
Theorem C27_trapz_is_an_integral : forall xs ys, length xs = length ys -> xs <> [] -> increasing xs ->
  exists a, trapz (fins xs) (fins ys) = Ok (Fin a)
    /\ is_RInt (pwlin (combine xs ys)) (ent xs 0) (ent xs (length xs - 1)) a.
Proof. exact C27_integral_lemma. Qed.
Print Assumptions C27_trapz_is_an_integral.
Theorem C27_trapz_linear_monotone_odd : forall xs ys zs, length xs = length ys -> length xs = length zs ->
  exists a b,
    trapz (fins xs) (fins ys) = Ok (Fin a) /\ trapz (fins xs) (fins zs) = Ok (Fin b)
    /\ (forall c d, trapz (fins xs) (fins (map2 (fun y z => c * y + d * z) ys zs))
                    = Ok (Fin (c * a + d * b)))
    /\ (nondecreasing xs -> (forall i, (i < length xs)%nat -> ent ys i <= ent zs i) -> a <= b)
    /\ trapz (fins (rev xs)) (fins (rev ys)) = Ok (Fin (- a)).
Proof. exact C27_algebra_lemma. Qed.
Print Assumptions C27_trapz_linear_monotone_odd.
Example C27_nonvacuous : exists a, trapz (fins [0; 1; 3]) (fins [2; 2; 4]) = Ok (Fin a)
    /\ is_RInt (pwlin [(0, 2); (1, 2); (3, 4)]) 0 3 a.
Proof.
  apply (C27_trapz_is_an_integral [0; 1; 3] [2; 2; 4]); [reflexivity|discriminate|].
  apply increasing_step. intros i Hi. simpl in Hi.
  destruct i as [|[|i]]; try lia; unfold ent; simpl; lra.
Qed.

(** C28 *)
Theorem C28_weight_matrices_2d : forall (ws1 ws2 : list (list R)), length ws1 = length ws2 ->
  exists out : list (list (list R)),
    get_weight_matrices_2d (map fins ws1) (map fins ws2) = map (map fins) out
    /\ length out = length ws1
    /\ forall g, (g < length ws1)%nat ->
       let w1 := nth g ws1 [] in let w2 := nth g ws2 [] in let m := nth g out [] in
       is_matrix (length w1) (length w2) m
       /\ (forall i j, (i < length w1)%nat -> (j < length w2)%nat -> ent2 m i j = ent w1 i * ent w2 j)
       /\ Rsum2 m = Rsum w1 * Rsum w2.
Proof. exact C28_lemma. Qed.
Print Assumptions C28_weight_matrices_2d.
Theorem C28_weight_matrices_3d : forall (ws1 ws2 ws3 : list (list R)),
  length ws1 = length ws2 -> length ws1 = length ws3 ->
  exists out : list (list (list (list R))),
    get_weight_matrices_3d (map fins ws1) (map fins ws2) (map fins ws3) = map (map (map fins)) out
    /\ length out = length ws1
    /\ forall g, (g < length ws1)%nat ->
       let w1 := nth g ws1 [] in let w2 := nth g ws2 [] in let w3 := nth g ws3 [] in
       let m := nth g out [] in
       is_cube (length w1) (length w2) (length w3) m
       /\ (forall i j k, (i < length w1)%nat -> (j < length w2)%nat -> (k < length w3)%nat ->
           ent3 m i j k = ent w1 i * ent w2 j * ent w3 k)
       /\ Rsum (map Rsum2 m) = Rsum w1 * Rsum w2 * Rsum w3.
Proof. exact C28_3d_lemma. Qed.
Print Assumptions C28_weight_matrices_3d.
Example C28_nonvacuous :
  length [[1; 2]; [3; 4]] = length [[5; 6; 7]; [8; 9; 10]].
Proof. reflexivity. Qed.

(** C29 *)
Theorem C29_powerlaw_sampler : forall a b g, 0 < a < b -> g <> 0 ->
  exists pdf rvs : R -> R,
    (forall x, 0 < x -> powerlaw_pdf (Fin x) (Fin a) (Fin b) (Fin g) = Fin (pdf x) /\ 0 < pdf x)
    /\ is_RInt pdf a b 1
    /\ (forall r, 0 <= r < 1 ->
        powerlaw_rvs (Fin r) (Fin a) (Fin b) (Fin g) = Fin (rvs r)
        /\ a <= rvs r < b /\ is_RInt pdf a (rvs r) r)
    /\ (forall r r', 0 <= r -> r < r' -> r' < 1 -> rvs r < rvs r').
Proof. exact C29_lemma. Qed.
Print Assumptions C29_powerlaw_sampler.
Theorem C29_powerlaw_zero_index_is_nan : forall x a b, 0 < x -> 0 < a -> 0 < b ->
  powerlaw_pdf (Fin x) (Fin a) (Fin b) (Fin 0) = NaN.
Proof. exact C29_zero_lemma. Qed.
Print Assumptions C29_powerlaw_zero_index_is_nan.
Example C29_nonvacuous : exists pdf rvs : R -> R,
  is_RInt pdf 1 3 1 /\ 1 <= rvs (1/2) < 3
  /\ powerlaw_rvs (Fin (1/2)) (Fin 1) (Fin 3) (Fin (-2)) = Fin (rvs (1/2)).
Proof.
  destruct (C29_powerlaw_sampler 1 3 (-2)) as (p & r & _ & I & H & _); try lra.
  exists p, r. split; [exact I|]. destruct (H (1/2)) as (E & B & _); [lra|]. auto.
Qed.

(** C30 *)
Theorem C30_bin_edges : forall a lo hi, (3 <= length a)%nat ->
  exists e, get_bin_edges (fins a) (Fin lo) (Fin hi) = Ok (fins e)
    /\ length e = S (length a) /\ ent e 0 = lo /\ ent e (length a) = hi
    /\ forall d, (forall j, (S j < length a)%nat -> ent a (S j) - ent a j = d) ->
       forall i, (0 < i < length a)%nat -> ent e i = (ent a (i - 1) + ent a i) / 2.
Proof. exact C30_lemma. Qed.
Print Assumptions C30_bin_edges.
Theorem C30_short_grid_raises : forall a lo hi, (length a < 3)%nat ->
  get_bin_edges a lo hi = Raise IndexError.
Proof. exact C30_raises_lemma. Qed.
Print Assumptions C30_short_grid_raises.
Example C30_nonvacuous : exists e,
  get_bin_edges (fins [0; 1; 2; 3]) (Fin (-10)) (Fin 10) = Ok (fins e) /\ ent e 2 = 3/2.
Proof.
  destruct (C30_bin_edges [0; 1; 2; 3] (-10) 10) as (e & E & _ & _ & _ & H); [simpl; lia|].
  exists e. split; [exact E|]. rewrite (H 1).
  - unfold ent; simpl; lra.
  - intros j Hj. simpl in Hj. destruct j as [|[|[|j]]]; try lia; unfold ent; simpl; lra.
  - simpl; lia.
Qed.
