(** * Equivalent widths (dsps/em_lines/equivalent_width.py) *)
From Coq Require Import Reals List Arith Lra Lia Bool.
From Flocq Require Import Core.Raux.
From Verif Require Import Num Arr MUtils MEmlines Spec SpecApi RList LBcast LUtils LKern LKern2.
Import ListNotations.
Open Scope R_scope.

(** ** least squares: minimisers solve the normal equations *)
Definition add3 (u v : R * R * R) (t : R) : R * R * R :=
  (fst (fst u) + t * fst (fst v), snd (fst u) + t * snd (fst v), snd u + t * snd v).
Definition inner A (b : list R) c d : R := Rsum (map (fun p => (dot3 (fst p) c - snd p) * dot3 (fst p) d) (combine A b)).
Definition sq A (b : list R) d : R := Rsum (map (fun p : (R * R * R) * R => dot3 (fst p) d ^ 2) (combine A b)).
Lemma dot3_add u v w t : dot3 u (add3 v w t) = dot3 u v + t * dot3 u w.
Proof. unfold dot3, add3. cbn [fst snd]. ring. Qed.
Lemma ssr_shift A b c d t : ssr A b (add3 c d t) = ssr A b c + 2 * t * inner A b c d + t ^ 2 * sq A b d.
Proof.
  unfold ssr, inner, sq. induction (combine A b) as [|p l IH]; cbn [map Rsum]; [lra|].
  rewrite IH, dot3_add. ring.
Qed.
Lemma sq_nonneg A b d : 0 <= sq A b d.
Proof. unfold sq. induction (combine A b) as [|p l IH]; cbn [map Rsum]; [lra|]. pose proof (pow2_ge_0 (dot3 (fst p) d)). lra. Qed.
Lemma min_normal A b c : (forall d, ssr A b c <= ssr A b d) -> forall d, inner A b c d = 0.
Proof.
  intros H d. pose proof (sq_nonneg A b d) as S. set (q := inner A b c d). set (s := sq A b d) in *.
  destruct (Req_dec q 0) as [|N]; auto. exfalso.
  assert (K : forall t, 0 <= 2 * t * q + t ^ 2 * s).
  { intros t. specialize (H (add3 c d t)). rewrite ssr_shift in H. fold q s in H. lra. }
  specialize (K (- q / (s + 1))). assert (0 < s + 1) by lra.
  replace (2 * (- q / (s + 1)) * q + (- q / (s + 1)) ^ 2 * s) with (- (q ^ 2 * (s + 2)) / (s + 1) ^ 2) in K by (field; lra).
  assert (0 < q ^ 2) by (pose proof (pow2_ge_0 q); assert (q ^ 2 <> 0) by (apply pow_nonzero; auto); lra).
  assert (0 < (s + 1) ^ 2) by nra.
  assert (0 < q ^ 2 * (s + 2) / (s + 1) ^ 2) by (apply Rdiv_lt_0_compat; nra).
  unfold Rdiv in *. lra.
Qed.
Lemma normal_min A b c : (forall d, inner A b c d = 0) -> forall d, ssr A b c <= ssr A b d.
Proof.
  intros H d. set (e := add3 d c (-1)). replace d with (add3 c e 1).
  - rewrite ssr_shift, H. pose proof (sq_nonneg A b e). lra.
  - unfold e, add3. destruct d as [[d2 d1] d0], c as [[c2 c1] c0]. cbn [fst snd]. f_equal; [f_equal|]; ring.
Qed.
Lemma sq_0 A b d : length A = length b -> sq A b d = 0 -> forall r, In r A -> dot3 r d = 0.
Proof.
  revert b. induction A as [|r A IH]; intros [|y b] L S r' Hr; try discriminate; [easy|].
  unfold sq in S. cbn [combine map Rsum fst] in S. fold (sq A b d) in S. pose proof (sq_nonneg A b d). pose proof (pow2_ge_0 (dot3 r d)).
  destruct Hr as [->|Hr]; [|apply (IH b); auto; lra]. assert (E : dot3 r' d ^ 2 = 0) by lra. nra.
Qed.
Lemma normal_unique A b c c' : length A = length b -> full_rank A ->
  (forall d, inner A b c d = 0) -> (forall d, inner A b c' d = 0) -> c = c'.
Proof.
  intros L F H H'. set (e := add3 c c' (-1)).
  assert (S : sq A b e = 0).
  { specialize (H e). specialize (H' e). unfold inner, sq in *.
    assert (K : forall l : list ((R * R * R) * R), Rsum (map (fun p => dot3 (fst p) e ^ 2) l)
      = Rsum (map (fun p => (dot3 (fst p) c - snd p) * dot3 (fst p) e) l) - Rsum (map (fun p => (dot3 (fst p) c' - snd p) * dot3 (fst p) e) l)).
    { induction l as [|p l IH]; cbn [map Rsum]; [lra|]. rewrite IH.
      assert (E : dot3 (fst p) e = dot3 (fst p) c + -1 * dot3 (fst p) c') by (unfold e; apply dot3_add). rewrite E. ring. }
    rewrite K, H, H'. lra. }
  pose proof (F e (sq_0 A b e L S)) as E. unfold e, add3 in E. injection E as E1 E2 E3.
  destruct c as [[c2 c1] c0], c' as [[d2 d1] d0]. cbn [fst snd] in *. f_equal; [f_equal|]; lra.
Qed.

(** ** a solver exists *)
Definition toR (n : num) : R := match n with Fin x => x | _ => 0 end.
Definition toR3 (t : num * num * num) : R * R * R := (toR (fst (fst t)), toR (snd (fst t)), toR (snd t)).
Definition gram (f : (R * R * R) -> R) (A : list (R * R * R)) : R := Rsum (map f A).
Definition cramer (A : list (R * R * R)) (b : list R) : R * R * R :=
  let g f := Rsum (map (fun p : (R * R * R) * R => f (fst (fst (fst p))) (snd (fst (fst p))) (snd (fst p)) (snd p)) (combine A b)) in
  let g22 := g (fun p q r y => p * p) in let g21 := g (fun p q r y => p * q) in let g20 := g (fun p q r y => p * r) in
  let g11 := g (fun p q r y => q * q) in let g10 := g (fun p q r y => q * r) in let g00 := g (fun p q r y => r * r) in
  let b2 := g (fun p q r y => p * y) in let b1 := g (fun p q r y => q * y) in let b0 := g (fun p q r y => r * y) in
  let m22 := g11 * g00 - g10 * g10 in let m21 := g20 * g10 - g21 * g00 in let m20 := g21 * g10 - g20 * g11 in
  let m11 := g22 * g00 - g20 * g20 in let m10 := g21 * g20 - g22 * g10 in let m00 := g22 * g11 - g21 * g21 in
  let det := g22 * m22 + g21 * m21 + g20 * m20 in
  ((m22 * b2 + m21 * b1 + m20 * b0) / det, (m21 * b2 + m11 * b1 + m10 * b0) / det, (m20 * b2 + m10 * b1 + m00 * b0) / det).
Lemma sq_expand A b d : sq A b d =
  let g f := Rsum (map (fun p : (R * R * R) * R => f (fst (fst (fst p))) (snd (fst (fst p))) (snd (fst p)) (snd p)) (combine A b)) in
  let '(d2, d1, d0) := d in
  d2 * d2 * g (fun p q r y => p * p) + 2 * d2 * d1 * g (fun p q r y => p * q) + 2 * d2 * d0 * g (fun p q r y => p * r)
  + d1 * d1 * g (fun p q r y => q * q) + 2 * d1 * d0 * g (fun p q r y => q * r) + d0 * d0 * g (fun p q r y => r * r).
Proof.
  destruct d as [[d2 d1] d0]. cbv zeta. unfold sq. induction (combine A b) as [|p l IH]; cbn [map Rsum]; [lra|].
  rewrite IH. unfold dot3. cbn [fst snd]. ring.
Qed.
Lemma inner_expand A b c d : inner A b c d =
  let g f := Rsum (map (fun p : (R * R * R) * R => f (fst (fst (fst p))) (snd (fst (fst p))) (snd (fst p)) (snd p)) (combine A b)) in
  let '(c2, c1, c0) := c in let '(d2, d1, d0) := d in
  d2 * (c2 * g (fun p q r y => p * p) + c1 * g (fun p q r y => p * q) + c0 * g (fun p q r y => p * r) - g (fun p q r y => p * y))
  + d1 * (c2 * g (fun p q r y => p * q) + c1 * g (fun p q r y => q * q) + c0 * g (fun p q r y => q * r) - g (fun p q r y => q * y))
  + d0 * (c2 * g (fun p q r y => p * r) + c1 * g (fun p q r y => q * r) + c0 * g (fun p q r y => r * r) - g (fun p q r y => r * y)).
Proof.
  destruct d as [[d2 d1] d0], c as [[c2 c1] c0]. cbv zeta. unfold inner.
  induction (combine A b) as [|p l IH]; cbn [map Rsum]; [lra|].
  rewrite IH. unfold dot3. cbn [fst snd]. ring.
Qed.
Lemma cramer_normal A b : length A = length b -> full_rank A -> forall d, inner A b (cramer A b) d = 0.
Proof.
  intros L F d.
  assert (P : forall e, e <> (0, 0, 0) -> 0 < sq A b e).
  { intros e He. pose proof (sq_nonneg A b e) as [S|S]; auto. exfalso. apply He. apply F. apply (sq_0 A b); auto. }
  rewrite inner_expand. cbv zeta.
  unfold cramer. cbv zeta.
  set (g22 := Rsum (map (fun p : (R * R * R) * R => fst (fst (fst p)) * fst (fst (fst p))) (combine A b))) in *.
  set (g21 := Rsum (map (fun p : (R * R * R) * R => fst (fst (fst p)) * snd (fst (fst p))) (combine A b))) in *.
  set (g20 := Rsum (map (fun p : (R * R * R) * R => fst (fst (fst p)) * snd (fst p)) (combine A b))) in *.
  set (g11 := Rsum (map (fun p : (R * R * R) * R => snd (fst (fst p)) * snd (fst (fst p))) (combine A b))) in *.
  set (g10 := Rsum (map (fun p : (R * R * R) * R => snd (fst (fst p)) * snd (fst p)) (combine A b))) in *.
  set (g00 := Rsum (map (fun p : (R * R * R) * R => snd (fst p) * snd (fst p)) (combine A b))) in *.
  assert (Q : forall d2 d1 d0, (d2, d1, d0) <> (0, 0, 0) ->
    0 < d2 * d2 * g22 + 2 * d2 * d1 * g21 + 2 * d2 * d0 * g20 + d1 * d1 * g11 + 2 * d1 * d0 * g10 + d0 * d0 * g00).
  { intros d2 d1 d0 He. specialize (P _ He). rewrite sq_expand in P. exact P. }
  assert (G0 : 0 < g00). { specialize (Q 0 0 1). assert ((0, 0, 1) <> (0, 0, 0)) by (intros E; injection E; lra). specialize (Q H). lra. }
  assert (M : 0 < g11 * g00 - g10 * g10).
  { specialize (Q 0 g00 (- g10)). assert (H : (0, g00, - g10) <> (0, 0, 0)) by (intros E; injection E; lra). specialize (Q H).
    replace (0 * 0 * g22 + 2 * 0 * g00 * g21 + 2 * 0 * - g10 * g20 + g00 * g00 * g11 + 2 * g00 * - g10 * g10 + - g10 * - g10 * g00)
      with (g00 * (g11 * g00 - g10 * g10)) in Q by ring. nra. }
  set (det := g22 * (g11 * g00 - g10 * g10) + g21 * (g20 * g10 - g21 * g00) + g20 * (g21 * g10 - g20 * g11)) in *.
  assert (D : 0 < det).
  { set (m := g11 * g00 - g10 * g10) in *. specialize (Q m (g20 * g10 - g21 * g00) (g21 * g10 - g20 * g11)).
    assert (H : (m, g20 * g10 - g21 * g00, g21 * g10 - g20 * g11) <> (0, 0, 0)) by (intros E; injection E; lra). specialize (Q H).
    match type of Q with 0 < ?e => replace e with (m * det) in Q by (unfold det, m; ring) end. nra. }
  destruct d as [[d2 d1] d0].
  unfold det in *. clear - D. field. lra.
Qed.
Definition cramer_solver (A : list (num * num * num)) (b : list num) : num * num * num :=
  fin3 (cramer (map toR3 A) (map toR b)).
Lemma solver_exists : least_squares_solver cramer_solver.
Proof.
  intros A b L F. exists (cramer A b). split.
  - unfold cramer_solver. do 2 f_equal.
    + rewrite map_map. rewrite <- (map_id A) at 2. apply map_ext. intros [[p q] r]. reflexivity.
    + unfold fins. rewrite map_map. now rewrite map_id.
  - apply normal_min. now apply cramer_normal.
Qed.

(** ** the weighted quadratic fit *)
Definition quadr := quadratic.
Definition three_in (sel : R -> bool) (wave : list R) : Prop :=
  exists x y z, In x wave /\ In y wave /\ In z wave /\ x < y < z /\ sel x = true /\ sel y = true /\ sel z = true.
Definition wt (sel : R -> bool) (x : R) : R := if sel x then 1 else 0.
(** normal equations of the fit to the selected points *)
Definition fits (sel : R -> bool) (wave flux : list R) (c : R * R * R) : Prop :=
  forall d, Rsum (map2 (fun x y => wt sel x * (quadr c x - y) * quadr d x) wave flux) = 0.
Lemma quadr_3 d x y z : x < y < z -> quadr d x = 0 -> quadr d y = 0 -> quadr d z = 0 -> d = (0, 0, 0).
Proof.
  destruct d as [[p q] r]. unfold quadr, quadratic. cbn [fst snd]. intros O X Y Z.
  assert (A : p * (x + y) + q = 0). { apply (Rmult_eq_reg_r (x - y)); [|lra]. transitivity ((p * x ^ 2 + q * x + r) - (p * y ^ 2 + q * y + r)); [ring|lra]. }
  assert (B : p * (y + z) + q = 0). { apply (Rmult_eq_reg_r (y - z)); [|lra]. transitivity ((p * y ^ 2 + q * y + r) - (p * z ^ 2 + q * z + r)); [ring|lra]. }
  assert (p = 0). { apply (Rmult_eq_reg_r (x - z)); [|lra]. transitivity ((p * (x + y) + q) - (p * (y + z) + q)); [ring|lra]. }
  subst p. assert (q = 0) by lra. subst q. repeat f_equal; lra.
Qed.
Definition row (sel : R -> bool) (s2 s1 s0 x : R) : R * R * R := (x ^ 2 * wt sel x / s2, x * wt sel x / s1, wt sel x / s0).
Lemma row_dot sel s2 s1 s0 x c : s2 <> 0 -> s1 <> 0 -> s0 <> 0 ->
  dot3 (row sel s2 s1 s0 x) c = wt sel x * quadr (fst (fst c) / s2, snd (fst c) / s1, snd c / s0) x.
Proof. intros. unfold dot3, row, quadr, quadratic. cbn [fst snd]. field. auto. Qed.
Lemma wt_sq sel x : wt sel x * wt sel x = wt sel x.
Proof. unfold wt. destruct (sel x); lra. Qed.
Lemma rows_full sel s2 s1 s0 wave : s2 <> 0 -> s1 <> 0 -> s0 <> 0 -> three_in sel wave ->
  full_rank (map (row sel s2 s1 s0) wave).
Proof.
  intros N2 N1 N0 (x & y & z & Hx & Hy & Hz & O & Sx & Sy & Sz) d H.
  assert (K : forall u, In u wave -> sel u = true -> quadr (fst (fst d) / s2, snd (fst d) / s1, snd d / s0) u = 0).
  { intros u Hu Su. specialize (H (row sel s2 s1 s0 u) (in_map _ _ _ Hu)). rewrite row_dot in H by auto. unfold wt in H. rewrite Su in H. lra. }
  pose proof (quadr_3 _ x y z O (K x Hx Sx) (K y Hy Sy) (K z Hz Sz)) as E. injection E as E2 E1 E0.
  assert (Z : forall u s, s <> 0 -> u / s = 0 -> u = 0). { intros u s Hs Hu. apply (Rmult_eq_reg_r (/ s)); [unfold Rdiv in Hu; lra|]. now apply Rinv_neq_0_compat. }
  destruct d as [[d2 d1] d0]. cbn [fst snd] in *. rewrite (Z _ _ N2 E2), (Z _ _ N1 E1), (Z _ _ N0 E0). reflexivity.
Qed.
Lemma inner_fits sel s2 s1 s0 wave flux c d : s2 <> 0 -> s1 <> 0 -> s0 <> 0 ->
  inner (map (row sel s2 s1 s0) wave) (map2 (fun x y => y * wt sel x) wave flux) c d
  = Rsum (map2 (fun x y => wt sel x * (quadr (fst (fst c) / s2, snd (fst c) / s1, snd c / s0) x - y)
                 * quadr (fst (fst d) / s2, snd (fst d) / s1, snd d / s0) x) wave flux).
Proof.
  intros. unfold inner. revert flux. induction wave as [|x wave IH]; intros [|y flux]; try reflexivity.
  cbn [map map2 combine Rsum fst snd]. rewrite IH, !row_dot by auto. f_equal. unfold wt. destruct (sel x); ring.
Qed.
Lemma Rdiv_one x : x / 1 = x. Proof. field. Qed.
Lemma fits_unique sel wave flux c c' : length wave = length flux -> three_in sel wave ->
  fits sel wave flux c -> fits sel wave flux c' -> c = c'.
Proof.
  intros L T H H'. assert (O : 1 <> 0) by lra.
  apply (normal_unique (map (row sel 1 1 1) wave) (map2 (fun x y => y * wt sel x) wave flux)).
  - rewrite map_length, map2_length. lia.
  - now apply rows_full.
  - intros d. rewrite inner_fits by auto. rewrite !Rdiv_one. destruct c as [[c2 c1] c0]. cbn [fst snd]. apply H.
  - intros d. rewrite inner_fits by auto. rewrite !Rdiv_one. destruct c' as [[c2 c1] c0]. cbn [fst snd]. apply H'.
Qed.
Lemma sumsq_pos (f : R -> R) wave : (exists x, In x wave /\ f x <> 0) -> 0 < Rsum (map (fun x => f x * f x) wave).
Proof.
  induction wave as [|w wave IH]; intros (x & Hx & N); [easy|]. cbn [map Rsum].
  assert (P : forall l, 0 <= Rsum (map (fun x => f x * f x) l)).
  { clear. induction l as [|u l IH]; cbn [map Rsum]; [lra|]. nra. }
  destruct Hx as [->|Hx].
  - specialize (P wave). nra.
  - specialize (IH (ex_intro _ x (conj Hx N))). nra.
Qed.
Definition scale (f : R -> R) (wave : list R) : R := sqrt (Rsum (map (fun x => f x * f x) wave)).
Lemma scale_neq f wave : (exists x, In x wave /\ f x <> 0) -> scale f wave <> 0.
Proof. intros H. pose proof (sqrt_lt_R0 _ (sumsq_pos f wave H)). unfold scale. lra. Qed.
Lemma fit_fin lstsq sel wave flux : least_squares_solver lstsq -> length wave = length flux -> three_in sel wave ->
  exists c, weighted_quadratic_fit lstsq (fins wave) (fins flux) (fins (map (wt sel) wave)) = fin3 c /\ fits sel wave flux c.
Proof.
  intros S L T. pose proof T as (x & y & z & Hx & Hy & Hz & O & Sx & Sy & Sz).
  assert (Wx : wt sel x = 1) by (unfold wt; now rewrite Sx). assert (Wy : wt sel y = 1) by (unfold wt; now rewrite Sy).
  set (s2 := scale (fun x => x ^ 2 * wt sel x) wave). set (s1 := scale (fun x => x * wt sel x) wave). set (s0 := scale (fun x => wt sel x) wave).
  assert (X : x <> 0 \/ y <> 0) by (destruct (Req_dec x 0); [right; lra|auto]).
  assert (N2 : s2 <> 0).
  { apply scale_neq. destruct X; [exists x; rewrite Wx|exists y; rewrite Wy]; split; auto; rewrite Rmult_1_r; now apply pow_nonzero. }
  assert (N1 : s1 <> 0).
  { apply scale_neq. destruct X; [exists x; rewrite Wx|exists y; rewrite Wy]; split; auto; lra. }
  assert (N0 : s0 <> 0). { apply scale_neq. exists x. split; auto. lra. }
  destruct (S (map (row sel s2 s1 s0) wave) (map2 (fun x y => y * wt sel x) wave flux)) as (c & E & M).
  { rewrite map_length, map2_length. lia. } { now apply rows_full. }
  exists (fst (fst c) / s2, snd (fst c) / s1, snd c / s0). split.
  - unfold weighted_quadratic_fit.
    assert (E1 : map2 (fun x w : num => (x ^i 2 * w, x * w, Fin 1 * w)%num) (fins wave) (fins (map (wt sel) wave))
      = map (fun x => (Fin (x ^ 2 * wt sel x), Fin (x * wt sel x), Fin (wt sel x))) wave).
    { clear. induction wave as [|x wave IH]; [reflexivity|]. cbn [map fins map2]. unfold fins in IH. rewrite IH. f_equal.
      rewrite ipow_fin, !nmul_fin. rewrite Rmult_1_l. reflexivity. }
    rewrite E1.
    assert (E2 : map2 nmul (fins flux) (fins (map (wt sel) wave)) = fins (map2 (fun x y => y * wt sel x) wave flux)).
    { clear. revert flux. induction wave as [|x wave IH]; intros [|y flux]; try reflexivity. cbn [map fins map2]. unfold fins in IH. now rewrite IH, nmul_fin. }
    rewrite E2. rewrite !map_map. cbn [fst snd].
    assert (C : forall f, nsqrt (vsum (map (fun x => nmul (Fin (f x)) (Fin (f x))) wave)) = Fin (scale f wave)).
    { intros f. replace (map (fun x => nmul (Fin (f x)) (Fin (f x))) wave) with (fins (map (fun x => f x * f x) wave))
        by (unfold fins; rewrite map_map; apply map_ext; intros; now rewrite nmul_fin).
      rewrite vsum_fins, nsqrt_fin; [reflexivity|]. clear. induction wave; cbn [map Rsum]; [lra|nra]. }
    rewrite (C (fun x => x ^ 2 * wt sel x)), (C (fun x => x * wt sel x)), (C (fun x => wt sel x)). fold s2 s1 s0.
    assert (E3 : map (fun x => (ndiv (Fin (x ^ 2 * wt sel x)) (Fin s2), ndiv (Fin (x * wt sel x)) (Fin s1), ndiv (Fin (wt sel x)) (Fin s0))) wave
      = map fin3 (map (row sel s2 s1 s0) wave)).
    { rewrite map_map. apply map_ext. intros u. now rewrite !ndiv_fin by auto. }
    rewrite E3, E. unfold fin3. cbn [fst snd]. now rewrite !ndiv_fin by auto.
  - intros d. pose proof (min_normal _ _ _ M (fst (fst d) * s2, snd (fst d) * s1, snd d * s0)) as H.
    rewrite inner_fits in H by auto. destruct d as [[d2 d1] d0]. cbn [fst snd] in *.
    replace (d2 * s2 / s2) with d2 in H by (field; auto). replace (d1 * s1 / s1) with d1 in H by (field; auto).
    replace (d0 * s0 / s0) with d0 in H by (field; auto). exact H.
Qed.

(** ** kernels *)
Definition selc (a b c d x : R) : bool := (Rle_bool a x && Rle_bool x b || Rle_bool c x && Rle_bool x d)%bool.
Definition sell (lo hi x : R) : bool := (Rle_bool lo x && Rle_bool x hi)%bool.
Lemma selc_spec a b c d x : selc a b c d x = true <-> in_continuum a b c d x.
Proof.
  unfold selc, in_continuum. destruct (Rle_bool_spec a x), (Rle_bool_spec x b), (Rle_bool_spec c x), (Rle_bool_spec x d); simpl;
    (split; [intros; try discriminate; try (left; lra); right; lra|intros [?|?]; try reflexivity; lra]).
Qed.
Lemma qw_fin a b c d x : get_quadfit_weights (Fin x) (Fin a) (Fin b) (Fin c) (Fin d) = Fin (wt (selc a b c d) x).
Proof.
  unfold get_quadfit_weights, ngeb. rewrite !nleb_fin. unfold wt, selc, nwhere.
  destruct (Rle_bool a x && Rle_bool x b || Rle_bool c x && Rle_bool x d)%bool; reflexivity.
Qed.
Lemma iw_fin lo hi x : get_integration_weights (Fin x) (Fin lo) (Fin hi) = Fin (wt (sell lo hi) x).
Proof.
  unfold get_integration_weights, ngeb. rewrite !nleb_fin. unfold wt, sell, nwhere.
  destruct (Rle_bool lo x && Rle_bool x hi)%bool; reflexivity.
Qed.
Lemma three_sel a b c d wave : three_continuum_points a b c d wave -> three_in (selc a b c d) wave.
Proof.
  intros (x & y & z & Hx & Hy & Hz & O & Sx & Sy & Sz). exists x, y, z. rewrite <- selc_spec in *. tauto.
Qed.
Lemma excess_eq lo hi cont wave flux :
  line_excess lo hi cont wave flux = map2 (fun y q => y + -1 * q) (map2 (fun x y => wt (sell lo hi) x * y) wave flux)
     (map2 (fun x (y : R) => wt (sell lo hi) x * cont x) wave flux).
Proof.
  unfold line_excess. revert flux. induction wave as [|x wave IH]; intros [|y flux]; try reflexivity.
  cbn [combine map map2 fst snd]. rewrite IH. f_equal. unfold wt, sell.
  destruct (Rle_dec lo x), (Rle_dec x hi); destruct (Rle_bool_spec lo x), (Rle_bool_spec x hi); simpl; lra.
Qed.
Lemma map2_first {A B C} (f : A -> C) (l1 : list A) : forall (l2 : list B), length l1 = length l2 -> map2 (fun x _ => f x) l1 l2 = map f l1.
Proof. induction l1; intros [|y l2] H; try discriminate; auto. cbn [map2 map]. f_equal. apply IHl1. simpl in H. lia. Qed.
Lemma decomp_fin lstsq wave flux ll lm lh a b c d : least_squares_solver lstsq -> length wave = length flux ->
  three_continuum_points a b c d wave -> exists k, fits (selc a b c d) wave flux k /\
  let line := trapezoid wave (line_excess ll lh (quadratic k) wave flux) in
  continuum_line_decomp_kern lstsq (fins wave) (fins flux) (Fin ll) (Fin lm) (Fin lh) (Fin a) (Fin b) (Fin c) (Fin d)
  = Ok (ndiv (Fin line) (Fin (quadratic k lm)), Fin line, Fin (quadratic k lm), fin3 k).
Proof.
  intros S L T. destruct (fit_fin lstsq (selc a b c d) wave flux S L (three_sel _ _ _ _ _ T)) as (k & E & F).
  exists k. split; auto. cbv zeta. unfold continuum_line_decomp_kern, check.
  rewrite fits_same, stretch_same by (rewrite !fins_length; auto). f_equal.
  unfold continuum_line_decomp_kern_k.
  rewrite (map_fins _ (wt (selc a b c d))) by (intros; apply qw_fin). rewrite E. unfold fin3.
  rewrite (map_fins _ (wt (sell ll lh))) by (intros; apply iw_fin).
  set (k2 := fst (fst k)). set (k1 := snd (fst k)). set (k0 := snd k).
  assert (Q : forall x, nadd (nadd (Fin k0) (nmul (Fin k1) (Fin x))) (nmul (Fin k2) (ipow (Fin x) 2)) = Fin (quadratic k x)).
  { intros x. rewrite ipow_fin, !nmul_fin, !nadd_fin. f_equal. unfold quadratic. fold k2 k1 k0. change (Pos.to_nat 2) with 2%nat. ring. }
  rewrite Q.
  rewrite (map2_fins' nmul Rmult) by (intros; apply nmul_fin).
  rewrite (map2_fins' _ (fun i x => i * quadratic k x)).
  2:{ intros i x. rewrite !nmul_fin, !nadd_fin, nmul_fin. f_equal. unfold quadratic. fold k2 k1 k0. ring. }
  rewrite !trapz_fins by (rewrite map2_length, map_length; lia). rewrite nsub_fin.
  assert (Z : trapezoid wave (map2 Rmult (map (wt (sell ll lh)) wave) flux) - trapezoid wave (map2 (fun i x => i * quadratic k x) (map (wt (sell ll lh)) wave) wave)
    = trapezoid wave (line_excess ll lh (quadratic k) wave flux)).
  { rewrite excess_eq.
    replace (map2 Rmult (map (wt (sell ll lh)) wave) flux) with (map2 (fun x y => wt (sell ll lh) x * y) wave flux)
      by (clear; revert flux; induction wave; intros [|]; cbn [map map2]; f_equal; auto).
    replace (map2 (fun i x => i * quadratic k x) (map (wt (sell ll lh)) wave) wave) with (map2 (fun x (y : R) => wt (sell ll lh) x * quadratic k x) wave flux).
    2:{ rewrite (map2_first (fun x => wt (sell ll lh) x * quadratic k x)) by auto. clear. induction wave; cbn [map map2]; f_equal; auto. }
    pose proof (trapezoid_linear wave (map2 (fun x y => wt (sell ll lh) x * y) wave flux) (map2 (fun x (y : R) => wt (sell ll lh) x * quadratic k x) wave flux) 1 (-1)
      ltac:(rewrite map2_length; lia) ltac:(rewrite map2_length; lia)) as K.
    rewrite (map2_ext _ (fun y q => y + -1 * q)) in K by (intros; ring). rewrite K. ring. }
  rewrite Z. reflexivity.
Qed.
Lemma ew_of_decomp {AR : Arith} lstsq wave flux ll lm lh a b c d :
  ew_kernel lstsq wave flux ll lm lh a b c d
  = (let* r := continuum_line_decomp_kern lstsq wave flux ll lm lh a b c d in Ok (fst (fst (fst r)), snd (fst (fst r)))).
Proof.
  unfold ew_kernel, continuum_line_decomp_kern, check. destruct (Arr.fits (length wave) flux); [|reflexivity]. cbn [bind]. f_equal.
Qed.
Lemma C80_lemma {AR : Arith} : forall lstsq wave flux ll lm lh a b c d,
  ew_kernel lstsq wave flux ll lm lh a b c d
  = match continuum_line_decomp_kern lstsq wave flux ll lm lh a b c d with
    | Ok (ew, line, cont, coeffs) => Ok (ew, line)
    | Raise e => Raise e
    end.
Proof.
  intros. rewrite ew_of_decomp. destruct (continuum_line_decomp_kern lstsq wave flux ll lm lh a b c d) as [[[[ew line] cont] co]|e]; reflexivity.
Qed.
Lemma fits_exact sel wave flux q : length wave = length flux ->
  (forall i, (i < length wave)%nat -> sel (ent wave i) = true -> ent flux i = quadr q (ent wave i)) -> fits sel wave flux q.
Proof.
  intros L H d. revert flux L H. induction wave as [|x wave IH]; intros [|y flux] L H; try discriminate; [reflexivity|].
  cbn [map2 Rsum]. rewrite IH; [|simpl in L; lia|intros i Hi; apply (H (S i)); simpl; lia].
  specialize (H 0%nat ltac:(simpl; lia)). unfold ent in H; cbn [nth] in H. unfold wt. destruct (sel x); [rewrite H by auto; lra|lra].
Qed.
Lemma C79_lemma : forall lstsq, least_squares_solver lstsq -> forall wave flux ll lm lh a b c d q,
  length wave = length flux -> three_continuum_points a b c d wave ->
  (forall i, (i < length wave)%nat -> in_continuum a b c d (ent wave i) -> ent flux i = quadratic q (ent wave i)) ->
  quadratic q lm <> 0 ->
  let line := trapezoid wave (line_excess ll lh (quadratic q) wave flux) in
  continuum_line_decomp_kern lstsq (fins wave) (fins flux) (Fin ll) (Fin lm) (Fin lh) (Fin a) (Fin b) (Fin c) (Fin d)
    = Ok (Fin (line / quadratic q lm), Fin line, Fin (quadratic q lm), fin3 q)
  /\ ew_kernel lstsq (fins wave) (fins flux) (Fin ll) (Fin lm) (Fin lh) (Fin a) (Fin b) (Fin c) (Fin d)
    = Ok (Fin (line / quadratic q lm), Fin line).
Proof.
  intros lstsq S wave flux ll lm lh a b c d q L T H N line.
  destruct (decomp_fin lstsq wave flux ll lm lh a b c d S L T) as (k & F & E).
  assert (k = q). { eapply fits_unique; eauto using three_sel. apply fits_exact; auto. intros i Hi Hs. apply H; auto. now apply selc_spec. }
  subst k. cbv zeta in E. fold line in E. rewrite ndiv_fin in E by auto. split; auto.
  rewrite ew_of_decomp, E. reflexivity.
Qed.
Lemma fits_linear sel wave flux flux' k k' s t : length wave = length flux -> length wave = length flux' ->
  fits sel wave flux k -> fits sel wave flux' k' ->
  fits sel wave (map2 (fun y z => s * y + t * z) flux flux')
    (s * fst (fst k) + t * fst (fst k'), s * snd (fst k) + t * snd (fst k'), s * snd k + t * snd k').
Proof.
  intros L L' F F' d. specialize (F d). specialize (F' d).
  assert (K : Rsum (map2 (fun x y => wt sel x * (quadr (s * fst (fst k) + t * fst (fst k'), s * snd (fst k) + t * snd (fst k'), s * snd k + t * snd k') x - y) * quadr d x)
       wave (map2 (fun y z => s * y + t * z) flux flux'))
    = s * Rsum (map2 (fun x y => wt sel x * (quadr k x - y) * quadr d x) wave flux) + t * Rsum (map2 (fun x y => wt sel x * (quadr k' x - y) * quadr d x) wave flux')).
  { clear - L L'. revert flux flux' L L'. induction wave as [|x wave IH]; intros [|y flux] [|z flux'] L L'; try discriminate; [simpl; lra|].
    cbn [map2 Rsum]. rewrite IH by (simpl in *; lia). unfold quadr, quadratic. cbn [fst snd]. ring. }
  rewrite K, F, F'. lra.
Qed.
Lemma excess_linear lo hi wave flux flux' k k' s t : length wave = length flux -> length wave = length flux' ->
  trapezoid wave (line_excess lo hi (quadratic (s * fst (fst k) + t * fst (fst k'), s * snd (fst k) + t * snd (fst k'), s * snd k + t * snd k'))
     wave (map2 (fun y z => s * y + t * z) flux flux'))
  = s * trapezoid wave (line_excess lo hi (quadratic k) wave flux) + t * trapezoid wave (line_excess lo hi (quadratic k') wave flux').
Proof.
  intros L L'. assert (EL : forall cont f, length wave = length f -> length wave = length (line_excess lo hi cont wave f)).
  { intros. unfold line_excess. rewrite map_length, combine_length. lia. }
  rewrite <- trapezoid_linear by auto. f_equal. clear EL. unfold line_excess.
  revert flux flux' L L'. induction wave as [|x wave IH]; intros [|y flux] [|z flux'] L L'; try discriminate; [reflexivity|].
  cbn [map2 combine map fst snd]. rewrite IH by (simpl in *; lia). f_equal.
  unfold quadratic. cbn [fst snd]. destruct (Rle_dec lo x), (Rle_dec x hi); ring.
Qed.
Lemma C81_lin_lemma : forall lstsq, least_squares_solver lstsq -> forall wave flux flux' ll lm lh a b c d s t,
  length wave = length flux -> length wave = length flux' -> three_continuum_points a b c d wave ->
  let kern f := continuum_line_decomp_kern lstsq (fins wave) (fins f) (Fin ll) (Fin lm) (Fin lh) (Fin a) (Fin b) (Fin c) (Fin d) in
  exists ew ew' ew'' line line' cont cont' co co' co'',
    kern flux = Ok (ew, Fin line, Fin cont, co) /\ kern flux' = Ok (ew', Fin line', Fin cont', co')
    /\ kern (map2 (fun y z => s * y + t * z) flux flux') = Ok (ew'', Fin (s * line + t * line'), Fin (s * cont + t * cont'), co'').
Proof.
  intros lstsq S wave flux flux' ll lm lh a b c d s t L L' T kern.
  destruct (decomp_fin lstsq wave flux ll lm lh a b c d S L T) as (k & F & E).
  destruct (decomp_fin lstsq wave flux' ll lm lh a b c d S L' T) as (k' & F' & E').
  assert (L2 : length wave = length (map2 (fun y z => s * y + t * z) flux flux')) by (rewrite map2_length; lia).
  destruct (decomp_fin lstsq wave _ ll lm lh a b c d S L2 T) as (k2 & F2 & E2).
  assert (k2 = (s * fst (fst k) + t * fst (fst k'), s * snd (fst k) + t * snd (fst k'), s * snd k + t * snd k')).
  { eapply fits_unique; [exact L2|apply three_sel; exact T|exact F2|]. now apply fits_linear. }
  subst k2. cbv zeta in *. rewrite excess_linear in E2 by auto.
  do 10 eexists. split; [exact E|]. split; [exact E'|]. unfold kern. rewrite E2.
  replace (quadratic (s * fst (fst k) + t * fst (fst k'), s * snd (fst k) + t * snd (fst k'), s * snd k + t * snd k') lm)
    with (s * quadratic k lm + t * quadratic k' lm) by (unfold quadratic; cbn [fst snd]; ring). reflexivity.
Qed.
Lemma C81_lemma : forall lstsq, least_squares_solver lstsq -> forall wave flux ll lm lh a b c d s,
  length wave = length flux -> three_continuum_points a b c d wave -> s <> 0 ->
  let kern f := continuum_line_decomp_kern lstsq (fins wave) (fins f) (Fin ll) (Fin lm) (Fin lh) (Fin a) (Fin b) (Fin c) (Fin d) in
  exists ew ew' line cont co co', kern flux = Ok (ew, Fin line, Fin cont, co)
   /\ kern (map (Rmult s) flux) = Ok (ew', Fin (s * line), Fin (s * cont), co')
   /\ (cont <> 0 -> ew = Fin (line / cont) /\ ew' = ew).
Proof.
  intros lstsq S wave flux ll lm lh a b c d s L T Hs kern.
  destruct (decomp_fin lstsq wave flux ll lm lh a b c d S L T) as (k & F & E).
  assert (EM : map (Rmult s) flux = map2 (fun y z => s * y + 0 * z) flux flux).
  { clear. induction flux; cbn [map map2]; f_equal; auto. lra. }
  assert (L2 : length wave = length (map2 (fun y z => s * y + 0 * z) flux flux)) by (rewrite map2_length; lia).
  destruct (decomp_fin lstsq wave _ ll lm lh a b c d S L2 T) as (k2 & F2 & E2).
  assert (k2 = (s * fst (fst k) + 0 * fst (fst k), s * snd (fst k) + 0 * snd (fst k), s * snd k + 0 * snd k)).
  { eapply fits_unique; [exact L2|apply three_sel; exact T|exact F2|]. now apply fits_linear. }
  subst k2. cbv zeta in *. rewrite excess_linear in E2 by auto.
  set (line := trapezoid wave (line_excess ll lh (quadratic k) wave flux)) in *.
  replace (quadratic (s * fst (fst k) + 0 * fst (fst k), s * snd (fst k) + 0 * snd (fst k), s * snd k + 0 * snd k) lm)
    with (s * quadratic k lm) in E2 by (unfold quadratic; cbn [fst snd]; ring).
  replace (s * line + 0 * line) with (s * line) in E2 by ring.
  do 6 eexists. split; [exact E|]. split; [unfold kern; rewrite EM; exact E2|]. intros N. rewrite !ndiv_fin by (auto; apply Rmult_integral_contrapositive; auto).
  split; auto. f_equal. field. auto.
Qed.
