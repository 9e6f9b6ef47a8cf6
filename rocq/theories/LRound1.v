(** * Stability of piecewise-linear interpolation under perturbed tables and arguments *)
From Coq Require Import Reals List Arith Lra Lia ZArith Bool.
From Coquelicot Require Import Rcomplements.
From Flocq Require Import Core.Raux.
From Verif Require Import Num Spec RList LUtils.
Import ListNotations.
Open Scope R_scope.

Lemma pwlin_cons2 x0 x1 xs y0 y1 ys x : pwlin (combine (x0 :: x1 :: xs) (y0 :: y1 :: ys)) x =
  if Rle_dec x x0 then y0 else if Rlt_dec x x1 then y0 + (x - x0) / (x1 - x0) * (y1 - y0) else pwlin (combine (x1 :: xs) (y1 :: ys)) x.
Proof. reflexivity. Qed.
Lemma pwlin_at xs : forall ys x i, increasing xs -> length xs = length ys -> (S i < length xs)%nat -> ent xs i <= x <= ent xs (S i) ->
  pwlin (combine xs ys) x = ent ys i + (x - ent xs i) / (ent xs (S i) - ent xs i) * (ent ys (S i) - ent ys i).
Proof.
  induction xs as [|x0 xs IH]; intros ys x i Hi Hl H2 Hx; [simpl in H2; lia|].
  destruct xs as [|x1 xs]; [simpl in H2; lia|]. destruct ys as [|y0 [|y1 ys]]; try discriminate.
  pose proof Hi as Hi'. apply increasing_cons in Hi as [H0 Hi]. assert (x0 < x1) by (apply H0; simpl; auto).
  rewrite pwlin_cons2. destruct i as [|i].
  - unfold ent in *. cbn [nth] in *. destruct (Rle_dec x x0); [replace x with x0 by lra; unfold Rdiv; ring|].
    destruct (Rlt_dec x x1); [reflexivity|]. assert (x = x1) by lra. subst x.
    rewrite (pwlin_left (x1 :: xs) (y1 :: ys)); auto; [unfold ent; cbn [nth]; field; lra|discriminate|unfold ent; simpl; lra].
  - rewrite !ent_cons_S in Hx. assert (x1 <= ent (x1 :: xs) i).
    { change x1 with (ent (x1 :: xs) 0) at 1. apply (increasing_le (x1 :: xs)); auto; simpl in *; lia. }
    destruct (Rle_dec x x0); [lra|]. destruct (Rlt_dec x x1); [lra|].
    rewrite (IH (y1 :: ys) x i); auto; simpl in *; lia.
Qed.
Lemma bracket xs : forall x, increasing xs -> xs <> [] ->
  x <= ent xs 0 \/ ent xs (length xs - 1) <= x \/ exists i, (S i < length xs)%nat /\ ent xs i <= x <= ent xs (S i).
Proof.
  induction xs as [|x0 xs IH]; intros x Hi Hn; [congruence|]. destruct xs as [|x1 xs]; [unfold ent; simpl; destruct (Rle_dec x x0); [left|right; left]; lra|].
  destruct (Rle_dec x x0); [left; unfold ent; simpl; lra|]. destruct (Rle_dec x x1).
  { right. right. exists 0%nat. split; [simpl; lia|]. unfold ent; simpl; lra. }
  destruct (IH x (increasing_tl _ _ Hi) ltac:(discriminate)) as [Q|[Q|(i & Hi' & Q)]].
  - unfold ent in Q; simpl in Q. lra.
  - right. left. cbn [length] in *. replace (S (S (length xs)) - 1)%nat with (S (S (length xs) - 1)) by lia. now rewrite ent_cons_S.
  - right. right. exists (S i). rewrite !ent_cons_S. split; auto. simpl in *. lia.
Qed.
Definition slope_bound (K : R) (xs ys : list R) : Prop :=
  forall i, (S i < length xs)%nat -> Rabs (ent ys (S i) - ent ys i) <= K * (ent xs (S i) - ent xs i).
Lemma slope_bound_tl K x xs y ys : slope_bound K (x :: xs) (y :: ys) -> slope_bound K xs ys.
Proof. intros H i Hi. specialize (H (S i)). rewrite !ent_cons_S in H. apply H. simpl. lia. Qed.
Lemma pwlin_lip xs : forall ys K x y, increasing xs -> length xs = length ys -> 0 <= K -> slope_bound K xs ys -> x <= y ->
  Rabs (pwlin (combine xs ys) y - pwlin (combine xs ys) x) <= K * (y - x).
Proof.
  induction xs as [|x0 xs IH]; intros ys K x y Hi Hl HK SB Hxy.
  { simpl. rewrite Rminus_0_r, Rabs_R0. apply Rmult_le_pos; lra. }
  destruct ys as [|y0 ys]; [discriminate|].
  destruct xs as [|x1 xs]; destruct ys as [|y1 ys]; try discriminate.
  { simpl. unfold Rminus. rewrite Rplus_opp_r, Rabs_R0. apply Rmult_le_pos; lra. }
  pose proof (slope_bound_tl _ _ _ _ _ SB) as SB'. specialize (SB 0%nat ltac:(simpl; lia)). unfold ent in SB; cbn [nth] in SB.
  pose proof Hi as Hi'. apply increasing_cons in Hi as [H0 Hi]. assert (x0 < x1) by (apply H0; simpl; auto).
  rewrite !pwlin_cons2. set (g := (y1 - y0) / (x1 - x0)).
  assert (G : forall z, y0 + (z - x0) / (x1 - x0) * (y1 - y0) = y0 + g * (z - x0)) by (intros; unfold g; field; lra). rewrite !G.
  assert (GE : y1 - y0 = g * (x1 - x0)) by (unfold g; field; lra).
  assert (GK : Rabs g <= K). { rewrite GE, Rabs_mult, (Rabs_right (x1 - x0)) in SB by lra. apply Rmult_le_reg_r in SB; lra. }
  assert (E1 : pwlin (combine (x1 :: xs) (y1 :: ys)) x1 = y1) by (apply (pwlin_left (x1 :: xs) (y1 :: ys)); auto; [discriminate|unfold ent; simpl; lra]).
  assert (T : forall z, x1 <= z -> Rabs (pwlin (combine (x1 :: xs) (y1 :: ys)) z - y1) <= K * (z - x1)).
  { intros z Hz. rewrite <- E1 at 2. apply IH; auto. }
  assert (L : forall a b, a <= b -> Rabs (g * (b - a)) <= K * (b - a)).
  { intros a b Hab. rewrite Rabs_mult, (Rabs_right (b - a)) by lra. apply Rmult_le_compat_r; lra. }
  assert (KM : forall a b, a <= b -> K * a <= K * b) by (intros; apply Rmult_le_compat_l; lra).
  destruct (Rle_dec x x0), (Rle_dec y x0); try lra.
  - unfold Rminus. rewrite Rplus_opp_r, Rabs_R0. apply Rmult_le_pos; lra.
  - destruct (Rlt_dec y x1).
    + replace (y0 + g * (y - x0) - y0) with (g * (y - x0)) by ring. eapply Rle_trans; [apply L; lra|apply KM; lra].
    + specialize (T y ltac:(lra)). replace (pwlin (combine (x1 :: xs) (y1 :: ys)) y - y0) with ((pwlin (combine (x1 :: xs) (y1 :: ys)) y - y1) + g * (x1 - x0)) by lra.
      eapply Rle_trans; [apply Rabs_triang|]. specialize (L x0 x1 ltac:(lra)). specialize (KM (y - x0) (y - x) ltac:(lra)). lra.
  - destruct (Rlt_dec y x1), (Rlt_dec x x1); try lra.
    + replace (y0 + g * (y - x0) - (y0 + g * (x - x0))) with (g * (y - x)) by ring. apply L; lra.
    + specialize (T y ltac:(lra)). replace (pwlin (combine (x1 :: xs) (y1 :: ys)) y - (y0 + g * (x - x0))) with ((pwlin (combine (x1 :: xs) (y1 :: ys)) y - y1) + g * (x1 - x)) by lra.
      eapply Rle_trans; [apply Rabs_triang|]. specialize (L x x1 ltac:(lra)). lra.
    + apply IH; auto.
Qed.
Lemma pwlin_lip' xs ys K x y : increasing xs -> length xs = length ys -> 0 <= K -> slope_bound K xs ys ->
  Rabs (pwlin (combine xs ys) y - pwlin (combine xs ys) x) <= K * Rabs (y - x).
Proof.
  intros. destruct (Rle_dec x y); [rewrite (Rabs_right (y - x)) by lra; now apply pwlin_lip|].
  rewrite Rabs_minus_sym, (Rabs_left (y - x)) by lra. replace (- (y - x)) with (x - y) by lra. apply pwlin_lip; auto; lra.
Qed.
Lemma convex_err a b c d e r : 0 <= r <= 1 -> Rabs (a - c) <= e -> Rabs (b - d) <= e -> Rabs ((a + r * (b - a)) - (c + r * (d - c))) <= e.
Proof. intros R A B. apply Rabs_le_inv in A, B. apply Rabs_le. split; nra. Qed.
Lemma pwlin_stable X Y X' Y' K ex ey eq q q' :
  increasing X -> increasing X' -> X <> [] -> length X = length Y -> length X' = length X -> length Y' = length X ->
  (forall i, (i < length X)%nat -> Rabs (ent X' i - ent X i) <= ex) -> (forall i, (i < length X)%nat -> Rabs (ent Y' i - ent Y i) <= ey) ->
  Rabs (q' - q) <= eq -> 0 <= K -> slope_bound K X Y ->
  Rabs (pwlin (combine X' Y') q' - pwlin (combine X Y) q) <= ey + K * (ex + eq).
Proof.
  intros I I' N L L1 L2 EX EY EQ HK SB.
  assert (N' : X' <> []) by (intros ->; simpl in L1; destruct X; [congruence|discriminate]).
  assert (LX : (0 < length X)%nat) by (destruct X; [congruence|simpl; lia]).
  assert (ST : forall p, Rabs (p - q') <= ex -> K * Rabs (p - q) <= K * (ex + eq)).
  { intros p Hp. apply Rmult_le_compat_l; auto. replace (p - q) with ((p - q') + (q' - q)) by lra. eapply Rle_trans; [apply Rabs_triang|]. lra. }
  assert (FIN : forall p v, pwlin (combine X Y) p = v -> Rabs (p - q) <= ex + eq -> Rabs (pwlin (combine X' Y') q' - v) <= ey -> Rabs (pwlin (combine X' Y') q' - pwlin (combine X Y) q) <= ey + K * (ex + eq)).
  { intros p v E P V. replace (pwlin (combine X' Y') q' - pwlin (combine X Y) q) with ((pwlin (combine X' Y') q' - v) + (pwlin (combine X Y) p - pwlin (combine X Y) q)) by (rewrite E; lra).
    eapply Rle_trans; [apply Rabs_triang|]. apply Rplus_le_compat; auto. eapply Rle_trans; [apply (pwlin_lip' X Y K q p); auto|]. apply Rmult_le_compat_l; auto. }
  apply Rabs_le_inv in EQ.
  destruct (bracket X' q' I' N') as [Q|[Q|(i & Hi & Q)]].
  - pose proof (EX 0%nat LX) as E0. apply Rabs_le_inv in E0. pose proof (EY 0%nat LX) as F0. rewrite (pwlin_left X' Y') in * by (auto; lia).
    destruct (Rle_dec q (ent X 0)) as [A|A].
    + apply (FIN q (ent Y 0)); auto; [apply pwlin_left; auto|]. unfold Rminus. rewrite Rplus_opp_r, Rabs_R0. apply Rabs_le_inv in F0. lra.
    + apply (FIN (ent X 0) (ent Y 0)); auto; [apply pwlin_left; auto; lra|]. rewrite Rabs_minus_sym. rewrite Rabs_right by lra. lra.
  - rewrite L1 in Q. pose proof (EX (length X - 1)%nat ltac:(lia)) as E0. apply Rabs_le_inv in E0. pose proof (EY (length X - 1)%nat ltac:(lia)) as F0.
    rewrite (pwlin_right X' Y') in * by (auto; try lia; rewrite L1; auto). rewrite L2 in *.
    destruct (Rle_dec (ent X (length X - 1)) q) as [A|A].
    + apply (FIN q (ent Y (length X - 1))); auto; [rewrite L; apply pwlin_right; auto|]. unfold Rminus. rewrite Rplus_opp_r, Rabs_R0. lra.
    + apply (FIN (ent X (length X - 1)) (ent Y (length X - 1))); auto; [rewrite L at 2; apply pwlin_right; auto; lra|]. rewrite Rabs_right by lra. lra.
  - set (d := ent X' (S i) - ent X' i). assert (D : 0 < d) by (unfold d; assert (ent X' i < ent X' (S i)) by (apply I'; lia); lra).
    set (r := (q' - ent X' i) / d). assert (Rr : 0 <= r <= 1).
    { unfold r. split; [apply Rdiv_le_0_compat'; lra|apply Rdiv_le_1'; [lra|unfold d; lra]]. }
    assert (DX : ent X i < ent X (S i)) by (apply I; lia).
    set (p := ent X i + r * (ent X (S i) - ent X i)).
    assert (P : ent X i <= p <= ent X (S i)) by (unfold p; nra).
    assert (EQ' : q' = ent X' i + r * (ent X' (S i) - ent X' i)) by (unfold r; fold d; field; lra).
    assert (PQ : Rabs (p - q') <= ex).
    { rewrite EQ'. unfold p. apply convex_err; auto; rewrite Rabs_minus_sym; apply EX; lia. }
    apply (FIN p (ent Y i + r * (ent Y (S i) - ent Y i))).
    + rewrite (pwlin_at X Y p i) by (auto; lia). f_equal. f_equal. unfold p. field. lra.
    + apply Rabs_le_inv in PQ. apply Rabs_le. lra.
    + rewrite (pwlin_at X' Y' q' i) by (auto; lia). fold d. fold r. apply convex_err; auto; apply EY; lia.
Qed.

(** ** logarithms and powers of ten *)
Lemma ln10_ge : 2 <= ln 10.
Proof. rewrite <- (ln_exp 2). apply ln_le; [apply exp_pos|]. replace 2 with (1 + 1) by lra. rewrite exp_plus. pose proof exp_le_3. pose proof (exp_pos 1). nra. Qed.
Lemma exp_9_10 : 11 <= exp (5 / 2).
Proof.
  assert (E : 1.274 <= exp (1/4)).
  { pose proof (exp_ineq1_le (1/16)). replace (1/4) with (1/16 + 1/16 + (1/16 + 1/16)) by lra. rewrite !exp_plus. set (e := exp (1/16)) in *. assert (1.1289 <= e * e) by nra. nra. }
  replace (5/2) with (1/4+(1/4+(1/4+(1/4+(1/4+(1/4+(1/4+(1/4+(1/4+1/4))))))))) by lra. rewrite !exp_plus. set (e := exp (1/4)) in *.
  set (f := e * e). assert (F : 1.623 <= f) by (unfold f; nra). set (g := f * f). assert (G : 2.634 <= g) by (unfold g; nra). set (h := g * g). assert (6.93 <= h) by (unfold h; nra).
  apply Rle_trans with (f * h); [nra|right; unfold h, g, f; ring].
Qed.
Lemma ln10_le : ln 10 <= 5 / 2.
Proof. rewrite <- (ln_exp (5/2)). apply ln_le; [lra|]. pose proof exp_9_10. lra. Qed.
Lemma ln_le_sub1 x : 0 < x -> ln x <= x - 1.
Proof. intros H. replace x with (1 + (x - 1)) at 1 by lra. pose proof (exp_ineq1_le (ln (1 + (x - 1)))) as A. rewrite exp_ln in A by lra. lra. Qed.
(** log10 is 1/(2c)-Lipschitz above c *)
Lemma log10_lip c x y : 0 < c -> c <= x -> c <= y -> Rabs (log10 x - log10 y) <= Rabs (x - y) / (2 * c).
Proof.
  intros C X Y.
  assert (W : forall a b, c <= a -> a <= b -> 0 <= log10 b - log10 a <= (b - a) / (2 * c)).
  { intros a b A B. split; [assert (log10 a <= log10 b) by (apply log10_le; lra); lra|]. unfold log10.
    replace (ln b / ln 10 - ln a / ln 10) with ((ln b - ln a) / ln 10) by (field; pose proof ln10_ge; lra).
    assert (E : ln b - ln a <= (b - a) / c).
    { rewrite <- ln_div by lra. eapply Rle_trans; [apply ln_le_sub1; apply Rdiv_lt_0_compat; lra|].
      replace (b / a - 1) with ((b - a) / a) by (field; lra). unfold Rdiv. apply Rmult_le_compat_l; [lra|]. apply Rinv_le_contravar; lra. }
    assert (0 <= (b - a) / c) by (apply Rdiv_le_0_compat'; lra). pose proof ln10_ge.
    apply Rle_trans with ((b - a) / c / ln 10); [unfold Rdiv at 1 3; apply Rmult_le_compat_r; [apply Rlt_le, Rinv_0_lt_compat; lra|lra]|].
    apply Rle_trans with ((b - a) / c / 2); [unfold Rdiv at 1 3; apply Rmult_le_compat_l; [lra|apply Rinv_le_contravar; lra]|]. right. field. lra. }
  destruct (Rle_dec x y) as [Q|Q].
  - specialize (W x y X Q). rewrite (Rabs_minus_sym (log10 x)), (Rabs_minus_sym x), !Rabs_right by lra. lra.
  - specialize (W y x Y ltac:(lra)). rewrite !Rabs_right by lra. lra.
Qed.
Lemma exp_le_1p x : 0 <= x <= / 10 -> exp x <= 1 + x + 2 * x * x.
Proof.
  intros H. pose proof (exp_ineq1_le (- x)) as A. assert (E : exp x * exp (- x) = 1) by (rewrite <- exp_plus; replace (x + - x) with 0 by lra; apply exp_0).
  pose proof (exp_pos x). assert (exp x * (1 - x) <= 1) by nra. assert (0 < 1 - x) by lra. apply Rmult_le_reg_r with (1 - x); auto. nra.
Qed.
Lemma pow10_err d : 0 <= d <= / 100 -> pow10 d - 1 <= 3 * d.
Proof.
  intros H. unfold pow10, Rpower. pose proof ln10_ge. pose proof ln10_le. pose proof (exp_le_1p (d * ln 10)) as A.
  assert (B : 0 <= d * ln 10 <= 5/2 * d) by nra. specialize (A ltac:(lra)). nra.
Qed.
Lemma pow10_close x y d : Rabs (x - y) <= d -> d <= / 100 -> Rabs (pow10 x - pow10 y) <= 3 * d * pow10 y.
Proof.
  intros H D. pose proof (pow10_pos y) as P. apply Rabs_le_inv in H. assert (D0 : 0 <= d) by lra. pose proof (pow10_err d ltac:(lra)) as E.
  assert (U : pow10 x <= pow10 d * pow10 y) by (rewrite <- pow10_plus; apply pow10_le; lra).
  assert (L : pow10 y <= pow10 d * pow10 x) by (rewrite <- pow10_plus; apply pow10_le; lra).
  pose proof (pow10_pos x). pose proof (pow10_pos d). apply Rabs_le. split; [|nra].
  destruct (Rle_dec (pow10 y) (pow10 x)); [nra|]. nra.
Qed.
