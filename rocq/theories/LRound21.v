(** * Relative errors measured on the logarithm: calculus of positive quantities *)
From Coq Require Import Reals List Arith Lra Lia ZArith Bool.
From Flocq Require Import Core.Raux.
From Coq Require Import Permutation.
From Verif Require Import Num Arr MUtils MSed Float Spec SpecFloat LOrder RList LUtils LFloat LFloat2 LFloat10 LRound1 LRound2.
Import ListNotations.
Open Scope R_scope.

Lemma exp_ge1 x : 1 + x <= exp x.
Proof. destruct (Req_dec x 0) as [->|N]; [rewrite exp_0; lra|]. apply Rlt_le, exp_ineq1. auto. Qed.
Lemma exp_mono x y : x <= y -> exp x <= exp y.
Proof. intros [L| ->]; [now apply Rlt_le, exp_increasing|lra]. Qed.
Lemma exp_small x : x <= / 900 -> exp x <= 1.002.
Proof.
  intros Hx. apply Rle_trans with (exp (/ 900)); [now apply exp_mono|]. pose proof (exp_ge1 (- / 900)) as E. rewrite exp_Ropp in E. pose proof (exp_pos (/ 900)) as P.
  apply (Rmult_le_compat_r (exp (/ 900))) in E; [|lra]. rewrite Rinv_l in E; lra.
Qed.

Section F.
Context {AR : Arith} (u : R) (H : rel_err AR u).
Notation G := (re_good _ _ H).

Definition lre (k x y : R) : Prop := 0 < x /\ 0 < y /\ x <= y * exp (k * u) /\ y <= x * exp (k * u).
Lemma upos : 0 < u <= / (4 * 10 ^ 6). Proof. exact (u_le u H). Qed.
Lemma lre_weaken k k' x y : lre k x y -> k <= k' -> lre k' x y.
Proof.
  intros (X & Y & A & B) L. pose proof upos. assert (E : exp (k * u) <= exp (k' * u)) by (apply exp_mono, Rmult_le_compat_r; lra).
  split; auto. split; auto. split; (eapply Rle_trans; [eassumption|]); apply Rmult_le_compat_l; lra.
Qed.
Lemma lre_refl x : 0 < x -> lre 0 x x.
Proof. intros X. unfold lre. rewrite Rmult_0_l, exp_0. lra. Qed.
Lemma lre_sym k x y : lre k x y -> lre k y x. Proof. unfold lre. tauto. Qed.
Lemma lre_trans j k x y z : lre j x y -> lre k y z -> lre (j + k) x z.
Proof.
  intros (X & Y & A & B) (_ & Z & C & D). split; auto. split; auto. rewrite Rmult_plus_distr_r, exp_plus. pose proof (exp_pos (j * u)). pose proof (exp_pos (k * u)). split.
  - eapply Rle_trans; [exact A|]. rewrite (Rmult_comm (exp (j * u))), <- Rmult_assoc. apply Rmult_le_compat_r; lra.
  - eapply Rle_trans; [exact D|]. rewrite <- Rmult_assoc. apply Rmult_le_compat_r; lra.
Qed.
Lemma lre_mul j k x X y Y : lre j x X -> lre k y Y -> lre (j + k) (x * y) (X * Y).
Proof.
  intros (x0 & X0 & A & B) (y0 & Y0 & C & D). split; [now apply Rmult_lt_0_compat|]. split; [now apply Rmult_lt_0_compat|]. rewrite Rmult_plus_distr_r, exp_plus. split.
  - replace (X * Y * (exp (j * u) * exp (k * u))) with ((X * exp (j * u)) * (Y * exp (k * u))) by ring. apply Rmult_le_compat; lra.
  - replace (x * y * (exp (j * u) * exp (k * u))) with ((x * exp (j * u)) * (y * exp (k * u))) by ring. apply Rmult_le_compat; lra.
Qed.
Lemma lre_inv k x X : lre k x X -> lre k (/ x) (/ X).
Proof.
  intros (x0 & X0 & A & B). pose proof (Rinv_0_lt_compat _ x0). pose proof (Rinv_0_lt_compat _ X0). pose proof (exp_pos (k * u)) as E. split; auto. split; auto. split.
  - apply Rmult_le_reg_l with x; auto. rewrite Rinv_r by lra. apply Rmult_le_reg_r with X; auto. replace (x * (/ X * exp (k * u)) * X) with (x * exp (k * u)) by (field; lra). lra.
  - apply Rmult_le_reg_l with X; auto. rewrite Rinv_r by lra. apply Rmult_le_reg_r with x; auto. replace (X * (/ x * exp (k * u)) * x) with (X * exp (k * u)) by (field; lra). lra.
Qed.
Lemma lre_div j k x X y Y : lre j x X -> lre k y Y -> lre (j + k) (x / y) (X / Y).
Proof. intros A B. apply lre_mul; auto. now apply lre_inv. Qed.
Lemma lre_ln k x y : lre k x y <-> 0 < x /\ 0 < y /\ Rabs (ln x - ln y) <= k * u.
Proof.
  split.
  - intros (X & Y & A & B). split; auto. split; auto. pose proof (exp_pos (k * u)) as E. assert (L : forall a b, 0 < a -> 0 < b -> a <= b * exp (k * u) -> ln a <= ln b + k * u).
    { intros a b Ha Hb Hab. rewrite <- (ln_exp (k * u)) at 1. rewrite <- ln_mult by auto. destruct Hab as [L|E0]; [apply Rlt_le, ln_increasing; auto|rewrite E0; lra]. }
    pose proof (L _ _ X Y A). pose proof (L _ _ Y X B). apply Rabs_le. lra.
  - intros (X & Y & A). apply Rabs_le_inv in A. split; auto. split; auto. split.
    + rewrite <- (exp_ln x X) at 1. rewrite <- (exp_ln y Y) at 1. rewrite <- exp_plus. apply exp_mono. lra.
    + rewrite <- (exp_ln x X) at 1. rewrite <- (exp_ln y Y) at 1. rewrite <- exp_plus. apply exp_mono. lra.
Qed.
Lemma ln_sqrt_ x : 0 < x -> ln (sqrt x) = ln x / 2.
Proof. intros X. pose proof (sqrt_lt_R0 x X) as S. assert (E : ln x = ln (sqrt x) + ln (sqrt x)) by (rewrite <- ln_mult, sqrt_sqrt by lra; auto). lra. Qed.
Lemma lre_sqrt k x X : lre k x X -> lre (k / 2) (sqrt x) (sqrt X).
Proof.
  rewrite !lre_ln. intros (A & B & C). split; [now apply sqrt_lt_R0|]. split; [now apply sqrt_lt_R0|]. rewrite !ln_sqrt_ by auto. apply Rabs_le_inv in C. apply Rabs_le. lra.
Qed.
Lemma lre_add k x X y Y : lre k x X -> lre k y Y -> lre k (x + y) (X + Y).
Proof. intros (A & B & C & D) (E & F & I & J). split; [lra|]. split; [lra|]. rewrite !Rmult_plus_distr_r. lra. Qed.
Lemma lre_exp e x X : Rabs (x - X) <= e * u -> lre e (exp x) (exp X).
Proof. intros A. apply lre_ln. split; [apply exp_pos|]. split; [apply exp_pos|]. now rewrite !ln_exp. Qed.
Lemma lre_power k e L M a A p P : lre k a A -> Rabs (p - P) <= e * u -> Rabs (ln A) <= L -> Rabs p <= M -> lre (M * k + e * L) (Rpower a p) (Rpower A P).
Proof.
  intros K E HL HM. pose proof upos as U. apply lre_ln in K. destruct K as (A0 & B0 & K). unfold Rpower. apply lre_exp.
  replace (p * ln a - P * ln A) with (p * (ln a - ln A) + (p - P) * ln A) by ring. eapply Rle_trans; [apply Rabs_triang|]. rewrite !Rabs_mult.
  assert (Rabs p * Rabs (ln a - ln A) <= M * (k * u)) by (apply Rmult_le_compat; auto; apply Rabs_pos). assert (Rabs (p - P) * Rabs (ln A) <= e * u * L) by (apply Rmult_le_compat; auto; apply Rabs_pos). lra.
Qed.
(** from a bound on the difference *)
Lemma lre_abs e x X : 0 < X -> Rabs (x - X) <= e * u * X -> e * u <= / 900 -> lre (1.002 * e) x X.
Proof.
  intros X0 A S. assert (E0 : 0 <= e * u). { destruct (Rle_or_lt 0 (e * u)) as [|N]; auto. pose proof (Rabs_pos (x - X)). assert (e * u * X < 0) by nra. lra. }
  apply Rabs_le_inv in A. assert (B1 : X * (1 - e * u) <= x) by lra. assert (B2 : x <= X * (1 + e * u)) by lra. assert (x0 : 0 < x) by nra.
  split; auto. split; auto. set (t := e * u) in *. replace (1.002 * e * u) with (1.002 * t) by (unfold t; ring). split.
  - eapply Rle_trans; [exact B2|]. apply Rmult_le_compat_l; [lra|]. eapply Rle_trans; [apply (exp_ge1 t)|]. apply exp_mono. lra.
  - assert (M : 1 <= (1 - t) * exp (1.002 * t)). { apply Rle_trans with ((1 - t) * (1 + 1.002 * t)); [nra|]. apply Rmult_le_compat_l; [lra|]. apply exp_ge1. }
    apply Rle_trans with (X * ((1 - t) * exp (1.002 * t))); [nra|]. rewrite <- Rmult_assoc. apply Rmult_le_compat_r; [apply Rlt_le, exp_pos|exact B1].
Qed.
Lemma lre_close k x X : lre k x X -> k * u <= / 900 -> X / 1.002 <= x <= 1.002 * X.
Proof.
  intros (A & B & C & D) S. pose proof (exp_small _ S) as E. split.
  - apply Rmult_le_reg_r with 1.002; [lra|]. unfold Rdiv. rewrite Rmult_assoc, Rinv_l by lra. assert (x * exp (k * u) <= x * 1.002) by (apply Rmult_le_compat_l; lra). lra.
  - assert (X * exp (k * u) <= X * 1.002) by (apply Rmult_le_compat_l; lra). lra.
Qed.
Lemma lre_close2 k x X : lre k x X -> k * u <= / 400 -> X / 2 <= x <= 2 * X.
Proof.
  intros (A & B & C & D) S. assert (E : exp (k * u) <= 2). { apply Rle_trans with (exp (/ 400)); [now apply exp_mono|]. pose proof (exp_ge1 (- / 400)) as E. rewrite exp_Ropp in E. pose proof (exp_pos (/ 400)) as P.
    apply (Rmult_le_compat_r (exp (/ 400))) in E; [|lra]. rewrite Rinv_l in E; lra. } split.
  - assert (x * exp (k * u) <= x * 2) by (apply Rmult_le_compat_l; lra). lra.
  - assert (X * exp (k * u) <= X * 2) by (apply Rmult_le_compat_l; lra). lra.
Qed.
Lemma lre_diff k x X : lre k x X -> k * u <= / 900 -> 0 <= k -> Rabs (x - X) <= 1.002 * k * u * X.
Proof.
  intros (A & B & C & D) S K. pose proof upos as U. assert (T : 0 <= k * u) by (apply Rmult_le_pos; lra). set (t := k * u) in *. replace (1.002 * k * u * X) with (1.002 * t * X) by (unfold t; ring).
  assert (E : exp t <= 1 + 1.002 * t). { pose proof (exp_ge1 (- t)) as E. rewrite exp_Ropp in E. pose proof (exp_pos t) as P. apply (Rmult_le_compat_r (exp t)) in E; [|lra]. rewrite Rinv_l in E by lra. nra. }
  assert (E' : 1 - t <= exp (- t)) by (pose proof (exp_ge1 (- t)); lra). assert (D' : X * exp (- t) <= x). { rewrite exp_Ropp. pose proof (exp_pos t) as P. apply Rmult_le_reg_r with (exp t); auto. rewrite Rmult_assoc, Rinv_l by lra. lra. }
  apply Rabs_le. split; [nra|]. assert (X * exp t <= X * (1 + 1.002 * t)) by (apply Rmult_le_compat_l; lra). lra.
Qed.
(** rounding *)
Lemma p25 : 0 < / 10 ^ 25. Proof. apply Rinv_0_lt_compat, pow_lt. lra. Qed.
Lemma lre_rnd x : / 10 ^ 25 <= x <= 10 ^ 37 -> exists y, rnd x = Fin y /\ rnd y = Fin y /\ lre 1.02 y x.
Proof.
  intros X. pose proof p25 as P. pose proof upos as U. assert (Ax : Rabs x = x) by (apply Rabs_right; lra).
  destruct (rnd_range _ G x) as (y & E). { rewrite Ax. apply Rle_trans with (10 ^ 37); [lra|apply Rle_pow; [lra|lia]]. }
  exists y. split; auto. split; [eapply (rnd_idem _ G); eauto|]. apply lre_weaken with (1.002 * 1.01); [|lra]. pose proof (re_any _ _ H _ _ E) as A. rewrite Ax in A.
  apply lre_abs; [lra| |simpl in U; lra]. eapply Rle_trans; [exact A|]. destruct (tiny_u u H) as [_ T].
  assert (u * / 10 ^ 27 <= 0.01 * u * x). { replace (/ 10 ^ 27) with (0.01 * / 10 ^ 25) by (replace (10 ^ 27) with (100 * 10 ^ 25) by (simpl; ring); rewrite Rinv_mult; lra). assert (u * / 10 ^ 25 <= u * x) by (apply Rmult_le_compat_l; lra). lra. } lra.
Qed.
Definition npos (k : R) (v : num) (X : R) : Prop := exists x, v = Fin x /\ rnd x = Fin x /\ lre k x X.
Lemma npos_weaken k k' v X : npos k v X -> k <= k' -> npos k' v X.
Proof. intros (x & E & R & L) K. exists x. split; auto. split; auto. now apply lre_weaken with k. Qed.
Lemma npos_machine x : rnd x = Fin x -> 0 < x -> npos 0 (Fin x) x.
Proof. intros R X. exists x. split; auto. split; auto. now apply lre_refl. Qed.
Lemma npos_rnd k x X : lre k x X -> k <= 10000 -> / 10 ^ 24 <= X <= 10 ^ 36 -> npos (k + 1.02) (rnd x) X.
Proof.
  intros L K B. pose proof upos as U. assert (S : k * u <= / 400). { apply Rle_trans with (10000 * / (4 * 10 ^ 6)); [apply Rmult_le_compat; try lra|simpl; lra]. destruct (Rle_or_lt 0 k) as [|N]; auto. exfalso. destruct L as (A1 & A2 & A3 & A4). assert (k * u < 0) by nra. assert (exp (k * u) < 1) by (rewrite <- exp_0; now apply exp_increasing). nra. }
  pose proof (lre_close2 _ _ _ L S) as C. assert (P24 : / 10 ^ 24 = 10 * / 10 ^ 25) by (replace (10 ^ 25) with (10 * 10 ^ 24) by (simpl; ring); rewrite Rinv_mult; lra). pose proof p25. assert (P37 : 10 ^ 37 = 10 * 10 ^ 36) by (simpl; ring).
  destruct (lre_rnd x) as (y & E & R & Ly). { rewrite P37. split; [apply Rle_trans with (X / 2); [|lra]; lra|lra]. }
  exists y. split; auto. split; auto. rewrite Rplus_comm. now apply lre_trans with x.
Qed.
Lemma lre_elem f : in_domain f -> / 10 ^ 25 <= elem_value f <= 10 ^ 37 -> exists y, elem f = Fin y /\ rnd y = Fin y /\ lre 1.02 y (elem_value f).
Proof.
  intros DM X. set (x := elem_value f) in *. pose proof p25 as P. pose proof upos as U. assert (Ax : Rabs x = x) by (apply Rabs_right; lra).
  destruct (elem_fin G f DM) as (y & E & R & _). { fold x. rewrite Ax. apply Rle_trans with (10 ^ 37); [lra|apply Rle_pow; [lra|lia]]. }
  exists y. split; auto. split; auto. apply lre_weaken with (1.002 * 1.01); [|lra]. destruct (elem_any u H f y DM E) as [A _]. fold x in A. rewrite Ax in A.
  apply lre_abs; [lra| |simpl in U; lra]. eapply Rle_trans; [exact A|]. destruct (tiny_u u H) as [_ T].
  assert (u * / 10 ^ 27 <= 0.01 * u * x). { replace (/ 10 ^ 27) with (0.01 * / 10 ^ 25) by (replace (10 ^ 27) with (100 * 10 ^ 25) by (simpl; ring); rewrite Rinv_mult; lra). assert (u * / 10 ^ 25 <= u * x) by (apply Rmult_le_compat_l; lra). lra. } lra.
Qed.
Lemma npos_elem k f X : in_domain f -> lre k (elem_value f) X -> k <= 10000 -> / 10 ^ 24 <= X <= 10 ^ 36 -> npos (k + 1.02) (elem f) X.
Proof.
  intros DM L K B. pose proof upos as U. assert (S : k * u <= / 400). { apply Rle_trans with (10000 * / (4 * 10 ^ 6)); [apply Rmult_le_compat; try lra|simpl; lra]. destruct (Rle_or_lt 0 k) as [|N]; auto. exfalso. destruct L as (A1 & A2 & A3 & A4). assert (k * u < 0) by nra. assert (exp (k * u) < 1) by (rewrite <- exp_0; now apply exp_increasing). nra. }
  pose proof (lre_close2 _ _ _ L S) as C. assert (P24 : / 10 ^ 24 = 10 * / 10 ^ 25) by (replace (10 ^ 25) with (10 * 10 ^ 24) by (simpl; ring); rewrite Rinv_mult; lra). pose proof p25. assert (P37 : 10 ^ 37 = 10 * 10 ^ 36) by (simpl; ring).
  destruct (lre_elem f DM) as (y & E & R & Ly). { rewrite P37. split; [apply Rle_trans with (X / 2); [|lra]; lra|lra]. }
  exists y. split; auto. split; auto. rewrite Rplus_comm. now apply lre_trans with (elem_value f).
Qed.
Lemma npos_lit X : / 10 ^ 24 <= X <= 10 ^ 36 -> npos 1.02 (lit X) X.
Proof.
  intros B. apply npos_weaken with (0 + 1.02); [|lra]. apply npos_rnd; auto; [|lra]. apply lre_refl. pose proof p25. assert (P24 : / 10 ^ 24 = 10 * / 10 ^ 25) by (replace (10 ^ 25) with (10 * 10 ^ 24) by (simpl; ring); rewrite Rinv_mult; lra). lra.
Qed.
Lemma npos_mul j k v w X Y : npos j v X -> npos k w Y -> j + k <= 10000 -> / 10 ^ 24 <= X * Y <= 10 ^ 36 -> npos (j + k + 1.02) (v * w)%num (X * Y).
Proof. intros (x & -> & _ & A) (y & -> & _ & B) K R. cbn [nmul]. apply npos_rnd; auto. now apply lre_mul. Qed.
Lemma npos_div j k v w X Y : npos j v X -> npos k w Y -> j + k <= 10000 -> / 10 ^ 24 <= X / Y <= 10 ^ 36 -> npos (j + k + 1.02) (v / w)%num (X / Y).
Proof.
  intros (x & -> & _ & A) (y & -> & _ & B) K R. cbn [ndiv]. destruct (Req_bool_spec y 0) as [Z|_]; [exfalso; destruct B; lra|]. apply npos_rnd; auto. now apply lre_div.
Qed.
Lemma npos_sqrt k v X : npos k v X -> k <= 10000 -> / 10 ^ 24 <= sqrt X <= 10 ^ 36 -> npos (k / 2 + 1.02) (nsqrt v) (sqrt X).
Proof.
  intros (x & -> & _ & A) K R. cbn [nsqrt]. destruct (Rlt_bool_spec x 0) as [Z|_]; [exfalso; destruct A; lra|]. pose proof (lre_sqrt _ _ _ A). apply npos_rnd; auto. destruct (Rle_or_lt 0 k); lra.
Qed.
(** addition: no underflow *)
Lemma npos_add k v w X Y : npos k v X -> npos k w Y -> k <= 10000 -> X + Y <= 10 ^ 36 -> npos (k + 1.02) (v + w)%num (X + Y).
Proof.
  intros (x & -> & Rx & A) (y & -> & Ry & B) K R. cbn [nadd]. pose proof upos as U. pose proof (lre_add _ _ _ _ _ A B) as L. assert (K0 : 0 <= k).
  { destruct (Rle_or_lt 0 k) as [|N]; auto. exfalso. destruct L as (A1 & A2 & A3 & A4). assert (k * u < 0) by nra. assert (exp (k * u) < 1) by (rewrite <- exp_0; now apply exp_increasing). nra. }
  assert (S : k * u <= / 400) by (apply Rle_trans with (10000 * / (4 * 10 ^ 6)); [apply Rmult_le_compat; lra|simpl; lra]). pose proof (lre_close2 _ _ _ L S) as C. destruct L as (L1 & L2 & L3 & L4).
  destruct (rnd_range _ G (x + y)) as (z & E). { rewrite Rabs_right by lra. apply Rle_trans with (10 * 10 ^ 36); [lra|replace (10 * 10 ^ 36) with (10 ^ 37) by (simpl; ring); apply Rle_pow; [lra|lia]]. }
  exists z. split; auto. split; [eapply (rnd_idem _ G); eauto|]. rewrite Rplus_comm. apply lre_trans with (x + y); [|repeat split; auto]. apply lre_weaken with (1.002 * 1); [|lra]. apply lre_abs; [lra| |simpl in U; lra].
  assert (SF : safe_sum x y) by (apply safe_nonneg; [destruct A|destruct B]; lra). pose proof (re_add _ _ H _ _ _ Rx Ry E SF) as D. rewrite (Rabs_right (x + y)) in D by lra. lra.
Qed.
(** a sum, in any order *)
Lemma comb_npos (l : list num) v : combines nadd l v -> forall (L : list R) k, Forall2 (npos k) l L -> Rsum L <= 10 ^ 36 -> k + 1.02 * INR (length l - 1) <= 10000 ->
  npos (k + 1.02 * INR (length l - 1)) v (Rsum L).
Proof.
  induction 1 as [x|l l1 l2 v1 v2 P A IA B IB]; intros L k F S K.
  - inversion F as [|? X ? L' HX F' E1 E2]. subst. inversion F'. subst. simpl. replace (X + 0) with X by lra. replace (k + 1.02 * 0) with k by lra. exact HX.
  - destruct (Forall2_permute _ _ _ P _ F) as (M & PM & FM). apply Forall2_app_inv_l in FM. destruct FM as (L1 & L2 & F1 & F2 & ->).
    rewrite (Rsum_perm _ _ PM), Rsum_app' in *. rewrite (Permutation_length P), app_length in *. apply combines_nonempty in A. apply combines_nonempty in B.
    assert (N1 : (1 <= length l1)%nat) by (destruct l1; [congruence|simpl; lia]). assert (N2 : (1 <= length l2)%nat) by (destruct l2; [congruence|simpl; lia]).
    assert (POS : forall m M, Forall2 (npos k) m M -> 0 <= Rsum M). { intros m M Q. induction Q; simpl; [lra|]. destruct H0 as (? & _ & _ & _ & ? & _). lra. }
    pose proof (POS _ _ F1) as P1. pose proof (POS _ _ F2) as P2.
    assert (E : INR (length l1 + length l2 - 1) = INR (length l1 + length l2 - 2) + 1) by (rewrite <- S_INR; f_equal; lia).
    assert (I1 : INR (length l1 - 1) <= INR (length l1 + length l2 - 2)) by (apply le_INR; lia). assert (I2 : INR (length l2 - 1) <= INR (length l1 + length l2 - 2)) by (apply le_INR; lia).
    rewrite E in K |- *. replace (k + 1.02 * (INR (length l1 + length l2 - 2) + 1)) with (k + 1.02 * INR (length l1 + length l2 - 2) + 1.02) by ring.
    apply npos_add; [| |lra|lra].
    + apply npos_weaken with (k + 1.02 * INR (length l1 - 1)); [|lra]. apply IA; auto; lra.
    + apply npos_weaken with (k + 1.02 * INR (length l2 - 1)); [|lra]. apply IB; auto; lra.
Qed.
Lemma vsum_npos k v l X L : npos k v X -> Forall2 (npos k) l L -> X + Rsum L <= 10 ^ 36 -> k + 1.02 * INR (length l) <= 10000 -> npos (k + 1.02 * INR (length l)) (vsum (v :: l)) (X + Rsum L).
Proof.
  intros A F B K. change (X + Rsum L) with (Rsum (X :: L)). replace (length l) with (length (v :: l) - 1)%nat by (simpl; lia). apply comb_npos; auto.
  - apply vsum_comb; [exact (sum_order _ G)|discriminate].
  - simpl length. replace (S (length l) - 1)%nat with (length l) by lia. exact K.
Qed.
End F.
