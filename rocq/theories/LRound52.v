(** * Logistic, sigmoid and quotient in rounded arithmetic *)
From Coq Require Import Reals List Arith Lra Lia ZArith Bool.
From Coquelicot Require Import Coquelicot.
From Flocq Require Import Core.Raux.
From Verif Require Import Num Arr MUtils MSed MMzr Float Spec SpecFloat RList LUtils LKern2 LImf LFloat LFloat2 LFloat10 LRound1 LRound2 LRound6 LRound21 LRound23 LRound24 LRound27 LRound35 LRound38.
Import ListNotations.
Open Scope R_scope.

Lemma logistic_lip x y : Rabs (logistic x - logistic y) <= Rabs (x - y) / 4.
Proof.
  assert (W : forall a b, a < b -> Rabs (logistic b - logistic a) <= (b - a) / 4).
  { intros a b L. destruct (MVT_gen logistic a b (fun x => logistic x * (1 - logistic x))) as (c & _ & E).
    - intros. apply logistic_derive.
    - intros z _. apply continuity_pt_filterlim. apply (ex_derive_continuous (V := R_NormedModule)). eexists. apply logistic_derive.
    - cbv beta in E. rewrite E, Rabs_mult, (Rabs_right (b - a)) by lra. pose proof (logistic_bounds c) as B. set (q := logistic c) in *. rewrite Rabs_right by (apply Rle_ge, Rmult_le_pos; lra).
      assert (0 <= (q - / 2) * (q - / 2)) by apply Rle_0_sqr. assert (Q4 : q * (1 - q) <= / 4) by lra. assert (q * (1 - q) * (b - a) <= / 4 * (b - a)) by (apply Rmult_le_compat_r; lra). lra. }
  destruct (Rtotal_order x y) as [L|[->|L]].
  - rewrite (Rabs_minus_sym (logistic x)), (Rabs_minus_sym x), (Rabs_right (y - x)) by lra. auto.
  - rewrite !Rminus_eq_0, Rabs_R0. lra.
  - rewrite (Rabs_right (x - y)) by lra. auto.
Qed.

Section F.
Context {AR : Arith} (u : R) (H : rel_err AR u).
Notation G := (re_good _ _ H).
Notation lre := (lre u).
Notation npos := (npos (AR := AR) u).
Notation near := (near (AR := AR) u).

Lemma near_M v x e M M' : near v x e M -> Rabs x <= M' -> near v x e M'.
Proof. intros (y & A & B & C & _) D. exists y. auto. Qed.
Lemma near_logistic v x e M : near v x e M -> 0 <= e <= 10000 -> M <= 41 -> near (nlogistic v) (logistic x) (e / 4 + 3.1) 1.
Proof.
  intros (y & -> & _ & D & B) E HM. pose proof (upos u H) as U. assert (Eu : e * u <= / 400) by (apply Rle_trans with (10000 * / (4 * 10 ^ 6)); [apply Rmult_le_compat; lra|simpl; lra]).
  assert (Y : -42 <= - y <= 42). { apply Rabs_le_inv in B. apply Rabs_le_inv in D. lra. }
  assert (N : npos 3.06 (nlogistic (Fin y)) (logistic y)).
  { unfold nlogistic, logistic. cbn [nopp nexp]. destruct e42 as [E1 E2].
    assert (EX : / (4 * 10 ^ 19) <= exp (- y) <= 4 * 10 ^ 19). { split; [eapply Rle_trans; [exact E2|]|eapply Rle_trans; [|exact E1]]; apply exp_mono; lra. }
    assert (I1 : 0 < / (4 * 10 ^ 19)) by (apply Rinv_0_lt_compat; simpl; lra).
    assert (Q : / (1 + 4 * 10 ^ 19) <= 1 / (1 + exp (- y)) <= 1). { unfold Rdiv. rewrite Rmult_1_l. split; [apply Rinv_le_contravar; lra|]. rewrite <- Rinv_1. apply Rinv_le_contravar; lra. }
    eapply npos_weaken; [exact H|apply npos_div with (j := 0) (k := 2.04); [exact H|apply npos_machine; [apply (rnd1 G)|lra]| |lra|]|lra].
    - apply (npos_weaken _ H (1.02 + 1.02)); [|lra]. apply npos_add; auto; [apply (npos_weaken _ H 0); [apply npos_machine; [apply (rnd1 G)|lra]|lra]| |lra|].
      + apply (npos_weaken _ H (0 + 1.02)); [|lra]. apply npos_elem; auto; [exact I|apply lre_refl, exp_pos|lra|]. split; [apply Rle_trans with (/ (4 * 10 ^ 19)); [apply Rinv_le_contravar; simpl; lra|lra]|apply Rle_trans with (4 * 10 ^ 19); [lra|simpl; lra]].
      + apply Rle_trans with (1 + 4 * 10 ^ 19); [lra|simpl; lra].
    - split; [apply Rle_trans with (/ (1 + 4 * 10 ^ 19)); [apply Rinv_le_contravar; simpl; lra|lra]|apply Rle_trans with 1; [lra|simpl; lra]]. }
  pose proof (logistic_bounds y) as LB. pose proof (logistic_bounds x) as LBx.
  destruct (npos_near u H _ _ _ 1 N ltac:(lra) ltac:(lra)) as (z & Ez & Rz & Dz & _). exists z. split; auto. split; auto. split; [|apply Rabs_le; lra].
  replace (z - logistic x) with ((z - logistic y) + (logistic y - logistic x)) by ring. eapply Rle_trans; [apply Rabs_triang|]. pose proof (logistic_lip y x). lra.
Qed.
Lemma near_div2 a x e M b y f N c B g P : near a x e M -> near b y f N -> 0 <= e <= 10000 -> 0 <= f <= 1000 -> 1 <= c -> c <= y -> M <= 1000 -> M / c <= P -> P + 0.5 <= B -> 1 <= B <= 10 ^ 35 ->
  1.001 * (e / c + M * f / (c * c)) + 1.001 * B <= g -> near (ndiv a b) (x / y) g P.
Proof.
  intros (a' & -> & _ & Ea & Xa) (b' & -> & _ & Eb & Xb) E0 F0 C1 Cy M1 MP HB B1 Hg. pose proof (upos u H) as U.
  assert (Fu : f * u <= / 4000) by (apply Rle_trans with (1000 * / (4 * 10 ^ 6)); [apply Rmult_le_compat; lra|simpl; lra]).
  assert (Eu : e * u <= / 400) by (apply Rle_trans with (10000 * / (4 * 10 ^ 6)); [apply Rmult_le_compat; lra|simpl; lra]).
  assert (Hb : c / 1.001 <= b') by (apply Rabs_le_inv in Eb; lra). assert (b0 : 0 < b') by lra. assert (y0 : 0 < y) by lra. pose proof (Rabs_pos x) as X0.
  cbn [ndiv]. rewrite Req_bool_false by lra.
  assert (Ib : / b' <= 1.001 / c). { replace (1.001 / c) with (/ (c / 1.001)) by (field; lra). apply Rinv_le_contravar; lra. }
  assert (Iy : / y <= / c) by (apply Rinv_le_contravar; lra). assert (Ib0 : 0 < / b') by (apply Rinv_0_lt_compat; lra). assert (Iy0 : 0 < / y) by (apply Rinv_0_lt_compat; lra). assert (Ic0 : 0 < / c) by (apply Rinv_0_lt_compat; lra).
  assert (Ic1 : / c <= 1) by (rewrite <- Rinv_1; apply Rinv_le_contravar; lra).
  assert (MF : 0 <= M * f). { apply Rmult_le_pos; lra. }
  set (d := 1.001 * (e / c + M * f / (c * c))).
  assert (D : Rabs (a' / b' - x / y) <= d * u).
  { replace (a' / b' - x / y) with ((a' - x) * / b' + x * (y - b') * (/ b' * / y)) by (field; lra). eapply Rle_trans; [apply Rabs_triang|]. rewrite !Rabs_mult, (Rabs_right (/ b')), (Rabs_right (/ y)) by lra.
    assert (T1 : Rabs (a' - x) * / b' <= e * u * (1.001 / c)) by (apply Rmult_le_compat; try lra; apply Rabs_pos).
    assert (T2 : Rabs x * Rabs (y - b') <= M * (f * u)) by (apply Rmult_le_compat; try lra; [apply Rabs_pos|rewrite Rabs_minus_sym; lra]).
    assert (T3 : / b' * / y <= (1.001 / c) * / c) by (apply Rmult_le_compat; lra).
    assert (T4 : Rabs x * Rabs (y - b') * (/ b' * / y) <= M * (f * u) * (1.001 / c * / c)). { apply Rmult_le_compat; auto; [apply Rmult_le_pos; apply Rabs_pos|apply Rmult_le_pos; lra]. }
    unfold d. replace (1.001 * (e / c + M * f / (c * c)) * u) with (e * u * (1.001 / c) + M * (f * u) * (1.001 / c * / c)) by (field; lra). lra. }
  assert (d0 : 0 <= d). { unfold d. assert (0 <= e / c) by (apply Rmult_le_pos; lra). assert (0 <= M * f / (c * c)) by (unfold Rdiv; rewrite Rinv_mult; apply Rmult_le_pos; [lra|apply Rmult_le_pos; lra]). lra. }
  assert (dB : d <= 1100000). { unfold d. assert (e / c <= 10000 * 1) by (apply Rmult_le_compat; lra). assert (M * f / (c * c) <= 1000 * 1000 * 1). { unfold Rdiv. rewrite Rinv_mult. apply Rmult_le_compat; [lra|apply Rmult_le_pos; lra|apply Rmult_le_compat; lra|]. rewrite <- (Rmult_1_l 1). apply Rmult_le_compat; lra. } lra. }
  eapply (near_rnd u H) with (d := d) (B := B); auto; try lra.
  - unfold Rdiv. rewrite Rabs_mult, (Rabs_right (/ y)) by lra. eapply Rle_trans; [|exact MP]. apply Rmult_le_compat; lra.
Qed.
Lemma near_low v x e M : near v x e M -> near (nwhere (v >? Fin 0)%num (Fin 0) v) (Rmin 0 x) e M.
Proof.
  intros (y & -> & R & D & B). assert (E : nwhere (Fin y >? Fin 0)%num (Fin 0) (Fin y) = Fin (Rmin 0 y)).
  { unfold nwhere, ngtb, nltb. case Rlt_bool_spec; intros; f_equal; [rewrite Rmin_left; lra|rewrite Rmin_right; lra]. }
  rewrite E. exists (Rmin 0 y). split; auto. split; [|split].
  - unfold Rmin. destruct (Rle_dec 0 y); auto. apply (rnd0 G).
  - eapply Rle_trans; [|exact D]. unfold Rmin. destruct (Rle_dec 0 y), (Rle_dec 0 x); unfold Rabs; repeat destruct Rcase_abs; lra.
  - eapply Rle_trans; [|exact B]. unfold Rmin. destruct (Rle_dec 0 x); [|lra]. rewrite Rabs_R0. apply Rabs_pos.
Qed.
End F.
