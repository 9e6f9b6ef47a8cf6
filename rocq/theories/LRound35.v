(** * Attenuation curves in rounded arithmetic: the base curves *)
From Coq Require Import Reals List Arith Lra Lia ZArith Bool.
From Coquelicot Require Import Coquelicot.
From Flocq Require Import Core.Raux.
From Verif Require Import Num Arr MUtils MSed MDust Float Spec SpecFloat RList LUtils LFloat LFloat2 LFloat10 LRound1 LRound2 LRound3 LRound6 LRound14 LRound15 LRound21 LRound22 LRound23 LRound24 LDust.
Import ListNotations.
Open Scope R_scope.

Ltac num := simpl (10 ^ _); lra.
Section F.
Context {AR : Arith} (u : R) (H : rel_err AR u).
Notation G := (re_good _ _ H).
Notation lre := (lre u).
Notation npos := (npos (AR := AR) u).
Notation near := (near (AR := AR) u).

Lemma near_lit x B : Rabs x <= B -> 1 <= B <= 10 ^ 35 -> near (lit x) x (1.001 * B) B.
Proof.
  intros X B1. destruct (rnd_err_B u H x B X B1) as (y & E & D & R). exists y. unfold lit. repeat split; auto.
Qed.
Lemma near_weaken v x e e' M M' : near v x e M -> e <= e' -> M <= M' -> near v x e' M'.
Proof.
  intros (y & E & R & D & B) Ee EM. pose proof (u_le u H) as U. exists y. repeat split; auto; [|lra]. eapply Rle_trans; [exact D|]. apply Rmult_le_compat_r; lra.
Qed.

Section W.
Variable w : R.
Hypothesis Rw : rnd w = Fin w.
Hypothesis Bw : 0.09 <= w <= 10.
Let y := 1 / w.
Lemma y_range : 0.1 <= y <= 12.
Proof.
  unfold y. split.
  - apply Rmult_le_reg_r with w; [lra|]. replace (1 / w * w) with 1 by (field; lra). lra.
  - apply Rmult_le_reg_r with w; [lra|]. replace (1 / w * w) with 1 by (field; lra). lra.
Qed.
Lemma y2_range : 0.01 <= y ^ 2 <= 144.
Proof. pose proof y_range as B. simpl. split; nra. Qed.
Lemma y3_range : 0.001 <= y ^ 3 <= 1728.
Proof. pose proof y_range as B. pose proof y2_range as B2. replace (y ^ 3) with (y * y ^ 2) by ring. split; [replace 0.001 with (0.1 * 0.01) by lra|replace 1728 with (12 * 144) by lra]; apply Rmult_le_compat; lra. Qed.
Lemma Y1 : npos 1.02 (Fin 1 / Fin w)%num y.
Proof.
  pose proof y_range as B. apply (npos_weaken u H (0 + 0 + 1.02)); [|lra]. apply (npos_div u H).
  - apply npos_machine; [apply (machine_int u H 1); lia|lra].
  - apply npos_machine; auto; lra.
  - lra.
  - fold y. simpl (10 ^ 24). simpl (10 ^ 36). lra.
Qed.
Lemma Y2 : npos 3.06 ((Fin 1 / Fin w) ^i 2)%num (y ^ 2).
Proof.
  pose proof y2_range as B. unfold ipow. cbn [ipow_acc]. replace (y ^ 2) with (y * y) in * by ring. apply (npos_weaken u H (1.02 + 1.02 + 1.02)); [|lra].
  apply (npos_mul u H); [apply Y1|apply Y1|lra|]. simpl (10 ^ 24). simpl (10 ^ 36). lra.
Qed.
Lemma Y3 : npos 5.1 ((Fin 1 / Fin w) ^i 3)%num (y ^ 3).
Proof.
  pose proof y3_range as B. pose proof Y2 as Q. unfold ipow in *. cbn [ipow_acc] in *. replace (y ^ 3) with (y * y ^ 2) in * by ring. apply (npos_weaken u H (1.02 + 3.06 + 1.02)); [|lra].
  apply (npos_mul u H); [apply Y1|apply Q|lra|]. simpl (10 ^ 24). simpl (10 ^ 36). lra.
Qed.
Lemma term c k v X M B : npos k v X -> 0 <= k <= 100 -> 0.0001 <= X <= M -> M <= 10 ^ 4 -> 0.001 <= c <= 10 -> c * M <= B ->
  npos (k + 2.04) (lit c * v)%num (c * X) /\ near (lit c * v)%num (c * X) (1.002 * (k + 2.04) * B) B.
Proof.
  intros N K X0 MM C CB. assert (R : 0.0000001 <= c * X <= B). { split; [replace 0.0000001 with (0.001 * 0.0001) by lra; apply Rmult_le_compat; lra|]. eapply Rle_trans; [|exact CB]. apply Rmult_le_compat_l; lra. }
  assert (R2 : c * X <= 10 * 10 ^ 4) by (apply Rmult_le_compat; lra).
  assert (P : npos (k + 2.04) (lit c * v)%num (c * X)).
  { apply (npos_weaken u H (1.02 + k + 1.02)); [|lra]. apply (npos_mul u H); auto; [|lra|simpl (10 ^ _) in *; lra]. apply (npos_lit u H). simpl (10 ^ _). lra. }
  split; auto. apply (npos_near u H); auto; lra.
Qed.

Lemma c00a_err : near (lit 2.659 * (lit (-2.156) + lit 1.509 * (Fin 1 / Fin w) - lit 0.198 * (Fin 1 / Fin w) ^i 2 + lit 0.011 * (Fin 1 / Fin w) ^i 3) + RV_C00)%num (c00a y) 1900 200.
Proof.
  pose proof y_range as B1. pose proof y2_range as B2. pose proof y3_range as B3.
  destruct (term 1.509 1.02 _ y 12 18.11 Y1) as [_ T1]; try lra; try num.
  destruct (term 0.198 3.06 _ (y ^ 2) 144 28.52 Y2) as [_ T2]; try lra; try num.
  destruct (term 0.011 5.1 _ (y ^ 3) 1728 19.01 Y3) as [_ T3]; try lra; try num.
  pose proof (near_lit (-2.156) 2.156) as T0. rewrite Rabs_left in T0 by lra. specialize (T0 ltac:(lra) ltac:(num)).
  pose proof (near_lit 2.659 2.659) as C1. rewrite Rabs_right in C1 by lra. specialize (C1 ltac:(lra) ltac:(num)).
  pose proof (near_lit 4.05 4.05) as C2. rewrite Rabs_right in C2 by lra. specialize (C2 ltac:(lra) ltac:(num)).
  unfold c00a.
  eapply (near_add u H) with (M := 181) (e := 1690) (B := 201); [|exact C2| | | | | |]; try num.
  eapply (near_mul u H) with (M := 2.659) (N := 68) (f := 490) (B := 182); [exact C1| | | | | | | | |]; try num.
  eapply (near_add u H) with (M := 48.8) (e := 283) (B := 68.1); [|exact T3| | | | | |]; try num.
  eapply (near_sub u H) with (M := 20.27) (e := 79) (B := 48.85); [|exact T2| | | | | |]; try num.
  eapply (near_add u H) with (B := 20.28); [exact T0|exact T1| | | | | |]; try num.
Qed.
Lemma c00b_err : near (lit 2.659 * (lit (-1.857) + lit 1.040 * (Fin 1 / Fin w)) + RV_C00)%num (c00b y) 1900 200.
Proof.
  pose proof y_range as B1.
  destruct (term 1.040 1.02 _ y 12 12.5 Y1) as [_ T1]; try lra; try num.
  pose proof (near_lit (-1.857) 1.857) as T0. rewrite Rabs_left in T0 by lra. specialize (T0 ltac:(lra) ltac:(num)).
  pose proof (near_lit 2.659 2.659) as C1. rewrite Rabs_right in C1 by lra. specialize (C1 ltac:(lra) ltac:(num)).
  pose proof (near_lit 4.05 4.05) as C2. rewrite Rabs_right in C2 by lra. specialize (C2 ltac:(lra) ltac:(num)).
  unfold c00b.
  eapply (near_add u H) with (M := 40) (e := 300) (B := 201); [|exact C2| | | | | |]; try num.
  eapply (near_mul u H) with (M := 2.659) (N := 15) (f := 62) (B := 45); [exact C1| | | | | | | | |]; try num.
  eapply (near_add u H) with (B := 15.1); [exact T0|exact T1| | | | | |]; try num.
Qed.
Lemma l02_err : near (leitherer02_k_lambda (Fin w)) (l02 y) 140 25.
Proof.
  pose proof y_range as B1. pose proof y2_range as B2. pose proof y3_range as B3.
  destruct (term 0.671 1.02 _ y 12 8.06 Y1) as [_ T1]; try lra; try num.
  assert (L2 : npos 3.06 (lit 9.218 * lit 0.001)%num (9.218 * 0.001)) by (apply (npos_weaken u H (1.02 + 1.02 + 1.02)); [|lra]; apply (npos_mul u H); [apply (npos_lit u H)|apply (npos_lit u H)| |]; num).
  assert (L3 : npos 3.06 (lit 2.620 * lit 0.001)%num (2.620 * 0.001)) by (apply (npos_weaken u H (1.02 + 1.02 + 1.02)); [|lra]; apply (npos_mul u H); [apply (npos_lit u H)|apply (npos_lit u H)| |]; num).
  assert (T2 : npos 7.14 (lit 9.218 * lit 0.001 * (Fin 1 / Fin w) ^i 2)%num (9.218 * 0.001 * y ^ 2)) by (apply (npos_weaken u H (3.06 + 3.06 + 1.02)); [|lra]; apply (npos_mul u H); [exact L2|exact Y2| |]; num).
  assert (T3 : npos 9.18 (lit 2.620 * lit 0.001 * (Fin 1 / Fin w) ^i 3)%num (2.620 * 0.001 * y ^ 3)) by (apply (npos_weaken u H (3.06 + 5.1 + 1.02)); [|lra]; apply (npos_mul u H); [exact L3|exact Y3| |]; num).
  apply (npos_near u H) with (M := 1.33) in T2; [|lra|lra]. apply (npos_near u H) with (M := 4.53) in T3; [|lra|lra].
  pose proof (near_lit 5.472 5.472) as C2. rewrite Rabs_right in C2 by lra. specialize (C2 ltac:(lra) ltac:(num)).
  unfold leitherer02_k_lambda, l02. cbv zeta.
  eapply (near_add u H) with (N := 13.92) (f := 102) (B := 25.1); [exact C2| | | | | | |]; try num.
  eapply (near_add u H) with (M := 9.39) (e := 44.3) (B := 13.95); [|exact T3| | | | | |]; try num.
  eapply (near_sub u H) with (B := 9.4); [exact T1|exact T2| | | | | |]; try num.
Qed.

(** a literal compared with a machine number other than its rounding *)
Lemma lit_lt x l : Rabs l <= 10 -> rnd x = Fin x -> rnd l <> Fin x -> exists l', lit l = Fin l' /\ Rlt_bool x l' = Rlt_bool x l /\ Rlt_bool l' x = Rlt_bool l x.
Proof.
  intros L Rx N. destruct (rnd_err_B u H l 10 L ltac:(num)) as (l' & E & _ & R). exists l'. split; [exact E|]. rewrite E in N.
  assert (NE : l' <> x) by congruence.
  destruct (Rtotal_order x l) as [A|[A|A]].
  - assert (x <= l') by (pose proof (rnd_mono _ G x l ltac:(lra)) as Q; rewrite Rx, E in Q; now apply nle_fin in Q). rewrite !Rlt_bool_true by lra. rewrite !Rlt_bool_false by lra. auto.
  - subst x. rewrite E in Rx. congruence.
  - assert (l' <= x) by (pose proof (rnd_mono _ G l x ltac:(lra)) as Q; rewrite Rx, E in Q; now apply nle_fin in Q). rewrite !(Rlt_bool_false x) by lra. rewrite !Rlt_bool_true by lra. auto.
Qed.
End W.
End F.
