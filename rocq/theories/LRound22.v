(** * Trapezoid quadrature on a regular grid in rounded arithmetic *)
From Coq Require Import Reals List Arith Lra Lia ZArith Bool.
From Coquelicot Require Import Coquelicot.
From Flocq Require Import Core.Raux.
From Verif Require Import Num Arr MUtils MSed MCosmo Float Spec SpecFloat RList LUtils LFloat LFloat2 LFloat10 LRound1 LRound2 LRound3 LRound14 LRound15 LRound21 LCosmo.
Import ListNotations.
Open Scope R_scope.

Section F.
Context {AR : Arith} (u : R) (H : rel_err AR u).
Notation G := (re_good _ _ H).
Notation lre := (lre u).
Notation npos := (npos (AR := AR) u).

Lemma p24 : 0 < / 10 ^ 24 <= / 10 ^ 20. Proof. split; [apply Rinv_0_lt_compat, pow_lt; lra|]. apply Rinv_le_contravar; [apply pow_lt; lra|apply Rle_pow; [lra|lia]]. Qed.
Lemma small_range x : / 10 ^ 20 <= x <= 10 ^ 20 -> / 10 ^ 24 <= x <= 10 ^ 36.
Proof. intros X. pose proof p24. assert (10 ^ 20 <= 10 ^ 36) by (apply Rle_pow; [lra|lia]). lra. Qed.
Lemma int_machine n : (n <= 4096)%nat -> rnd (INR n) = Fin (INR n).
Proof. intros Hn. apply (rnd_dy G (Z.of_nat n) 0); [lia|lia|]. rewrite <- INR_IZR_INZ. simpl. lra. Qed.
Lemma big_1 : / 10 ^ 22 <= Rabs 1.
Proof. rewrite Rabs_R1, <- Rinv_1 at 1. apply Rinv_le; [lra|apply pow_R1_Rle; lra]. Qed.
Lemma sub_npos k x y D : rnd x = Fin x -> rnd y = Fin y -> / 10 ^ 22 <= Rabs x -> lre k (x - y) D -> 0 <= k <= 10000 -> D <= 10 ^ 36 -> npos (k + 1.02) (Fin x - Fin y)%num D.
Proof.
  intros Rx Ry BX L K B. pose proof (upos u H) as U. cbn [nsub nopp nadd]. assert (Ry' : rnd (- y) = Fin (- y)) by (rewrite (rnd_opp _ G), Ry; reflexivity).
  assert (S : k * u <= / 400) by (apply Rle_trans with (10000 * / (4 * 10 ^ 6)); [apply Rmult_le_compat; lra|simpl; lra]). pose proof (lre_close2 u _ _ _ L S) as C. pose proof L as (L1 & L2 & _). change (x + - y) with (x - y).
  destruct (rnd_range _ G (x - y)) as (z & E). { rewrite Rabs_right by lra. apply Rle_trans with (10 * 10 ^ 36); [lra|replace (10 * 10 ^ 36) with (10 ^ 37) by (simpl; ring); apply Rle_pow; [lra|lia]]. }
  exists z. split; auto. split; [eapply (rnd_idem _ G); eauto|]. rewrite Rplus_comm. apply lre_trans with (x - y); auto. apply (lre_weaken u H) with (1.002 * 1); [|lra]. apply lre_abs; [lra| |simpl in U; lra].
  pose proof (re_add _ _ H _ _ _ Rx Ry' E (safe_big_l _ _ BX)) as D'. change (x + - y) with (x - y) in D'. rewrite (Rabs_right (x - y)) in D' by lra. lra.
Qed.

(** one point of the grid *)
Lemma point_err n i z : (2 <= n <= 1024)%nat -> (i < n - 1)%nat -> rnd z = Fin z -> / 10 ^ 6 <= z <= 1000 ->
  exists x, (let step := Fin (INR i) / Fin (INR (n - 1)) in Fin 0 * (Fin 1 - step) + Fin z * step)%num = Fin x /\ rnd x = Fin x /\ Rabs (x - z * (INR i / INR (n - 1))) <= 2.05 * u * (z * (INR i / INR (n - 1))).
Proof.
  intros Hn Hi Rz Hz. pose proof (upos u H) as U. assert (P6 : 0 < / 10 ^ 6) by (apply Rinv_0_lt_compat, pow_lt; lra). pose proof (INR_n1 n ltac:(lia)) as N1. assert (N2 : INR (n - 1) <= 1023) by (rewrite <- (INR_IZR_INZ 1023) || idtac; replace 1023 with (INR 1023) by (rewrite INR_IZR_INZ; reflexivity); apply le_INR; lia).
  cbv zeta. assert (ST : exists s, (Fin (INR i) / Fin (INR (n - 1)))%num = Fin s /\ rnd s = Fin s /\ 0 <= s <= 2 /\ ((i = 0%nat /\ s = 0) \/ ((1 <= i)%nat /\ lre 1.02 s (INR i / INR (n - 1))))).
  { destruct i as [|i].
    - exists 0. cbn [ndiv]. destruct (Req_bool_spec (INR (n - 1)) 0) as [Z|_]; [lra|]. simpl (INR 0). unfold Rdiv. rewrite Rmult_0_l, (rnd0 G). repeat split; auto; try lra.
    - assert (I1 : 1 <= INR (S i)) by (replace 1 with (INR 1) by reflexivity; apply le_INR; lia). assert (I2 : INR (S i) <= INR (n - 1)) by (apply le_INR; lia).
      assert (Q : / 1023 <= INR (S i) / INR (n - 1) <= 1). { split; [apply Rle_trans with (/ INR (n - 1)); [apply Rinv_le_contravar; lra|unfold Rdiv; rewrite <- (Rmult_1_l (/ INR (n - 1))) at 1; apply Rmult_le_compat_r; [apply Rlt_le, Rinv_0_lt_compat; lra|lra]]|apply Rmult_le_reg_r with (INR (n - 1)); [lra|]; unfold Rdiv; rewrite Rmult_assoc, Rinv_l by lra; lra]. }
      destruct (npos_div u H 0 0 (Fin (INR (S i))) (Fin (INR (n - 1))) (INR (S i)) (INR (n - 1))) as (s & E & Rs & L).
      + apply npos_machine; [apply int_machine; lia|lra]. + apply npos_machine; [apply int_machine; lia|lra]. + lra.
      + apply small_range. split; [apply Rle_trans with (/ 1023); [apply Rinv_le_contravar; [lra|]; apply Rle_trans with (10 ^ 4); [simpl; lra|apply Rle_pow; [lra|lia]]|lra]|apply Rle_trans with 1; [lra|apply pow_R1_Rle; lra]].
      + apply (lre_weaken u H _ 1.02) in L; [|lra]. exists s. split; auto. split; auto. pose proof (lre_close u _ _ _ L ltac:(simpl in U; lra)) as C. split; [lra|]. right. split; [lia|auto]. }
  destruct ST as (s & Es & Rs & Bs & Cs). rewrite Es. assert (T : exists t, (Fin 1 - Fin s)%num = Fin t). { cbn [nsub nopp nadd]. destruct (rnd_err_B u H (1 + - s) 4) as (t & Et & _); [apply Rabs_le; lra|simpl; lra|]. now exists t. }
  destruct T as (t & Et). rewrite Et. cbn [nmul]. rewrite Rmult_0_l, (rnd0 G). destruct Cs as [[-> ->]|[Hi1 L]].
  - rewrite Rmult_0_r, (rnd0 G). cbn [nadd]. rewrite Rplus_0_l, (rnd0 G). exists 0. split; auto. split; [apply (rnd0 G)|]. simpl (INR 0). unfold Rdiv. rewrite Rmult_0_l, !Rmult_0_r, Rminus_0_r, Rabs_R0. lra.
  - assert (I1 : 1 <= INR i) by (replace 1 with (INR 1) by reflexivity; apply le_INR; lia). assert (I2 : INR i <= INR (n - 1)) by (apply le_INR; lia).
    assert (Q : / 1023 <= INR i / INR (n - 1) <= 1). { split; [apply Rle_trans with (/ INR (n - 1)); [apply Rinv_le_contravar; lra|unfold Rdiv; rewrite <- (Rmult_1_l (/ INR (n - 1))) at 1; apply Rmult_le_compat_r; [apply Rlt_le, Rinv_0_lt_compat; lra|lra]]|apply Rmult_le_reg_r with (INR (n - 1)); [lra|]; unfold Rdiv; rewrite Rmult_assoc, Rinv_l by lra; lra]. }
    set (q := INR i / INR (n - 1)) in *. clearbody q. destruct (npos_mul u H 0 1.02 (Fin z) (Fin s) z q) as (p & E & Rp & Lp).
    + apply npos_machine; auto. lra. + exists s. auto. + lra.
    + apply small_range. split; [apply Rle_trans with (/ 10 ^ 6 * / 1023)|apply Rle_trans with (1000 * 1)].
      * apply Rle_trans with (/ 10 ^ 10); [apply Rinv_le_contravar; [apply pow_lt; lra|apply Rle_pow; [lra|lia]]|rewrite <- Rinv_mult; apply Rinv_le_contravar; simpl; lra].
      * apply Rmult_le_compat; try lra. * apply Rmult_le_compat; lra. * apply Rle_trans with (10 ^ 4); [simpl; lra|apply Rle_pow; [lra|lia]].
    + cbn [nmul] in E. rewrite E. cbn [nadd]. rewrite Rplus_0_l, Rp. exists p. split; auto. split; auto. apply (lre_weaken u H _ 2.04) in Lp; [|lra]. pose proof (lre_diff u H _ _ _ Lp ltac:(simpl in U; lra) ltac:(lra)) as D.
      eapply Rle_trans; [exact D|]. apply Rmult_le_compat_r; [apply Rmult_le_pos; lra|]. lra.
Qed.
Lemma grid_err n z : (2 <= n <= 1024)%nat -> rnd z = Fin z -> / 10 ^ 6 <= z <= 1000 -> exists xs, linspace (Fin 0) (Fin z) n = fins xs /\ length xs = n
  /\ forall i, (i < n)%nat -> rnd (ent xs i) = Fin (ent xs i) /\ Rabs (ent xs i - ent (grid n z) i) <= 2.05 * u * ent (grid n z) i.
Proof.
  intros Hn Rz Hz. pose proof (upos u H) as U. set (P := fun i => (let step := Fin (INR i) / Fin (INR (n - 1)) in Fin 0 * (Fin 1 - step) + Fin z * step)%num).
  set (xs := map (fun i => fval (P i)) (seq 0 (n - 1)) ++ [z]). exists xs. assert (EP : forall i, (i < n - 1)%nat -> P i = Fin (fval (P i))).
  { intros i Hi. destruct (point_err n i z Hn Hi Rz Hz) as (x & E & _). change (P i = Fin x) in E. now rewrite E. }
  split; [|split].
  - unfold linspace. unfold xs, fins. rewrite map_app, map_map. f_equal. apply map_ext_in. intros i Hi. apply in_seq in Hi. apply EP. lia.
  - unfold xs. rewrite app_length, map_length, seq_length. simpl. lia.
  - intros i Hi. rewrite grid_ent by auto. assert (C : (i < n - 1)%nat \/ i = (n - 1)%nat) by lia. destruct C as [C| ->].
    + assert (E : ent xs i = fval (P i)). { unfold xs, ent. rewrite app_nth1 by (rewrite map_length, seq_length; auto). rewrite (nth_indep _ 0 (fval (P 0%nat))) by (rewrite map_length, seq_length; auto). rewrite (map_nth (fun i => fval (P i))), seq_nth by auto. reflexivity. }
      destruct (point_err n i z Hn C Rz Hz) as (x & Ex & Rx & B). change (P i = Fin x) in Ex. rewrite E, Ex. cbn [fval]. auto.
    + assert (E : ent xs (n - 1) = z). { unfold xs, ent. rewrite app_nth2 by (rewrite map_length, seq_length; lia). rewrite map_length, seq_length, Nat.sub_diag. reflexivity. }
      rewrite E. split; auto. pose proof (INR_n1 n ltac:(lia)) as N1. replace (z * (INR (n - 1) / INR (n - 1))) with z by (field; lra). rewrite Rminus_diag_eq by auto. rewrite Rabs_R0. assert (0 < / 10 ^ 6) by (apply Rinv_0_lt_compat, pow_lt; lra). apply Rmult_le_pos; lra.
Qed.
(** the quadrature *)
Lemma quad_err n z (F : num -> num) (f : R -> R) k lo hi : (2 <= n <= 1024)%nat -> rnd z = Fin z -> / 10 ^ 6 <= z <= 1000 -> 0 <= k <= 1000 -> / 10 ^ 10 <= lo -> hi <= 10 ^ 10 ->
  (forall x x', 0 <= x <= z -> rnd x' = Fin x' -> Rabs (x' - x) <= 2.05 * u * x -> npos k (F (Fin x')) (f x) /\ lo <= f x <= hi) ->
  npos (5.2 * INR (n - 1) + k + 5) (let zt := linspace (Fin 0) (Fin z) n in trapz_k zt (map F zt)) (quad n f z).
Proof.
  intros Hn Rz Hz Hk Hlo Hhi HF. pose proof (upos u H) as U. pose proof (INR_n1 n ltac:(lia)) as N1. assert (N2 : INR (n - 1) <= 1023) by (replace 1023 with (INR 1023) by (rewrite INR_IZR_INZ; reflexivity); apply le_INR; lia).
  assert (P6 : 0 < / 10 ^ 6) by (apply Rinv_0_lt_compat, pow_lt; lra). assert (P10 : 0 < / 10 ^ 10) by (apply Rinv_0_lt_compat, pow_lt; lra).
  destruct (grid_err n z Hn Rz Hz) as (xs & Ex & Lx & HX). cbv zeta. rewrite Ex.
  assert (HY : exists ys, map F (fins xs) = fins ys /\ length ys = n /\ forall i, (i < n)%nat -> npos k (Fin (ent ys i)) (f (ent (grid n z) i)) /\ lo <= f (ent (grid n z) i) <= hi).
  { exists (map (fun x => fval (F (Fin x))) xs). assert (Q : forall i, (i < n)%nat -> npos k (F (Fin (ent xs i))) (f (ent (grid n z) i)) /\ lo <= f (ent (grid n z) i) <= hi). { intros i Hi. destruct (HX i Hi) as (Rx & Bx). apply HF; auto. apply grid_range; try lia; lra. }
    split; [|split].
    - unfold fins. rewrite !map_map. apply map_ext_in. intros x Hx. apply In_ent in Hx. destruct Hx as (i & Hi & <-). rewrite Lx in Hi. destruct (Q i Hi) as ((y & E & _) & _). now rewrite E.
    - now rewrite map_length.
    - intros i Hi. destruct (Q i Hi) as ((y & E & Ry & L) & B). split; auto. assert (Ei : ent (map (fun x => fval (F (Fin x))) xs) i = y). { unfold ent. rewrite (nth_indep _ 0 (fval (F (Fin 0)))) by (rewrite map_length, Lx; auto). rewrite (map_nth (fun x => fval (F (Fin x)))). change (nth i xs 0) with (ent xs i). now rewrite E. }
      rewrite Ei. exists y. auto. }
  destruct HY as (ys & Ey & Ly & HY). rewrite Ey. unfold trapz_k. rewrite cells_fins by congruence. rewrite Lx.
  unfold quad. rewrite trapezoid_cells by now rewrite map_length. rewrite grid_length. set (fy := map f (grid n z)).
  assert (EY : forall i, (i < n)%nat -> ent fy i = f (ent (grid n z) i)). { intros i Hi. unfold fy, ent. rewrite (nth_indep _ 0 (f 0)) by (rewrite map_length, grid_length; auto). apply map_nth. }
  set (d := z / INR (n - 1)). assert (D0 : / 10 ^ 10 <= d <= 1000). { unfold d. split; [apply Rmult_le_reg_r with (INR (n - 1)); auto; unfold Rdiv; rewrite Rmult_assoc, Rinv_l, Rmult_1_r by lra; apply Rle_trans with (/ 10 ^ 10 * 1023); [apply Rmult_le_compat_l; lra|apply Rle_trans with (/ 10 ^ 6); [simpl; lra|lra]]|]. apply Rmult_le_reg_r with (INR (n - 1)); auto. unfold Rdiv. rewrite Rmult_assoc, Rinv_l, Rmult_1_r by lra. assert (1 <= INR (n - 1)) by (replace 1 with (INR 1) by reflexivity; apply le_INR; lia). assert (1000 * 1 <= 1000 * INR (n - 1)) by (apply Rmult_le_compat_l; lra). lra. }
  set (K := 4.12 * INR (n - 1) + k + 3.06).
  assert (CE : forall i, (i < n - 1)%nat -> npos K (nmul (nsub (Fin (ent xs (S i))) (Fin (ent xs i))) (nadd (Fin (ent ys (S i))) (Fin (ent ys i)))) (2 * cell (grid n z) fy i)).
  { intros i Hi. destruct (HX i ltac:(lia)) as (R0 & B0). destruct (HX (S i) ltac:(lia)) as (R1 & B1). destruct (HY i ltac:(lia)) as (Y0 & C0). destruct (HY (S i) ltac:(lia)) as (Y1 & C1).
    assert (GS : ent (grid n z) (S i) - ent (grid n z) i = d) by (apply grid_step; lia). pose proof (grid_range n z i ltac:(lia) ltac:(lia) ltac:(lra)) as G0. pose proof (grid_range n z (S i) ltac:(lia) ltac:(lia) ltac:(lra)) as G1.
    replace (2 * cell (grid n z) fy i) with (d * (f (ent (grid n z) (S i)) + f (ent (grid n z) i))) by (unfold cell; rewrite !EY by lia; rewrite GS; lra).
    assert (DX : npos (4.12 * INR (n - 1) + 1.02) (Fin (ent xs (S i)) - Fin (ent xs i))%num d).
    { apply sub_npos; auto; [| |split; lra|apply Rle_trans with 1000; [lra|apply Rle_trans with (10 ^ 3); [simpl; lra|apply Rle_pow; [lra|lia]]]].
      { apply Rabs_le_inv in B1. assert (2.05 * u * ent (grid n z) (S i) <= 0.1 * ent (grid n z) (S i)) by (apply Rmult_le_compat_r; simpl in U; lra). rewrite Rabs_right by lra. apply Rle_trans with (0.9 * / 10 ^ 10); [simpl; lra|lra]. }
      apply (lre_weaken u H) with (1.002 * (4.1 * INR (n - 1))); [|lra]. apply lre_abs; [lra| |].
      - assert (Z : z = INR (n - 1) * d) by (unfold d; field; lra). replace (4.1 * INR (n - 1) * u * d) with (4.1 * u * z) by (rewrite Z; ring).
        replace (ent xs (S i) - ent xs i - d) with ((ent xs (S i) - ent (grid n z) (S i)) - (ent xs i - ent (grid n z) i)) by lra. unfold Rminus at 1. eapply Rle_trans; [apply Rabs_triang|]. rewrite Rabs_Ropp.
        assert (2.05 * u * ent (grid n z) (S i) <= 2.05 * u * z) by (apply Rmult_le_compat_l; lra). assert (2.05 * u * ent (grid n z) i <= 2.05 * u * z) by (apply Rmult_le_compat_l; lra). lra.
      - pose proof (re_u _ _ H) as U22. apply Rle_trans with (4.1 * 1023 * / 2 ^ 22); [apply Rmult_le_compat; lra|simpl; lra]. }
    assert (YY : npos (k + 1.02) (Fin (ent ys (S i)) + Fin (ent ys i))%num (f (ent (grid n z) (S i)) + f (ent (grid n z) i))).
    { apply npos_add; auto; [lra|]. apply Rle_trans with (2 * 10 ^ 10); [lra|]. apply Rle_trans with (10 ^ 11); [simpl; lra|apply Rle_pow; [lra|lia]]. }
    set (S2 := f (ent (grid n z) (S i)) + f (ent (grid n z) i)) in *. assert (SB : 2 * / 10 ^ 10 <= S2 <= 2 * 10 ^ 10) by (unfold S2; lra). clearbody S2.
    apply (npos_weaken u H) with (4.12 * INR (n - 1) + 1.02 + (k + 1.02) + 1.02); [|unfold K; lra]. apply npos_mul; auto; [lra|]. apply small_range. split.
    - apply Rle_trans with (/ 10 ^ 10 * (2 * / 10 ^ 10)); [|apply Rmult_le_compat; lra]. replace (/ 10 ^ 20) with (/ 10 ^ 10 * / 10 ^ 10) by (rewrite <- Rinv_mult, <- pow_add; reflexivity). apply Rmult_le_compat_l; lra.
    - apply Rle_trans with (1000 * (2 * 10 ^ 10)); [apply Rmult_le_compat; lra|]. apply Rle_trans with (10 ^ 14); [simpl; lra|apply Rle_pow; [lra|lia]]. }
  assert (CB : forall i, (i < n - 1)%nat -> 2 * cell (grid n z) fy i <= 10 ^ 14 /\ / 10 ^ 20 <= 2 * cell (grid n z) fy i).
  { intros i Hi. destruct (HY i ltac:(lia)) as (_ & C0). destruct (HY (S i) ltac:(lia)) as (_ & C1). assert (GS : ent (grid n z) (S i) - ent (grid n z) i = d) by (apply grid_step; lia).
    replace (2 * cell (grid n z) fy i) with (d * (f (ent (grid n z) (S i)) + f (ent (grid n z) i))) by (unfold cell; rewrite !EY by lia; rewrite GS; lra).
    set (S2 := f (ent (grid n z) (S i)) + f (ent (grid n z) i)) in *. assert (SB : 2 * / 10 ^ 10 <= S2 <= 2 * 10 ^ 10) by (unfold S2; lra). clearbody S2. split.
    - apply Rle_trans with (1000 * (2 * 10 ^ 10)); [apply Rmult_le_compat; lra|]. simpl; lra.
    - apply Rle_trans with (/ 10 ^ 10 * (2 * / 10 ^ 10)); [|apply Rmult_le_compat; lra]. replace (/ 10 ^ 20) with (/ 10 ^ 10 * / 10 ^ 10) by (rewrite <- Rinv_mult, <- pow_add; reflexivity). apply Rmult_le_compat_l; lra. }
  set (g := fun i => nmul (nsub (Fin (ent xs (S i))) (Fin (ent xs i))) (nadd (Fin (ent ys (S i))) (Fin (ent ys i)))) in *. set (c2 := fun i => 2 * cell (grid n z) fy i) in *.
  assert (E2 : Rsum (map (cell (grid n z) fy) (seq 0 (n - 1))) = (1/2) * Rsum (map c2 (seq 0 (n - 1)))).
  { clear. unfold c2. induction (seq 0 (n - 1)); cbn [map Rsum fold_right]; [lra|]. unfold Rsum in *. cbn [fold_right]. rewrite IHl. lra. }
  assert (KB : K <= 6000) by (unfold K; lra).
  rewrite E2. assert (VS : npos (K + 1.02 * INR (n - 2)) (vsum (map g (seq 0 (n - 1)))) (Rsum (map c2 (seq 0 (n - 1)))) /\ / 10 ^ 20 <= Rsum (map c2 (seq 0 (n - 1))) <= 10 ^ 18).
  { replace (n - 1)%nat with (S (n - 2)) in * by lia. cbn [seq map]. set (m := (n - 2)%nat) in *. assert (Hm : INR m <= 1023). { rewrite S_INR in N2. lra. }
    assert (F2 : forall l, (forall i, In i l -> (i < S m)%nat) -> Forall2 (npos K) (map g l) (map c2 l) /\ 0 <= Rsum (map c2 l) <= INR (length l) * 10 ^ 14).
    { intros l. induction l as [|i l IH]; intros Hl; [repeat split; simpl; try constructor; lra|]. destruct IH as (I1 & I2); [intros j Hj; apply Hl; now right|]. specialize (CB i (Hl i (or_introl eq_refl))). specialize (CE i (Hl i (or_introl eq_refl))).
      assert (0 < / 10 ^ 20) by (apply Rinv_0_lt_compat, pow_lt; lra). split; [constructor; auto|]. cbn [map length]. rewrite S_INR. change (Rsum (c2 i :: map c2 l)) with (c2 i + Rsum (map c2 l)). fold (c2 i) in CB. lra. }
    destruct (F2 (seq 1 m)) as (FF & FS); [intros i Hi; apply in_seq in Hi; lia|]. rewrite seq_length in FS. pose proof (CB 0%nat ltac:(lia)) as CB0. fold (c2 0%nat) in CB0.
    assert (Q : INR m * 10 ^ 14 <= 1023 * 10 ^ 14) by (apply Rmult_le_compat_r; [apply pow_le; lra|lra]).
    change (Rsum (c2 0%nat :: map c2 (seq 1 m))) with (c2 0%nat + Rsum (map c2 (seq 1 m))). assert (TB : c2 0%nat + Rsum (map c2 (seq 1 m)) <= 10 ^ 18) by (apply Rle_trans with (1024 * 10 ^ 14); [lra|simpl; lra]).
    split; [|lra]. assert (LM : INR m = INR (length (map g (seq 1 m)))) by (rewrite map_length, seq_length; reflexivity). rewrite LM. apply vsum_npos; auto.
    - apply CE. lia. - eapply Rle_trans; [exact TB|apply Rle_pow; [lra|lia]]. - rewrite <- LM. lra. }
  destruct VS as (VS & VB). assert (NN : INR (n - 2) <= INR (n - 1)) by (apply le_INR; lia). pose proof (pos_INR (n - 2)) as N0.
  apply (npos_weaken u H) with (0 + (K + 1.02 * INR (n - 2)) + 1.02); [|unfold K; lra]. apply npos_mul; auto.
  - apply npos_machine; [|lra]. apply (rnd_dy G 1 1); [lia|lia|simpl; lra].
  - unfold K. lra.
  - pose proof p24 as [P24 P24']. assert (T : / 10 ^ 24 <= 1 / 2 * / 10 ^ 20). { replace (10 ^ 24) with (10000 * 10 ^ 20) by (simpl; ring). rewrite Rinv_mult. assert (0 < / 10 ^ 20) by (apply Rinv_0_lt_compat, pow_lt; lra). lra. }
    assert (10 ^ 18 <= 10 ^ 36) by (apply Rle_pow; [lra|lia]). lra.
Qed.
End F.
