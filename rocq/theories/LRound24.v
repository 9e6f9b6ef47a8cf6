(** * Cosmological distances and magnitudes in rounded arithmetic *)
From Coq Require Import Reals List Arith Lra Lia ZArith Bool.
From Coquelicot Require Import Coquelicot.
From Flocq Require Import Core.Raux.
From Verif Require Import Num Arr MUtils MSed MCosmo MPhot Float Spec SpecFloat SpecFloat2 RList LUtils LFloat LFloat2 LFloat10 LRound1 LRound2 LRound3 LRound6 LRound14 LRound15 LRound19 LRound21 LRound22 LRound23 LCosmo LPhot LImf.
Import ListNotations.
Open Scope R_scope.

Lemma log10_range n X : / 10 ^ n <= X <= 10 ^ n -> Rabs (log10 X) <= INR n.
Proof.
  intros B. assert (P : 0 < 10 ^ n) by (apply pow_lt; lra). assert (I : 0 < / 10 ^ n) by now apply Rinv_0_lt_compat. pose proof ln10_ge as L. unfold log10.
  assert (E : ln (10 ^ n) = INR n * ln 10) by (rewrite <- Rpower_pow by lra; unfold Rpower; apply ln_exp).
  assert (U : ln X <= INR n * ln 10) by (rewrite <- E; destruct (proj2 B) as [l| ->]; [apply Rlt_le, ln_increasing; lra|lra]).
  assert (V : - (INR n * ln 10) <= ln X) by (rewrite <- E, <- ln_Rinv by auto; destruct (proj1 B) as [l| <-]; [apply Rlt_le, ln_increasing; lra|lra]).
  apply Rabs_le. split; (apply Rmult_le_reg_r with (ln 10); [lra|]); unfold Rdiv; rewrite Rmult_assoc, Rinv_l by lra; lra.
Qed.
Section F.
Context {AR : Arith} (u : R) (H : rel_err AR u).
Notation G := (re_good _ _ H).
Notation lre := (lre u).
Notation npos := (npos (AR := AR) u).
Notation near := (near (AR := AR) u).

Lemma log_npos k n v X : npos k v X -> 0 <= k <= 10000 -> / 10 ^ n <= X <= 10 ^ n -> (1 <= n <= 100)%nat -> near (nlog10 v) (log10 X) (k / 2 + 1.1 + 1.1 * INR n) (INR n).
Proof.
  intros (x & -> & R & L) K B N. pose proof (upos u H) as U. apply lre_ln in L. destruct L as (A & C & D). cbn [nlog10]. rewrite Rlt_bool_true by auto. pose proof (log10_range n X B) as LR.
  assert (N1 : 1 <= INR n <= 100) by (split; [apply (le_INR 1); lia|replace 100 with (INR 100) by (rewrite INR_IZR_INZ; reflexivity); apply le_INR; lia]).
  apply (near_elem u H _ _ (k / 2) (INR n + 0.002)); auto; try lra.
  - cbn [elem_value]. replace (ln x / ln 10 - log10 X) with ((ln x - ln X) * / ln 10) by (unfold log10; field; pose proof ln10_ge; lra). rewrite Rabs_mult. pose proof ln10_ge as L10. rewrite (Rabs_right (/ ln 10)) by (apply Rle_ge, Rlt_le, Rinv_0_lt_compat; lra).
    replace (k / 2 * u) with (k * u * / 2) by field. apply Rmult_le_compat; auto; [apply Rabs_pos|apply Rlt_le, Rinv_0_lt_compat; lra|apply Rinv_le_contravar; lra].
Qed.

Lemma p16 n : (16 <= n)%nat -> 10 ^ 16 <= 10 ^ n /\ / 10 ^ n <= / 10 ^ 16.
Proof. intros Hn. assert (10 ^ 16 <= 10 ^ n) by (apply Rle_pow; [lra|lia]). split; auto. apply Rinv_le_contravar; auto. apply pow_lt; lra. Qed.
Lemma range16 X : / 10 ^ 16 <= X <= 10 ^ 16 -> / 10 ^ 24 <= X <= 10 ^ 36.
Proof. intros B. pose proof (p16 24 ltac:(lia)). pose proof (p16 36 ltac:(lia)). lra. Qed.
Lemma mul_range a b A B x y : 0 < a -> 0 < b -> a <= x <= A -> b <= y <= B -> a * b <= x * y <= A * B.
Proof. intros. split; apply Rmult_le_compat; lra. Qed.
Lemma div_range a b A B x y : 0 < a -> 0 < b -> a <= x <= A -> b <= y <= B -> a / B <= x / y <= A / b.
Proof. intros. unfold Rdiv. split; apply Rmult_le_compat; try lra; try (apply Rlt_le, Rinv_0_lt_compat; lra); apply Rinv_le_contravar; lra. Qed.
Section C.
Variables (z Om0 w0 wa h : R).
Hypothesis RC : rounding_cosmology (AR := AR) z Om0 w0 wa h.
Notation Qd := (quad 256 (f1 Om0 w0 wa) z).

Lemma RC' : rnd z = Fin z /\ rnd Om0 = Fin Om0 /\ rnd w0 = Fin w0 /\ rnd wa = Fin wa /\ rnd h = Fin h
  /\ / 10 ^ 6 <= z <= 20 /\ / 1000 <= Om0 <= 999 / 1000 /\ Rabs w0 <= 2 /\ Rabs wa <= 1 /\ 1 / 10 <= h <= 10.
Proof. destruct RC as (Rz & RO & R0 & Ra & Rh & Z & HO & W0 & Wa & Hh). repeat (split; auto); try (apply Rabs_le; lra); simpl in *; lra. Qed.
Lemma f1_range x : 0 <= x <= 20 -> / 10 ^ 10 <= f1 Om0 w0 wa x <= 100.
Proof.
  intros X. destruct RC' as (Rz & RO & R0 & Ra & Rh & Z & HO & W0 & Wa & Hh). pose proof (E_range Om0 w0 wa x HO W0 Wa X) as SR.
  unfold f1, Rdiv. rewrite Rmult_1_l. split; [apply Rinv_le_contravar; lra|]. rewrite <- (Rinv_inv 100). apply Rinv_le_contravar; lra.
Qed.
Lemma Q_range : / 10 ^ 16 <= Qd <= 2000.
Proof.
  destruct RC' as (Rz & RO & R0 & Ra & Rh & Z & HO & W0 & Wa & Hh). assert (Z0 : 0 < z) by (simpl in Z; lra).
  destruct (quad_bounds 256 (f1 Om0 w0 wa) z (/ 10 ^ 10) 100 ltac:(lia) ltac:(lra)) as [A B].
  { intros x Hx. apply f1_range. lra. }
  replace (/ 10 ^ 16) with (/ 10 ^ 10 * / 10 ^ 6) by (rewrite <- Rinv_mult, <- pow_add; reflexivity). split; [eapply Rle_trans; [|exact A]; apply Rmult_le_compat_l; [apply Rlt_le, Rinv_0_lt_compat, pow_lt; lra|apply Z]|lra].
Qed.
Lemma dc_eq : dc Om0 w0 wa h z = Qd * 299792458 * (1 / 10 ^ 5) / h.
Proof. destruct RC' as (_ & _ & _ & _ & _ & _ & _ & _ & _ & Hh). unfold dc, hubble_dist, c_light. field. lra. Qed.
Lemma zp1_err : npos 1.02 (Fin 1 + Fin z)%num (1 + z).
Proof.
  destruct RC' as (Rz & _ & _ & _ & _ & Z & _). assert (Z0 : 0 < z) by (simpl in Z; lra). apply (npos_weaken u H) with (0 + 1.02); [|lra]. apply npos_add; auto; [apply npos_machine; [apply (rnd1 G)|lra]|apply npos_machine; auto|lra|]. apply range16. simpl. lra.
Qed.
Lemma dc_err : npos 1435 (comoving_distance_to_z (Fin z) (Fin Om0) (Fin w0) (Fin wa) (Fin h)) (dc Om0 w0 wa h z) /\ / 10 ^ 14 <= dc Om0 w0 wa h z <= 10 ^ 8.
Proof.
  destruct RC' as (Rz & RO & R0 & Ra & Rh & Z & HO & W0 & Wa & Hh). pose proof Q_range as QR. assert (Z0 : 0 < z) by (simpl in Z; lra).
  assert (Q : npos 1428 (let zt := linspace (Fin 0) (Fin z) 256 in trapz_k zt (map (fun x => integrand_oneOverEz x (Fin Om0) (Fin w0) (Fin wa)) zt)) Qd).
  { apply (npos_weaken u H) with (5.2 * INR (256 - 1) + 97 + 5).
    - apply (quad_err u H 256 z _ (f1 Om0 w0 wa) 97 (/ 10 ^ 10) 100); auto; try lia; try lra.
      intros x x' Hx Rx Bx. apply f1_err; auto. lra.
    - replace (INR (256 - 1)) with 255 by (rewrite INR_IZR_INZ; reflexivity). lra. }
  unfold comoving_distance_to_z. cbv zeta in Q |- *. set (v := trapz_k _ _) in *. clearbody v.
  assert (R1 : / 10 ^ 16 * 299792458 <= Qd * 299792458 <= 2000 * 299792458) by lra.
  assert (P1 : npos 1430.04 (v * C_SPEED)%num (Qd * 299792458)).
  { apply (npos_weaken u H) with (1428 + 1.02 + 1.02); [|lra]. apply npos_mul; auto; [apply npos_lit; auto; apply range16; simpl; lra|lra|apply range16; simpl in *; lra]. }
  assert (P2 : npos 1432.1 (v * C_SPEED * lit (1 / 10 ^ 5))%num (Qd * 299792458 * (1 / 10 ^ 5))).
  { apply (npos_weaken u H) with (1430.04 + 1.02 + 1.02); [|lra]. apply npos_mul; auto; [apply npos_lit; auto; apply range16; simpl; lra|lra|apply range16; simpl in *; lra]. }
  rewrite dc_eq. set (D := Qd * 299792458 * (1 / 10 ^ 5)) in *. assert (DB : / 10 ^ 13 <= D <= 10 ^ 7) by (unfold D; simpl in *; lra).
  assert (DH : / 10 ^ 13 / 10 <= D / h <= 10 ^ 7 / (1 / 10)) by (apply div_range; auto; try lra; apply Rinv_0_lt_compat, pow_lt; lra).
  split; [|simpl in *; lra]. apply (npos_weaken u H) with (1432.1 + 0 + 1.02); [|lra]. apply npos_div; auto; [apply npos_machine; auto; lra|lra|apply range16; simpl in *; lra].
Qed.
Notation dL := (dc Om0 w0 wa h z * (1 + z)).
Lemma dl_err : npos 1437.1 (luminosity_distance_to_z (Fin z) (Fin Om0) (Fin w0) (Fin wa) (Fin h)) dL /\ / 10 ^ 14 <= dL <= 10 ^ 10.
Proof.
  destruct RC' as (Rz & RO & R0 & Ra & Rh & Z & HO & W0 & Wa & Hh). destruct dc_err as (D & DR). assert (Z0 : 0 < z) by (simpl in Z; lra).
  assert (LR : / 10 ^ 14 * 1 <= dL <= 10 ^ 8 * 21) by (apply mul_range; try lra; apply Rinv_0_lt_compat, pow_lt; lra). split; [|simpl in *; lra].
  apply (npos_weaken u H) with (1435 + 1.02 + 1.02); [|lra]. apply npos_mul; auto; [exact zp1_err|lra|apply range16; simpl in *; lra].
Qed.
Lemma da_err : npos 1437.1 (angular_diameter_distance_to_z (Fin z) (Fin Om0) (Fin w0) (Fin wa) (Fin h)) (dc Om0 w0 wa h z / (1 + z)).
Proof.
  destruct RC' as (Rz & RO & R0 & Ra & Rh & Z & HO & W0 & Wa & Hh). destruct dc_err as (D & DR). assert (Z0 : 0 < z) by (simpl in Z; lra).
  assert (LR : / 10 ^ 14 / 21 <= dc Om0 w0 wa h z / (1 + z) <= 10 ^ 8 / 1) by (apply div_range; try lra; apply Rinv_0_lt_compat, pow_lt; lra).
  apply (npos_weaken u H) with (1435 + 1.02 + 1.02); [|lra]. apply npos_div; auto; [exact zp1_err|lra|apply range16; simpl in *; lra].
Qed.
Lemma dmod_err : near (distance_modulus_to_z (Fin z) (Fin Om0) (Fin w0) (Fin wa) (Fin h)) (5 * log10 (dL * 10 ^ 5)) 3790 80.
Proof.
  destruct dl_err as (D & DR). assert (M5 : rnd (10 ^ 5) = Fin (10 ^ 5)). { replace (10 ^ 5) with (IZR 100000) by (simpl; lra). apply (rnd_dy G 100000 0); [lia|lia|simpl; lra]. }
  unfold distance_modulus_to_z. cbv zeta. set (v := luminosity_distance_to_z _ _ _ _ _) in *. clearbody v. assert (XR : / 10 ^ 9 <= dL * 10 ^ 5 <= 10 ^ 15) by (simpl in *; lra).
  assert (P : npos 1438.2 (v * Fin (10 ^ 5))%num (dL * 10 ^ 5)). { apply (npos_weaken u H) with (1437.1 + 0 + 1.02); [|lra]. apply npos_mul; auto; [apply npos_machine; auto; apply pow_lt; lra|lra|apply range16; simpl in *; lra]. }
  assert (L : near (nlog10 (v * Fin (10 ^ 5))%num) (log10 (dL * 10 ^ 5)) 738 16). { pose proof (log_npos _ 16 _ _ P ltac:(lra) ltac:(simpl in *; lra) ltac:(lia)) as L. replace (INR 16) with 16 in L by (rewrite INR_IZR_INZ; reflexivity). destruct L as (y & -> & Ry & Dy & My). exists y. repeat (split; auto). eapply Rle_trans; [exact Dy|]. pose proof (upos u H). apply Rmult_le_compat_r; lra. }
  apply (near_mul u H _ _ 0 5 _ _ 738 16 80.1); auto; try lra; try (simpl; lra). apply near_machine; [apply (rnd_dy G 5 0); [lia|lia|simpl; lra]|rewrite Rabs_right; lra].
Qed.
Lemma dim_err : near (cosmological_dimming (Fin z) (Fin Om0) (Fin w0) (Fin wa) (Fin h)) (5 * log10 (dL * 10 ^ 5) - 2.5 * log10 (1 + z)) 3920 90.
Proof.
  pose proof dmod_err as D. destruct RC' as (Rz & RO & R0 & Ra & Rh & Z & HO & W0 & Wa & Hh). unfold cosmological_dimming. cbv zeta.
  assert (L : near (nlog10 (Fin 1 + Fin z)%num) (log10 (1 + z)) 3.9 2). { pose proof (log_npos _ 2 _ _ zp1_err ltac:(lra) ltac:(simpl in *; lra) ltac:(lia)) as L. replace (INR 2) with 2 in L by (rewrite INR_IZR_INZ; reflexivity). destruct L as (y & -> & Ry & Dy & My). exists y. repeat (split; auto). eapply Rle_trans; [exact Dy|]. pose proof (upos u H). apply Rmult_le_compat_r; lra. }
  assert (L2 : near (lit 2.5) 2.5 0 2.5). { unfold lit. rewrite (rnd_dy G 5 1 2.5) by (try lia; simpl; lra). apply near_machine; [apply (rnd_dy G 5 1); [lia|lia|simpl; lra]|rewrite Rabs_right; lra]. }
  assert (M : near (lit 2.5 * nlog10 (Fin 1 + Fin z))%num (2.5 * log10 (1 + z)) 16 5) by (apply (near_mul u H _ _ 0 2.5 _ _ 3.9 2 5.1); auto; simpl; lra).
  destruct D as (a & -> & Ra1 & Da & Ma). destruct M as (b & -> & Rb & Db & Mb). cbn [nsub nopp nadd]. apply (near_rnd u H _ _ 3806 90.1); try (simpl; lra).
  - set (A := 5 * log10 (dL * 10 ^ 5)) in *. set (B := 2.5 * log10 (1 + z)) in *. replace (a + - b - (A - B)) with ((a - A) - (b - B)) by ring. apply Rabs_le_inv in Da. apply Rabs_le_inv in Db. apply Rabs_le. lra.
  - apply Rabs_le_inv in Ma. apply Rabs_le_inv in Mb. apply Rabs_le. lra.
Qed.
End C.
End F.
