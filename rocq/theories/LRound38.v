(** * Attenuation curves in rounded arithmetic: Noll+09, Salim+18 *)
From Coq Require Import Reals List Arith Lra Lia ZArith Bool.
From Coquelicot Require Import Coquelicot.
From Flocq Require Import Core.Raux.
From Verif Require Import Num Arr MUtils MSed MDust Float Spec SpecFloat RList LUtils LFloat LFloat2 LFloat10 LRound1 LRound2 LRound3 LRound6 LRound14 LRound15 LRound21 LRound22 LRound23 LRound24 LRound35 LRound36 LRound37 LDust.
Import ListNotations.
Open Scope R_scope.

Section F.
Context {AR : Arith} (u : R) (H : rel_err AR u).
Notation G := (re_good _ _ H).
Notation lre := (lre u).
Notation npos := (npos (AR := AR) u).
Notation near := (near (AR := AR) u).

Lemma near_clip v x e M : near v x e M -> near (nwhere (v <? Fin 0)%num (Fin 0) v) (Rmax 0 x) e M /\ exists y, nwhere (v <? Fin 0)%num (Fin 0) v = Fin y /\ 0 <= y.
Proof.
  intros (y & -> & R & D & B). assert (E : nwhere (Fin y <? Fin 0)%num (Fin 0) (Fin y) = Fin (Rmax 0 y)).
  { unfold nwhere, nltb. case Rlt_bool_spec; intros; f_equal; [rewrite Rmax_left; lra|rewrite Rmax_right; lra]. }
  rewrite E. split; [|exists (Rmax 0 y); split; auto; apply Rmax_l]. exists (Rmax 0 y). split; auto. split; [|split].
  - unfold Rmax. destruct (Rle_dec 0 y); auto. apply (rnd0 G).
  - eapply Rle_trans; [|exact D]. unfold Rmax. destruct (Rle_dec 0 y), (Rle_dec 0 x); unfold Rabs; repeat destruct Rcase_abs; lra.
  - eapply Rle_trans; [|exact B]. unfold Rmax. destruct (Rle_dec 0 x); [lra|]. rewrite Rabs_R0. apply Rabs_pos.
Qed.
(** product of a number known absolutely and one known relatively *)
Lemma near_times v x e M p P k : near v x e M -> npos k p P -> 0 <= k <= 100 -> 0 <= e <= 10 ^ 10 -> 1 <= M <= 10 ^ 10 -> / 10 ^ 20 <= P <= 10 ^ 20 ->
  near (v * p)%num (x * P) (P * (1.003 * e + 1.01 * (k + 1) * M + e / 1000)) (P * M).
Proof.
  intros (y & -> & Ry & Dy & By) (q & -> & Rq & Lq) K E0 M0 PR. pose proof (u_le u H) as U. pose proof (tiny_u u H) as T. simpl (10 ^ 6) in U. assert (P0 : 0 < P) by (destruct Lq; tauto).
  assert (KU : k * u <= 0.000025) by (apply Rle_trans with (100 * 0.00000025); [apply Rmult_le_compat; lra|lra]).
  assert (KU0 : 0 <= k * u) by (apply Rmult_le_pos; lra).
  pose proof (lre_diff u H _ _ _ Lq ltac:(lra) ltac:(lra)) as Dq.
  assert (PE : 1.002 * k * u * P <= 0.001 * P) by (apply Rmult_le_compat_r; lra).
  assert (Q : 0 <= q <= 1.001 * P). { apply Rabs_le_inv in Dq. lra. }
  assert (EU : 0 <= e * u) by (apply Rmult_le_pos; lra).
  assert (Yb : Rabs y <= M + e * u). { replace y with ((y - x) + x) by ring. eapply Rle_trans; [apply Rabs_triang|]. lra. }
  assert (XE : Rabs (y * q - x * P) <= P * (1.001 * e + 1.002 * k * M) * u).
  { replace (y * q - x * P) with ((y - x) * q + x * (q - P)) by ring. eapply Rle_trans; [apply Rabs_triang|]. rewrite !Rabs_mult, (Rabs_right q) by lra.
    assert (Rabs (y - x) * q <= e * u * (1.001 * P)) by (apply Rmult_le_compat; try lra; apply Rabs_pos).
    assert (Rabs x * Rabs (q - P) <= M * (1.002 * k * u * P)) by (apply Rmult_le_compat; try lra; apply Rabs_pos). lra. }
  assert (YQ : Rabs (y * q) <= 1.001 * P * (M + e * u)). { rewrite Rabs_mult, (Rabs_right q) by lra. rewrite (Rmult_comm (1.001 * P)). apply Rmult_le_compat; try lra; apply Rabs_pos. }
  cbn [nmul].
  destruct (rnd_range _ G (y * q)) as (z & Ez).
  { eapply Rle_trans; [exact YQ|]. assert (M + e * u <= 10 ^ 11) by (simpl (10 ^ 10) in *; simpl (10 ^ 11); assert (e * u <= 10000000000 * 0.00000025) by (apply Rmult_le_compat; lra); lra).
    apply Rle_trans with (1.001 * 10 ^ 20 * 10 ^ 11); [apply Rmult_le_compat; lra|simpl; lra]. }
  exists z. split; auto. split; [eapply (rnd_idem _ G); eauto|]. pose proof (re_any _ _ H _ _ Ez) as AE. split.
  - replace (z - x * P) with ((z - y * q) + (y * q - x * P)) by ring. eapply Rle_trans; [apply Rabs_triang|].
    assert (u * Rabs (y * q) <= u * (1.001 * P * (M + e * u))) by (apply Rmult_le_compat_l; lra).
    assert (TP : u * / 10 ^ 27 <= u * (0.001 * P * M)). { apply Rmult_le_compat_l; [lra|]. apply Rle_trans with (0.001 * P * 1); [|apply Rmult_le_compat_l; lra]. replace (/ 10 ^ 27) with (/ 10 ^ 7 * / 10 ^ 20) by (rewrite <- Rinv_mult, <- pow_add; reflexivity). rewrite Rmult_1_r. apply Rmult_le_compat; [simpl; lra|left; apply Rinv_0_lt_compat, pow_lt; lra|simpl; lra|lra]. }
    assert (UE : u * (1.001 * P * (e * u)) <= u * P * (0.001 * e)). { replace (u * (1.001 * P * (e * u))) with (u * P * (1.001 * u * e)) by ring. apply Rmult_le_compat_l; [apply Rmult_le_pos; lra|]. apply Rmult_le_compat_r; lra. }
    assert (0 <= u * P * M) by (apply Rmult_le_pos; [apply Rmult_le_pos; lra|lra]). assert (0 <= u * P * e) by (apply Rmult_le_pos; [apply Rmult_le_pos; lra|lra]). assert (0 <= k * (u * P * M)) by (apply Rmult_le_pos; lra). lra.
  - rewrite Rabs_mult, (Rabs_right P) by lra. rewrite Rmult_comm. apply Rmult_le_compat_l; lra.
Qed.

Section W.
Variables w a s x0 g : R.
Hypothesis Rw : rnd w = Fin w. Hypothesis Rx0 : rnd x0 = Fin x0. Hypothesis Rg : rnd g = Fin g. Hypothesis Ra : rnd a = Fin a. Hypothesis Rs : rnd s = Fin s.
Hypothesis Bw : 0.09 <= w <= 10. Hypothesis Bx0 : 0.01 <= x0 <= 10. Hypothesis Bg : 0.001 <= g <= 10. Hypothesis Ba : Rabs a <= 10 ^ 6. Hypothesis Bs : Rabs s <= 5.
Hypothesis N1 : rnd 0.63 <> Fin w. Hypothesis N2 : rnd 0.15 <> Fin w.
Let A := (w ^ 2 + x0 ^ 2) / (w * g).
Hypothesis BA : A <= 1000.
Let P := vband w s.
Lemma A0 : 0 < A. Proof. apply A_pos; auto. Qed.
Lemma noll_err : near (noll09_k_lambda (Fin w) (Fin a) (Fin s) (Fin x0) (Fin g)) (noll w a s x0 g) (P * (1700 + (Rabs a + 1) * (2.4 * A + 30))) (P * (71 + Rabs a)).
Proof.
  pose proof A0 as AP. pose proof (Rabs_pos a) as PA. simpl (10 ^ 6) in Ba.
  pose proof (base_err u H w Rw Bw N1 N2) as NB. pose proof (drude_err u H w x0 g Rw Rx0 Rg Bw Bx0 Bg BA a Ra Ba) as ND. fold A in ND.
  destruct (vb_err u H w Rw Bw s Rs Bs) as [NV VR]. fold P in NV, VR.
  assert (AA : 0 <= Rabs a * A <= 1000000 * 1000) by (split; [apply Rmult_le_pos; lra|apply Rmult_le_compat; lra]).
  assert (NS : near (l02_below_c00_above (Fin w) (lit 0.15) + drude_bump (Fin w) (Fin x0) (Fin g) (Fin a))%num (l02c00 w + drude w x0 g a) (715 + (Rabs a + 1) * (2.302 * A + 14)) (70 + Rabs a)).
  { eapply (near_add u H) with (B := 71 + 1.001 * Rabs a + 0.001 * A + 0.001 * Rabs a * A); [exact NB|exact ND| | | | | |].
    - lra. - apply Rmult_le_pos; lra. - lra. - simpl (10 ^ 6). lra. - simpl (10 ^ 35). lra. - lra. }
  pose proof (near_times _ _ _ _ _ _ _ NS NV ltac:(lra) ltac:(simpl (10 ^ 10); lra) ltac:(simpl (10 ^ 10); lra) VR) as NT.
  unfold noll09_k_lambda. cbv zeta. apply near_clip in NT. destruct NT as [NT _]. assert (P0 : 0 < P) by (unfold P, vband; apply exp_pos).
  apply (near_weaken u H) with (e := P * (1.003 * (715 + (Rabs a + 1) * (2.302 * A + 14)) + 1.01 * (11.3 + 1) * (70 + Rabs a) + (715 + (Rabs a + 1) * (2.302 * A + 14)) / 1000)) (M := P * (70 + Rabs a)); [exact NT| |apply Rmult_le_compat_l; lra].
  apply Rmult_le_compat_l; [lra|]. lra.
Qed.
Lemma sbl_err : near (sbl18_k_lambda (Fin w) (Fin a) (Fin s) (Fin x0) (Fin g)) (sbl w a s x0 g) (1700 * P + (Rabs a + 1) * (2.4 * A + 30)) (71 * P + Rabs a).
Proof.
  pose proof A0 as AP. pose proof (Rabs_pos a) as PA. simpl (10 ^ 6) in Ba.
  pose proof (base_err u H w Rw Bw N1 N2) as NB. pose proof (drude_err u H w x0 g Rw Rx0 Rg Bw Bx0 Bg BA a Ra Ba) as ND. fold A in ND.
  destruct (vb_err u H w Rw Bw s Rs Bs) as [NV VR]. fold P in NV, VR. assert (P0 : 0 < P) by (unfold P, vband; apply exp_pos).
  assert (AA : 0 <= Rabs a * A <= 1000000 * 1000) by (split; [apply Rmult_le_pos; lra|apply Rmult_le_compat; lra]).
  pose proof (near_times _ _ _ _ _ _ _ NB NV ltac:(lra) ltac:(simpl (10 ^ 10); lra) ltac:(simpl (10 ^ 10); lra) VR) as NT.
  unfold sbl18_k_lambda. cbv zeta.
  assert (NS : near (l02_below_c00_above (Fin w) (lit 0.15) * power_law_vband_norm (Fin w) (Fin s) (lit 0.55) + drude_bump (Fin w) (Fin x0) (Fin g) (Fin a))%num (l02c00 w * P + drude w x0 g a) (1700 * P + (Rabs a + 1) * (2.4 * A + 30)) (71 * P + Rabs a)).
  { eapply (near_add u H) with (B := 1 + 71.1 * P + 1.001 * Rabs a + 0.001 * A + 0.001 * Rabs a * A); [exact NT|exact ND| | | | | |].
    - apply Rmult_le_pos; lra. - apply Rmult_le_pos; lra. - lra. - simpl (10 ^ 6). lra. - simpl (10 ^ 35). simpl (10 ^ 20) in VR. lra. - lra. }
  destruct (near_clip _ _ _ _ NS) as [NC _]. exact NC.
Qed.
End W.
End F.
