(** * Burst weights in rounded arithmetic: raw weights and their normalisation *)
From Coq Require Import Reals List Arith Lra Lia ZArith Bool.
From Coquelicot Require Import Coquelicot.
From Flocq Require Import Core.Raux.
From Verif Require Import Num Arr MUtils MSed MDiffburst Float Spec SpecFloat RList LUtils LCalc LKern LBurst LFloat LFloat2 LFloat3 LFloat4 LFloat5 LFloat10 LFloat11 LRound1 LRound2 LRound3 LRound4 LRound5 LRound6 LRound29.
Import ListNotations.
Open Scope R_scope.

Section F.
Context {AR : Arith} (u : R) (H : rel_err AR u).
Let G := re_good _ _ H.
Ltac num := simpl (10 ^ _); lra.
Definition burst_range (peak mx : R) : Prop := rnd peak = Fin peak /\ rnd mx = Fin mx /\ 0 <= peak /\ mx <= 16 /\ peak + 1/2 <= mx.

Lemma raw_params peak mx : burst_range peak mx -> exists m h,
  (lit 0.5 * ((Fin peak - (Fin mx - Fin peak)) + Fin mx))%num = Fin m
  /\ ((Fin mx - (Fin peak - (Fin mx - Fin peak))) / Fin 6)%num = Fin h
  /\ rnd m = Fin m /\ rnd h = Fin h /\ Rabs (m - peak) <= 57 * u /\ Rabs (h - (mx - peak) / 3) <= 19 * u.
Proof.
  intros (Rp & Rm & P0 & M1 & PM). assert (B35 : 10 ^ 5 <= 10 ^ 35) by (apply Rle_pow; [lra|lia]). simpl (10 ^ 5) in B35.
  assert (NP : near u (Fin peak) peak 0 16) by (apply near_rep; auto; apply Rabs_le; lra).
  assert (NM : near u (Fin mx) mx 0 16) by (apply near_rep; auto; apply Rabs_le; lra).
  assert (ND : near u (nsub (Fin mx) (Fin peak)) (mx - peak) 16.1 16).
  { unfold nsub. cbn [nopp nadd]. apply (near_rnd u H _ _ 0 16); try lra; try num; [|apply Rabs_le; lra]. replace (mx + - peak - (mx - peak)) with 0 by lra. rewrite Rabs_R0. lra. }
  pose proof (near_sub u H _ _ _ _ _ _ _ _ 32.01 48.2 32 NP ND ltac:(lra) ltac:(lra) ltac:(lra) ltac:(num) ltac:(lra) ltac:(num)) as NI.
  assert (NI' : near u (nsub (Fin peak) (nsub (Fin mx) (Fin peak))) (peak - (mx - peak)) 48.2 16).
  { destruct NI as (y & E & R & A & _). exists y. repeat split; auto. apply Rabs_le; lra. }
  clear NI. destruct ND as (d0 & Ed & _). destruct NI' as (mn & Em & Rmn & Amn & Bmn). rewrite Em.
  assert (NI : near u (Fin mn) (peak - (mx - peak)) 48.2 16) by (exists mn; auto).
  pose proof (near_add u H _ _ _ _ _ _ _ _ 32.01 80.3 32 NI NM ltac:(lra) ltac:(lra) ltac:(lra) ltac:(num) ltac:(lra) ltac:(num)) as NA.
  assert (Ch : near u (Fin 0.5) 0.5 0 0.5) by (apply near_rep; [apply (rnd_dy G 1 1); [lia|lia|simpl; lra]|rewrite Rabs_right; lra]).
  pose proof (near_mul u H _ _ _ _ _ _ _ _ 16.1 57 16 Ch NA ltac:(lra) ltac:(lra) ltac:(lra) ltac:(lra) ltac:(lra) ltac:(num) ltac:(lra) ltac:(num)) as NQ.
  pose proof (near_sub u H _ _ _ _ _ _ _ _ 32.01 80.3 32 NM NI ltac:(lra) ltac:(lra) ltac:(lra) ltac:(num) ltac:(lra) ltac:(num)) as NW.
  pose proof (near_div u H _ _ _ _ 6 5.4 18.9 5.34 NW ltac:(lra) ltac:(lra) ltac:(lra) ltac:(num) ltac:(lra) ltac:(lra)) as NH.
  rewrite (lit_half G). destruct NQ as (m & E1 & R1 & A1 & _). destruct NH as (h & E2 & R2 & A2 & _). exists m, h. split; [exact E1|]. split; [exact E2|]. split; auto. split; auto.
  replace (0.5 * (peak - (mx - peak) + mx)) with peak in A1 by lra. replace ((mx - (peak - (mx - peak))) / 6) with ((mx - peak) / 3) in A2 by lra.
  pose proof (u_le u H). split; lra.
Qed.

Lemma raw_float peak mx m h : burst_range peak mx -> rnd m = Fin m -> rnd h = Fin h -> Rabs (m - peak) <= 57 * u -> Rabs (h - (mx - peak) / 3) <= 19 * u ->
  1/20 <= h <= 20 /\ forall a, -4 <= a <= 4 -> exists v, triweight_gaussian (nadd (Fin a) (Fin 9)) (Fin m) (Fin h) = Fin v /\ nonneg_machine v /\ v <= 40
    /\ Rabs (v * h - tw_density ((a + 9 - peak) / ((mx - peak) / 3))) <= 800 * u.
Proof.
  intros (Rp & Rx & P0 & M1 & PM) Rm Rh Am Ah. pose proof (u_le u H) as Hu. pose proof (tiny_u1 u H) as Ht. simpl (10 ^ 6) in Hu. simpl (10 ^ 6) in Ht. assert (B35 : 10 ^ 5 <= 10 ^ 35) by (apply Rle_pow; [lra|lia]). simpl (10 ^ 5) in B35.
  set (w := (mx - peak) / 3) in *. assert (Bw : 1/6 <= w <= 16/3) by (unfold w; lra). apply Rabs_le_inv in Ah, Am.
  split; [lra|]. intros a Ba.
  cbn [nadd]. destruct (rnd_err_B u H (a + 9) 13) as (x & Ex & Ax & Rxx); [apply Rabs_le; lra|lra|]. rewrite Ex. apply Rabs_le_inv in Ax.
  destruct (rnd_err_B u H (x + - m) 30) as (d & Ed & Ad & Rd); [apply Rabs_le; lra|lra|]. apply Rabs_le_inv in Ad.
  assert (ED : nsub (Fin x) (Fin m) = Fin d) by exact Ed.
  set (D := a + 9 - peak). assert (AD : - (101 * u) <= d - D <= 101 * u) by (unfold D; lra).
  assert (BD : -11 <= D <= 13) by (unfold D; lra).
  assert (Q : Rabs (d / h) <= 300).
  { unfold Rdiv. rewrite Rabs_mult, (Rabs_right (/ h)) by (apply Rle_ge; left; apply Rinv_0_lt_compat; lra).
    apply Rle_trans with (14 * / (1/20)); [|lra]. apply Rmult_le_compat; [apply Rabs_pos|left; apply Rinv_0_lt_compat; lra|apply Rabs_le; lra|apply Rinv_le; lra]. }
  destruct (rnd_err_B u H (d / h) 300) as (z' & Ez & _ & Rz); [exact Q|lra|]. pose proof (re_any _ _ H _ _ Ez) as Az.
  assert (EZ : ndiv (Fin d) (Fin h) = Fin z') by (cbn [ndiv]; rewrite Req_bool_false by lra; exact Ez).
  destruct (gauss_float u H (Fin x) (Fin m) h d z' ED EZ Rz ltac:(lra)) as (v & Ev & Nv & Bv & Av). exists v. split; auto. split; auto. split; auto.
  set (z := D / w). assert (Dz : D = z * w) by (unfold z; field; lra).
  assert (K : Rabs (tw_density z' - tw_density z) <= 35/48 * (1070 * u)).
  { destruct (Rle_lt_dec (Rabs z) 4) as [Z4|Z4].
    - eapply Rle_trans; [apply dens_lip|]. apply Rmult_le_compat_l; [lra|].
      assert (E1 : Rabs (d / h - z) <= 177 * u * 6.01).
      { replace (d / h - z) with (((d - D) - z * (h - w)) / h) by (rewrite Dz; field; lra). unfold Rdiv. rewrite Rabs_mult, (Rabs_right (/ h)) by (apply Rle_ge; left; apply Rinv_0_lt_compat; lra).
        apply Rmult_le_compat; [apply Rabs_pos|left; apply Rinv_0_lt_compat; lra| |].
        - eapply Rle_trans; [unfold Rminus at 1; apply Rabs_triang|]. rewrite Rabs_Ropp, Rabs_mult. assert (Rabs (d - D) <= 101 * u) by (apply Rabs_le; lra).
          assert (Rabs z * Rabs (h - w) <= 4 * (19 * u)); [|lra]. apply Rmult_le_compat; try apply Rabs_pos; [lra|apply Rabs_le; lra].
        - replace 6.01 with (/ (/ 6.01)) by (field; lra). apply Rinv_le; lra. }
      assert (E2 : Rabs (d / h) <= 5). { replace (d / h) with ((d / h - z) + z) by ring. eapply Rle_trans; [apply Rabs_triang|]. lra. }
      replace (z' - z) with ((z' - d / h) + (d / h - z)) by ring. eapply Rle_trans; [apply Rabs_triang|].
      assert (u * Rabs (d / h) <= u * 5) by (apply Rmult_le_compat_l; lra). lra.
    - assert (R3 : rnd 3 = Fin 3) by (apply (rnd_dy G 3 0); [lia|lia|simpl; lra]). assert (Rm3 : rnd (-3) = Fin (-3)) by (apply (rnd_dy G (-3) 0); [lia|lia|simpl; lra]).
      assert (tw_density z' = tw_density z) as ->; [|replace (tw_density z - tw_density z) with 0 by lra; rewrite Rabs_R0; lra].
      unfold Rabs in Z4. destruct (Rcase_abs z).
      + rewrite !LBurst.tw_density_out; auto; [lra|]. left. apply (rnd_le_rep G (d / h) z' (-3)); auto.
        apply Rmult_le_reg_r with h; [lra|]. unfold Rdiv. rewrite Rmult_assoc, Rinv_l by lra. assert (D <= -4 * w) by (rewrite Dz; apply Rmult_le_compat_r; lra). lra.
      + rewrite !LBurst.tw_density_out; auto; [lra|]. right. apply (rnd_ge_rep G (d / h) z' 3); auto.
        apply Rmult_le_reg_r with h; [lra|]. unfold Rdiv. rewrite (Rmult_assoc d), Rinv_l by lra. assert (4 * w <= D) by (rewrite Dz; apply Rmult_le_compat_r; lra). lra. }
  replace (v * h - tw_density z) with ((v * h - tw_density z') + (tw_density z' - tw_density z)) by ring. eapply Rle_trans; [apply Rabs_triang|]. lra.
Qed.
End F.
