(** * Critical density, matter fraction, virial time, volume in rounded arithmetic *)
From Coq Require Import Reals List Arith Lra Lia ZArith Bool.
From Coquelicot Require Import Coquelicot.
From Flocq Require Import Core.Raux.
From Verif Require Import Num Arr MUtils MSed MCosmo MPhot Float Spec SpecFloat SpecFloat2 SpecFloat8 RList LUtils LFloat LFloat2 LFloat10 LRound1 LRound2 LRound3 LRound6 LRound14 LRound15 LRound19 LRound21 LRound22 LRound23 LRound24 LRound25 LRound35 LCosmo LCosmoPar2 LPhot LImf.
Import ListNotations.
Open Scope R_scope.

Section F.
Context {AR : Arith} (u : R) (H : rel_err AR u).
Notation G := (re_good _ _ H).
Notation lre := (lre u).
Notation npos := (npos (AR := AR) u).
Notation near := (near (AR := AR) u).
Section C.
Variables (z Om0 w0 wa h : R).
Hypothesis RC : rounding_cosmology (AR := AR) z Om0 w0 wa h.
Notation E := (expansion Om0 w0 wa z).
Lemma Ez55 : npos 95 (Ez (Fin z) (Fin Om0) (Fin w0) (Fin wa)) E /\ / 100 <= E <= 4 * 10 ^ 8.
Proof.
  destruct (RC' z Om0 w0 wa h RC) as (Rz & RO & R0 & Ra & Rh & Z & HO & W0 & Wa & Hh). pose proof (upos u H) as U. assert (Z0 : 0 < z) by (simpl in Z; lra).
  split; [|apply E_range2; auto; lra]. apply (Ez_err u H); auto; [lra|]. rewrite Rminus_diag_eq, Rabs_R0 by auto. apply Rmult_le_pos; lra.
Qed.
Lemma rho55 : npos 196.2 (rho_crit (Fin z) (Fin Om0) (Fin w0) (Fin wa) (Fin h)) (277.536627 * h * h * E ^ 2).
Proof.
  destruct (RC' z Om0 w0 wa h RC) as (Rz & RO & R0 & Ra & Rh & Z & HO & W0 & Wa & Hh). destruct Ez55 as (E1 & ER). unfold rho_crit, RHO_CRIT0_KPC3_UNITY_H. cbv zeta. set (e := Ez _ _ _ _) in *. clearbody e.
  unfold ipow. cbn [ipow_acc]. set (x := E) in *. clearbody x. replace (x ^ 2) with (x * x) by ring.
  assert (X2 : / 100 * / 100 <= x * x <= 4 * 10 ^ 8 * (4 * 10 ^ 8)) by (apply mul_range; lra).
  assert (H1 : 277 * (1 / 10) <= 277.536627 * h <= 278 * 10) by (apply mul_range; lra). assert (H2 : 277 * (1 / 10) * (1 / 10) <= 277.536627 * h * h <= 278 * 10 * 10) by (apply mul_range; lra).
  assert (H3 : 277 * (1 / 10) * (1 / 10) * (/ 100 * / 100) <= 277.536627 * h * h * (x * x) <= 278 * 10 * 10 * (4 * 10 ^ 8 * (4 * 10 ^ 8))) by (apply mul_range; lra).
  assert (T : 10 ^ 17 * 10 ^ 17 <= 10 ^ 36) by (rewrite <- pow_add; apply Rle_pow; [lra|lia]).
  apply (npos_weaken u H) with ((1.02 + 0 + 1.02 + 0 + 1.02) + (95 + 95 + 1.02) + 1.02); [|lra].
  apply npos_mul; auto; [| |lra|split; [eapply Rle_trans; [|apply H3]; pose proof (p16 24 ltac:(lia)); simpl in *; lra|simpl in *; lra]].
  - apply npos_mul; auto; [|apply npos_machine; auto; lra|lra|apply range16; simpl; lra]. apply npos_mul; auto; [|apply npos_machine; auto; lra|lra|apply range16; simpl; lra]. apply npos_lit; auto. apply range16. simpl; lra.
  - apply npos_mul; auto; [lra|]. split; [eapply Rle_trans; [|apply X2]; pose proof (p16 24 ltac:(lia)); simpl in *; lra|simpl in *; lra].
Qed.
Lemma om55 : npos 199 (Om_at_z (Fin z) (Fin Om0) (Fin w0) (Fin wa)) (omz Om0 w0 wa z) /\ 0 < omz Om0 w0 wa z <= 1.
Proof.
  destruct (RC' z Om0 w0 wa h RC) as (Rz & RO & R0 & Ra & Rh & Z & HO & W0 & Wa & Hh). destruct Ez55 as (E1 & ER). assert (Z0 : 0 < z) by (simpl in Z; lra).
  assert (OR : 0 < omz Om0 w0 wa z <= 1) by (apply om_range; lra). split; auto.
  assert (EQ : omz Om0 w0 wa z = Om0 * (1 + z) ^ 3 / E / E).
  { pose proof (om_fin Om0 w0 wa z ltac:(lra) ltac:(lra)) as F. unfold Om_at_z in F. rewrite Ez_fin in F by lra. rewrite nadd_fin, ipow_fin, nmul_fin, !ndiv_fin in F by lra. injection F as F. rewrite <- F. reflexivity. }
  rewrite EQ in *. pose proof (zp1_err u H z Om0 w0 wa h RC) as Z1. unfold Om_at_z. cbv zeta. set (e := Ez _ _ _ _) in *. clearbody e. set (x := E) in *. clearbody x. clear EQ.
  set (zp := (Fin 1 + Fin z)%num) in *. clearbody zp. set (y := 1 + z) in *. assert (Y : 1 <= y <= 21) by (unfold y; lra). clearbody y.
  unfold ipow. cbn [ipow_acc]. replace (y ^ 3) with (y * (y * y)) in * by ring.
  assert (Y2 : 1 * 1 <= y * y <= 21 * 21) by (apply mul_range; lra). assert (Y3 : 1 * (1 * 1) <= y * (y * y) <= 21 * (21 * 21)) by (apply mul_range; lra).
  assert (O3 : / 1000 * (1 * (1 * 1)) <= Om0 * (y * (y * y)) <= 999 / 1000 * (21 * (21 * 21))) by (apply mul_range; lra).
  assert (O4 : / 1000 * (1 * (1 * 1)) / (4 * 10 ^ 8) <= Om0 * (y * (y * y)) / x <= 999 / 1000 * (21 * (21 * 21)) / / 100) by (apply div_range; lra).
  assert (O5 : / 1000 * (1 * (1 * 1)) / (4 * 10 ^ 8) / (4 * 10 ^ 8) <= Om0 * (y * (y * y)) / x / x <= 999 / 1000 * (21 * (21 * 21)) / / 100 / / 100) by (apply div_range; simpl in *; lra).
  pose proof (p16 24 ltac:(lia)) as P24. pose proof (p16 36 ltac:(lia)) as P36.
  apply (npos_weaken u H) with ((0 + (1.02 + (1.02 + 1.02 + 1.02) + 1.02) + 1.02 + 95 + 1.02) + 95 + 1.02); [|lra].
  apply npos_div; auto; [|lra|simpl in *; lra]. apply npos_div; auto; [|lra|apply range16; simpl in *; lra].
  apply npos_mul; auto; [apply npos_machine; auto; lra| |lra|apply range16; simpl in *; lra]. apply npos_mul; auto; [|lra|apply range16; simpl in *; lra].
  apply npos_mul; auto; [lra|apply range16; simpl in *; lra].
Qed.
Lemma th55 : npos 99 (hubble_time (Fin z) (Fin Om0) (Fin w0) (Fin wa) (Fin h)) (tH h / E) /\ 10 ^ 1 / 10 ^ 10 <= tH h / E <= 10 ^ 5.
Proof.
  destruct (RC' z Om0 w0 wa h RC) as (Rz & RO & R0 & Ra & Rh & Z & HO & W0 & Wa & Hh). destruct Ez55 as (E1 & ER).
  unfold hubble_time. cbv zeta. set (e := Ez _ _ _ _) in *. clearbody e. unfold MPC, YEAR. set (x := E) in *. clearbody x.
  assert (B : npos 1.02 (lit (1 / 10 ^ 16 * (3.08567758149 * 10 ^ 24) / 31556925.2)) (1 / 10 ^ 16 * (3.08567758149 * 10 ^ 24) / 31556925.2)).
  { apply npos_lit; auto; apply range16; simpl; lra. }
  assert (TR : 9 / 10 <= tH h <= 10 / (1 / 10)) by (unfold tH; apply div_range; try lra; simpl; lra).
  assert (TE : 9 / 10 / (4 * 10 ^ 8) <= tH h / x <= 10 / (1 / 10) / / 100) by (apply div_range; lra).
  split; [|simpl in *; lra]. apply (npos_weaken u H) with ((1.02 + 0 + 1.02) + 95 + 1.02); [|lra]. apply npos_div; auto; [|lra|apply range16; simpl in *; lra].
  unfold tH in *. apply npos_div; auto; [apply npos_machine; auto; lra|lra|apply range16; simpl in *; lra].
Qed.
Lemma dh55 : npos 3.1 (hubble_distance_mpc (Fin h)) (hubble_dist h) /\ 200 <= hubble_dist h <= 30000.
Proof.
  destruct (RC' z Om0 w0 wa h RC) as (Rz & RO & R0 & Ra & Rh & Z & HO & W0 & Wa & Hh). unfold hubble_distance_mpc. cbv zeta.
  assert (EQ : hubble_dist h = 299792458 / 1000 / (100 * h)) by (unfold hubble_dist, c_light; field; lra). rewrite EQ.
  assert (HR : 100 * (1 / 10) <= 100 * h <= 100 * 10) by lra.
  pose proof (div_range (299792458 / 1000) (100 * (1 / 10)) (299792458 / 1000) (100 * 10) (299792458 / 1000) (100 * h) ltac:(lra) ltac:(lra) ltac:(lra) HR) as DR.
  split; [|lra]. apply (npos_weaken u H) with (1.02 + (0 + 0 + 1.02) + 1.02); [|lra].
  apply npos_div; auto; [apply npos_lit; auto; apply range16; simpl; lra| |lra|apply range16; simpl; lra].
  apply npos_mul; auto; [apply npos_machine; [apply (machine_int u H 100); lia|lra]|apply npos_machine; auto; lra|lra|apply range16; simpl; lra].
Qed.
Lemma npow2_npos k v X : npos k v X -> 0 <= k <= 4000 -> / 10 ^ 24 <= X * X <= 10 ^ 36 -> npos (k + k + 1.02) (npow v (Fin 2)) (X * X).
Proof.
  intros (x & -> & R & L) K B. pose proof L as (X0 & _). cbn [npow]. rewrite Req_bool_false by lra. rewrite Rlt_bool_true by auto.
  apply npos_elem; auto; [|lra]. cbn [elem_value]. change 2 with (INR 2). rewrite Rpower_pow by auto. replace (x ^ 2) with (x * x) by ring. apply lre_mul; auto.
Qed.
Lemma vol55 : / 10 ^ 8 <= dc Om0 w0 wa h z -> npos 2990 (differential_comoving_volume_at_z (Fin z) (Fin Om0) (Fin w0) (Fin wa) (Fin h)) (hubble_dist h * dc Om0 w0 wa h z ^ 2 / E).
Proof.
  intros DL. destruct (RC' z Om0 w0 wa h RC) as (Rz & RO & R0 & Ra & Rh & Z & HO & W0 & Wa & Hh). destruct Ez55 as (E1 & ER). destruct dh55 as (D1 & DR). pose proof (proj2 (dc_err u H z Om0 w0 wa h RC)) as CR. pose proof (da_err u H z Om0 w0 wa h RC) as DA. pose proof (zp1_err u H z Om0 w0 wa h RC) as Z1. assert (Z0 : 0 < z) by (simpl in Z; lra).
  unfold differential_comoving_volume_at_z. cbv zeta. set (e := Ez _ _ _ _) in *. clearbody e. set (x := E) in *. clearbody x. set (zp := (Fin 1 + Fin z)%num) in *. clearbody zp.
  set (hd := hubble_distance_mpc _) in *. clearbody hd. set (ad := angular_diameter_distance_to_z _ _ _ _ _) in *. clearbody ad. set (d := dc Om0 w0 wa h z) in *. clearbody d. set (dh := hubble_dist h) in *. clearbody dh.
  assert (C : npos 1439.2 (zp * ad)%num d). { replace d with ((1 + z) * (d / (1 + z))) at 1 by (field; lra). apply (npos_weaken u H) with (1.02 + 1437.1 + 1.02); [|lra]. apply npos_mul; auto; [lra|]. replace ((1 + z) * (d / (1 + z))) with d by (field; lra). apply range16. pose proof (p16 16 ltac:(lia)). assert (/ 10 ^ 16 <= / 10 ^ 8) by (apply Rinv_le_contravar; [apply pow_lt; lra|apply Rle_pow; [lra|lia]]). simpl in *; lra. }
  assert (D2 : / 10 ^ 8 * / 10 ^ 8 <= d * d <= 10 ^ 8 * 10 ^ 8) by (apply mul_range; try lra; apply Rinv_0_lt_compat, pow_lt; lra).
  assert (D3 : 200 * (/ 10 ^ 8 * / 10 ^ 8) <= dh * (d * d) <= 30000 * (10 ^ 8 * 10 ^ 8)) by (apply mul_range; try lra; simpl; lra).
  assert (D4 : 200 * (/ 10 ^ 8 * / 10 ^ 8) / (4 * 10 ^ 8) <= dh * (d * d) / x <= 30000 * (10 ^ 8 * 10 ^ 8) / / 100) by (apply div_range; try lra; simpl; lra).
  replace (d ^ 2) with (d * d) by ring. assert (T : 10 ^ 18 * 10 ^ 18 <= 10 ^ 36) by (rewrite <- pow_add; apply Rle_pow; [lra|lia]). assert (T' : / 10 ^ 24 = / 10 ^ 12 * / 10 ^ 12) by (rewrite <- Rinv_mult, <- pow_add; reflexivity).
  apply (npos_weaken u H) with ((3.1 + (1439.2 + 1439.2 + 1.02) + 1.02) + 95 + 1.02); [|lra].
  apply npos_div; auto; [|lra|simpl in *; lra]. apply npos_mul; auto; [|lra|simpl in *; lra]. apply npow2_npos; auto; [lra|simpl in *; lra].
Qed.
Lemma delta55 : exists om, Om_at_z (Fin z) (Fin Om0) (Fin w0) (Fin wa) = om
  /\ npos 680 (let x := (om - Fin 1)%num in (lit (18 * PI ^ 2) + Fin 82 * x - Fin 39 * x ^i 2)%num) (dvir (omz Om0 w0 wa z)).
Proof.
  destruct om55 as (O1 & OR). eexists. split; [reflexivity|]. cbv zeta. set (om := Om_at_z _ _ _ _) in *. clearbody om. set (o := omz Om0 w0 wa z) in *. clearbody o. pose proof (dvir_range o OR) as DR. pose proof (upos u H) as U.
  pose proof (npos_near u H _ _ _ 1 O1 ltac:(lra) ltac:(lra)) as N1. pose proof PI_lb as PL. pose proof PI_4 as PU. assert (P2 : 3 * 3 <= PI * PI <= 4 * 4) by (apply mul_range; lra).
  assert (X1 : near (om - Fin 1)%num (o - 1) 202 1).
  { destruct N1 as (y & -> & Ry & Ey & My). unfold nsub. cbn [nopp nadd]. assert (XB : Rabs (o - 1) <= 1) by (apply Rabs_le; lra). eapply (near_rnd u H) with (d := 199.4) (B := 1.1); try (simpl; lra). replace (y + - (1) - (o - 1)) with (y - o) by ring. eapply Rle_trans; [exact Ey|]. apply Rmult_le_compat_r; lra. }
  set (x := (om - Fin 1)%num) in *. clearbody x. set (xx := o - 1) in *. 
  assert (X2 : near (x * x)%num (xx * xx) 406 1) by (eapply (near_mul u H) with (B := 1.1); eauto; simpl; lra).
  assert (X3 : near (Fin 82 * x)%num (82 * xx) 16700 82) by (eapply (near_mul u H) with (M := 82) (e := 0) (B := 83); [apply (near_machine u); [apply (machine_int u H 82); lia|rewrite Rabs_right; lra]|exact X1| | | | | | | |]; simpl; lra).
  assert (X4 : near (Fin 39 * (x * x))%num (39 * (xx * xx)) 15900 39) by (eapply (near_mul u H) with (M := 39) (e := 0) (B := 40); [apply (near_machine u); [apply (machine_int u H 39); lia|rewrite Rabs_right; lra]|exact X2| | | | | | | |]; simpl; lra).
  assert (L : near (lit (18 * PI ^ 2)) (18 * PI ^ 2) (1.001 * 288) 288) by (apply (near_lit u H); [replace (PI ^ 2) with (PI * PI) by ring; rewrite Rabs_right; lra|]; split; [lra|apply Rle_trans with (10 ^ 3); [simpl; lra|apply Rle_pow; [lra|lia]]]).
  assert (B35 : 1 <= 371 <= 10 ^ 35 /\ 1 <= 411 <= 10 ^ 35) by (split; (split; [lra|apply Rle_trans with (10 ^ 3); [simpl; lra|apply Rle_pow; [lra|lia]]])).
  assert (S1 : near (lit (18 * PI ^ 2) + Fin 82 * x)%num (18 * PI ^ 2 + 82 * xx) 17400 370) by (eapply (near_add u H) with (B := 371); [exact L|exact X3| | | | |apply B35|]; simpl; lra).
  assert (S2 : near (lit (18 * PI ^ 2) + Fin 82 * x - Fin 39 * (x * x))%num (18 * PI ^ 2 + 82 * xx - 39 * (xx * xx)) 33800 409) by (eapply (near_sub u H) with (B := 411); [exact S1|exact X4| | | | |apply B35|]; simpl; lra).
  unfold ipow. cbn [ipow_acc]. destruct S2 as (y & -> & Ry & Ey & _). exists y. split; auto. split; auto.
  replace (18 * PI ^ 2 + 82 * xx - 39 * (xx * xx)) with (dvir o) in Ey by (unfold dvir, xx; ring).
  apply (lre_weaken u H) with (1.002 * (33800 / 56)); [|lra]. apply (lre_abs u); [lra| |].
  - eapply Rle_trans; [exact Ey|]. replace (33800 / 56 * u * dvir o) with (33800 * u * (dvir o / 56)) by lra. rewrite <- (Rmult_1_r (33800 * u)) at 1. apply Rmult_le_compat_l; [apply Rmult_le_pos; lra|lra].
  - apply Rle_trans with (33800 / 56 * / (4 * 10 ^ 6)); [apply Rmult_le_compat_l; lra|simpl; lra].
Qed.
Lemma vir55 : npos 500 (lit (Rpower 2 1.5) * hubble_time (Fin z) (Fin Om0) (Fin w0) (Fin wa) (Fin h)
    * npow (let x := (Om_at_z (Fin z) (Fin Om0) (Fin w0) (Fin wa) - Fin 1)%num in (lit (18 * PI ^ 2) + Fin 82 * x - Fin 39 * x ^i 2)%num) (Fin (-1/2)))%num (tvir Om0 w0 wa h z).
Proof.
  destruct th55 as (T & TR). destruct delta55 as (om & -> & D). destruct om55 as (_ & OR). cbv zeta in *. set (dv := (_ - _)%num) in D |- *. clearbody dv. pose proof (dvir_range _ OR) as DR. pose proof PI_4 as PU. pose proof PI_lb as PL. unfold tvir. set (dd := dvir _) in *. clearbody dd.
  set (t := hubble_time _ _ _ _ _) in *. clearbody t. set (tt := tH h / E) in *. clearbody tt.
  assert (PB : 18 * PI ^ 2 <= 288). { assert (P2 : PI * PI <= 4 * 4) by (apply Rmult_le_compat; lra). simpl. lra. }
  assert (PW : / 1000 <= Rpower dd (-1/2) <= 1).
  { replace (-1/2) with (- (/ 2)) by lra. rewrite Rpower_Ropp, Rpower_sqrt by lra. assert (S : 1 <= sqrt dd <= 17). { split; [rewrite <- sqrt_1; apply sqrt_le_1_alt; lra|]. rewrite <- (sqrt_pow2 17) by lra. apply sqrt_le_1_alt. simpl. lra. }
    split; [apply Rinv_le_contravar; lra|]. rewrite <- Rinv_1. apply Rinv_le_contravar; lra. }
  assert (P15 : 1 <= Rpower 2 1.5 <= 4). { split; [rewrite <- (Rpower_O 2) by lra; apply Rle_Rpower; lra|]. replace 4 with (2 ^ 2) by lra. rewrite <- Rpower_pow by lra. apply Rle_Rpower; simpl; lra. }
  assert (M12 : rnd (-1/2) = Fin (-1/2)). { apply (rnd_dy G (-1) 1); [lia|lia|simpl; lra]. }
  assert (PN : npos 342 (npow dv (Fin (-1/2))) (Rpower dd (-1/2))).
  { apply (npos_weaken u H) with ((1/2 + 0 / (4 * 10 ^ 6)) * 680 + 0 * Rabs (ln dd) + 1.02); [|lra]. apply (npow_npos u H); auto; try lra.
    - apply (near_machine u); auto. rewrite Rabs_left; lra. }
  set (pw := npow _ _) in *. clearbody pw. set (P := Rpower dd _) in *. clearbody P. set (q := Rpower 2 1.5) in *. clearbody q.
  assert (R1 : 1 * (10 ^ 1 / 10 ^ 10) <= q * tt <= 4 * 10 ^ 5) by (apply mul_range; simpl in *; lra). assert (R2 : 1 * (10 ^ 1 / 10 ^ 10) * / 1000 <= q * tt * P <= 4 * 10 ^ 5 * 1) by (apply mul_range; simpl in *; lra).
  apply (npos_weaken u H) with ((1.02 + 99 + 1.02) + 342 + 1.02); [|lra]. apply npos_mul; auto; [|lra|apply range16; simpl in *; lra]. apply npos_mul; auto; [apply npos_lit; auto; apply range16; simpl; lra|lra|apply range16; simpl in *; lra].
Qed.
End C.
End F.
