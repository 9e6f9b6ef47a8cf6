(** * The age of the universe in rounded arithmetic: grid and result *)
From Coq Require Import Reals List Arith Lra Lia ZArith Bool.
From Coquelicot Require Import Coquelicot.
From Flocq Require Import Core.Raux.
From Verif Require Import Num Arr MUtils MSed MCosmo Float Spec SpecFloat SpecFloat2 RList LUtils LFloat LFloat2 LFloat10 LRound1 LRound2 LRound3 LRound6 LRound14 LRound15 LRound21 LRound22 LRound23 LRound24 LRound25 LRound27 LCosmo LImf.
Import ListNotations.
Open Scope R_scope.

Lemma P1000 : pow10 3 = 1000.
Proof. unfold pow10. replace 3 with (INR 3) by (simpl; lra). rewrite Rpower_pow by lra. lra. Qed.
Lemma agrid_ent i : (i < 512)%nat -> ent agrid i = pow10 (ent (grid 512 3) i) - 1 /\ 1 <= pow10 (ent (grid 512 3) i) <= 1000.
Proof.
  intros Hi. split; [unfold agrid; rewrite ent_map; auto; now rewrite grid_length|]. pose proof (grid_range 512 3 i n512 Hi ltac:(lra)) as Gr.
  pose proof (pow10_le 0 (ent (grid 512 3) i) ltac:(lra)) as P1. rewrite pow10_0 in P1. pose proof (pow10_le (ent (grid 512 3) i) 3 ltac:(lra)) as P2. rewrite P1000 in P2. lra.
Qed.
Lemma agrid_step i : (S i < 512)%nat -> 11/1000 * (1 + ent agrid (S i)) <= ent agrid (S i) - ent agrid i.
Proof.
  intros Hi. destruct (agrid_ent i ltac:(lia)) as (E0 & B0). destruct (agrid_ent (S i) Hi) as (E1 & B1). rewrite E0, E1. pose proof (grid_step 512 3 i n512 Hi) as GS. replace (INR (512 - 1)) with 511 in GS by (rewrite INR_IZR_INZ; reflexivity).
  set (a := ent (grid 512 3) i) in *. set (b := ent (grid 512 3) (S i)) in *. assert (E : pow10 a = pow10 b * pow10 (- (3/511))). { unfold pow10. rewrite <- Rpower_plus. f_equal. lra. }
  assert (P : pow10 (- (3/511)) <= 0.989). { unfold pow10, Rpower. replace (- (3/511) * ln 10) with (- (3/511 * ln 10)) by ring. rewrite exp_Ropp. pose proof ln10_ge. assert (X : 1.0117 <= exp (3/511 * ln 10)) by (pose proof (exp_ge1 (3/511 * ln 10)); lra). apply Rle_trans with (/ 1.0117); [apply Rinv_le_contravar; lra|lra]. }
  assert (pow10 b * pow10 (- (3/511)) <= pow10 b * 0.989) by (apply Rmult_le_compat_l; lra). lra.
Qed.
Section F.
Context {AR : Arith} (u : R) (H : rel_err AR u).
Notation G := (re_good _ _ H).
Notation lre := (lre u).
Notation npos := (npos (AR := AR) u).
Notation near := (near (AR := AR) u).
Lemma m10 : rnd 10 = Fin 10. Proof. apply (rnd_dy G 10 0); [lia|lia|simpl; lra]. Qed.
Lemma m3 : rnd 3 = Fin 3. Proof. apply (rnd_dy G 3 0); [lia|lia|simpl; lra]. Qed.
Lemma agrid_err : exists xs, map (fun x => x - Fin 1)%num (logspace (Fin 0) (Fin 3) 512) = fins xs /\ length xs = 512%nat
  /\ forall i, (i < 512)%nat -> rnd (ent xs i) = Fin (ent xs i) /\ Rabs (ent xs i - ent agrid i) <= 18 * u * (1 + ent agrid i).
Proof.
  pose proof (upos u H) as U. destruct (grid_err u H 512 3 ltac:(lia) m3 ltac:(simpl; lra)) as (ls & El & Ll & HL). unfold logspace. rewrite El.
  set (F := fun l => (npow10 (Fin l) - Fin 1)%num). set (xs := map (fun l => fval (F l)) ls).
  assert (Q : forall i, (i < 512)%nat -> exists x, F (ent ls i) = Fin x /\ rnd x = Fin x /\ Rabs (x - ent agrid i) <= 18 * u * (1 + ent agrid i)).
  { intros i Hi. destruct (HL i Hi) as (Rl & Dl). destruct (agrid_ent i Hi) as (Ea & Ba). rewrite Ea. pose proof (grid_range 512 3 i n512 Hi ltac:(lra)) as Gr. set (l := ent (grid 512 3) i) in *. clearbody l. set (l' := ent ls i) in *. clearbody l'.
    assert (NL : near (Fin l') l 6.2 3). { exists l'. split; auto. split; auto. split; [|apply Rabs_le; lra]. eapply Rle_trans; [exact Dl|]. assert (u * l <= u * 3) by (apply Rmult_le_compat_l; lra). lra. }
    assert (NP : npos 16.6 (npow10 (Fin l')) (pow10 l)).
    { unfold npow10, pow10 in *. apply (npos_weaken u H) with ((3 + 6.2 / (4 * 10 ^ 6)) * 0 + 6.2 * 2.5 + 1.02); [|lra]. apply npow_npos; auto.
      - apply npos_machine; [apply m10|lra]. - assert (/ 10 ^ 20 <= 1) by (rewrite <- Rinv_1; apply Rinv_le_contravar; [lra|apply pow_R1_Rle; lra]). assert (1000 <= 10 ^ 20) by (apply Rle_trans with (10 ^ 3); [simpl; lra|apply Rle_pow; [lra|lia]]). lra.
      - pose proof ln10_ge. pose proof ln10_le. apply Rabs_le. lra. - lra. - lra. - simpl. lra. }
    destruct NP as (y & Ey & Ry & Ly). pose proof (lre_diff u H _ _ _ Ly ltac:(simpl in U; lra) ltac:(lra)) as Dy. unfold F. rewrite Ey. cbn [nsub nopp nadd]. set (P := pow10 l) in *. clearbody P.
    assert (UP : u * P <= / (4 * 10 ^ 6) * 1000) by (apply Rmult_le_compat; lra). assert (U0 : 0 <= u * P) by (apply Rmult_le_pos; lra). simpl (10 ^ 6) in UP.
    replace (1.002 * 16.6 * u * P) with (16.6332 * (u * P)) in Dy by lra.
    destruct (rnd_range _ G (y + - (1))) as (x & Ex). { apply Rle_trans with (10 ^ 4); [|apply Rle_pow; [lra|lia]]. apply Rabs_le_inv in Dy. apply Rabs_le. simpl. lra. }
    exists x. split; auto. split; [eapply (rnd_idem _ G); eauto|]. assert (R1 : rnd (- (1)) = Fin (- (1))) by (rewrite (rnd_opp _ G), (rnd1 G); reflexivity). assert (SF : safe_sum y (- (1))) by (apply safe_big_r; rewrite Rabs_Ropp, Rabs_R1; simpl; lra). pose proof (re_add _ _ H _ _ _ Ry R1 Ex SF) as Dx.
    assert (AB : Rabs (y + - (1)) <= 1.3 * P). { apply Rabs_le_inv in Dy. apply Rabs_le. simpl in U. assert (16.6332 * (u * P) <= 0.1 * P). { replace (16.6332 * (u * P)) with (16.6332 * u * P) by ring. apply Rmult_le_compat_r; lra. } lra. }
    assert (u * Rabs (y + - (1)) <= u * (1.3 * P)) by (apply Rmult_le_compat_l; lra). replace (18 * u * (1 + (P - 1))) with (18 * (u * P)) by ring.
    replace (x - (P - 1)) with ((x - (y + - (1))) + (y - P)) by ring. eapply Rle_trans; [apply Rabs_triang|]. lra. }
  exists xs. assert (Lx : length xs = 512%nat) by (unfold xs; now rewrite map_length).
  assert (EX : forall i, (i < 512)%nat -> ent xs i = fval (F (ent ls i))) by (intros i Hi; unfold xs, ent; rewrite (nth_indep _ 0 (fval (F 0))) by (rewrite map_length, Ll; auto); now rewrite (map_nth (fun l => fval (F l)))).
  split; [|split; auto].
  - unfold xs, fins. rewrite !map_map. apply map_ext_in. intros l Hl. apply In_ent in Hl. destruct Hl as (i & Hi & <-). rewrite Ll in Hi. destruct (Q i Hi) as (x & E & _). unfold F in *. now rewrite E.
  - intros i Hi. rewrite EX by auto. destruct (Q i Hi) as (x & E & R & D). rewrite E. cbn [fval]. auto.
Qed.
Lemma agrid_len : length agrid = 512%nat. Proof. unfold agrid. now rewrite map_length, grid_length. Qed.
Section C.
Variables (z Om0 w0 wa h : R).
Hypothesis RC : rounding_cosmology (AR := AR) z Om0 w0 wa h.
Hypothesis W : w0 <= 0.
Lemma age0_err : npos 4230 (age_at_z0 (Fin Om0) (Fin w0) (Fin wa) (Fin h)) (age0 Om0 w0 wa h) /\ / 2 * / 10 ^ 21 <= age0 Om0 w0 wa h <= 10 ^ 22.
Proof.
  pose proof (upos u H) as U. destruct RC as (Rz & RO & R0 & Ra & Rh & Z & HO & W0 & Wa & Hh). assert (HO' : / 1000 <= Om0 <= 999 / 1000) by lra. assert (W0' : -2 <= w0 <= 0) by lra.
  destruct agrid_err as (xs & Ex & Lx & HX). set (F := fun z => (Fin 1 / Ez z (Fin Om0) (Fin w0) (Fin wa) / (Fin 1 + z))%num).
  assert (Q : forall i, (i < 512)%nat -> npos 307 (F (Fin (ent xs i))) (f2 Om0 w0 wa (ent agrid i)) /\ / 10 ^ 15 <= f2 Om0 w0 wa (ent agrid i) <= 10 ^ 10).
  { intros i Hi. destruct (HX i Hi) as (Rx & Dx). assert (X : 0 <= ent agrid i <= 999) by (destruct (agrid_ent i Hi); lra). destruct (f2_range3 Om0 w0 wa _ HO' W0' Wa X) as (B & _). split; [now apply (f2_err3 u H)|]. assert (100 <= 10 ^ 10) by (simpl; lra). lra. }
  set (ys := map (fun x => fval (F (Fin x))) xs). assert (Ly : length ys = 512%nat) by (unfold ys; now rewrite map_length).
  assert (EY : map F (fins xs) = fins ys). { unfold ys, fins. rewrite !map_map. apply map_ext_in. intros x Hx. apply In_ent in Hx. destruct Hx as (i & Hi & <-). rewrite Lx in Hi. destruct (Q i Hi) as ((y & E & _) & _). now rewrite E. }
  assert (Ey : forall i, (i < 512)%nat -> ent ys i = fval (F (Fin (ent xs i)))) by (intros i Hi; unfold ys, ent; rewrite (nth_indep _ 0 (fval (F (Fin 0)))) by (rewrite map_length, Lx; auto); now rewrite (map_nth (fun x => fval (F (Fin x))))).
  destruct (trapz_err u H 512 agrid (map (f2 Om0 w0 wa) agrid) xs ys 3290 307) as (T & TB); try lra; try lia; [apply agrid_len|rewrite map_length; apply agrid_len| | |].
  - intros i Hi. destruct (HX i ltac:(lia)) as (Rx0 & Dx0). destruct (HX (S i) ltac:(lia)) as (Rx1 & Dx1). pose proof (agrid_step i ltac:(lia)) as ST. destruct (agrid_ent i ltac:(lia)) as (Ea0 & Ba0). destruct (agrid_ent (S i) ltac:(lia)) as (Ea1 & Ba1).
    set (A := ent agrid i) in *. set (B := ent agrid (S i)) in *. clearbody A B. set (D := B - A) in *. assert (DB : 11/1000 <= D <= 1000) by (unfold D in *; lra). assert (AB0 : 0 <= A <= B) by (unfold D in *; lra). clear Ea0 Ea1 HX. split; [|assert (/ 10 ^ 5 <= 11/1000) by (simpl; lra); lra].
    apply (npos_weaken u H) with (1.002 * 3276 + 1.02); [|lra]. apply sub_npos; auto; [| |lra|apply Rle_trans with (10 ^ 3); [apply Rle_trans with 1000; [lra|simpl; lra]|apply Rle_pow; [lra|lia]]].
    { apply Rabs_le_inv in Dx1. assert (18 * u * (1 + B) <= 0.001 * (1 + B)) by (apply Rmult_le_compat_r; simpl in U; lra). apply Rle_trans with (1/1000); [simpl; lra|]. rewrite Rabs_right; unfold D in *; lra. }
    apply lre_abs; [lra| |simpl in U; lra]. assert (S1 : 18 * u * (1 + A) <= 18 * u * (1 + B)) by (apply Rmult_le_compat_l; lra).
    assert (S2 : u * (11/1000 * (1 + B)) <= u * D) by (apply Rmult_le_compat_l; lra). replace (ent xs (S i) - ent xs i - D) with ((ent xs (S i) - B) - (ent xs i - A)) by (unfold D; ring). unfold Rminus at 1. eapply Rle_trans; [apply Rabs_triang|]. rewrite Rabs_Ropp. assert (0 <= u * B) by (apply Rmult_le_pos; lra). lra.
  - intros i Hi. rewrite ent_map by (rewrite agrid_len; auto). rewrite Ey by auto. destruct (Q i Hi) as ((y & E & Ry & L) & B). split; auto. rewrite E. cbn [fval]. exists y. auto.
  - fold (aint Om0 w0 wa) in T, TB. replace (INR (512 - 1)) with 511 in T by (rewrite INR_IZR_INZ; reflexivity). destruct (tH_err u H z Om0 w0 wa h RC) as (TH & THR).
    unfold age_at_z0. cbv zeta. rewrite Ex. change (map (fun z0 : num => (Fin 1 / Ez z0 (Fin Om0) (Fin w0) (Fin wa) / (Fin 1 + z0))%num) (fins xs)) with (map F (fins xs)). rewrite EY. set (v := trapz_k _ _) in *. clearbody v. set (t := hubble_time _ _ _ _ _) in *. clearbody t. unfold age0.
    assert (P21 : 0 < / 10 ^ 21) by (apply Rinv_0_lt_compat, pow_lt; lra). assert (M : / 2 * / 10 ^ 21 <= tH h * aint Om0 w0 wa <= 1000 * 10 ^ 18) by (apply mul_range; lra). assert (M2 : / 10 ^ 24 <= / 2 * / 10 ^ 21) by (replace (10 ^ 24) with (1000 * 10 ^ 21) by (simpl; ring); rewrite Rinv_mult; lra). assert (10 ^ 22 <= 10 ^ 36) by (apply Rle_pow; [lra|lia]). assert (1000 * 10 ^ 18 <= 10 ^ 22) by (simpl; lra).
    split; [|lra]. eapply (npos_weaken u H); [apply npos_mul; [exact H|exact TH|exact T|lra|lra]|lra].
Qed.
End C.
End F.
Lemma C139_age_lemma : forall AR u, accurate_to AR u -> forall z Om0 w0 wa h, rounding_cosmology (AR := AR) z Om0 w0 wa h -> w0 <= 0 ->
  exists t t0 tl0 a a0,
    age_at_z0 (AR := AR) (Fin Om0) (Fin w0) (Fin wa) (Fin h) = Fin t
    /\ age_at_z0 (AR := exact) (Fin Om0) (Fin w0) (Fin wa) (Fin h) = Fin t0
    /\ 0 < t0 /\ Rabs (t - t0) <= 4250 * u * t0
    /\ lookback_to_z (AR := exact) (Fin z) (Fin Om0) (Fin w0) (Fin wa) (Fin h) = Fin tl0
    /\ age_at_z (AR := AR) (Scalar (Fin z)) (Fin Om0) (Fin w0) (Fin wa) (Fin h) = [Fin a]
    /\ age_at_z (AR := exact) (Scalar (Fin z)) (Fin Om0) (Fin w0) (Fin wa) (Fin h) = [Fin a0]
    /\ a0 = t0 - tl0 /\ Rabs (a - a0) <= 4250 * u * (t0 + tl0).
Proof.
  intros AR u U z Om0 w0 wa h RC W. pose proof (rel_err_unit _ _ U) as H. destruct (RC_om _ _ _ _ _ RC) as (Z0 & Z1 & HO & Hh & _). pose proof (upos u H) as Up.
  destruct (age0_err u H _ _ _ _ _ RC W) as ((t & Et & Rt & Lt) & BT'). assert (BT : 0 < age0 Om0 w0 wa h <= 10 ^ 22) by (assert (0 < / 10 ^ 21) by (apply Rinv_0_lt_compat, pow_lt; lra); lra). destruct (look_err u H _ _ _ _ _ RC) as ((l & El & Rl & Ll) & BL).
  pose proof (lre_diff u H _ _ _ Lt ltac:(simpl in Up; lra) ltac:(lra)) as Dt. pose proof (lre_diff u H _ _ _ Ll ltac:(simpl in Up; lra) ltac:(lra)) as Dl.
  set (T := age0 Om0 w0 wa h) in *. set (L := look Om0 w0 wa h z) in *. assert (UT : 0 < u * T) by (apply Rmult_lt_0_compat; lra). assert (UL : 0 < u * L) by (apply Rmult_lt_0_compat; lra).
  assert (UT' : u * T <= / (4 * 10 ^ 6) * T) by (apply Rmult_le_compat_r; lra). assert (UL' : u * L <= / (4 * 10 ^ 6) * L) by (apply Rmult_le_compat_r; lra). simpl (10 ^ 6) in UT', UL'.
  replace (1.002 * 4230 * u * T) with (4238.46 * (u * T)) in Dt by lra. replace (1.002 * 2870 * u * L) with (2875.74 * (u * L)) in Dl by lra.
  assert (AB : Rabs (t + - l) <= 1.01 * (T + L)) by (apply Rabs_le_inv in Dt; apply Rabs_le_inv in Dl; apply Rabs_le; lra).
  destruct (rnd_range _ (re_good _ _ H) (t + - l)) as (a & Ea). { eapply Rle_trans; [exact AB|]. assert (10 ^ 22 <= 10 ^ 24) by (apply Rle_pow; [lra|lia]). assert (10 ^ 7 <= 10 ^ 24) by (apply Rle_pow; [lra|lia]). apply Rle_trans with (1.01 * (2 * 10 ^ 24)); [lra|]. apply Rle_trans with (10 ^ 26); [simpl; lra|apply Rle_pow; [lra|lia]]. }
  assert (Rl' : rnd (- l) = Fin (- l)) by (rewrite (rnd_opp _ (re_good _ _ H)), Rl; reflexivity). assert (SF : safe_sum t (- l)) by (apply safe_big_l; rewrite Rabs_right by (apply Rabs_le_inv in Dt; lra); apply Rabs_le_inv in Dt; replace (/ 10 ^ 22) with (/ 10 ^ 21 * / 10) by (rewrite <- Rinv_mult; f_equal; simpl; ring); lra). pose proof (re_add _ _ H _ _ _ Rt Rl' Ea SF) as Da.
  exists t, T, L, a, (T - L). split; auto. split; [now apply age0_fin|]. split; [lra|]. split; [replace (4250 * u * T) with (4250 * (u * T)) by ring; lra|]. split; [now apply lookback_fin|]. split; [|split; [|split; auto]].
  - unfold age_at_z. cbn [atleast_1d map]. unfold age_at_z_kern. rewrite Et, El. cbn [nsub nopp nadd]. now rewrite Ea.
  - unfold age_at_z. cbn [atleast_1d map]. now rewrite agekern_fin by auto.
  - assert (u * Rabs (t + - l) <= u * (1.01 * (T + L))) by (apply Rmult_le_compat_l; lra). replace (4250 * u * (T + L)) with (4250 * (u * T) + 4250 * (u * L)) by ring. replace (u * (1.01 * (T + L))) with (1.01 * (u * T) + 1.01 * (u * L)) in * by lra.
    replace (a - (T - L)) with ((a - (t + - l)) + (t - T) - (l - L)) by ring. apply Rabs_le_inv in Dt. apply Rabs_le_inv in Dl. apply Rabs_le_inv in Da. apply Rabs_le. lra.
Qed.
