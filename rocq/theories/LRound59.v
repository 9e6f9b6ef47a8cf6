(** * Rounding error of the effective wavelength of a filter *)
From Coq Require Import Reals List Arith Lra Lia ZArith Bool.
From Coquelicot Require Import Rcomplements.
From Flocq Require Import Core.Raux.
From Verif Require Import Num Arr MUtils MCosmo MDust MPhot Float Spec SpecFloat SpecFloat2 RList LBcast LUtils LKern2 LBurst LPhot LDust LFloat LFloat2 LFloat3 LFloat4 LFloat5 LFloat10 LRound1 LRound2 LRound3 LRound4 LRound7 LRound8 LRound12 LRound14 LRound15 LRound16 LRound17 LRound18 LRound19 LCalc LKern LRound6 LRound21 LRound23 LRound24 LRound25 LRound26 LRound35 LRound52 LRound56 LRound57 SpecFloat8 LFake2 LFloat9.
Import ListNotations.
Open Scope R_scope.

Lemma quot_rel a b X Y e f : 0 < X -> 0 < Y -> 0 <= e -> 0 <= f < 1 -> Rabs (a - X) <= e * X -> Rabs (b - Y) <= f * Y ->
  0 < b /\ Rabs (a / b - X / Y) <= (e + f) / (1 - f) * (X / Y).
Proof.
  intros HX HY He Hf A B. assert (B' := B). apply Rabs_le_inv in B'. assert (Hb : (1 - f) * Y <= b) by lra.
  assert (P : 0 < (1 - f) * Y) by (apply Rmult_lt_0_compat; lra). assert (Pb : 0 < b) by lra. split; [exact Pb|].
  replace (a / b - X / Y) with (((a - X) * Y - X * (b - Y)) * / (b * Y)) by (field; lra).
  rewrite Rabs_mult, (Rabs_right (/ (b * Y))) by (apply Rle_ge, Rlt_le, Rinv_0_lt_compat, Rmult_lt_0_compat; lra).
  assert (Q : Rabs ((a - X) * Y - X * (b - Y)) <= (e + f) * (X * Y)).
  { unfold Rminus at 1. eapply Rle_trans; [apply Rabs_triang|]. rewrite Rabs_Ropp, !Rabs_mult, (Rabs_right X), (Rabs_right Y) by lra.
    assert (Rabs (a - X) * Y <= e * X * Y) by (apply Rmult_le_compat_r; lra). assert (X * Rabs (b - Y) <= X * (f * Y)) by (apply Rmult_le_compat_l; lra). lra. }
  apply Rle_trans with ((e + f) * (X * Y) * / (b * Y)); [apply Rmult_le_compat_r; [apply Rlt_le, Rinv_0_lt_compat, Rmult_lt_0_compat; lra|exact Q]|].
  replace ((e + f) * (X * Y) * / (b * Y)) with ((e + f) * X * / b) by (field; lra).
  replace ((e + f) / (1 - f) * (X / Y)) with ((e + f) * X * / ((1 - f) * Y)) by (field; lra).
  apply Rmult_le_compat_l; [apply Rmult_le_pos; lra|]. apply Rinv_le; lra.
Qed.
Section F.
Context {AR : Arith} (u : R) (H : rel_err AR u).
Notation G := (re_good _ _ H).

Lemma rnd_pos x : 0 < x -> / 10 ^ 20 <= x <= 10 ^ 35 -> exists y, rnd x = Fin y /\ Rabs (y - x) <= 1.001 * u * x.
Proof.
  intros P B. destruct (rnd_err_S u H x x) as (y & E & A & _); [rewrite Rabs_right; lra|exact B|]. exists y. split; [exact E|]. lra.
Qed.

Lemma eff_err wf tf z : rounding_filter wf tf -> rnd z = Fin z -> 0 <= z <= 20 ->
  exists lam, get_filter_effective_wavelength (fins wf) (fins tf) (Fin z) = Ok (Fin lam)
    /\ let l0 := trapezoid wf (Rtimes tf wf) / trapezoid wf tf / (1 + z) in 0 < l0 /\ Rabs (lam - l0) <= (2.5 * INR (length wf) + 17) * u * l0.
Proof.
  intros RF Rz Hz. destruct (filter_split wf tf RF) as (((IX & GX) & L & LN & FT) & HI & _). pose proof (u_le u H) as Hu. pose proof (tiny_u u H) as Ht.
  set (n := length wf) in *. set (I := trapezoid wf tf). set (N := trapezoid wf (Rtimes tf wf)).
  assert (NE : wf <> []) by (intros ->; simpl in n; unfold n in LN; lia).
  assert (ET : forall Z : nat -> R, length wf = length (map Z (seq 0 n))) by (intros; rewrite map_length, seq_length; reflexivity).
  assert (EI : I = trapezoid wf (map (ent tf) (seq 0 n))) by (unfold I; rewrite (list_seq tf) at 1; do 3 f_equal; now symmetry).
  assert (I4 : 1 / 10 ^ 4 <= I).
  { eapply Rle_trans; [exact HI|]. rewrite EI. unfold band_integral. apply trapezoid_le; auto. intros i Hi. rewrite !ent_map_seq by auto. cbn [Nat.add]. fold n in Hi.
    destruct (FT i ltac:(unfold n in Hi; lia)) as (_ & T2). destruct (GX i Hi) as (_ & X2). unfold Rdiv. rewrite Rmult_1_r. rewrite <- (Rmult_1_r (ent tf i)) at 2. apply Rmult_le_compat_l; [lra|]. rewrite <- Rinv_1. apply Rinv_le; lra. }
  assert (SP : 0 <= ent wf (n - 1) - ent wf 0 <= 10 ^ 6).
  { destruct (GX 0%nat ltac:(unfold n in *; lia)) as (_ & X0). destruct (GX (n - 1)%nat ltac:(unfold n in *; lia)) as (_ & X1). assert (ent wf 0 <= ent wf (n - 1)) by (apply (increasing_le wf); auto; unfold n in *; lia). lra. }
  assert (I6 : I <= 10 ^ 6).
  { rewrite EI. apply Rle_trans with (1 * (ent wf (n - 1) - ent wf 0)); [|lra]. unfold n. rewrite <- trapezoid_const by (fold n; lia). apply trapezoid_le; auto. intros i Hi. rewrite !ent_map_seq by auto. cbn [Nat.add]. destruct (FT i ltac:(lia)) as (_ & T2). lra. }
  assert (BN : I <= N <= 10 ^ 6 * I).
  { pose proof (eff_bounds wf tf L IX NE) as B. fold I N in B. assert (PT : List.Forall (fun x => 0 <= x) tf) by (apply Forall_ent; intros i Hi; apply FT; lia). specialize (B PT).
    destruct (GX 0%nat ltac:(unfold n in *; lia)) as (_ & X0). destruct (GX (length wf - 1)%nat ltac:(unfold n in *; lia)) as (_ & X1). simpl (10 ^ 4) in I4.
    assert (1 * I <= ent wf 0 * I) by (apply Rmult_le_compat_r; lra). assert (ent wf (length wf - 1) * I <= 10 ^ 6 * I) by (apply Rmult_le_compat_r; lra). lra. }
  assert (I0 : 0.0001 <= I) by (simpl (10 ^ 4) in I4; lra).
  pose proof (n_u u H n ltac:(unfold n in *; lia)) as NU. assert (M1 : 1 <= INR n) by (apply (le_INR 1); lia).
  assert (P18 : / 10 ^ 18 <= 0.0001) by (simpl; lra). assert (P36 : 10 ^ 12 <= 10 ^ 36) by (apply Rle_pow; [lra|lia]).
  (* the normalization *)
  destruct (trapz_err u H wf tf (ent tf) (ent tf) 0 ltac:(split; auto) L LN ltac:(simpl; lra)) as (b & Eb & Rb & Ab).
  { intros i Hi. destruct (FT i ltac:(lia)) as (T1 & T2). split; auto. unfold Rminus. rewrite Rplus_opp_r, Rabs_R0. split; [lra|]. rewrite Rabs_right by lra. split; [lra|]. apply Rle_trans with 1; [lra|apply pow_R1_Rle; lra]. }
  { fold n. rewrite <- EI. split; [lra|]. simpl (10 ^ 6) in I6. simpl (10 ^ 12) in P36. lra. }
  fold n in Ab. rewrite <- EI in Ab.
  (* the numerator *)
  set (F := fun i => nmul (Fin (ent tf i)) (Fin (ent wf i))). set (k := / 10 ^ 27). assert (K0 : 0 < k) by (apply Rinv_0_lt_compat, pow_lt; lra).
  assert (Q : forall i, (i < n)%nat -> F i = Fin (fval (F i)) /\ rnd (fval (F i)) = Fin (fval (F i)) /\ 0 <= ent tf i * ent wf i <= 10 ^ 6 /\ Rabs (fval (F i) - ent tf i * ent wf i) <= u * (ent tf i * ent wf i + k)).
  { intros i Hi. destruct (FT i ltac:(unfold n in *; lia)) as (_ & T2). destruct (GX i Hi) as (_ & X2).
    assert (B0 : 0 <= ent tf i * ent wf i <= 10 ^ 6). { split; [apply Rmult_le_pos; lra|]. rewrite <- (Rmult_1_l (10 ^ 6)). apply Rmult_le_compat; lra. }
    unfold F. cbn [nmul]. destruct (rnd_range _ G (ent tf i * ent wf i)) as (p & Ep). { rewrite Rabs_right by lra. eapply Rle_trans; [apply B0|]. apply Rle_pow; [lra|lia]. }
    pose proof (re_any _ _ H _ _ Ep) as Ap. rewrite (Rabs_right (ent tf i * ent wf i)) in Ap by lra. rewrite Ep. cbn [fval]. split; auto. split; [eapply (rnd_idem _ G); eauto|]. split; [exact B0|]. fold k in Ht. lra. }
  set (ys := map (fun i => fval (F i)) (seq 0 n)).
  assert (EY : map2 nmul (fins tf) (fins wf) = fins ys).
  { rewrite map2_fins_seq by (symmetry; exact L). fold n. unfold ys, fins. rewrite map_map. apply map_ext_in. intros i Hi. apply in_seq in Hi. apply (Q i). lia. }
  set (V := fun i => ent tf i * ent wf i + k). set (A := trapezoid wf (map V (seq 0 n))).
  assert (EN : N = trapezoid wf (map (fun i => ent tf i * ent wf i) (seq 0 n))).
  { unfold N. f_equal. unfold Rtimes. rewrite (list_seq (map2 Rmult tf wf)). rewrite map2_length, <- L. fold n. rewrite Nat.min_id. apply map_ext_in. intros i Hi. apply in_seq in Hi. apply ent_map2; [rewrite <- L; fold n; lia|fold n; lia]. }
  assert (EA : A = N + k * (ent wf (n - 1) - ent wf 0)).
  { rewrite EN. unfold n. rewrite <- (trapezoid_const wf k) by (fold n; lia). fold n.
    rewrite <- (Rmult_1_l (trapezoid wf (map (fun _ => k) (seq 0 n)))). rewrite <- (Rmult_1_l (trapezoid wf (map (fun i => _ * _) (seq 0 n)))). rewrite <- (trapezoid_lin wf) by auto.
    unfold A. f_equal. apply map_ext_in. intros i Hi. apply in_seq in Hi. rewrite !ent_map_seq by (fold n; lia). unfold V. cbn [Nat.add]. ring. }
  assert (KS : 0 <= k * (ent wf (n - 1) - ent wf 0) <= 0.001 * N).
  { split; [apply Rmult_le_pos; lra|]. apply Rle_trans with (k * 10 ^ 6); [apply Rmult_le_compat_l; lra|]. apply Rle_trans with (0.001 * 0.0001); [unfold k; simpl; lra|lra]. }
  destruct (trapz_err u H wf ys (fun i => ent tf i * ent wf i) V u ltac:(split; auto) ltac:(apply ET) LN ltac:(simpl in Hu; simpl; lra)) as (a & Ea & Ra & Aa).
  { intros i Hi. fold n in Hi. unfold ys. rewrite ent_map_seq by (fold n; auto). cbn [Nat.add]. destruct (Q i Hi) as (_ & R1 & R2 & R3). split; auto. split; [exact R3|]. unfold V. rewrite Rabs_right by lra. split; [lra|].
    assert (k <= 1) by (unfold k; rewrite <- Rinv_1; apply Rinv_le; [lra|apply pow_R1_Rle; lra]). simpl (10 ^ 6) in R2. apply Rle_trans with (10 ^ 7); [simpl (10 ^ 7); lra|apply Rle_pow; [lra|lia]]. }
  { fold n A. rewrite EA. split; [lra|]. assert (H0 : 10 ^ 6 * I <= 10 ^ 6 * 10 ^ 6) by (apply Rmult_le_compat_l; [apply pow_le; lra|exact I6]). rewrite <- pow_add in H0. change (6 + 6)%nat with 12%nat in H0. apply Rle_trans with (2 * 10 ^ 12); [lra|]. apply Rle_trans with (10 ^ 13); [simpl; lra|apply Rle_pow; [lra|lia]]. }
  fold n A in Aa. rewrite <- EN in Aa.
  set (m := INR n * u) in *.
  assert (AaN : Rabs (a - N) <= (1.102 * m + 6.02 * u) * N).
  { eapply Rle_trans; [exact Aa|]. replace ((1.001 * u + (1.1 * INR n + 5) * u) * A) with ((1.1 * m + 6.001 * u) * A) by (unfold m; lra).
    assert (M0 : 0 <= m) by (apply Rmult_le_pos; lra). apply Rle_trans with ((1.1 * m + 6.001 * u) * (1.001 * N)); [apply Rmult_le_compat_l; lra|].
    assert (0 <= m * N) by (apply Rmult_le_pos; lra). assert (0 <= u * N) by (apply Rmult_le_pos; lra). lra. }
  assert (AbI : Rabs (b - I) <= (1.1 * m + 5 * u) * I).
  { eapply Rle_trans; [exact Ab|]. apply Req_le. unfold m. lra. }
  assert (M0 : 0 <= m) by (apply Rmult_le_pos; lra). simpl (10 ^ 6) in *.
  destruct (quot_rel a b N I (1.102 * m + 6.02 * u) (1.1 * m + 5 * u) ltac:(lra) ltac:(lra) ltac:(lra) ltac:(lra) AaN AbI) as (Pb & Aq).
  set (q0 := N / I) in *. assert (Q0 : 1 <= q0 <= 1000000).
  { unfold q0. split; [apply Rmult_le_reg_r with I; [lra|]; unfold Rdiv; rewrite Rmult_assoc, Rinv_l by lra; lra|apply Rmult_le_reg_r with I; [lra|]; unfold Rdiv; rewrite Rmult_assoc, Rinv_l by lra; lra]. }
  assert (Aq' : Rabs (a / b - q0) <= (2.4 * m + 12.8 * u) * q0).
  { eapply Rle_trans; [exact Aq|]. apply Rmult_le_compat_r; [lra|]. apply Rmult_le_reg_r with (1 - (1.1 * m + 5 * u)); [lra|]. unfold Rdiv. rewrite Rmult_assoc, Rinv_l by lra.
    assert (MM : 0 <= m * m <= / 16 * m) by (split; [apply Rmult_le_pos; lra|apply Rmult_le_compat_r; lra]). assert (MU : 0 <= m * u <= / 16 * u) by (split; [apply Rmult_le_pos; lra|apply Rmult_le_compat_r; lra]). assert (UU : 0 <= u * u <= 0.00000025 * u) by (split; [apply Rmult_le_pos; lra|apply Rmult_le_compat_r; lra]). lra. }
  assert (QB : 0.8 * q0 <= a / b <= 1.2 * q0).
  { apply Rabs_le_inv in Aq'. assert ((2.4 * m + 12.8 * u) * q0 <= 0.2 * q0) by (apply Rmult_le_compat_r; lra). lra. }
  assert (e20 : / 10 ^ 20 <= 0.01) by (simpl; lra). assert (e35 : 10 ^ 7 <= 10 ^ 35) by (apply Rle_pow; [lra|lia]). simpl (10 ^ 7) in e35.
  destruct (rnd_pos (a / b) ltac:(lra) ltac:(lra)) as (q & Eq & Arq).
  assert (Aq2 : Rabs (q - q0) <= (2.4 * m + 14.1 * u) * q0).
  { replace (q - q0) with ((q - a / b) + (a / b - q0)) by ring. eapply Rle_trans; [apply Rabs_triang|]. assert (1.001 * u * (a / b) <= 1.001 * u * (1.2 * q0)) by (apply Rmult_le_compat_l; lra). assert (0 <= u * q0) by (apply Rmult_le_pos; lra). lra. }
  destruct (rnd_pos (1 + z) ltac:(lra) ltac:(lra)) as (s & Es & As).
  destruct (quot_rel q s q0 (1 + z) (2.4 * m + 14.1 * u) (1.001 * u) ltac:(lra) ltac:(lra) ltac:(lra) ltac:(lra) Aq2 As) as (Ps & Al).
  set (l0 := q0 / (1 + z)) in *. assert (L0 : 0.01 <= l0 <= 1000000).
  { unfold l0. split; (apply Rmult_le_reg_r with (1 + z); [lra|]; unfold Rdiv; rewrite Rmult_assoc, Rinv_l by lra; lra). }
  assert (Al' : Rabs (q / s - l0) <= (2.41 * m + 15.2 * u) * l0).
  { eapply Rle_trans; [exact Al|]. apply Rmult_le_compat_r; [lra|]. apply Rmult_le_reg_r with (1 - 1.001 * u); [lra|]. unfold Rdiv. rewrite Rmult_assoc, Rinv_l by lra.
    assert (MU : 0 <= m * u <= m * 0.00000025) by (split; [apply Rmult_le_pos; lra|apply Rmult_le_compat_l; lra]). assert (UU : 0 <= u * u <= 0.00000025 * u) by (split; [apply Rmult_le_pos; lra|apply Rmult_le_compat_r; lra]). lra. }
  assert (LB : 0.8 * l0 <= q / s <= 1.2 * l0).
  { apply Rabs_le_inv in Al'. assert ((2.41 * m + 15.2 * u) * l0 <= 0.2 * l0) by (apply Rmult_le_compat_r; lra). lra. }
  assert (e20' : / 10 ^ 20 <= 0.001) by (simpl; lra).
  destruct (rnd_pos (q / s) ltac:(lra) ltac:(lra)) as (lam & El & Arl).
  exists lam. split.
  - unfold get_filter_effective_wavelength. rewrite trapz_same by (rewrite !fins_length; auto). cbn [bind]. rewrite bmap2_same by (rewrite !fins_length; auto). cbn [bind].
    rewrite EY. rewrite trapz_same by (rewrite !fins_length; unfold ys; rewrite map_length, seq_length; reflexivity). cbn [bind].
    rewrite Ea, Eb. assert (D1 : ndiv (Fin a) (Fin b) = Fin q). { unfold ndiv. destruct (Req_bool_spec b 0); [lra|exact Eq]. }
    rewrite D1. assert (D2 : nadd (Fin 1) (Fin z) = Fin s) by (cbn [nadd]; exact Es). rewrite D2.
    assert (D3 : ndiv (Fin q) (Fin s) = Fin lam). { unfold ndiv. destruct (Req_bool_spec s 0); [lra|exact El]. } now rewrite D3.
  - cbv zeta. fold I N. fold q0. fold l0. split; [lra|]. replace ((2.5 * INR n + 17) * u * l0) with ((2.5 * m + 17 * u) * l0) by (unfold m; lra).
    replace (lam - l0) with ((lam - q / s) + (q / s - l0)) by ring. eapply Rle_trans; [apply Rabs_triang|]. assert (1.001 * u * (q / s) <= 1.001 * u * (1.2 * l0)) by (apply Rmult_le_compat_l; lra).
    assert (0 <= u * l0) by (apply Rmult_le_pos; lra). assert (0 <= m * l0) by (apply Rmult_le_pos; lra). lra.
Qed.
End F.

Lemma C173_lemma : forall AR u, accurate_to AR u -> forall wf tf z, @rounding_filter AR wf tf -> @machine_number AR z -> 0 <= z <= 20 ->
  exists lam lam0, @get_filter_effective_wavelength AR (fins wf) (fins tf) (Fin z) = Ok lam
    /\ @get_filter_effective_wavelength exact (fins wf) (fins tf) (Fin z) = Ok lam0
    /\ relatively_close ((2.5 * INR (length wf) + 17) * u) lam lam0.
Proof.
  intros AR u A wf tf z F M Z. pose proof (rel_err_unit AR u A) as H. destruct (eff_err u H wf tf z F M Z) as (lam & E & P & B).
  exists (Fin lam), (Fin (trapezoid wf (Rtimes tf wf) / trapezoid wf tf / (1 + z))). split; [exact E|]. split.
  - apply eff_fin; [apply F| |lra]. intros Q. rewrite Q in P. unfold Rdiv in P. rewrite Rinv_0 in P. lra.
  - exists lam, (trapezoid wf (Rtimes tf wf) / trapezoid wf tf / (1 + z)). auto.
Qed.

Section T.
Context {AR : Arith} (u : R) (H : rel_err AR u).
Notation G := (re_good _ _ H).
Notation npos := (LRound21.npos (AR := AR) u).
Notation near := (LRound6.near (AR := AR) u).
Definition tri_lg (x : R) : R := 1.15 + (-0.65 + (-1.95 - -0.65) * triweight_cdf ((x - 0.5) / 0.5)) * (x - -1).
Lemma half_lit : lit 0.5 = Fin (1/2).
Proof. unfold lit. replace 0.5 with (1/2) by lra. apply (rnd_dy G 1 1); [lia|lia|simpl; lra]. Qed.
Lemma tri_err w : rnd w = Fin w -> 0.01 <= w <= 100 -> npos 1600 (triweight_k_lambda_default (Fin w)) (pow10 (tri_lg (log10 w))).
Proof.
  intros Mw Bw. unfold triweight_k_lambda_default, triweight_k_lambda, tw_sig_slope, tw_sigmoid. rewrite !half_lit. pose proof (u_le u H) as Hu. simpl (10 ^ 6) in Hu.
  assert (BL : -2 <= log10 w <= 2).
  { pose proof (log10_range 2 w ltac:(simpl; lra)) as LR. apply Rabs_le_inv in LR. simpl INR in LR. lra. }
  destruct (nlog10_near u H w ltac:(lra) ltac:(lra)) as (q & Eq & Mq & Aq). rewrite Eq. set (x := log10 w) in *. clearbody x.
  assert (Rh : rnd (1/2) = Fin (1/2)) by (rewrite <- half_lit; unfold lit; f_equal; lra).
  destruct (kern_err u H x q (1/2) (1/2) (1/2) 4.1 Rh ltac:(lra) Aq ltac:(rewrite Rminus_eq_0, Rabs_R0; lra) ltac:(lra) ltac:(apply Rabs_le; lra) ltac:(rewrite Rabs_right; lra) ltac:(lra)) as (k & Ek & Mk & Ak).
  rewrite Ek. clear Ek. pose proof (tw_range ((x - 1/2) / (1/2))) as TB. unfold tri_lg. replace ((x - 0.5) / 0.5) with ((x - 1/2) / (1/2)) by lra. set (c := triweight_cdf _) in *. clearbody c.
  assert (K : near (Fin k) c 143.4 1) by (exists k; repeat split; auto; [lra|rewrite Rabs_right; lra]).
  assert (X : near (Fin q) x 4.1 2) by (exists q; repeat split; auto; apply Rabs_le; lra).
  assert (M1 : near (Fin (-1)) (-1) 0 1) by (apply (near_int u H (-1)); [lia|simpl; lra]).
  assert (D : near (Fin q - Fin (-1))%num (x - -1) 7.2 3) by (eapply (near_sub u H) with (B := 3.01); [exact X|exact M1|nm..]).
  assert (Y : near (lit 1.15) 1.15 1.16 1.15) by (eapply near_weaken; [exact H|apply (near_lit u H 1.15 1.15); [rewrite Rabs_right; lra|simpl; lra]|lra|lra]).
  assert (Lo : near (lit (-0.65)) (-0.65) 1.001 0.65) by (apply (lit1 u H); [rewrite Rabs_left; lra|lra]).
  assert (Hi : near (lit (-1.95)) (-1.95) 1.96 1.95) by (eapply near_weaken; [exact H|apply (near_lit u H (-1.95) 1.95); [rewrite Rabs_left; lra|simpl; lra]|lra|lra]).
  assert (Hd : near (lit (-1.95) - lit (-0.65))%num (-1.95 - -0.65) 5.6 1.3) by (apply near_M with 2.6; [eapply (near_sub u H) with (B := 2.61); [exact Hi|exact Lo|nm..]|apply Rabs_le; lra]).
  assert (P : near ((lit (-1.95) - lit (-0.65)) * Fin k)%num ((-1.95 - -0.65) * c) 193.4 1.3) by (eapply (near_mul u H) with (B := 1.31); [exact Hd|exact K|nm..]).
  assert (S : near (lit (-0.65) + (lit (-1.95) - lit (-0.65)) * Fin k)%num (-0.65 + (-1.95 - -0.65) * c) 196.4 1.95) by (eapply (near_add u H) with (B := 1.96); [exact Lo|exact P|nm..]).
  assert (Q : near ((lit (-0.65) + (lit (-1.95) - lit (-0.65)) * Fin k) * (Fin q - Fin (-1)))%num ((-0.65 + (-1.95 - -0.65) * c) * (x - -1)) 609.4 5.85) by (eapply (near_mul u H) with (B := 5.86); [exact S|exact D|nm..]).
  assert (R : near (lit 1.15 + (lit (-0.65) + (lit (-1.95) - lit (-0.65)) * Fin k) * (Fin q - Fin (-1)))%num (1.15 + (-0.65 + (-1.95 - -0.65) * c) * (x - -1)) 618 7) by (eapply (near_add u H) with (B := 7.01); [exact Y|exact Q|nm..]).
  eapply npos_weaken; [exact H|eapply pow57; [exact H|exact R|lra|]|lra].
  destruct R as (_ & _ & _ & _ & RB). apply Rabs_le_inv in RB. split.
  - rewrite <- (pow10_int 20). replace (/ pow10 (INR 20)) with (pow10 (- INR 20)) by (unfold pow10; apply Rpower_Ropp). apply pow10_le. simpl. lra.
  - rewrite <- (pow10_int 20). apply pow10_le. simpl. lra.
Qed.
Lemma eb_err d : rnd d = Fin d -> Rabs d <= 10 -> near (get_eb_from_delta (Fin d)) (-1.9 * d + 0.85) 62 19.85.
Proof.
  intros M B. unfold get_eb_from_delta.
  assert (A : near (lit (-1.9)) (-1.9) 1.91 1.9) by (eapply near_weaken; [exact H|apply (near_lit u H (-1.9) 1.9); [rewrite Rabs_left; lra|simpl; lra]|lra|lra]).
  assert (C : near (lit 0.85) 0.85 1.001 0.85) by (apply (lit1 u H); [rewrite Rabs_right; lra|lra]).
  assert (D : near (Fin d) d 0 10) by (apply near_rep; auto).
  assert (P : near (lit (-1.9) * Fin d)%num (-1.9 * d) 38.5 19) by (eapply (near_mul u H) with (B := 19.01); [exact A|exact D|nm..]).
  eapply (near_add u H) with (B := 19.86); [exact P|exact C|nm..].
Qed.
End T.

Lemma C173_tri_lemma : forall AR u, accurate_to AR u -> forall w, @machine_number AR w -> 0.01 <= w <= 100 ->
  relatively_close (1604 * u) (@triweight_k_lambda_default AR (Fin w)) (@triweight_k_lambda_default exact (Fin w)).
Proof.
  intros AR u A w M B. pose proof (rel_err_unit AR u A) as H. apply (pub55 u H 1600 1604 _ _ (pow10 (tri_lg (log10 w)))); [apply (tri_err u H w M B)| |lra|lra].
  unfold triweight_k_lambda_default. cbn [exact lit rnd]. rewrite twk_fin by lra. reflexivity.
Qed.
Lemma C173_eb_lemma : forall AR u, accurate_to AR u -> forall d, @machine_number AR d -> Rabs d <= 10 ->
  absolutely_close (62 * u) (@get_eb_from_delta AR (Fin d)) (@get_eb_from_delta exact (Fin d)).
Proof.
  intros AR u A d M B. pose proof (rel_err_unit AR u A) as H. destruct (eb_err u H d M B) as (y & E & _ & D & _).
  exists y, (-1.9 * d + 0.85). split; [exact E|]. split; [|exact D]. unfold get_eb_from_delta. cbn [exact lit rnd]. now rewrite nmul_fin, nadd_fin.
Qed.
