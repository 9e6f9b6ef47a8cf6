(** * Burst weights in rounded arithmetic: the kernel *)
From Coq Require Import Reals List Arith Lra Lia ZArith Bool.
From Coquelicot Require Import Coquelicot.
From Flocq Require Import Core.Raux.
From Verif Require Import Num Arr MUtils MSed MDiffburst Float Spec SpecFloat RList LUtils LCalc LKern LBurst LFloat LFloat2 LFloat3 LFloat4 LFloat5 LFloat10 LFloat11 LRound1 LRound2 LRound3 LRound4 LRound5 LRound6.
Import ListNotations.
Open Scope R_scope.

Definition clip (z : R) : R := Rmin 1 (Rabs z / 3).
Lemma clip_unit z : 0 <= clip z <= 1.
Proof. unfold clip. split; [apply Rmin_glb; [lra|]; pose proof (Rabs_pos z); lra|apply Rmin_l]. Qed.
Lemma clip_lip a b : Rabs (clip a - clip b) <= Rabs (a - b) / 3.
Proof.
  assert (K : forall x y, clip x - clip y <= Rabs (x - y) / 3).
  { intros x y. unfold clip, Rmin. pose proof (Rabs_triang_inv x y). pose proof (Rabs_pos (x - y)).
    destruct (Rle_dec 1 (Rabs x / 3)), (Rle_dec 1 (Rabs y / 3)); lra. }
  apply Rabs_le. pose proof (K a b). pose proof (K b a). rewrite (Rabs_minus_sym b a) in *. lra.
Qed.
Lemma dens_clip z : tw_density z = 35/96 * (1 - clip z * clip z) ^ 3.
Proof.
  unfold tw_density, clip, tw_dens, Rmin. destruct (Rle_dec 1 (Rabs z / 3)) as [Z|Z].
  - replace (35/96 * (1 - 1 * 1) ^ 3) with 0 by lra. destruct (Rlt_dec (-3) z); [destruct (Rlt_dec z 3)|]; auto. unfold Rabs in Z. destruct (Rcase_abs z); lra.
  - assert (Rabs z < 3) as Q by lra. apply Rabs_lt_inv in Q. destruct (Rlt_dec (-3) z); [destruct (Rlt_dec z 3)|]; try lra.
    f_equal. f_equal. f_equal. replace (Rabs z / 3 * (Rabs z / 3)) with (Rabs z * Rabs z / 9) by field. rewrite <- Rabs_mult, Rabs_right; [simpl; field|]. nra.
Qed.
Lemma cube_lip x y : 0 <= x <= 1 -> 0 <= y <= 1 -> Rabs (x ^ 3 - y ^ 3) <= 3 * Rabs (x - y).
Proof.
  intros X Y. replace (x ^ 3 - y ^ 3) with ((x * x + x * y + y * y) * (x - y)) by ring. rewrite Rabs_mult. apply Rmult_le_compat_r; [apply Rabs_pos|].
  rewrite Rabs_right; nra.
Qed.
Lemma dens_lip a b : Rabs (tw_density a - tw_density b) <= 35/48 * Rabs (a - b).
Proof.
  rewrite !dens_clip. pose proof (clip_unit a) as A. pose proof (clip_unit b) as B. pose proof (clip_lip a b) as L. set (p := clip a) in *. set (q := clip b) in *.
  replace (35/96 * (1 - p * p) ^ 3 - 35/96 * (1 - q * q) ^ 3) with (35/96 * ((1 - p * p) ^ 3 - (1 - q * q) ^ 3)) by ring. rewrite Rabs_mult, (Rabs_right (35/96)) by lra.
  assert (C : Rabs ((1 - p * p) ^ 3 - (1 - q * q) ^ 3) <= 3 * Rabs ((1 - p * p) - (1 - q * q))) by (apply cube_lip; nra).
  replace ((1 - p * p) - (1 - q * q)) with (- (p + q) * (p - q)) in C by ring. rewrite Rabs_mult, Rabs_Ropp, (Rabs_right (p + q)) in C by lra.
  assert ((p + q) * Rabs (p - q) <= 2 * (Rabs (a - b) / 3)) by (apply Rmult_le_compat; try lra; apply Rabs_pos). lra.
Qed.
Lemma dens_le z : 0 <= tw_density z <= 35/96.
Proof.
  split; [apply tw_density_nonneg|]. rewrite dens_clip. pose proof (clip_unit z). set (c := clip z) in *.
  assert ((1 - c * c) ^ 3 <= 1 ^ 3) by (apply pow_incr; nra). rewrite pow1 in *. lra.
Qed.

Section F.
Context {AR : Arith} (u : R) (H : rel_err AR u).
Let G := re_good _ _ H.
Ltac num := simpl (10 ^ _); lra.

(** the cube (1 - (z/3)^2)^3 at a machine abscissa of the support *)
Lemma rnd_unit x : 0 <= x <= 1 -> exists y, rnd x = Fin y /\ 0 <= y <= 1 /\ rnd y = Fin y.
Proof. intros X. destruct (rnd_between G 0 x 1 (rnd0 G) (rnd1 G) X) as (y & E & B). exists y. split; auto. split; auto. eapply (rnd_idem _ G); eauto. Qed.
Lemma cube_err z : rnd z = Fin z -> -3 <= z <= 3 -> exists c,
  ((Fin 1 - (Fin z / Fin 3) ^i 2) ^i 3)%num = Fin c /\ rnd c = Fin c /\ 0 <= c <= 1 /\ Rabs (c - (1 - (z / 3) ^ 2) ^ 3) <= 15 * u.
Proof.
  intros Rz Bz. cbn [ipow ipow_acc]. assert (B35 : 10 ^ 5 <= 10 ^ 35) by (apply Rle_pow; [lra|lia]). simpl (10 ^ 5) in B35.
  assert (Z1 : near u (Fin z) z 0 3) by (apply near_rep; auto; apply Rabs_le; lra).
  pose proof (near_div u H _ _ _ _ 3 1 1.01 1 Z1 ltac:(lra) ltac:(lra) ltac:(lra) ltac:(num) ltac:(lra) ltac:(lra)) as Z2.
  pose proof (near_mul u H _ _ _ _ _ _ _ _ 1.01 3.1 1 Z2 Z2 ltac:(lra) ltac:(lra) ltac:(lra) ltac:(lra) ltac:(lra) ltac:(num) ltac:(lra) ltac:(num)) as Z3.
  assert (C1 : near u (Fin 1) 1 0 1) by (apply (near_int u H 1); [lia|simpl; lra]).
  (* the true values lie in the unit interval *)
  assert (R3 : rnd 3 = Fin 3) by (apply (rnd_dy G 3 0); [lia|lia|simpl; lra]).
  destruct Z2 as (t & Et & Rt & At & _). rewrite Et in *.
  assert (Bt : -1 <= t <= 1).
  { cbn [ndiv] in Et. rewrite Req_bool_false in Et by lra. destruct (rnd_between G (-1) (z / 3) 1) as (t' & Et' & Bt'); [apply (rnd_dy G (-1) 0); [lia|lia|simpl; lra]|apply (rnd1 G)|lra|]. congruence. }
  destruct Z3 as (q & Eq & Rq & Aq & _). rewrite Eq in *.
  assert (Bq : 0 <= q <= 1).
  { cbn [nmul] in Eq. destruct (rnd_unit (t * t)) as (q' & Eq' & Bq' & _); [nra|]. congruence. }
  destruct (rnd_unit (1 - q)) as (p & Ep & Bp & Rp); [lra|].
  assert (EP : nsub (Fin 1) (Fin q) = Fin p) by (unfold nsub; cbn [nopp nadd]; replace (1 + - q) with (1 - q) by lra; exact Ep). rewrite EP.
  pose proof (u_le u H) as Hu. destruct (rnd_err_B u H (1 - q) 1) as (p' & Ep' & Ap & _); [apply Rabs_le; lra|lra|]. rewrite Ep in Ep'. injection Ep' as <-.
  set (s := z / 3) in *. assert (Bs : -1 <= s <= 1) by (unfold s; lra).
  assert (N : near u (Fin p) (1 - s * s) 4.2 1).
  { exists p. split; auto. split; auto. apply Rabs_le_inv in Ap, Aq. split; [apply Rabs_le; lra|]. apply Rabs_le. nra. }
  pose proof (near_mul u H _ _ _ _ _ _ _ _ 1.01 9.45 1 N N ltac:(lra) ltac:(lra) ltac:(lra) ltac:(lra) ltac:(lra) ltac:(num) ltac:(lra) ltac:(num)) as N2.
  destruct N2 as (p2 & E2 & R2 & A2 & B2). assert (P2 : 0 <= p2 <= 1).
  { cbn [nmul] in E2. destruct (rnd_unit (p * p)) as (q' & Eq' & Bq' & _); [nra|]. congruence. }
  rewrite E2.
  assert (N2 : near u (Fin p2) ((1 - s * s) * (1 - s * s)) 9.45 1) by (exists p2; auto).
  pose proof (near_mul u H _ _ _ _ _ _ _ _ 1.01 14.8 1 N N2 ltac:(lra) ltac:(lra) ltac:(lra) ltac:(lra) ltac:(lra) ltac:(num) ltac:(lra) ltac:(num)) as N3.
  destruct N3 as (p3 & E3 & Rp3 & A3 & _). exists p3. split; [exact E3|]. split; auto. split.
  - cbn [nmul] in E3. destruct (rnd_unit (p * p2)) as (q' & Eq' & Bq' & _); [nra|]. congruence.
  - replace ((1 - s ^ 2) ^ 3) with ((1 - s * s) * ((1 - s * s) * (1 - s * s))) by ring. lra.
Qed.

Lemma gauss_float x m h d z : nsub x m = Fin d -> ndiv (Fin d) (Fin h) = Fin z -> rnd z = Fin z -> 1/20 <= h <= 20 ->
  exists v, triweight_gaussian x m (Fin h) = Fin v /\ nonneg_machine v /\ v <= 40 /\ Rabs (v * h - tw_density z) <= 10 * u.
Proof.
  intros Ed Ez Rz Bh. unfold triweight_gaussian. rewrite Ed, Ez. pose proof (u_le u H) as Hu. pose proof (tiny_u1 u H) as Ht.
  unfold ngtb, nltb, nwhere.
  assert (OUT : z < -3 \/ 3 < z -> exists v, Fin 0 = Fin v /\ nonneg_machine v /\ v <= 40 /\ Rabs (v * h - tw_density z) <= 10 * u).
  { intros O. exists 0. split; auto. split; [split; [lra|apply (rnd0 G)]|]. split; [lra|]. rewrite LBurst.tw_density_out by lra. replace (0 * h - 0) with 0 by lra. rewrite Rabs_R0. lra. }
  destruct (Rlt_bool_spec z (-3)) as [Z1|Z1]; [cbn [orb]; apply OUT; lra|].
  destruct (Rlt_bool_spec 3 z) as [Z2|Z2]; [cbn [orb]; apply OUT; lra|]. cbn [orb]. clear OUT.
  destruct (cube_err z Rz ltac:(lra)) as (c & Ec & Rc & Bc & Ac). rewrite Ec.
  destruct (rnd_unit (35/96)) as (a & Ea & Ba & Ra); [lra|].
  destruct (rnd_err_B u H (35/96) 1) as (a' & Ea' & Aa & _); [apply Rabs_le; lra|lra|]. rewrite Ea in Ea'. injection Ea' as <-.
  unfold lit. rewrite Ea. cbn [nmul]. destruct (rnd_unit (a * c)) as (p & Ep & Bp & Rp); [nra|].
  pose proof (re_any _ _ H _ _ Ep) as Ap. rewrite Ep. cbn [ndiv]. rewrite Req_bool_false by lra.
  assert (Hp : 0 <= p / h <= 20).
  { split; [apply Rdiv_le_0_compat'; lra|]. apply Rmult_le_reg_r with h; [lra|]. unfold Rdiv. rewrite Rmult_assoc, Rinv_l by lra. lra. }
  destruct (rnd_err_B u H (p / h) 20) as (v & Ev & Av & Rv); [apply Rabs_le; lra|split; [lra|apply Rle_trans with (10 ^ 2); [simpl; lra|apply Rle_pow; [lra|lia]]]|].
  pose proof (re_any _ _ H _ _ Ev) as Av'.
  rewrite Ev. exists v. split; auto. split; [split; auto; pose proof (rnd_nonneg G (p / h) ltac:(lra)) as N; rewrite Ev, nle_fin in N; exact N|].
  apply Rabs_le_inv in Av. split; [lra|].
  assert (D : tw_density z = 35/96 * (1 - (z / 3) ^ 2) ^ 3).
  { rewrite dens_clip. unfold clip, Rmin. f_equal. f_equal. f_equal. destruct (Rle_dec 1 (Rabs z / 3)) as [Q|Q].
    - assert (Rabs z = 3) as E. { assert (Rabs z <= 3) by (apply Rabs_le; lra). lra. }
      unfold Rabs in E. destruct (Rcase_abs z); [replace z with (-3) by lra|replace z with 3 by lra]; simpl; field.
    - replace (Rabs z / 3 * (Rabs z / 3)) with (Rabs z * Rabs z / 9) by field. rewrite <- Rabs_mult, Rabs_right by nra. simpl. field. }
  rewrite D. set (C := (1 - (z / 3) ^ 2) ^ 3) in *.
  assert (BC : 0 <= C <= 1). { unfold C. assert (0 <= (z / 3) ^ 2 <= 1) by (simpl; nra). split; [apply pow_le; lra|rewrite <- (pow1 3); apply pow_incr; lra]. }
  assert (VH : Rabs (v * h - p) <= u * p + 20 * (u * / 2 ^ 102)).
  { replace (v * h - p) with ((v - p / h) * h) by (field; lra). rewrite Rabs_mult, (Rabs_right h) by lra.
    apply Rle_trans with ((u * Rabs (p / h) + (u * / 2 ^ 102)) * h); [apply Rmult_le_compat_r; lra|]. rewrite (Rabs_right (p / h)) by lra.
    replace ((u * (p / h) + (u * / 2 ^ 102)) * h) with (u * p + h * (u * / 2 ^ 102)) by (set (tt := (u * / 2 ^ 102)); field; lra). apply Rplus_le_compat_l. apply Rmult_le_compat_r; [|lra]. left. apply (tiny_u u H). }
  assert (u * p <= u * 1) by (apply Rmult_le_compat_l; lra).
  rewrite (Rabs_right (a * c)) in Ap by (apply Rle_ge, Rmult_le_pos; lra).
  assert (u * (a * c) <= u * 1) by (apply Rmult_le_compat_l; [lra|nra]).
  assert (AC : Rabs (a * c - 35/96 * C) <= 7 * u).
  { replace (a * c - 35/96 * C) with ((a - 35/96) * c + 35/96 * (c - C)) by ring. eapply Rle_trans; [apply Rabs_triang|]. rewrite !Rabs_mult, (Rabs_right c), (Rabs_right (35/96)) by lra.
    assert (Rabs (a - 35/96) * c <= Rabs (a - 35/96) * 1) by (apply Rmult_le_compat_l; [apply Rabs_pos|lra]). lra. }
  simpl (10 ^ 6) in Ht. replace (v * h - 35/96 * C) with ((v * h - p) + (p - a * c) + (a * c - 35/96 * C)) by ring.
  eapply Rle_trans; [apply Rabs_triang|]. pose proof (Rabs_triang (v * h - p) (p - a * c)). lra.
Qed.
End F.
