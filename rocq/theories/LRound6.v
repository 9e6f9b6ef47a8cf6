(** * Metallicity weights in rounded arithmetic against the exact ones *)
From Coq Require Import Reals List Arith Lra Lia ZArith Bool.
From Coquelicot Require Import Coquelicot.
From Flocq Require Import Core.Raux.
From Verif Require Import Num Arr MUtils MSed Float Spec SpecFloat RList LUtils LCalc LKern LAge LMet LFloat LFloat2 LFloat3 LFloat4 LFloat5 LFloat10 LFloat11 LRound1 LRound2 LRound3 LRound4 LRound5.
Import ListNotations.
Open Scope R_scope.

Lemma tw_dens_le z : -3 < z < 3 -> tw_dens z <= 35/96.
Proof.
  intros Hz. unfold tw_dens. assert (0 <= (z / 3) ^ 2 <= 1) by (simpl; split; [nra|nra]). set (w := (z / 3) ^ 2) in *.
  assert ((1 - w) ^ 3 <= 1 ^ 3) by (apply pow_incr; lra). rewrite pow1 in *. lra.
Qed.
Lemma tw_lip0 a b : a < b -> triweight_cdf b - triweight_cdf a <= 35/96 * (b - a).
Proof.
  intros Hab. destruct (mvt_is_derive triweight_cdf tw_density a b Hab) as (c & E & Hc). { intros. apply tw_derive. }
  rewrite E. apply Rmult_le_compat_r; [lra|]. unfold tw_density. destruct (Rlt_dec (-3) c); [destruct (Rlt_dec c 3)|]; try lra. apply tw_dens_le. lra.
Qed.
Lemma tw_lip a b : Rabs (triweight_cdf a - triweight_cdf b) <= 35/96 * Rabs (a - b).
Proof.
  destruct (Rtotal_order a b) as [Hab|[->|Hab]].
  - pose proof (tw_lip0 a b Hab). pose proof (tw_mono a b ltac:(lra)). rewrite (Rabs_left (a - b)) by lra. rewrite Rabs_left1; lra.
  - rewrite !Rminus_eq_0, Rabs_R0. lra.
  - pose proof (tw_lip0 b a Hab). pose proof (tw_mono b a ltac:(lra)). rewrite (Rabs_right (a - b)) by lra. rewrite Rabs_right; lra.
Qed.
Lemma tw_poly_code z : tw_poly z = -5 * (z * (z * z) * (z * z * (z * z))) / 69984 + 7 * (z * (z * z * (z * z))) / 2592 - 35 * (z * (z * z)) / 864 + 35 * z / 96 + 1/2.
Proof. unfold tw_poly. field. Qed.

Section F.
Context {AR : Arith} (u : R) (H : rel_err AR u).
Let G := re_good _ _ H.

(** [v] is a machine number within [e u] of [x], and [x] is at most [M] in size *)
Definition near (v : num) (x e M : R) : Prop := exists y, v = Fin y /\ rnd y = Fin y /\ Rabs (y - x) <= e * u /\ Rabs x <= M.

Lemma near_rnd z x d B e M : Rabs (z - x) <= d * u -> Rabs x <= M -> 0 <= d -> M + d / (4 * 10 ^ 6) <= B -> 1 <= B <= 10 ^ 35 -> d + 1.001 * B <= e -> near (rnd z) x e M.
Proof.
  intros D X D0 HB B1 E. pose proof (u_le u H) as Hu.
  assert (DU : d * u <= d / (4 * 10 ^ 6)) by (apply Rmult_le_compat_l; lra).
  destruct (rnd_err_B u H z B) as (y & Ey & Ay & Ry); auto.
  { replace z with ((z - x) + x) by lra. eapply Rle_trans; [apply Rabs_triang|]. lra. }
  exists y. split; auto. split; auto. split; auto. replace (y - x) with ((y - z) + (z - x)) by lra. eapply Rle_trans; [apply Rabs_triang|].
  apply Rle_trans with ((d + 1.001 * B) * u); [lra|]. apply Rmult_le_compat_r; lra.
Qed.
Lemma near_elem f x d B e M : in_domain f -> Rabs (elem_value f - x) <= d * u -> Rabs x <= M -> 0 <= d -> M + d / (4 * 10 ^ 6) <= B -> 1 <= B <= 10 ^ 35 -> d + 1.001 * B <= e -> near (elem f) x e M.
Proof.
  intros DM D X D0 HB B1 E. pose proof (u_le u H) as Hu. set (z := elem_value f) in *.
  assert (DU : d * u <= d / (4 * 10 ^ 6)) by (apply Rmult_le_compat_l; lra).
  destruct (elem_err_B u H f B) as (y & Ey & Ay & Ry); auto.
  { fold z. replace z with ((z - x) + x) by lra. eapply Rle_trans; [apply Rabs_triang|]. lra. }
  fold z in Ay. exists y. split; auto. split; auto. split; auto. replace (y - x) with ((y - z) + (z - x)) by lra. eapply Rle_trans; [apply Rabs_triang|].
  apply Rle_trans with ((d + 1.001 * B) * u); [lra|]. apply Rmult_le_compat_r; lra.
Qed.
Lemma near_mul a x e M b y f N B g P : near a x e M -> near b y f N -> 0 <= e -> 0 <= f -> 0 <= M -> 0 <= N -> M * N <= P ->
  P + (e * N + f * M + e * f / (4 * 10 ^ 6)) / (4 * 10 ^ 6) <= B -> 1 <= B <= 10 ^ 35 -> e * N + f * M + e * f / (4 * 10 ^ 6) + 1.001 * B <= g -> near (nmul a b) (x * y) g P.
Proof.
  intros (a' & -> & _ & Ea & Xa) (b' & -> & _ & Eb & Xb) E0 F0 M0 N0 MP HB B1 Hg. pose proof (u_le u H) as Hu. cbn [nmul].
  apply (near_rnd _ _ (e * N + f * M + e * f / (4 * 10 ^ 6)) B); auto.
  - replace (a' * b' - x * y) with ((a' - x) * (b' - y) + (a' - x) * y + x * (b' - y)) by ring.
    eapply Rle_trans; [apply Rabs_triang|]. eapply Rle_trans; [apply Rplus_le_compat_r, Rabs_triang|]. rewrite !Rabs_mult.
    pose proof (Rabs_pos (a' - x)). pose proof (Rabs_pos (b' - y)). pose proof (Rabs_pos x). pose proof (Rabs_pos y).
    assert (Q1 : Rabs (a' - x) * Rabs (b' - y) <= (e * u) * (f * u)) by (apply Rmult_le_compat; auto).
    assert (Q2 : Rabs (a' - x) * Rabs y <= (e * u) * N) by (apply Rmult_le_compat; auto).
    assert (Q3 : Rabs x * Rabs (b' - y) <= M * (f * u)) by (apply Rmult_le_compat; auto).
    assert (Q4 : (e * u) * (f * u) <= e * f / (4 * 10 ^ 6) * u).
    { replace (e * u * (f * u)) with (e * f * u * u) by ring. apply Rmult_le_compat_r; [lra|]. apply Rmult_le_compat_l; [apply Rmult_le_pos; auto|lra]. }
    lra.
  - rewrite Rabs_mult. eapply Rle_trans; [|exact MP]. apply Rmult_le_compat; auto; apply Rabs_pos.
  - assert (0 <= e * N) by (apply Rmult_le_pos; auto). assert (0 <= f * M) by (apply Rmult_le_pos; auto). assert (0 <= e * f) by (apply Rmult_le_pos; auto).
    assert (0 <= e * f / (4 * 10 ^ 6)) by (apply Rmult_le_pos; [auto|simpl; lra]). lra.
Qed.
Lemma near_div a x e M c B g P : near a x e M -> 0 <= e -> 1 <= c -> M / c <= P -> P + e / c / (4 * 10 ^ 6) <= B -> 1 <= B <= 10 ^ 35 -> e / c + 1.001 * B <= g -> near (ndiv a (Fin c)) (x / c) g P.
Proof.
  intros (a' & -> & _ & Ea & Xa) E0 Hc MP HB B1 Hg. cbn [ndiv]. rewrite Req_bool_false by lra. assert (IC : 0 < / c) by (apply Rinv_0_lt_compat; lra).
  apply (near_rnd _ _ (e / c) B); auto.
  - replace (a' / c - x / c) with ((a' - x) * / c) by (field; lra). rewrite Rabs_mult, (Rabs_right (/ c)) by lra. replace (e / c * u) with (e * u * / c) by (field; lra). apply Rmult_le_compat_r; lra.
  - unfold Rdiv. rewrite Rabs_mult, (Rabs_right (/ c)) by lra. eapply Rle_trans; [|exact MP]. apply Rmult_le_compat_r; lra.
  - apply Rmult_le_pos; lra.
Qed.
Lemma near_add a x e M b y f N B g P : near a x e M -> near b y f N -> 0 <= e -> 0 <= f -> M + N <= P -> P + (e + f) / (4 * 10 ^ 6) <= B -> 1 <= B <= 10 ^ 35 -> e + f + 1.001 * B <= g -> near (nadd a b) (x + y) g P.
Proof.
  intros (a' & -> & _ & Ea & Xa) (b' & -> & _ & Eb & Xb) E0 F0 MP HB B1 Hg. cbn [nadd]. apply (near_rnd _ _ (e + f) B); auto.
  - replace (a' + b' - (x + y)) with ((a' - x) + (b' - y)) by ring. eapply Rle_trans; [apply Rabs_triang|]. lra.
  - eapply Rle_trans; [apply Rabs_triang|]. lra.
  - lra.
Qed.
Lemma near_opp a x e M : near a x e M -> near (nopp a) (- x) e M.
Proof.
  intros (a' & -> & Ra & Ea & Xa). exists (- a'). split; auto. split; [rewrite (rnd_opp _ G), Ra; reflexivity|]. split; [|now rewrite Rabs_Ropp].
  replace (- a' - - x) with (- (a' - x)) by ring. now rewrite Rabs_Ropp.
Qed.
Lemma near_sub a x e M b y f N B g P : near a x e M -> near b y f N -> 0 <= e -> 0 <= f -> M + N <= P -> P + (e + f) / (4 * 10 ^ 6) <= B -> 1 <= B <= 10 ^ 35 -> e + f + 1.001 * B <= g -> near (nsub a b) (x - y) g P.
Proof. intros A HB. unfold nsub. intros. eapply near_add; eauto. now apply near_opp. Qed.
Lemma near_rep x M : rnd x = Fin x -> Rabs x <= M -> near (Fin x) x 0 M.
Proof. intros R X. exists x. repeat split; auto. replace (x - x) with 0 by lra. rewrite Rabs_R0. lra. Qed.
Lemma near_int n M : (Z.abs n <= 1024)%Z -> IZR (Z.abs n) <= M -> near (Fin (IZR n)) (IZR n) 0 M.
Proof. intros Hn HM. apply near_rep; [apply (rnd_dy G n 0); [lia|lia|simpl; lra]|]. now rewrite <- abs_IZR. Qed.

Ltac num := simpl (10 ^ _); lra.
(** the polynomial of the cumulative kernel *)
Lemma poly_err z : rnd z = Fin z -> -3 <= z <= 3 ->
  near (Fin (-5) * Fin z ^i 7 / Fin 69984 + Fin 7 * Fin z ^i 5 / Fin 2592 - Fin 35 * Fin z ^i 3 / Fin 864 + Fin 35 * Fin z / Fin 96 + Fin (1/2))%num (tw_poly z) 23 4.
Proof.
  intros Rz Bz. rewrite tw_poly_code. cbn [ipow ipow_acc].
  assert (B35 : 10 ^ 5 <= 10 ^ 35) by (apply Rle_pow; [lra|lia]). simpl (10 ^ 5) in B35.
  assert (Z1 : near (Fin z) z 0 3) by (apply near_rep; auto; apply Rabs_le; lra).
  assert (Z2 : near (nmul (Fin z) (Fin z)) (z * z) 9.1 9) by (eapply (near_mul _ _ _ _ _ _ _ _ 9); eauto; num).
  assert (Z3 : near (nmul (Fin z) (nmul (Fin z) (Fin z))) (z * (z * z)) 54.5 27) by (eapply (near_mul _ _ _ _ _ _ _ _ 27.01); eauto; num).
  assert (Z4 : near (nmul (nmul (Fin z) (Fin z)) (nmul (Fin z) (Fin z))) (z * z * (z * z)) 245.5 81) by (eapply (near_mul _ _ _ _ _ _ _ _ 81.1); eauto; num).
  assert (Z5 : near (nmul (Fin z) (nmul (nmul (Fin z) (Fin z)) (nmul (Fin z) (Fin z)))) (z * (z * z * (z * z))) 981 243) by (eapply (near_mul _ _ _ _ _ _ _ _ 243.1); eauto; num).
  assert (Z7 : near (nmul (nmul (Fin z) (nmul (Fin z) (Fin z))) (nmul (nmul (Fin z) (Fin z)) (nmul (Fin z) (Fin z)))) (z * (z * z) * (z * z * (z * z))) 13240 2187) by (eapply (near_mul _ _ _ _ _ _ _ _ 2188); eauto; num).
  assert (C5 : near (Fin (-5)) (-5) 0 5) by (apply (near_int (-5)); [lia|simpl; lra]).
  assert (C7 : near (Fin 7) 7 0 7) by (apply (near_int 7); [lia|simpl; lra]).
  assert (C35 : near (Fin 35) 35 0 35) by (apply (near_int 35); [lia|simpl; lra]).
  assert (Ch : near (Fin (1/2)) (1/2) 0 (1/2)) by (apply near_rep; [apply (rnd_dy G 1 1); [lia|lia|simpl; lra]|rewrite Rabs_right; lra]).
  pose proof (near_mul _ _ _ _ _ _ _ _ 10936 77200 10935 C5 Z7 ltac:(lra) ltac:(lra) ltac:(lra) ltac:(lra) ltac:(lra) ltac:(num) ltac:(lra) ltac:(num)) as T7.
  pose proof (near_div _ _ _ _ 69984 1 2.2 0.16 T7 ltac:(lra) ltac:(lra) ltac:(lra) ltac:(num) ltac:(lra) ltac:(lra)) as T7'.
  pose proof (near_mul _ _ _ _ _ _ _ _ 1702 8600 1701 C7 Z5 ltac:(lra) ltac:(lra) ltac:(lra) ltac:(lra) ltac:(lra) ltac:(num) ltac:(lra) ltac:(num)) as T5.
  pose proof (near_div _ _ _ _ 2592 1 4.4 0.66 T5 ltac:(lra) ltac:(lra) ltac:(lra) ltac:(num) ltac:(lra) ltac:(lra)) as T5'.
  pose proof (near_mul _ _ _ _ _ _ _ _ 946 2860 945 C35 Z3 ltac:(lra) ltac:(lra) ltac:(lra) ltac:(lra) ltac:(lra) ltac:(num) ltac:(lra) ltac:(num)) as T3.
  pose proof (near_div _ _ _ _ 864 1.1 4.42 1.095 T3 ltac:(lra) ltac:(lra) ltac:(lra) ltac:(num) ltac:(lra) ltac:(lra)) as T3'.
  pose proof (near_mul _ _ _ _ _ _ _ _ 105.1 105.4 105 C35 Z1 ltac:(lra) ltac:(lra) ltac:(lra) ltac:(lra) ltac:(lra) ltac:(num) ltac:(lra) ltac:(num)) as T1.
  pose proof (near_div _ _ _ _ 96 1.1 2.22 1.095 T1 ltac:(lra) ltac:(lra) ltac:(lra) ltac:(num) ltac:(lra) ltac:(lra)) as T1'.
  pose proof (near_add _ _ _ _ _ _ _ _ 1 7.61 0.82 T7' T5' ltac:(lra) ltac:(lra) ltac:(lra) ltac:(num) ltac:(lra) ltac:(lra)) as S1.
  pose proof (near_sub _ _ _ _ _ _ _ _ 1.92 14 1.915 S1 T3' ltac:(lra) ltac:(lra) ltac:(lra) ltac:(num) ltac:(lra) ltac:(lra)) as S2.
  pose proof (near_add _ _ _ _ _ _ _ _ 3.02 19.3 3.01 S2 T1' ltac:(lra) ltac:(lra) ltac:(lra) ltac:(num) ltac:(lra) ltac:(lra)) as S3.
  pose proof (near_add _ _ _ _ _ _ _ _ 3.6 23 3.51 S3 Ch ltac:(lra) ltac:(lra) ltac:(lra) ltac:(num) ltac:(lra) ltac:(lra)) as S4.
  destruct S4 as (y & Ey & Ry & Ay & By). exists y. split; [exact Ey|]. repeat split; auto. lra.
Qed.

(** the cumulative kernel at a machine abscissa *)
Lemma kern_at v z : v = Fin z -> rnd z = Fin z -> exists k,
  (nwhere (v >? Fin 3) (Fin 1) (nwhere (v <? Fin (-3)) (Fin 0) (Fin (-5) * v ^i 7 / Fin 69984 + Fin 7 * v ^i 5 / Fin 2592 - Fin 35 * v ^i 3 / Fin 864 + Fin 35 * v / Fin 96 + Fin (1/2))))%num = Fin k
  /\ rnd k = Fin k /\ Rabs (k - triweight_cdf z) <= 23 * u.
Proof.
  intros -> Rz. pose proof (u_le u H) as Hu. unfold ngtb, nltb, nwhere.
  destruct (Rlt_bool_spec 3 z) as [Hz|Hz].
  - exists 1. rewrite tw_hi by lra. replace (1 - 1) with 0 by lra. rewrite Rabs_R0. split; auto. split; [apply (rnd1 G)|lra].
  - destruct (Rlt_bool_spec z (-3)) as [Hz'|Hz'].
    + exists 0. rewrite tw_lo by lra. replace (0 - 0) with 0 by lra. rewrite Rabs_R0. split; auto. split; [apply (rnd0 G)|lra].
    + rewrite tw_mid by lra. destruct (poly_err z Rz ltac:(lra)) as (k & Ek & Rk & Ak & _). exists k. auto.
Qed.

Lemma kern_err x x' m m' h c : rnd h = Fin h -> 1/1000 <= h <= 1 -> Rabs (x' - x) <= c * u -> Rabs (m' - m) <= 102 * u -> 0 <= c ->
  Rabs x <= 5 -> Rabs m <= 10 -> (c + 130) * u / h <= 1/2 ->
  exists k, tw_cuml_kern (Fin x') (Fin m') (Fin h) = Fin k /\ rnd k = Fin k /\ Rabs (k - triweight_cdf ((x - m) / h)) <= (70 + 0.4 * c) * u / h.
Proof.
  intros Rh Bh Dx Dm C0 Bx Bm SM. pose proof (u_le u H) as Hu. pose proof (tiny_u1 u H) as Ht. assert (IH : 1 <= / h) by (rewrite <- Rinv_1; apply Rinv_le; lra).
  assert (IH2 : / h <= 1000) by (replace 1000 with (/ (1/1000)) by lra; apply Rinv_le; lra).
  set (q := / h) in *. set (s := u * q). assert (S0 : u <= s) by (unfold s; rewrite <- (Rmult_1_r u) at 1; apply Rmult_le_compat_l; lra).
  assert (SMs : (c + 130) * s <= 1/2) by (unfold s, q; lra).
  assert (Cs : 0 <= c * s) by (apply Rmult_le_pos; lra).
  assert (D1 : Rabs ((x' - m') - (x - m)) <= (c + 102) * u).
  { replace ((x' - m') - (x - m)) with ((x' - x) - (m' - m)) by ring. eapply Rle_trans; [apply Rabs_triang|]. rewrite Rabs_Ropp. lra. }
  assert (cu : (c + 102) * u <= 1/2). { apply Rle_trans with ((c + 102) * s); [apply Rmult_le_compat_l; lra|lra]. }
  assert (BD : Rabs (x' - m') <= 16).
  { replace (x' - m') with (((x' - m') - (x - m)) + (x - m)) by ring. eapply Rle_trans; [apply Rabs_triang|]. assert (Rabs (x - m) <= 15); [|lra].
    unfold Rminus. eapply Rle_trans; [apply Rabs_triang|]. rewrite Rabs_Ropp. lra. }
  destruct (abs_err16 u H (x' - m') BD) as (d & Ed & Ad).
  assert (D2 : Rabs (d - (x - m)) <= (c + 119) * u).
  { replace (d - (x - m)) with ((d - (x' - m')) + ((x' - m') - (x - m))) by ring. eapply Rle_trans; [apply Rabs_triang|]. lra. }
  set (z := (x - m) / h). assert (Hq : 0 < q) by lra.
  assert (D3 : Rabs (d / h - z) <= (c + 119) * s).
  { unfold z. replace (d / h - (x - m) / h) with ((d - (x - m)) * q) by (unfold q; field; lra). rewrite Rabs_mult, (Rabs_right q) by lra. unfold s. rewrite <- Rmult_assoc. apply Rmult_le_compat_r; lra. }
  assert (Rq : Rabs (d / h) <= 17000).
  { unfold Rdiv. fold q. rewrite Rabs_mult, (Rabs_right q) by lra. apply Rle_trans with (17 * 1000); [|lra]. apply Rmult_le_compat; try lra; [apply Rabs_pos|].
    replace d with ((d - (x' - m')) + (x' - m')) by ring. eapply Rle_trans; [apply Rabs_triang|]. simpl (10 ^ 6) in Hu. lra. }
  destruct (rnd_range _ G (d / h)) as (z' & Ez). { eapply Rle_trans; [exact Rq|]. apply Rle_trans with (10 ^ 5); [simpl; lra|apply Rle_pow; [lra|lia]]. }
  pose proof (rnd_idem _ G _ _ Ez) as Rz'. pose proof (re_any _ _ H _ _ Ez) as Az.
  assert (EV : nsub (Fin x') (Fin m') = Fin d) by (unfold nsub; cbn [nopp nadd]; exact Ed).
  assert (EZ : ndiv (Fin d) (Fin h) = Fin z') by (cbn [ndiv]; rewrite Req_bool_false by lra; exact Ez).
  destruct (kern_at (Fin z') z' eq_refl Rz') as (k & Ek & Rk & Ak).
  exists k. split; [|split; auto]. { unfold tw_cuml_kern. rewrite EV, EZ. exact Ek. }
  replace ((70 + 0.4 * c) * u / h) with ((70 + 0.4 * c) * s) by (unfold s, q; field; lra).
  assert (K2 : Rabs (triweight_cdf z' - triweight_cdf z) <= 35/96 * ((c + 125) * s)).
  { destruct (Rle_lt_dec (Rabs z) 4) as [Z4|Z4].
    - eapply Rle_trans; [apply tw_lip|]. apply Rmult_le_compat_l; [lra|].
      assert (ZD : Rabs (d / h) <= 5). { replace (d / h) with ((d / h - z) + z) by ring. eapply Rle_trans; [apply Rabs_triang|]. lra. }
      replace (z' - z) with ((z' - d / h) + (d / h - z)) by ring. eapply Rle_trans; [apply Rabs_triang|].
      assert (u * Rabs (d / h) <= u * 5) by (apply Rmult_le_compat_l; lra). simpl (10 ^ 6) in Ht. lra.
    - assert (R3 : rnd 3 = Fin 3) by (apply (rnd_dy G 3 0); [lia|lia|simpl; lra]). assert (Rm3 : rnd (-3) = Fin (-3)) by (apply (rnd_dy G (-3) 0); [lia|lia|simpl; lra]).
      apply Rabs_le_inv in D3. assert (triweight_cdf z' = triweight_cdf z) as ->; [|replace (triweight_cdf z - triweight_cdf z) with 0 by lra; rewrite Rabs_R0; apply Rmult_le_pos; [lra|lra]].
      unfold Rabs in Z4. destruct (Rcase_abs z).
      + rewrite !tw_lo; auto; [lra|]. apply (rnd_le_rep G (d / h) z' (-3)); auto. lra.
      + rewrite !tw_hi; auto; [lra|]. apply (rnd_ge_rep G (d / h) z' 3); auto. lra. }
  replace (k - triweight_cdf z) with ((k - triweight_cdf z') + (triweight_cdf z' - triweight_cdf z)) by ring. eapply Rle_trans; [apply Rabs_triang|]. lra.
Qed.

Lemma met_edges_err a : (3 <= length a)%nat -> (forall j, (j < length a)%nat -> -4 <= ent a j <= 4) ->
  exists e, get_bin_edges_k (fins a) LGMET_LO LGMET_HI = fins e /\ length e = S (length a) /\ ent e 0 = -10 /\ ent e (length a) = 10
    /\ forall i, (i <= length a)%nat -> Rabs (ent e i - met_edge a i) <= 102 * u /\ Rabs (met_edge a i) <= 10.
Proof.
  intros L B. pose proof (u_le u H) as Hu. destruct (edges_err u H a L B) as (e & Ee & Le & Ve).
  unfold get_lg_age_bin_edges_k in Ee. cbv zeta in Ee. unfold get_bin_edges_k. set (mid := tl (map2 _ _ _)) in *.
  destruct e as [|e0 e]; [discriminate|]. cbn [fins map] in Ee. injection Ee as _ Ee. fold (fins e) in Ee.
  assert (Lm : length mid = (length a - 1)%nat). { assert (Q : length (mid ++ [(last_ (fins a) + last_ (get_dt_array_k (fins a)) / Fin 2)%num]) = length (fins e)) by now rewrite Ee. rewrite app_length, fins_length in Q. simpl in Q, Le. lia. }
  cbn [length] in Le.
  assert (Em : mid = fins (firstn (length a - 1) e)).
  { unfold fins in *. rewrite <- firstn_map, <- Ee, <- Lm. rewrite firstn_app, Nat.sub_diag, firstn_O, app_nil_r, firstn_all. reflexivity. }
  assert (Lf : length (firstn (length a - 1) e) = (length a - 1)%nat) by (rewrite firstn_length; lia).
  exists (-10 :: firstn (length a - 1) e ++ [10]). repeat split.
  - rewrite Em. unfold LGMET_LO, LGMET_HI, fins. cbn [map]. now rewrite map_app.
  - cbn [length]. rewrite app_length, Lf. simpl. lia.
  - destruct (length a) as [|n]; [lia|]. rewrite ent_cons_S. unfold ent. rewrite app_nth2 by lia. rewrite Lf. replace (n - (S n - 1))%nat with 0%nat by lia. reflexivity.
  - unfold met_edge. destruct (Nat.eqb_spec i 0) as [->|Hi0].
    { rewrite ent_0. replace (-10 - -10) with 0 by lra. rewrite Rabs_R0. lra. }
    destruct i as [|i]; [lia|]. rewrite ent_cons_S. destruct (Nat.eqb_spec (S i) (length a)) as [H1|H1].
    + unfold ent. rewrite app_nth2 by lia. rewrite Lf. replace (i - (length a - 1))%nat with 0%nat by lia. cbn [nth]. replace (10 - 10) with 0 by lra. rewrite Rabs_R0. lra.
    + unfold ent at 1. rewrite app_nth1 by lia. specialize (Ve (S i) ltac:(lia)). rewrite ent_cons_S in Ve. unfold age_edge in Ve.
      destruct (Nat.eqb_spec (S i) (length a)); [lia|]. rewrite <- (firstn_skipn (length a - 1) e) in Ve. unfold ent at 1 in Ve. rewrite app_nth1 in Ve by lia. exact Ve.
  - unfold met_edge. destruct (Nat.eqb_spec i 0); [rewrite Rabs_left; lra|]. destruct (Nat.eqb_spec i (length a)) as [|H1]; [rewrite Rabs_right; lra|].
    pose proof (age_edge_range a i L B ltac:(lia)) as Q. unfold age_edge in Q. destruct (Nat.eqb_spec i (length a)); [lia|]. apply Rabs_le. lra.
Qed.

Lemma nsub_anti a b : nsub (Fin a) (Fin b) = nopp (nsub (Fin b) (Fin a)).
Proof. unfold nsub. cbn [nopp nadd]. rewrite <- (rnd_opp _ G). f_equal. ring. Qed.
Lemma hist_diff p : map2 (fun a b => nsub a b) (fins p) (tl (fins p)) = map nopp (diff (fins p)).
Proof.
  unfold diff. destruct p as [|x p]; [reflexivity|]. cbn [fins map tl]. fold (fins p). revert x.
  induction p as [|y p IH]; intros x; [reflexivity|]. cbn [fins map map2]. f_equal; [apply nsub_anti|]. apply IH.
Qed.

Lemma met_weights_err x x' h a c : rnd h = Fin h -> 1/1000 <= h <= 1 -> Rabs (x' - x) <= c * u -> 0 <= c -> Rabs x <= 5 ->
  (3 <= length a <= 2 ^ 18)%nat -> (forall j, (j < length a)%nat -> -4 <= ent a j <= 4) -> nondecreasing (met_edges a) ->
  let eta := (130 + 8 * INR (length a) + c) * u / h in INR (length a) * eta <= 1/25 ->
  exists w, get_lgmet_weights_singlegal (Fin x') (Fin h) (get_bin_edges_k (fins a) LGMET_LO LGMET_HI) = fins w /\ length w = length a
    /\ forall i, (i < length a)%nat -> rnd (ent w i) = Fin (ent w i) /\ Rabs (ent w i - ent (met_weights x h (met_edges a)) i) <= 10 * eta.
Proof.
  intros Rh Bh Dx C0 Bx La RA ND eta HN. pose proof (u_le u H) as Hu. set (n := length a) in *.
  assert (Hn3 : 3 <= INR n). { replace 3 with (INR 3) by (simpl; lra). apply le_INR. lia. }
  assert (IH : 1 <= / h) by (rewrite <- Rinv_1; apply Rinv_le; lra).
  set (s := u * / h). assert (S0 : u <= s) by (unfold s; rewrite <- (Rmult_1_r u) at 1; apply Rmult_le_compat_l; lra).
  assert (Cs : 0 <= c * s) by (apply Rmult_le_pos; lra). assert (Ns : 0 <= INR n * s) by (apply Rmult_le_pos; lra).
  assert (Eeta : eta = (130 + 8 * INR n + c) * s) by (unfold eta, s; field; lra). clearbody eta.
  assert (E0 : 0 <= eta) by lra. assert (E1 : 3 * eta <= 1/25) by (eapply Rle_trans; [|exact HN]; apply Rmult_le_compat_r; auto).
  destruct (met_edges_err a ltac:(lia) RA) as (e & Ee & Le & E00 & En & Ve). fold n in Le, En, Ve. rewrite Ee.
  assert (SM : (c + 130) * u / h <= 1/2). { replace ((c + 130) * u / h) with ((c + 130) * s) by (unfold s; field; lra). lra. }
  set (P := fun i => triweight_cdf ((x - met_edge a i) / h)).
  assert (Q : forall i, (i <= n)%nat -> exists k, tw_cuml_kern (Fin x') (Fin (ent e i)) (Fin h) = Fin k /\ rnd k = Fin k /\ Rabs (k - P i) <= eta).
  { intros i Hi. destruct (Ve i Hi) as [V1 V2]. destruct (kern_err x x' (met_edge a i) (ent e i) h c) as (k & Ek & Rk & Ak); auto. exists k. split; auto. split; auto.
    eapply Rle_trans; [exact Ak|]. replace ((70 + 0.4 * c) * u / h) with ((70 + 0.4 * c) * s) by (unfold s; field; lra). lra. }
  destruct (cases_fins (map (fun v => tw_cuml_kern (Fin x') v (Fin h)) (fins e))) as (p & Ep & Lp & Vp).
  { intros v Hv. apply in_map_iff in Hv. destruct Hv as (v0 & <- & Hv). apply in_map_iff in Hv. destruct Hv as (y & <- & Hy). apply In_nth with (d := 0) in Hy. destruct Hy as (i & Hi & <-).
    destruct (Q i ltac:(lia)) as (k & Ek & _). exists k. exact Ek. }
  rewrite map_length, fins_length in Lp, Vp.
  assert (Q' : forall i, (i <= n)%nat -> rnd (ent p i) = Fin (ent p i) /\ Rabs (ent p i - P i) <= eta).
  { intros i Hi. destruct (Q i Hi) as (pi & Epi & Hp). specialize (Vp i ltac:(lia)). rewrite at_map, at_fins in Vp by (rewrite ?fins_length; lia). rewrite Epi in Vp. injection Vp as <-. exact Hp. }
  assert (EH : triweighted_histogram (Fin x') (Fin h) (fins e) = map nopp (diff (fins p))).
  { rewrite <- hist_diff, <- Ep. unfold triweighted_histogram, triweighted_histogram_kernel. clear.
    destruct e as [|y e]; [reflexivity|]. cbn [fins map tl]. fold (fins e). revert y. induction e as [|y' e IH]; intros y; [reflexivity|]. cbn [fins map map2]. f_equal. apply IH. }
  pose proof (Rabs_le_inv _ _ Bx) as Bx'.
  assert (P0 : P 0%nat = 1). { unfold P, met_edge. cbn [Nat.eqb]. apply tw_hi. apply le_div_iff; lra. }
  assert (Pn : P n = 0). { unfold P, met_edge. fold n. destruct (Nat.eqb_spec n 0); [lia|]. rewrite Nat.eqb_refl. apply tw_lo. apply div_le_iff; lra. }
  assert (PM : forall i, (i < n)%nat -> P (S i) <= P i).
  { intros i Hi. apply tw_mono. unfold Rdiv. apply Rmult_le_compat_r; [lra|].
    assert (met_edge a i <= met_edge a (S i)); [|lra]. rewrite <- !met_edges_ent by (fold n; lia). apply ND. rewrite met_edges_length. fold n. lia. }
  destruct (normalise_err u H n P p eta) as (w & Ew & Lw & Vw); auto; try lra; try lia.
  - intros i Hi. rewrite P0, Rmult_1_r. apply Q'. auto.
  - assert (INR n * u <= INR n * s) by (apply Rmult_le_compat_l; lra). lra.
  - rewrite P0, Pn in Vw. unfold get_lgmet_weights_singlegal. rewrite EH. set (D := map nopp (diff (fins p))) in *.
    assert (LD : length D = n). { apply (f_equal (@length num)) in Ew. rewrite map_length, fins_length in Ew. lia. }
    assert (NZ : (vsum D =? Fin 0)%num = false).
    { destruct (vsum D =? Fin 0)%num eqn:Z; auto. exfalso. unfold neqb in Z. clear - Z Ew LD Lw La. clearbody D. generalize dependent (vsum D). intros v Ew Z. destruct v as [S| | |]; try discriminate. destruct (Req_bool_spec S 0) as [->|]; [|discriminate].
      destruct D as [|d D]; [simpl in LD; lia|]. destruct w as [|w0 w]; [simpl in Lw; lia|]. cbn [map fins] in Ew. injection Ew as Ew _.
      unfold ndiv in Ew. rewrite Req_bool_true in Ew by auto. destruct d as [r| | |]; cbn [nopp] in Ew; repeat match type of Ew with context [if ?b then _ else _] => destruct b end; discriminate. }
    rewrite NZ. unfold nwhere at 1. rewrite Ew. exists w. split; [|split; auto].
    + unfold fill_empty_weights_singlepoint. rewrite first_fins by (apply nil_neq_len; lia). rewrite last_fins by (apply nil_neq_len; lia). rewrite Le. replace (S n - 1)%nat with n by lia. rewrite E00, En.
      apply Rabs_le_inv in Dx. assert (cu : c * u <= 1). { apply Rle_trans with (c * s); [apply Rmult_le_compat_l; lra|lra]. }
      unfold ngtb, nltb. rewrite !Rlt_bool_false by lra. rewrite !Bool.andb_false_r. reflexivity.
    + intros i Hi. destruct (Vw i Hi) as [V1 V2]. split; auto. eapply Rle_trans; [|exact V2]. right. f_equal. f_equal.
      unfold met_weights. assert (HS : hist_sum x h (met_edges a) = 1).
      { unfold hist_sum. rewrite tw_hist_sum by (apply nil_neq_len; rewrite met_edges_length; lia). rewrite met_edges_length. fold n. replace (S n - 1)%nat with n by lia. rewrite !met_edges_ent by (fold n; lia). fold (P 0%nat). fold (P n). lra. }
      rewrite HS. destruct (Req_EM_T 1 0); [lra|]. rewrite ent_map by (rewrite tw_hist_length, met_edges_length; fold n; lia).
      rewrite tw_hist_ent by (rewrite met_edges_length; fold n; lia). rewrite !met_edges_ent by (fold n; lia). fold (P i). fold (P (S i)). lra.
Qed.
End F.
