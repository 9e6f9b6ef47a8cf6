(** * Rounding error of the smooth steps and kernels of utils.py, whatever their width *)
From Coq Require Import Reals List Arith Lra Lia ZArith Bool.
From Flocq Require Import Core.Raux.
From Verif Require Import Num Arr MUtils Float Spec SpecFloat SpecFloat8 RList LUtils LCalc LKern LKern2 LImf LFloat LFloat2 LFloat10 LRound1 LRound2 LRound6 LRound21 LRound23 LRound24 LRound35 LRound45 LRound52.
Import ListNotations.
Open Scope R_scope.

Ltac nm := first [lra|simpl; lra|simpl; repeat split; lra].
Lemma cube_lip a b : 0 <= a <= 1 -> 0 <= b <= 1 -> Rabs (a ^ 3 - b ^ 3) <= 3 * Rabs (a - b).
Proof.
  intros A B. replace (a ^ 3 - b ^ 3) with ((a * a + a * b + b * b) * (a - b)) by ring. rewrite Rabs_mult. apply Rmult_le_compat_r; [apply Rabs_pos|]. rewrite Rabs_right by nra. nra.
Qed.
Definition hat (z : R) : R := Rmax 0 (1 - (z / 3) ^ 2).
Lemma hat_range z : 0 <= hat z <= 1.
Proof. unfold hat. pose proof (pow2_ge_0 (z / 3)). unfold Rmax. destruct (Rle_dec 0 (1 - (z / 3) ^ 2)); lra. Qed.
Lemma hat_lip a b : Rabs a <= 5 -> Rabs b <= 5 -> Rabs (hat a - hat b) <= 10/9 * Rabs (a - b).
Proof.
  intros A B. assert (Q : Rabs ((b / 3) ^ 2 - (a / 3) ^ 2) <= 10/9 * Rabs (a - b)).
  { replace ((b / 3) ^ 2 - (a / 3) ^ 2) with ((a + b) / 9 * (b - a)) by field. rewrite Rabs_mult, (Rabs_minus_sym b a). apply Rmult_le_compat_r; [apply Rabs_pos|]. apply Rabs_le_inv in A. apply Rabs_le_inv in B. apply Rabs_le. lra. }
  unfold hat, Rmax. set (X := Rabs (a - b)) in *. apply Rabs_le_inv in Q. destruct (Rle_dec 0 (1 - (a / 3) ^ 2)), (Rle_dec 0 (1 - (b / 3) ^ 2)); apply Rabs_le; lra.
Qed.
Lemma density_hat z : tw_density z = 35/96 * hat z ^ 3.
Proof.
  unfold tw_density, tw_dens, hat. assert (E : (z / 3) ^ 2 = z * z / 9) by field. rewrite E.
  destruct (Rlt_dec (-3) z); [destruct (Rlt_dec z 3)|].
  - rewrite Rmax_right; [reflexivity|nra].
  - rewrite Rmax_left; [ring|nra].
  - rewrite Rmax_left; [ring|nra].
Qed.

Section F.
Context {AR : Arith} (u : R) (H : rel_err AR u).
Notation G := (re_good _ _ H).
Notation near := (near (AR := AR) u).
Notation mach x := (rnd x = Fin x).

(** [v] is within 2.01 u |z| + 0.01 u of [z] *)
Definition twice (v : num) (z : R) : Prop := exists y, v = Fin y /\ mach y /\ Rabs (y - z) <= 2.01 * u * Rabs z + 0.01 * u.
Lemma small_u : 0 < u <= 0.00000025 /\ 0 < u * / 2 ^ 102 <= u * / 10 ^ 27 /\ 10 ^ 17 <= 10 ^ 38.
Proof.
  pose proof (u_le u H) as U. split; [simpl in U; lra|]. split; [apply (tiny_u u H)|]. apply Rle_pow; [lra|lia].
Qed.
Lemma any x : Rabs x <= 10 ^ 17 -> exists y, rnd x = Fin y /\ mach y /\ Rabs (y - x) <= u * Rabs x + u * / 10 ^ 27.
Proof.
  intros X. destruct small_u as (U & T & P). destruct (rnd_range _ G x) as (y & E). { eapply Rle_trans; [exact X|exact P]. }
  exists y. split; auto. split; [apply (rnd_idem _ G _ _ E)|]. pose proof (re_any _ _ H _ _ E). lra.
Qed.
Lemma sub_any x m : Rabs x <= 10 ^ 8 -> Rabs m <= 10 ^ 8 -> exists d, (Fin x - Fin m)%num = Fin d /\ mach d /\ Rabs (d - (x - m)) <= u * Rabs (x - m) + u * / 10 ^ 27 /\ Rabs (x - m) <= 2 * 10 ^ 8.
Proof.
  intros X M. assert (B : Rabs (x - m) <= 2 * 10 ^ 8). { unfold Rminus. eapply Rle_trans; [apply Rabs_triang|]. rewrite Rabs_Ropp. lra. }
  destruct (any (x - m)) as (d & E & R & A); [simpl in *; lra|]. exists d. cbn [nsub nopp nadd]. auto.
Qed.
(** multiplying a rounded difference by a factor [q] (or by its inverse) *)
Lemma scaled d z0 q : Rabs (d - z0) <= u * Rabs z0 + u * / 10 ^ 27 -> Rabs z0 <= 2 * 10 ^ 8 -> Rabs q <= 10 ^ 8 -> twice (rnd (d * q)) (z0 * q).
Proof.
  intros D Z Q. destruct small_u as (U & _ & _). assert (Q0 := Rabs_pos q). assert (Z0 := Rabs_pos z0).
  assert (T1 : u * / 10 ^ 27 * Rabs q <= u * / 10 ^ 19). { replace (u * / 10 ^ 19) with (u * / 10 ^ 27 * 10 ^ 8) by (simpl; field). apply Rmult_le_compat_l; [|exact Q]. apply Rmult_le_pos; [lra|]. apply Rlt_le, Rinv_0_lt_compat, pow_lt. lra. }
  assert (S19 : u * / 10 ^ 19 <= 0.001 * u). { assert (/ 10 ^ 19 <= 0.001) by (simpl; lra). rewrite (Rmult_comm 0.001). apply Rmult_le_compat_l; lra. }
  assert (S27 : u * / 10 ^ 27 <= 0.001 * u). { assert (/ 10 ^ 27 <= 0.001) by (simpl; lra). rewrite (Rmult_comm 0.001). apply Rmult_le_compat_l; lra. }
  assert (D1 : Rabs (d * q - z0 * q) <= u * Rabs (z0 * q) + 0.001 * u).
  { replace (d * q - z0 * q) with ((d - z0) * q) by ring. rewrite !Rabs_mult. apply Rle_trans with ((u * Rabs z0 + u * / 10 ^ 27) * Rabs q); [apply Rmult_le_compat_r; lra|]. lra. }
  assert (B : Rabs (z0 * q) <= 2 * 10 ^ 16). { rewrite Rabs_mult. apply Rle_trans with (2 * 10 ^ 8 * 10 ^ 8); [apply Rmult_le_compat; auto|simpl; lra]. }
  set (z := z0 * q) in *. set (w := d * q) in *. assert (Hz := Rabs_pos z). assert (W : Rabs w <= 1.001 * Rabs z + 0.001). { replace w with ((w - z) + z) by ring. eapply Rle_trans; [apply Rabs_triang|]. assert (u * Rabs z <= 0.00000025 * Rabs z) by (apply Rmult_le_compat_r; lra). lra. }
  destruct (any w) as (y & E & R & A). { simpl in *. lra. }
  exists y. split; auto. split; auto. replace (y - z) with ((y - w) + (w - z)) by ring. eapply Rle_trans; [apply Rabs_triang|].
  assert (u * Rabs w <= u * (1.001 * Rabs z + 0.001)) by (apply Rmult_le_compat_l; lra). assert (0 <= u * Rabs z) by (apply Rmult_le_pos; lra). lra.
Qed.
Lemma prod_twice x m k : Rabs x <= 10 ^ 8 -> Rabs m <= 10 ^ 8 -> Rabs k <= 10 ^ 8 -> twice (Fin k * (Fin x - Fin m))%num (k * (x - m)).
Proof.
  intros X M K. destruct (sub_any x m X M) as (d & -> & R & A & B). cbn [nmul]. rewrite (Rmult_comm k d), (Rmult_comm k). now apply scaled.
Qed.
Lemma quot_twice x m h : Rabs x <= 10 ^ 8 -> Rabs m <= 10 ^ 8 -> / 10 ^ 8 <= h -> twice ((Fin x - Fin m) / Fin h)%num ((x - m) / h).
Proof.
  intros X M K. assert (P8 : 0 < / 10 ^ 8) by (apply Rinv_0_lt_compat, pow_lt; lra). destruct (sub_any x m X M) as (d & -> & R & A & B). cbn [ndiv]. rewrite Req_bool_false by lra. apply scaled; auto.
  rewrite Rabs_right by (apply Rle_ge, Rlt_le, Rinv_0_lt_compat; lra). rewrite <- (Rinv_inv (10 ^ 8)). apply Rinv_le_contravar; lra.
Qed.

(** ** the triweight kernel *)
Lemma kern26 x m h : Rabs x <= 10 ^ 8 -> Rabs m <= 10 ^ 8 -> / 10 ^ 8 <= h -> near (tw_cuml_kern (Fin x) (Fin m) (Fin h)) (triweight_cdf ((x - m) / h)) 26 1.
Proof.
  intros X M K. destruct small_u as (U & _ & _). destruct (quot_twice x m h X M K) as (z' & E & R & D). set (z := (x - m) / h) in *.
  destruct (kern_at u H (Fin z') z' eq_refl R) as (k & Ek & Rk & Ak). exists k. split. { unfold tw_cuml_kern. rewrite E. exact Ek. } split; auto.
  pose proof (tw_range z) as TR. split; [|rewrite Rabs_right; lra].
  replace (k - triweight_cdf z) with ((k - triweight_cdf z') + (triweight_cdf z' - triweight_cdf z)) by ring. eapply Rle_trans; [apply Rabs_triang|].
  assert (Q : Rabs (triweight_cdf z' - triweight_cdf z) <= 2.95 * u); [|lra].
  destruct (Rle_lt_dec (Rabs z) 4) as [Z4|Z4].
  - eapply Rle_trans; [apply tw_lip|]. assert (2.01 * u * Rabs z <= 2.01 * u * 4) by (apply Rmult_le_compat_l; lra). lra.
  - assert (2.01 * u * Rabs z <= 0.001 * Rabs z) by (apply Rmult_le_compat_r; lra). apply Rabs_le_inv in D. unfold Rabs in *. destruct (Rcase_abs z).
    + rewrite !tw_lo by lra. destruct (Rcase_abs (0 - 0)); lra.
    + rewrite !tw_hi by lra. destruct (Rcase_abs (1 - 1)); lra.
Qed.
Lemma gauss_err x m h : Rabs x <= 10 ^ 8 -> Rabs m <= 10 ^ 8 -> / 10 ^ 8 <= h <= 10 ^ 8 ->
  exists y, triweight_gaussian (Fin x) (Fin m) (Fin h) = Fin y /\ Rabs (y - tw_density ((x - m) / h) / h) <= 25 * u / h.
Proof.
  intros X M K. destruct small_u as (U & _ & _). destruct (quot_twice x m h X M (proj1 K)) as (z' & E & R & D). set (z := (x - m) / h) in *.
  assert (P8 : 0 < / 10 ^ 8) by (apply Rinv_0_lt_compat, pow_lt; lra). assert (Hh : 0 < h) by lra. assert (Ih : 0 < / h) by (apply Rinv_0_lt_compat; lra).
  assert (Q : Rabs (tw_density z' - tw_density z) <= 9.9 * u).
  { rewrite !density_hat. replace (35/96 * hat z' ^ 3 - 35/96 * hat z ^ 3) with (35/96 * (hat z' ^ 3 - hat z ^ 3)) by ring. rewrite Rabs_mult, (Rabs_right (35/96)) by lra.
    destruct (Rle_lt_dec (Rabs z) 4) as [Z4|Z4].
    - assert (2.01 * u * Rabs z <= 2.01 * u * 4) by (apply Rmult_le_compat_l; lra).
      assert (Z5 : Rabs z' <= 5). { replace z' with ((z' - z) + z) by ring. eapply Rle_trans; [apply Rabs_triang|]. lra. }
      pose proof (cube_lip _ _ (hat_range z') (hat_range z)). pose proof (hat_lip z' z Z5 ltac:(lra)). lra.
    - assert (2.01 * u * Rabs z <= 0.001 * Rabs z) by (apply Rmult_le_compat_r; lra). apply Rabs_le_inv in D.
      assert (HZ : hat z = 0 /\ hat z' = 0). { unfold hat. assert (E1 : (z / 3) ^ 2 = z * z / 9) by field. assert (E2 : (z' / 3) ^ 2 = z' * z' / 9) by field. rewrite E1, E2. unfold Rabs in *. destruct (Rcase_abs z); rewrite !Rmax_left by nra; auto. }
      destruct HZ as [-> ->]. rewrite Rminus_eq_0, Rabs_R0. lra. }
  assert (T27 : u * / 10 ^ 27 <= 0.01 * u * / h).
  { assert (/ 10 ^ 8 <= / h) by (apply Rinv_le_contravar; lra). assert (/ 10 ^ 27 <= 0.01 * / 10 ^ 8) by (simpl; lra). replace (0.01 * u * / h) with (u * (0.01 * / h)) by ring. apply Rmult_le_compat_l; lra. }
  unfold triweight_gaussian. rewrite E. unfold ngtb, nltb, nwhere.
  destruct (Rlt_bool_spec z' (-3)) as [L|L]; [|destruct (Rlt_bool_spec 3 z') as [L'|L']]; cbn [orb].
  - exists 0. split; auto. assert (E0 : tw_density z' = 0). { unfold tw_density. destruct (Rlt_dec (-3) z'); lra. } rewrite E0 in Q.
    replace (0 - tw_density z / h) with ((0 - tw_density z) * / h) by (field; lra). rewrite Rabs_mult, (Rabs_right (/ h)) by lra. unfold Rdiv. apply Rmult_le_compat_r; lra.
  - exists 0. split; auto. assert (E0 : tw_density z' = 0). { unfold tw_density. destruct (Rlt_dec (-3) z'); [destruct (Rlt_dec z' 3)|]; lra. } rewrite E0 in Q.
    replace (0 - tw_density z / h) with ((0 - tw_density z) * / h) by (field; lra). rewrite Rabs_mult, (Rabs_right (/ h)) by lra. unfold Rdiv. apply Rmult_le_compat_r; lra.
  - cbn [ipow ipow_acc].
    assert (Nz : near (Fin z') z' 0 3) by (apply near_rep; auto; apply Rabs_le; lra).
    assert (N1 : near (Fin 1) 1 0 1) by (apply (near_int u H 1); [lia|simpl; lra]).
    assert (Nw : near (Fin z' / Fin 3)%num (z' / 3) 1.1 1) by (eapply (near_div u H) with (B := 1); [exact Nz|nm..]).
    assert (Ns : near ((Fin z' / Fin 3) * (Fin z' / Fin 3))%num (z' / 3 * (z' / 3)) 3.3 1) by (eapply (near_mul u H) with (B := 1.01); [exact Nw|exact Nw|nm..]).
    assert (HR : 0 <= 1 - z' / 3 * (z' / 3) <= 1) by nra.
    assert (Np : near (Fin 1 - (Fin z' / Fin 3) * (Fin z' / Fin 3))%num (1 - z' / 3 * (z' / 3)) 5.4 1) by (apply near_M with 2; [eapply (near_sub u H) with (B := 2.01); [exact N1|exact Ns|nm..]|apply Rabs_le; lra]).
    set (vp := (Fin 1 - Fin z' / Fin 3 * (Fin z' / Fin 3))%num) in *. clearbody vp. set (p := 1 - z' / 3 * (z' / 3)) in *.
    assert (N2 : near (vp * vp)%num (p * p) 11.9 1) by (eapply (near_mul u H) with (B := 1.01); [exact Np|exact Np|nm..]).
    assert (N3 : near (vp * (vp * vp))%num (p * (p * p)) 18.4 1) by (eapply (near_mul u H) with (B := 1.01); [exact Np|exact N2|nm..]).
    assert (Nc : near (lit (35/96)) (35/96) 1.001 0.365). { apply near_M with 1; [|rewrite Rabs_right; lra]. eapply near_weaken; [exact H|apply (near_lit u H (35/96) 1); [rewrite Rabs_right; lra|simpl; lra]|lra|lra]. }
    assert (Nv : near (lit (35/96) * (vp * (vp * vp)))%num (35/96 * (p * (p * p))) 8.8 0.365) by (eapply (near_mul u H) with (B := 1); [exact Nc|exact N3|nm..]).
    destruct Nv as (v & -> & Rv & Dv & _). cbn [ndiv]. rewrite Req_bool_false by lra.
    assert (ED : tw_density z' = 35/96 * (p * (p * p))). { unfold tw_density, tw_dens, p. destruct (Rlt_dec (-3) z'); [destruct (Rlt_dec z' 3)|]; [field| |]; [assert (z' = 3) as -> by lra|assert (z' = -3) as -> by lra]; field. }
    rewrite <- ED in Dv. assert (D2 : Rabs (v - tw_density z) <= 18.7 * u). { replace (v - tw_density z) with ((v - tw_density z') + (tw_density z' - tw_density z)) by ring. eapply Rle_trans; [apply Rabs_triang|]. lra. }
    assert (D3 : Rabs (v / h - tw_density z / h) <= 18.7 * u * / h). { replace (v / h - tw_density z / h) with ((v - tw_density z) * / h) by (field; lra). rewrite Rabs_mult, (Rabs_right (/ h)) by lra. apply Rmult_le_compat_r; lra. }
    assert (BV : Rabs v <= 1). { pose proof (hat_range z) as HZ. rewrite (density_hat z) in D2. assert (0 <= hat z ^ 3 <= 1) by (split; [apply pow_le; lra|replace 1 with (1 ^ 3) by ring; apply pow_incr; lra]). apply Rabs_le_inv in D2. apply Rabs_le. lra. }
    assert (BVh : Rabs (v / h) <= / h). { unfold Rdiv. rewrite Rabs_mult, (Rabs_right (/ h)) by lra. rewrite <- (Rmult_1_l (/ h)) at 2. apply Rmult_le_compat_r; lra. }
    assert (IB : / h <= 10 ^ 8) by (rewrite <- (Rinv_inv (10 ^ 8)); apply Rinv_le_contravar; lra).
    destruct (any (v / h)) as (y & Ey & Ry & Ay). { simpl in *. lra. }
    exists y. split; [exact Ey|]. replace (y - tw_density z / h) with ((y - v / h) + (v / h - tw_density z / h)) by ring. eapply Rle_trans; [apply Rabs_triang|].
    assert (u * Rabs (v / h) <= u * / h) by (apply Rmult_le_compat_l; lra). unfold Rdiv at 4. assert (0 < u * / h) by (apply Rmult_lt_0_compat; lra). lra.
Qed.

(** ** the logistic step *)
Lemma exp41 : exp (-40.9) <= 4 * / 2 ^ 60 /\ 10 ^ 17 <= exp 40.9.
Proof.
  assert (E : 2 ^ 58 <= exp 40.9).
  { replace (2 ^ 58) with (exp (58 * ln 2)). { apply Rlt_le, exp_increasing. pose proof ln2_b. lra. }
    replace (58 * ln 2) with (INR 58 * ln 2) by (f_equal; rewrite INR_IZR_INZ; reflexivity). rewrite <- (Rpower_pow 58 2) by lra. reflexivity. }
  split; [|simpl in *; lra]. replace (-40.9) with (Ropp 40.9) by lra. rewrite (exp_Ropp 40.9). replace (4 * / 2 ^ 60) with (/ 2 ^ 58) by (simpl; lra). apply Rinv_le_contravar; [apply pow_lt; lra|exact E].
Qed.
Lemma logi24 v a : twice v a -> near (nlogistic v) (logistic a) 24 1.
Proof.
  intros (y & -> & R & D). destruct small_u as (U & _ & P). pose proof (re_low _ _ H) as UL. pose proof exp41 as (E1 & E2). pose proof (logistic_bounds a) as LB.
  destruct (Rle_lt_dec (Rabs a) 41) as [A|A].
  - assert (2.01 * u * Rabs a <= 2.01 * u * 41) by (apply Rmult_le_compat_l; lra).
    eapply near_weaken; [exact H|apply (near_logistic u H (Fin y) a 83 41); [exists y; repeat split; auto; lra|lra|lra]|lra|lra].
  - assert (2.01 * u * Rabs a <= 0.001 * Rabs a) by (apply Rmult_le_compat_r; lra). apply Rabs_le_inv in D. unfold Rabs in *. destruct (Rcase_abs a) as [N|N].
    + assert (Y : 40.9 <= - y) by lra. destruct (logistic_unit G (Fin y) ltac:(discriminate)) as (r & Er & Br).
      assert (LA : 0 <= logistic a <= 4 * u). { split; [lra|]. unfold logistic. assert (exp 40.9 <= exp (- a)) by (apply exp_mono; lra). assert (Q : 1 / (1 + exp (- a)) <= exp (-40.9)); [|lra]. replace (-40.9) with (Ropp 40.9) by lra. rewrite (exp_Ropp 40.9). unfold Rdiv. rewrite Rmult_1_l. apply Rinv_le_contravar; [apply exp_pos|lra]. }
      assert (Q : mach r /\ r <= 7 * u).
      { revert Er. unfold nlogistic. cbn [nopp nexp]. destruct (elem (EXP (- y))) as [e| | |] eqn:Ee; cbn [nadd ndiv]; try (intros [= <-]; split; [apply (rnd0 G)|lra]); [|discriminate].
        apply (elem_any u H) in Ee; [|exact I]. cbn [elem_value] in Ee. destruct Ee as [De Re]. pose proof (exp_mono 40.9 (- y) Y) as EY. set (X := exp (- y)) in *. rewrite (Rabs_right X) in De by lra.
        pose proof (tiny_u u H) as TU. assert (I27 : / 10 ^ 27 <= 1) by (simpl; lra). assert (T1 : u * / 10 ^ 27 <= u * 1) by (apply Rmult_le_compat_l; lra). assert (u * X <= 0.00000025 * X) by (apply Rmult_le_compat_r; lra).
        assert (Be : 0.9 * X <= e). { apply Rabs_le_inv in De. lra. } simpl (10 ^ 17) in E2. simpl in E1.
        destruct (rnd (1 + e)) as [s| | |] eqn:Es; cbn [ndiv]; try (intros [= <-]; split; [apply (rnd0 G)|lra]); [|discriminate].
        pose proof (re_any _ _ H _ _ Es) as As. rewrite (Rabs_right (1 + e)) in As by lra. assert (u * (1 + e) <= 0.00000025 * (1 + e)) by (apply Rmult_le_compat_r; lra). apply Rabs_le_inv in As. assert (Bs : 0.8 * X <= s) by lra.
        rewrite Req_bool_false by lra. intros Er. split; [apply (rnd_idem _ G _ _ Er)|]. pose proof (re_any _ _ H _ _ Er) as Ar.
        assert (IX : / s <= 1.25 * / X). { replace (1.25 * / X) with (/ (0.8 * X)) by (rewrite Rinv_mult; lra). apply Rinv_le_contravar; lra. }
        assert (IS : 0 < / s) by (apply Rinv_0_lt_compat; lra).
        assert (IX2 : / X <= exp (-40.9)). { replace (-40.9) with (Ropp 40.9) by lra. rewrite (exp_Ropp 40.9). apply Rinv_le_contravar; [apply exp_pos|exact EY]. }
        replace (1 / s) with (/ s) in Ar by (field; lra). rewrite (Rabs_right (/ s)) in Ar by lra. assert (u * / s <= 0.00000025 * / s) by (apply Rmult_le_compat_r; lra). apply Rabs_le_inv in Ar. simpl in *. lra. }
      exists r. split; auto. split; [apply Q|]. split; [apply Rabs_le; lra|rewrite Rabs_right; lra].
    + assert (Y : - y <= -40.9) by lra. unfold nlogistic. cbn [nopp nexp].
      assert (XB : 0 < exp (- y) <= 4 * u). { split; [apply exp_pos|]. pose proof (exp_mono (- y) (-40.9) Y). lra. }
      assert (Ne : near (elem (EXP (- y))) 0 5.1 0) by (apply (near_elem u H _ _ 4 1); [exact I|cbn [elem_value]; rewrite Rminus_0_r, Rabs_right; lra|rewrite Rabs_R0; lra|nm..]).
      assert (N1 : near (Fin 1) 1 0 1) by (apply (near_int u H 1); [lia|simpl; lra]).
      assert (Ns : near (Fin 1 + elem (EXP (- y)))%num (1 + 0) 6.2 1) by (eapply (near_add u H) with (B := 1.01); [exact N1|exact Ne|nm..]).
      assert (Nd : near (Fin 1 / (Fin 1 + elem (EXP (- y))))%num (1 / (1 + 0)) 8 1) by (eapply (near_div2 u H) with (B := 1.5) (c := 1); [exact N1|exact Ns|nm..]).
      destruct Nd as (r & Er & Rr & Dr & _). exists r. split; [exact Er|]. split; auto. split; [|rewrite Rabs_right; lra].
      assert (LA : 1 - 4 * u <= logistic a). { unfold logistic. assert (exp (- a) <= 4 * u) by (pose proof (exp_mono (- a) (-40.9) ltac:(lra)); lra). pose proof (exp_pos (- a)). apply Rmult_le_reg_r with (1 + exp (- a)); [lra|]. unfold Rdiv. rewrite Rmult_assoc, Rinv_l by lra. nra. }
      replace (1 / (1 + 0)) with 1 in Dr by field. apply Rabs_le_inv in Dr. apply Rabs_le. lra.
Qed.
Lemma mix_err lo hi v l Y : mach lo -> mach hi -> Rabs lo <= Y -> Rabs hi <= Y -> 1 <= Y <= 10 ^ 8 -> 0 <= l <= 1 -> near v l 26 1 -> near (Fin lo + (Fin hi - Fin lo) * v)%num (lo + (hi - lo) * l) (60 * Y) Y.
Proof.
  intros Ml Mh Bl Bh HY L N. assert (P : 10 ^ 9 <= 10 ^ 35) by (apply Rle_pow; [lra|lia]). simpl (10 ^ 8) in HY. simpl (10 ^ 9) in P.
  assert (Nl : near (Fin lo) lo 0 Y) by (apply near_rep; auto). assert (Nh : near (Fin hi) hi 0 Y) by (apply near_rep; auto).
  assert (Nd : near (Fin hi - Fin lo)%num (hi - lo) (2.01 * Y) (2 * Y)) by (eapply (near_sub u H) with (B := 2 * Y); [exact Nh|exact Nl|nm..]).
  assert (Np : near ((Fin hi - Fin lo) * v)%num ((hi - lo) * l) (56.3 * Y) (2 * Y)) by (eapply (near_mul u H) with (B := 2.1 * Y); [exact Nd|exact N|nm..]).
  apply near_M with (3 * Y); [eapply (near_add u H) with (B := 3.1 * Y); [exact Nl|exact Np|nm..]|].
  apply Rabs_le_inv in Bl. apply Rabs_le_inv in Bh. apply Rabs_le. nra.
Qed.
Lemma slope_err v s x xtp ytp Y : mach x -> mach xtp -> mach ytp -> Rabs x <= 10 ^ 8 -> Rabs xtp <= 10 ^ 8 -> Rabs ytp <= 10 ^ 8 -> 1 <= Y <= 10 ^ 8 -> near v s (60 * Y) Y ->
  near (Fin ytp + v * (Fin x - Fin xtp))%num (ytp + s * (x - xtp)) (65 * (Y * (Rabs (x - xtp) + 1) + Rabs ytp)) (Y * (Rabs (x - xtp) + 1) + Rabs ytp).
Proof.
  intros Mx Mt My Bx Bt By HY N. assert (P : 10 ^ 18 <= 10 ^ 35) by (apply Rle_pow; [lra|lia]). simpl (10 ^ 18) in P. assert (B : Rabs (x - xtp) <= 2 * 10 ^ 8). { unfold Rminus. eapply Rle_trans; [apply Rabs_triang|]. rewrite Rabs_Ropp. lra. }
  simpl (10 ^ 8) in *. pose proof (Rabs_pos (x - xtp)) as D0. set (D := Rabs (x - xtp) + 1). pose proof (Rabs_pos ytp) as Y0.
  assert (Nd : near (Fin x - Fin xtp)%num (x - xtp) (1.01 * D) D). { cbn [nsub nopp nadd]. eapply (near_rnd u H) with (d := 0) (B := D); [|unfold D; lra|unfold D; nm..]. replace (x + - xtp - (x - xtp)) with 0 by ring. rewrite Rabs_R0. lra. }
  assert (HD : 1 <= D <= 200000001) by (unfold D; lra). clearbody D.
  assert (YD : 0 <= Y * D <= 10 ^ 17). { split; [apply Rmult_le_pos; lra|]. apply Rle_trans with (100000000 * 200000001); [apply Rmult_le_compat; lra|simpl; lra]. } simpl (10 ^ 17) in YD.
  assert (YD1 : 1 <= Y * D) by (apply Rle_trans with (1 * 1); [lra|apply Rmult_le_compat; lra]).
  assert (Np : near (v * (Fin x - Fin xtp))%num (s * (x - xtp)) (62.2 * (Y * D)) (Y * D)) by (eapply (near_mul u H) with (B := 1.1 * (Y * D)); [exact N|exact Nd|nm..]).
  assert (Ny : near (Fin ytp) ytp 0 (Rabs ytp)) by (apply near_rep; [auto|lra]).
  eapply (near_add u H) with (B := 1.1 * (Y * D) + Rabs ytp); [exact Ny|exact Np|nm..].
Qed.
End F.

Lemma near_abs {AR : Arith} u v w x e M : near (AR := AR) u v x e M -> w = Fin x -> absolutely_close (e * u) v w.
Proof. intros (y & E & _ & D & _) W. exists y, x. auto. Qed.
Lemma C174_kernel : forall AR u, accurate_to AR u -> forall x m h, Rabs x <= 10 ^ 8 -> Rabs m <= 10 ^ 8 -> / 10 ^ 8 <= h <= 10 ^ 8 ->
  absolutely_close (26 * u) (@tw_cuml_kern AR (Fin x) (Fin m) (Fin h)) (@tw_cuml_kern exact (Fin x) (Fin m) (Fin h))
  /\ absolutely_close (25 * u / h) (@triweight_gaussian AR (Fin x) (Fin m) (Fin h)) (@triweight_gaussian exact (Fin x) (Fin m) (Fin h)).
Proof.
  intros AR u A x m h X M K. pose proof (rel_err_unit AR u A) as H. assert (P8 : 0 < / 10 ^ 8) by (apply Rinv_0_lt_compat, pow_lt; lra). split.
  - eapply near_abs; [apply (kern26 u H x m h X M (proj1 K))|]. apply tw_kern_fin. lra.
  - destruct (gauss_err u H x m h X M K) as (y & E & D). exists y, (tw_density ((x - m) / h) / h). split; auto. split; auto. apply triweight_gaussian_fin. lra.
Qed.
Lemma C174_histogram : forall AR u, accurate_to AR u -> forall x sig bins, Rabs x <= 10 ^ 8 -> / 10 ^ 8 <= sig <= 10 ^ 8 -> List.Forall (fun b => Rabs b <= 10 ^ 8) bins ->
  Forall2 (absolutely_close (55 * u)) (@triweighted_histogram AR (Fin x) (Fin sig) (fins bins)) (@triweighted_histogram exact (Fin x) (Fin sig) (fins bins)).
Proof.
  intros AR u A x h bins X K B. pose proof (rel_err_unit AR u A) as H. assert (P8 : 0 < / 10 ^ 8) by (apply Rinv_0_lt_compat, pow_lt; lra). unfold triweighted_histogram, fins.
  induction B as [|b l Hb B IH]; [constructor|]. destruct l as [|c l]; [constructor|]. cbn [map tl map2] in *. constructor; [|exact IH].
  inversion B as [|? ? Hc _]. subst. unfold triweighted_histogram_kernel. rewrite !tw_kern_fin by lra.
  pose proof (kern26 u H x b h X Hb (proj1 K)) as N1. pose proof (kern26 u H x c h X Hc (proj1 K)) as N2.
  eapply near_abs; [|apply nsub_fin]. eapply (near_sub u H) with (B := 2.1) (P := 2); [exact N1|exact N2|nm..].
Qed.
Lemma C174_steps : forall AR u, accurate_to AR u -> forall x x0 lo hi Y, Rabs x <= 10 ^ 8 -> Rabs x0 <= 10 ^ 8 -> @machine_number AR lo -> @machine_number AR hi ->
  Rabs lo <= Y -> Rabs hi <= Y -> 1 <= Y <= 10 ^ 8 ->
  (forall k, Rabs k <= 10 ^ 8 -> absolutely_close (60 * Y * u) (@sigmoid AR (Fin x) (Fin x0) (Fin k) (Fin lo) (Fin hi)) (@sigmoid exact (Fin x) (Fin x0) (Fin k) (Fin lo) (Fin hi)))
  /\ (forall h, / 10 ^ 8 <= h -> absolutely_close (60 * Y * u) (@tw_sigmoid AR (Fin x) (Fin x0) (Fin h) (Fin lo) (Fin hi)) (@tw_sigmoid exact (Fin x) (Fin x0) (Fin h) (Fin lo) (Fin hi))).
Proof.
  intros AR u A x x0 lo hi Y X X0 Ml Mh Bl Bh HY. pose proof (rel_err_unit AR u A) as H. split.
  - intros k K. eapply near_abs; [|apply sigmoid_fin]. unfold sigmoid. apply (mix_err u H); auto; [pose proof (logistic_bounds (k * (x - x0))); lra|].
    eapply near_weaken; [exact H|apply (logi24 u H), (prod_twice u H); auto|lra|lra].
  - intros h K. assert (P8 : 0 < / 10 ^ 8) by (apply Rinv_0_lt_compat, pow_lt; lra). eapply near_abs with (x := lo + (hi - lo) * triweight_cdf ((x - x0) / h)).
    + unfold tw_sigmoid. apply (mix_err u H); auto; [apply tw_range|apply (kern26 u H); auto].
    + unfold tw_sigmoid. rewrite tw_kern_fin by lra. now rewrite nsub_fin, nmul_fin, nadd_fin.
Qed.
Lemma C174_slopes : forall AR u, accurate_to AR u -> forall x xtp ytp x0 lo hi Y, @machine_number AR x -> @machine_number AR xtp -> @machine_number AR ytp -> Rabs x <= 10 ^ 8 -> Rabs xtp <= 10 ^ 8 -> Rabs ytp <= 10 ^ 8 ->
  Rabs x0 <= 10 ^ 8 -> @machine_number AR lo -> @machine_number AR hi -> Rabs lo <= Y -> Rabs hi <= Y -> 1 <= Y <= 10 ^ 8 ->
  let e := 65 * (Y * (Rabs (x - xtp) + 1) + Rabs ytp) * u in
  (forall k, Rabs k <= 10 ^ 8 -> absolutely_close e (@sig_slope AR (Fin x) (Fin xtp) (Fin ytp) (Fin x0) (Fin k) (Fin lo) (Fin hi)) (@sig_slope exact (Fin x) (Fin xtp) (Fin ytp) (Fin x0) (Fin k) (Fin lo) (Fin hi)))
  /\ (forall h, / 10 ^ 8 <= h -> absolutely_close e (@tw_sig_slope AR (Fin x) (Fin xtp) (Fin ytp) (Fin x0) (Fin h) (Fin lo) (Fin hi)) (@tw_sig_slope exact (Fin x) (Fin xtp) (Fin ytp) (Fin x0) (Fin h) (Fin lo) (Fin hi))).
Proof.
  intros AR u A x xtp ytp x0 lo hi Y Mx Mt My X Xt Xy X0 Ml Mh Bl Bh HY e. pose proof (rel_err_unit AR u A) as H. split.
  - intros k K. eapply near_abs; [|apply sig_slope_fin]. unfold sig_slope. apply (slope_err u H); auto. unfold sigmoid. apply (mix_err u H); auto; [pose proof (logistic_bounds (k * (x - x0))); lra|].
    eapply near_weaken; [exact H|apply (logi24 u H), (prod_twice u H); auto|lra|lra].
  - intros h K. assert (P8 : 0 < / 10 ^ 8) by (apply Rinv_0_lt_compat, pow_lt; lra). eapply near_abs with (x := ytp + (lo + (hi - lo) * triweight_cdf ((x - x0) / h)) * (x - xtp)).
    + unfold tw_sig_slope. apply (slope_err u H); auto. unfold tw_sigmoid. apply (mix_err u H); auto; [apply tw_range|apply (kern26 u H); auto].
    + unfold tw_sig_slope, tw_sigmoid. rewrite tw_kern_fin by lra. now rewrite !nsub_fin, !nmul_fin, !nadd_fin, nmul_fin, nadd_fin.
Qed.
