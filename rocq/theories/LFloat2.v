(** * Bounds that survive rounding *)
From Coq Require Import Reals List Arith Lra Lia ZArith Bool.
From Flocq Require Import Core.Raux.
From Verif Require Import Num Arr MUtils MDiffburst MMzr MDust Float Spec SpecFloat LFloat.
Import ListNotations.
Open Scope R_scope.

Section Good.
Context {AR : Arith} (G : good_rounding AR).

Lemma rnd_dy n k x : (Z.abs n <= 2 ^ 24)%Z -> (k <= 100)%nat -> x = IZR n / 2 ^ k -> rnd x = Fin x.
Proof. intros A B ->. now apply (rnd_dyadic _ G). Qed.
Lemma rnd0 : rnd 0 = Fin 0. Proof. apply (rnd_dy 0 0); [lia|lia|simpl; lra]. Qed.
Lemma rnd1 : rnd 1 = Fin 1. Proof. apply (rnd_dy 1 0); [lia|lia|simpl; lra]. Qed.
Lemma rnd_le_ x y : x <= y -> nle (rnd x) (rnd y). Proof. apply (rnd_mono _ G). Qed.
(** a result between two representable numbers is finite and between them *)
Lemma rnd_between a x b : rnd a = Fin a -> rnd b = Fin b -> a <= x <= b -> exists y, rnd x = Fin y /\ a <= y <= b.
Proof.
  intros Ha Hb [L R]. apply rnd_le_ in L, R. rewrite Ha in L. rewrite Hb in R.
  destruct (rnd x); try discriminate. rewrite nle_fin in L, R. eauto.
Qed.
Lemma rnd_not_nan x : rnd x <> NaN.
Proof. intros E. pose proof (rnd_le_ x x (Rle_refl _)) as H. rewrite E in H. discriminate. Qed.
Lemma rnd_ge a x : rnd a = Fin a -> a <= x -> rnd x = PInf \/ exists y, rnd x = Fin y /\ a <= y.
Proof. intros Ha L. apply rnd_le_ in L. rewrite Ha in L. destruct (rnd x); try discriminate; [right|now left]. rewrite nle_fin in L. eauto. Qed.
Lemma rnd_le_rep x y b : x <= b -> rnd b = Fin b -> rnd x = Fin y -> y <= b.
Proof. intros L Hb Hx. apply rnd_le_ in L. rewrite Hx, Hb in L. now apply nle_fin. Qed.
Lemma rnd_ge_rep x y b : b <= x -> rnd b = Fin b -> rnd x = Fin y -> b <= y.
Proof. intros L Hb Hx. apply rnd_le_ in L. rewrite Hx, Hb in L. now apply nle_fin. Qed.

(** ** The mathematical library *)
Lemma elem_nonneg f : in_domain f -> 0 <= elem_value f -> elem f = PInf \/ exists y, elem f = Fin y /\ 0 <= y /\ rnd y = Fin y.
Proof.
  intros D V. destruct (lib_ok _ G f D) as (N & F & _ & S). destruct (S 0 ltac:(now left)) as [S0 _]. specialize (S0 V).
  destruct (elem f) as [y| | |]; try discriminate; auto. right. exists y. split; auto. split; [now apply nle_fin|]. now apply F.
Qed.
Lemma elem_unit f : in_domain f -> 0 <= elem_value f <= 1 -> exists y, elem f = Fin y /\ 0 <= y <= 1 /\ rnd y = Fin y.
Proof.
  intros D V. destruct (elem_nonneg f D) as [E|(y & E & Y & R)]; [lra| |];
    destruct (lib_ok _ G f D) as (_ & _ & _ & S); destruct (S 1 ltac:(now right)) as [_ S1]; specialize (S1 ltac:(lra)); rewrite E in S1; [discriminate|].
  exists y. split; auto. split; auto. split; auto. now apply nle_fin.
Qed.
Lemma elem_fin f : in_domain f -> Rabs (elem_value f) <= 10 ^ 38 -> exists y, elem f = Fin y /\ rnd y = Fin y /\ Rabs (y - elem_value f) <= / 2 ^ 20 * Rabs (elem_value f) + / 2 ^ 122.
Proof.
  intros D V. destruct (lib_ok _ G f D) as (_ & F & R & _). destruct (R V) as (y & E). exists y. split; auto. destruct (F y E) as [F1 F2]. split; auto.
  replace (/ 2 ^ 122) with (/ 2 ^ 20 * / 2 ^ 102); [exact F2|]. rewrite <- Rinv_mult, <- pow_add. reflexivity.
Qed.
(** powers of 10 *)
Lemma Rpower10_0 : Rpower 10 0 = 1. Proof. apply Rpower_O. lra. Qed.
Lemma npow10_pos e : npow10 (Fin e) = PInf \/ exists y, npow10 (Fin e) = Fin y /\ 0 <= y /\ rnd y = Fin y.
Proof.
  unfold npow10, npow. destruct (Req_bool_spec e 0) as [Z|Z]; [right; exists 1; split; auto; split; [lra|apply rnd1]|]. rewrite Rlt_bool_true by lra.
  apply elem_nonneg; [cbn; lra|]. cbn [elem_value]. left. apply exp_pos.
Qed.
Lemma npow10_nonneg e : nle (Fin 0) (npow10 (Fin e)).
Proof. destruct (npow10_pos e) as [->|(y & -> & Y & _)]; [reflexivity|now apply nle_fin]. Qed.
Lemma npow10_unit e : e <= 0 -> exists p, npow10 (Fin e) = Fin p /\ 0 <= p <= 1 /\ rnd p = Fin p.
Proof.
  intros He. unfold npow10, npow. destruct (Req_bool_spec e 0) as [Z|Z]; [exists 1; split; auto; split; [lra|apply rnd1]|].
  rewrite Rlt_bool_true by lra. apply elem_unit; [cbn; lra|]. cbn [elem_value]. split.
  - apply Rlt_le. unfold Rpower. apply exp_pos.
  - rewrite <- (Rpower_O 10) by lra. apply Rle_Rpower; lra.
Qed.
Lemma npow10_fin e : Rpower 10 e <= 10 ^ 38 -> exists y, npow10 (Fin e) = Fin y /\ 0 <= y /\ rnd y = Fin y /\ Rabs (y - Rpower 10 e) <= / 2 ^ 20 * Rpower 10 e + / 2 ^ 122.
Proof.
  intros B. assert (P : 0 < Rpower 10 e) by apply exp_pos. assert (Q : 0 < / 2 ^ 20) by (apply Rinv_0_lt_compat; lra). assert (Q' : 0 < / 2 ^ 122) by (apply Rinv_0_lt_compat, pow_lt; lra).
  assert (0 < / 2 ^ 20 * Rpower 10 e) by (now apply Rmult_lt_0_compat).
  destruct (npow10_pos e) as [E|(y & E & Y & R)].
  - exfalso. revert E. unfold npow10, npow. destruct (Req_bool_spec e 0) as [Z|Z]; [discriminate|]. rewrite Rlt_bool_true by lra.
    destruct (elem_fin (POW 10 e)) as (y & -> & _); [cbn; lra|cbn [elem_value]; rewrite Rabs_right; lra|discriminate].
  - exists y. split; auto. split; auto. split; auto. revert E. unfold npow10, npow. destruct (Req_bool_spec e 0) as [->|Z].
    + intros [= <-]. rewrite Rpower10_0 in *. replace (1 - 1) with 0 by lra. rewrite Rabs_R0. lra.
    + rewrite Rlt_bool_true by lra. destruct (elem_fin (POW 10 e)) as (y' & -> & _ & D); [cbn; lra|cbn [elem_value]; rewrite Rabs_right; lra|]. intros [= ->].
      cbn [elem_value] in D. rewrite (Rabs_right (Rpower 10 e)) in D by lra. exact D.
Qed.
Lemma npow10_mono (LM : monotone_library AR) e f : e <= f -> nle (npow10 (Fin e)) (npow10 (Fin f)).
Proof.
  intros L. unfold npow10, npow. rewrite Rlt_bool_true by lra. assert (D : forall e, in_domain (POW 10 e)) by (intros; cbn; lra).
  destruct (Req_bool_spec e 0) as [Z|Z], (Req_bool_spec f 0) as [W|W].
  - apply nle_fin. lra.
  - destruct (lib_ok _ G _ (D f)) as (_ & _ & _ & S). apply (S 1); [now right|]. cbn [elem_value]. rewrite <- Rpower10_0. apply Rle_Rpower; lra.
  - destruct (lib_ok _ G _ (D e)) as (_ & _ & _ & S). apply (S 1); [now right|]. cbn [elem_value]. rewrite <- Rpower10_0. apply Rle_Rpower; lra.
  - apply (LM e f L). lra.
Qed.

(** ** The sigmoid *)
Lemma logistic_unit x : x <> NaN -> exists r, nlogistic x = Fin r /\ 0 <= r <= 1.
Proof.
  intros N. unfold nlogistic.
  assert (E : nexp (nopp x) = PInf \/ exists e, nexp (nopp x) = Fin e /\ 0 <= e).
  { destruct x; cbn [nopp nexp]; auto; [|right; exists 0; split; auto; lra|congruence].
    pose proof (exp_pos (- x)). destruct (elem_nonneg (EXP (- x))) as [K|(e & K & Y & _)]; [exact I|cbn [elem_value]; lra|auto|right; eauto]. }
  destruct E as [->|(e & -> & He)].
  - exists 0. split; [reflexivity|lra].
  - cbn [nadd]. destruct (rnd_ge 1 (1 + e) rnd1 ltac:(lra)) as [->|(s & -> & Hs)].
    + exists 0. split; [reflexivity|lra].
    + cbn [ndiv]. rewrite Req_bool_false by lra. apply rnd_between; [apply rnd0|apply rnd1|].
      split; [apply Rlt_le, Rdiv_lt_0_compat; lra|]. apply (Rmult_le_reg_r s); [lra|]. unfold Rdiv. rewrite Rmult_assoc, Rinv_l by lra. lra.
Qed.
Lemma sub_fin_not_nan u x : u <> NaN -> nsub u (Fin x) <> NaN.
Proof. intros N. unfold nsub. cbn [nopp]. destruct u; cbn [nadd]; try congruence. apply rnd_not_nan. Qed.
Lemma mul_fin_not_nan k v : k <> 0 -> v <> NaN -> nmul (Fin k) v <> NaN.
Proof.
  intros K N. destruct v; cbn [nmul]; try congruence; [apply rnd_not_nan| |];
    unfold inf_times; destruct (Rlt_bool_spec 0 k), (Rlt_bool_spec k 0); cbn; try congruence; exfalso; lra.
Qed.
(** top = the float nearest to ylo + (float nearest to yhi - ylo) *)
Lemma sigmoid_gen u x0 k ylo yhi d : u <> NaN -> k <> 0 -> rnd ylo = Fin ylo -> rnd yhi = Fin yhi -> ylo <= yhi ->
  rnd (yhi - ylo) = Fin d -> nle (rnd (ylo + d)) (Fin yhi) ->
  exists y, sigmoid u (Fin x0) (Fin k) (Fin ylo) (Fin yhi) = Fin y /\ ylo <= y <= yhi.
Proof.
  intros N K Hl Hh L Hd Ht. unfold sigmoid. unfold nsub at 1. cbn [nopp nadd].
  replace (yhi + - ylo) with (yhi - ylo) by lra. rewrite Hd.
  assert (Hd' : rnd d = Fin d) by (apply (rnd_idem _ G) in Hd; auto).
  assert (Dp : 0 <= d) by (apply (rnd_ge_rep (yhi - ylo) d 0); auto; [lra|apply rnd0]).
  destruct (logistic_unit (nmul (Fin k) (nsub u (Fin x0)))) as (r & -> & Hr).
  { apply mul_fin_not_nan; auto. now apply sub_fin_not_nan. }
  cbn [nmul]. destruct (rnd_between 0 (d * r) d rnd0 Hd') as (p & -> & Hp).
  { split; [apply Rmult_le_pos; lra|]. rewrite <- (Rmult_1_r d) at 2. apply Rmult_le_compat_l; lra. }
  cbn [nadd]. assert (A : nle (Fin ylo) (rnd (ylo + p))) by (rewrite <- Hl; apply rnd_le_; lra).
  assert (B : nle (rnd (ylo + p)) (Fin yhi)) by (eapply nle_trans; [apply rnd_le_; apply Rplus_le_compat_l, Hp|exact Ht]).
  destruct (rnd (ylo + p)); try discriminate. rewrite nle_fin in A, B. eauto.
Qed.
Lemma sigmoid_exact_height u x0 k ylo yhi : u <> NaN -> k <> 0 -> rnd ylo = Fin ylo -> rnd yhi = Fin yhi -> ylo <= yhi ->
  rnd (yhi - ylo) = Fin (yhi - ylo) ->
  exists y, sigmoid u (Fin x0) (Fin k) (Fin ylo) (Fin yhi) = Fin y /\ ylo <= y <= yhi.
Proof.
  intros N K Hl Hh L Hd. apply (sigmoid_gen u x0 k ylo yhi (yhi - ylo)); auto.
  replace (ylo + (yhi - ylo)) with yhi by lra. rewrite Hh. apply nle_fin. lra.
Qed.
(** the value is representable, as the result of a rounded addition *)
Lemma sigmoid_rep u x0 k ylo yhi y : sigmoid u x0 k (Fin ylo) yhi = Fin y -> rnd y = Fin y.
Proof.
  unfold sigmoid. destruct (nmul _ _); cbn [nadd]; try discriminate. intros H. eapply (rnd_idem _ G); eauto.
Qed.

Lemma lit_tenth : exists k, lit 0.1 = Fin k /\ 0 < k <= 1.
Proof.
  unfold lit. assert (R16 : rnd (1/16) = Fin (1/16)) by (apply (rnd_dy 1 4); [lia|lia|simpl; lra]).
  destruct (rnd_between (1/16) 0.1 1 R16 rnd1 ltac:(lra)) as (k & E & H). exists k. split; auto. lra.
Qed.
Lemma lit_dy n k x : (Z.abs n <= 2 ^ 24)%Z -> (k <= 100)%nat -> x = IZR n / 2 ^ k -> lit x = Fin x.
Proof. apply rnd_dy. Qed.
Lemma lit_half : lit 0.5 = Fin 0.5. Proof. apply (lit_dy 1 1); [lia|lia|simpl; lra]. Qed.

(** ** Burst parameters *)
Lemma mid_finite lo hi : rnd 0 = Fin 0 -> -1000 <= lo <= 1000 -> -1000 <= hi <= 1000 ->
  exists m, nmul (lit 0.5) (nadd (Fin hi) (Fin lo)) = Fin m.
Proof.
  intros _ A B. rewrite lit_half. cbn [nadd].
  assert (R1 : rnd (-2000) = Fin (-2000)) by (apply (rnd_dy (-2000) 0); [lia|lia|simpl; lra]).
  assert (R2 : rnd 2000 = Fin 2000) by (apply (rnd_dy 2000 0); [lia|lia|simpl; lra]).
  destruct (rnd_between (-2000) (hi + lo) 2000 R1 R2 ltac:(lra)) as (s & -> & Hs). cbn [nmul].
  destruct (rnd_between (-2000) (0.5 * s) 2000 R1 R2 ltac:(lra)) as (m & -> & Hm). eauto.
Qed.
Lemma burst_bounds u_fb u_peak u_max : u_fb <> NaN -> u_peak <> NaN -> u_max <> NaN ->
  exists fb peak lo mx,
    get_params_from_u_params {| u_lgfburst := u_fb; u_lgyr_peak := u_peak; u_lgyr_max := u_max |}
      = {| lgfburst := Fin fb; lgyr_peak := Fin peak; lgyr_max := Fin mx |}
    /\ -8 <= fb <= -1 /\ 5 <= peak <= 8
    /\ nadd (Fin peak) (Fin 1) = Fin lo /\ lo <= mx <= 9 /\ peak + 1/2 <= mx.
Proof.
  intros N1 N2 N3. destruct lit_tenth as (k & Ek & Hk).
  assert (Z : forall n, (Z.abs n <= 2 ^ 24)%Z -> rnd (IZR n) = Fin (IZR n)).
  { intros n Hn. apply (rnd_dy n 0); auto; [lia|simpl; lra]. }
  unfold get_params_from_u_params, get_tburst_params_from_tburst_u_params. cbn [u_lgfburst u_lgyr_peak u_lgyr_max].
  (* fraction *)
  destruct (sigmoid_exact_height u_fb (-2) k (-8) (-1) N1 ltac:(lra)) as (fb & E1 & B1).
  { apply (Z (-8)%Z). lia. } { apply (Z (-1)%Z). lia. } { lra. }
  { replace (-1 - -8) with 7 by lra. apply (Z 7%Z). lia. }
  unfold get_lgfburst_from_u_lgfburst, LGFB_K, LGFB_X0, LGFBURST_MIN, LGFBURST_MAX. rewrite Ek, E1.
  (* peak *)
  assert (H8 : nsub LGAGE_MAX DLGAGE_MIN = Fin 8).
  { unfold LGAGE_MAX, DLGAGE_MIN, nsub. cbn [nopp nadd]. replace (9 + - (1)) with 8 by lra. apply (Z 8%Z). lia. }
  unfold get_lgyr_peak_from_u_lgyr_peak. rewrite H8. cbv zeta. unfold LGYR_PEAK_MIN, LGAGE_K. rewrite Ek.
  destruct (mid_finite 5 8 rnd0 ltac:(lra) ltac:(lra)) as (m1 & ->).
  destruct (sigmoid_exact_height u_peak m1 k 5 8 N2 ltac:(lra)) as (peak & E2 & B2).
  { apply (Z 5%Z). lia. } { apply (Z 8%Z). lia. } { lra. }
  { replace (8 - 5) with 3 by lra. apply (Z 3%Z). lia. }
  rewrite E2. pose proof (sigmoid_rep _ _ _ _ _ _ E2) as R2.
  (* max *)
  unfold get_lgyr_max_from_lgyr_peak, DLGAGE_MIN, LGAGE_MAX, LGAGE_K. cbv zeta. rewrite Ek.
  destruct (rnd_between 6 (peak + 1) 9) as (lo & El & Bl); [apply (Z 6%Z); lia|apply (Z 9%Z); lia|lra|].
  cbn [nadd]. rewrite El. change (rnd (9 + lo)) with (nadd (Fin 9) (Fin lo)).
  destruct (mid_finite lo 9 rnd0 ltac:(lra) ltac:(lra)) as (m2 & ->).
  assert (Rl : rnd lo = Fin lo) by (eapply (rnd_idem _ G); eauto).
  destruct (sigmoid_exact_height u_max m2 k lo 9 N3 ltac:(lra)) as (mx & E3 & B3); auto.
  { apply (Z 9%Z). lia. } { lra. }
  { apply (rnd_sterbenz _ G); auto; [apply (Z 9%Z); lia|lra|lra]. }
  rewrite E3. exists fb, peak, lo, mx.
  cut (peak + 1/2 <= lo).
  { intros C. split; [reflexivity|]. split; [lra|]. split; [lra|]. split; [exact El|]. split; lra. }
  (* lo is at least peak + 1/2, because the integer or half-integer below is representable *)
  assert (HI : forall n, (10 <= n <= 17)%Z -> rnd (IZR n / 2) = Fin (IZR n / 2)).
  { intros n Hn. apply (rnd_dy n 1); [lia|lia|simpl; lra]. }
  set (n := Zfloor (2 * peak)). pose proof (Zfloor_lb (2 * peak)) as F1. pose proof (Zfloor_ub (2 * peak)) as F2. fold n in F1, F2.
  assert (Hn : (10 <= n <= 16)%Z).
  { split.
    - apply Zfloor_lub. simpl. lra.
    - apply le_IZR. lra. }
  assert (RR : IZR (n + 2) / 2 <= lo).
  { apply (rnd_ge_rep (peak + 1)); auto; [rewrite plus_IZR; lra|]. apply (rnd_dy (n + 2) 1); [lia|lia|simpl; lra]. }
  rewrite plus_IZR in RR. lra.
Qed.

(** ** Mass-metallicity parameters *)
Lemma bounded_param u lo hi : u <> NaN -> rnd lo = Fin lo -> rnd hi = Fin hi -> rnd (hi - lo) = Fin (hi - lo) -> lo <= hi ->
  -1000 <= lo <= 1000 -> -1000 <= hi <= 1000 -> exists y, get_square_bounded_param u (Fin lo, Fin hi) = Fin y /\ lo <= y <= hi /\ rnd y = Fin y.
Proof.
  intros N Hl Hh Hd L Bl Bh. destruct lit_tenth as (k & Ek & Hk). unfold get_square_bounded_param, BOUNDING_K. cbv zeta. rewrite Ek.
  destruct (mid_finite hi lo rnd0 Bh Bl) as (m & ->).
  destruct (sigmoid_exact_height u m k lo hi N ltac:(lra) Hl Hh L Hd) as (y & E & B). exists y. rewrite E. repeat split; try lra.
  eapply sigmoid_rep; eauto.
Qed.
Lemma mzr_bounds u : not_nan_params u -> exists y x k lo hi a b c d tenth,
  lit 0.1 = Fin tenth /\
  get_bounded_mzr_params u = {| mzr_t0_ytp := Fin y; mzr_t0_x0 := Fin x; mzr_t0_k := Fin k; mzr_t0_slope_lo := Fin lo;
    mzr_t0_slope_hi := Fin hi; c0_y_at_tlook_c := Fin a; c1_y_at_tlook_c := Fin b; c0_early_time_slope := Fin c;
    c1_early_time_slope := Fin d |}
  /\ -1 <= y <= 1/4 /\ 10.25 <= x <= 10.75 /\ 0.5 <= k <= 2 /\ tenth <= lo <= 1 /\ 0 <= hi <= lo
  /\ -2 <= a <= -1 /\ 0 <= b <= 0.5 /\ -1.5 <= c <= -0.5 /\ 0 <= d <= 0.5.
Proof.
  intros (N1 & N2 & N3 & N4 & N5 & N6 & N7 & N8 & N9). destruct lit_tenth as (tn & Ek & Hk).
  assert (D : forall n x, (Z.abs n <= 2 ^ 24)%Z -> x = IZR n / 4 -> rnd x = Fin x).
  { intros n x Hn ->. apply (rnd_dy n 2); auto; [lia|simpl; lra]. }
  assert (B : forall u n m lo hi, u <> NaN -> (-400 <= n <= m)%Z -> (m <= 400)%Z -> lo = IZR n / 4 -> hi = IZR m / 4 ->
    exists y, get_square_bounded_param u (Fin lo, Fin hi) = Fin y /\ lo <= y <= hi /\ rnd y = Fin y).
  { intros v n m lo hi Nv Hn Hm -> ->. assert (IZR n <= IZR m) by (apply IZR_le; lia).
    assert (-400 <= IZR n) by (apply IZR_le; lia). assert (IZR m <= 400) by (apply IZR_le; lia).
    apply bounded_param; auto; try lra.
    - apply (D n); [lia|lra].
    - apply (D m); [lia|lra].
    - apply (D (m - n)%Z); [lia|]. rewrite minus_IZR. lra. }
  assert (L : forall n x, (Z.abs n <= 2 ^ 24)%Z -> x = IZR n / 4 -> lit x = Fin x) by exact D.
  unfold get_bounded_mzr_params, map_bounds, replace_slope_hi. cbn [mzr_t0_ytp mzr_t0_x0 mzr_t0_k mzr_t0_slope_lo mzr_t0_slope_hi c0_y_at_tlook_c c1_y_at_tlook_c c0_early_time_slope c1_early_time_slope].
  destruct (B (mzr_t0_ytp u) (-4)%Z 1%Z (-1) (1/4) N1) as (y & Ey & By & _); [lia|lia|lra|lra|].
  destruct (B (mzr_t0_x0 u) 41%Z 43%Z 10.25 10.75 N2) as (x & Ex & Bx & _); [lia|lia|lra|lra|].
  destruct (B (mzr_t0_k u) 2%Z 8%Z 0.5 2 N3) as (k & Ekk & Bk & _); [lia|lia|lra|lra|].
  destruct (B (c0_y_at_tlook_c u) (-8)%Z (-4)%Z (-2) (-1) N6) as (a & Ea & Ba & _); [lia|lia|lra|lra|].
  destruct (B (c1_y_at_tlook_c u) 0%Z 2%Z 0 0.5 N7) as (b & Eb & Bb & _); [lia|lia|lra|lra|].
  destruct (B (c0_early_time_slope u) (-6)%Z (-2)%Z (-1.5) (-0.5) N8) as (c & Ec & Bc & _); [lia|lia|lra|lra|].
  destruct (B (c1_early_time_slope u) 0%Z 2%Z 0 0.5 N9) as (d & Ed & Bd & _); [lia|lia|lra|lra|].
  assert (Rt : rnd tn = Fin tn) by (eapply (rnd_idem _ G); eauto).
  assert (Lo : exists lo, get_square_bounded_param (mzr_t0_slope_lo u) b_mzr_t0_slope_lo = Fin lo /\ tn <= lo <= 1 /\ rnd lo = Fin lo).
  { unfold get_square_bounded_param, b_mzr_t0_slope_lo, BOUNDING_K. cbv zeta beta. rewrite Ek.
    destruct (mid_finite 1 tn rnd0 ltac:(lra) ltac:(lra)) as (m & ->).
    destruct (rnd_between 0 (1 - tn) 1 rnd0 rnd1 ltac:(lra)) as (dd & Edd & Bdd).
    destruct (sigmoid_gen (mzr_t0_slope_lo u) m tn tn 1 dd N4 ltac:(lra) Rt rnd1 ltac:(lra) Edd) as (lo & E & Bo).
    { pose proof (rnd_one_minus _ G tn ltac:(lra) Rt) as Q. rewrite Edd in Q. exact Q. }
    exists lo. rewrite E. repeat split; try lra. eapply sigmoid_rep; eauto. }
  destruct Lo as (lo & Elo & Blo & Rlo).
  destruct (sigmoid_exact_height (mzr_t0_slope_hi u) 0 tn 0 lo N5 ltac:(lra) rnd0 Rlo ltac:(lra)) as (hi & Ehi & Bhi).
  { replace (lo - 0) with lo by lra. exact Rlo. }
  exists y, x, k, lo, hi, a, b, c, d, tn. split; auto. split.
  - unfold b_mzr_t0_ytp, b_mzr_t0_x0, b_mzr_t0_k, b_c0_y_at_tlook_c, b_c1_y_at_tlook_c, b_c0_early_time_slope, b_c1_early_time_slope.
    rewrite (L 41%Z 10.25) by (lia || lra). rewrite (L 43%Z 10.75) by (lia || lra). rewrite (L 2%Z 0.5) by (lia || lra).
    rewrite (L (-6)%Z (-1.5)) by (lia || lra). rewrite (L (-2)%Z (-0.5)) by (lia || lra).
    rewrite Ey, Ex, Ekk, Ea, Eb, Ec, Ed, Elo. unfold get_mzr_t0_slope_hi_from_unbounded, b_mzr_t0_slope_hi, BOUNDING_K. cbn [fst].
    rewrite Ek, Ehi. reflexivity.
  - repeat split; lra.
Qed.

(** ** Dust transmission *)
Lemma transmission_bounds k_lambda av f : 0 <= f <= 1 -> rnd f = Fin f ->
  (frac_transmission_from_k_lambda k_lambda av (Fin f) = NaN
   \/ exists t, frac_transmission_from_k_lambda k_lambda av (Fin f) = Fin t /\ f <= t <= 1)
  /\ forall kl a, k_lambda = Fin kl -> av = Fin a -> exists t, frac_transmission_from_k_lambda k_lambda av (Fin f) = Fin t /\ f <= t <= 1.
Proof.
  intros Hf Rf. unfold frac_transmission_from_k_lambda. cbv zeta.
  assert (TR : forall A, (exists x, A = Fin x /\ 0 <= x) \/ A = PInf -> exists t,
    nadd (Fin f) (nmul (nsub (Fin 1) (Fin f)) (npow10 (nmul (lit (-0.4)) A))) = Fin t /\ f <= t <= 1).
  { intros A HA.
    assert (Lc : exists c, lit (-0.4) = Fin c /\ c < 0).
    { unfold lit. assert (Rm : rnd (-1/4) = Fin (-1/4)) by (apply (rnd_dy (-1) 2); [lia|lia|simpl; lra]).
      assert (Rn : rnd (-1) = Fin (-1)) by (apply (rnd_dy (-1) 0); [lia|lia|simpl; lra]).
      destruct (rnd_between (-1) (-0.4) (-1/4) Rn Rm ltac:(lra)) as (c & E & B). exists c. split; auto. lra. }
    destruct Lc as (c & -> & Hc).
    assert (PW : exists p, npow10 (nmul (Fin c) A) = Fin p /\ 0 <= p <= 1).
    { assert (E10 : forall e, e <= 0 -> exists p, npow10 (Fin e) = Fin p /\ 0 <= p <= 1).
      { intros e He. destruct (npow10_unit e He) as (p & E & B & _). eauto. }
      assert (EI : npow10 NInf = Fin 0).
      { unfold npow10, npow. rewrite Rabs_right by lra. rewrite Rlt_bool_false by lra. rewrite Req_bool_false by lra. reflexivity. }
      destruct HA as [(x & -> & Hx)| ->].
      - cbn [nmul]. assert (c * x <= 0) by nra. assert (Q : nle (rnd (c * x)) (Fin 0)) by (rewrite <- rnd0; now apply rnd_le_).
        destruct (rnd (c * x)) as [e| | |]; try discriminate; [rewrite nle_fin in Q; auto|].
        rewrite EI. exists 0. split; auto; lra.
      - cbn [nmul]; unfold inf_times. rewrite Rlt_bool_false, Rlt_bool_true by lra. cbn [nopp]. rewrite EI. exists 0. split; auto; lra. }
    destruct PW as (p & -> & Hp). unfold nsub. cbn [nopp nadd]. replace (1 + - f) with (1 - f) by lra.
    destruct (rnd_between 0 (1 - f) 1 rnd0 rnd1 ltac:(lra)) as (g & Eg & Bg).
    pose proof (rnd_one_minus _ G f Hf Rf) as Q. rewrite Eg in *. cbn [nadd nmul] in *.
    assert (Rg : rnd g = Fin g) by (eapply (rnd_idem _ G); eauto).
    destruct (rnd_between 0 (g * p) g rnd0 Rg) as (q & -> & Bq); [split; [apply Rmult_le_pos; lra|]; rewrite <- (Rmult_1_r g) at 2; apply Rmult_le_compat_l; lra|].
    cbn [nadd]. assert (U : nle (rnd (f + q)) (Fin 1)) by (eapply nle_trans; [|exact Q]; apply rnd_le_; lra).
    assert (V : nle (Fin f) (rnd (f + q))) by (rewrite <- Rf; apply rnd_le_; lra).
    destruct (rnd (f + q)); try discriminate. rewrite nle_fin in U, V. eauto. }
  assert (AT : att_curve_from_k_lambda k_lambda av = NaN
    \/ ((exists x, att_curve_from_k_lambda k_lambda av = Fin x /\ 0 <= x) \/ att_curve_from_k_lambda k_lambda av = PInf)).
  { unfold att_curve_from_k_lambda. set (q := ndiv _ _). cbv zeta. unfold nwhere. destruct q; cbn [nltb]; auto.
    - destruct (Rlt_bool_spec x 0); right; left; eexists; split; try reflexivity; lra.
    - right. left. exists 0. split; [reflexivity|lra]. }
  split.
  - destruct AT as [E|E]; [left|right; now apply TR]. rewrite E.
    assert (nmul (lit (-0.4)) NaN = NaN) as -> by (unfold lit; destruct (rnd (-0.4)); reflexivity).
    assert (npow10 NaN = NaN) as -> by (unfold npow10, npow; now rewrite Req_bool_false by lra).
    unfold nsub; cbn [nopp nadd]. destruct (rnd (1 + - f)); reflexivity.
  - intros kl a -> ->. apply TR. destruct AT as [E|E]; auto. exfalso. revert E. unfold att_curve_from_k_lambda, RV_C00, lit. cbn [nmul].
    assert (R4 : rnd 4 = Fin 4) by (apply (rnd_dy 4 0); [lia|lia|simpl; lra]).
    assert (R5 : rnd 5 = Fin 5) by (apply (rnd_dy 5 0); [lia|lia|simpl; lra]).
    destruct (rnd_between 4 4.05 5 R4 R5 ltac:(lra)) as (v & -> & Bv).
    pose proof (rnd_not_nan (a * kl)). destruct (rnd (a * kl)) as [x| | |]; try congruence; cbn [ndiv].
    + rewrite Req_bool_false by lra. pose proof (rnd_not_nan (x / v)). cbv zeta. unfold nwhere. destruct (nltb _ _); congruence.
    + rewrite Rlt_bool_false by lra. cbn. congruence.
    + rewrite Rlt_bool_false by lra. cbn. congruence.
Qed.
End Good.
