(** * Cumulative stellar mass in rounded arithmetic: forward error *)
From Coq Require Import Reals List Arith Lra Lia ZArith Bool.
From Flocq Require Import Core.Raux.
From Verif Require Import Num Arr MUtils MSed Float Spec SpecFloat RList LBcast LUtils LFloat LFloat2 LFloat3 LFloat4 LFloat5 LFloat6 LFloat10 LFloat11.
Import ListNotations.
Open Scope R_scope.

Section F.
Context {AR : Arith} {u : R} (H : rel_err AR u).
Let G := re_good _ _ H.
Let t0 := (u * / 2 ^ 102).

Lemma u_small : 0 < u <= / 1000.
Proof. pose proof (re_u _ _ H). assert (/ 2 ^ 22 <= / 1000) by (apply Rinv_le; [lra|simpl; lra]). lra. Qed.
Lemma t0_pos : 0 < t0 <= / 10 ^ 37.
Proof.
  pose proof (re_u _ _ H) as Hu. assert (P : 0 < / 2 ^ 102) by (apply Rinv_0_lt_compat, pow_lt; lra). unfold t0. split; [apply Rmult_lt_0_compat; lra|].
  apply Rle_trans with (/ 2 ^ 22 * / 2 ^ 102); [apply Rmult_le_compat_r; lra|]. rewrite <- Rinv_mult, <- pow_add. apply Rinv_le; [apply pow_lt; lra|].
  rewrite (pow_IZR 10 37), (pow_IZR 2). apply IZR_le. vm_compute. discriminate.
Qed.

(** [x] is [X] up to [k] roundings and an absolute error [t] *)
Definition wi (k : nat) (X t x : R) : Prop := (1 - u) ^ k * X - t <= x <= (1 + u) ^ k * X + t.
Lemma pl k : 0 < (1 - u) ^ k <= 1.
Proof. pose proof u_small. split; [apply pow_lt; lra|]. apply Rle_trans with (1 ^ k); [apply pow_incr; lra|rewrite pow1; lra]. Qed.
Lemma ph k : 1 <= (1 + u) ^ k.
Proof. pose proof u_small. apply pow_R1_Rle. lra. Qed.
Lemma pow_dec x j k : 0 <= x <= 1 -> (j <= k)%nat -> x ^ k <= x ^ j.
Proof.
  intros Hx L. replace k with (j + (k - j))%nat by lia. rewrite pow_add. rewrite <- (Rmult_1_r (x ^ j)) at 2.
  apply Rmult_le_compat_l; [apply pow_le; lra|]. apply Rle_trans with (1 ^ (k - j)); [apply pow_incr; lra|rewrite pow1; lra].
Qed.
Lemma wi_weaken j k X s t x : 0 <= X -> (j <= k)%nat -> s <= t -> wi j X s x -> wi k X t x.
Proof.
  intros X0 L S [A B]. pose proof u_small. split.
  - eapply Rle_trans; [|exact A]. assert ((1 - u) ^ k * X <= (1 - u) ^ j * X) by (apply Rmult_le_compat_r; auto; apply pow_dec; [lra|auto]). lra.
  - eapply Rle_trans; [exact B|]. assert ((1 + u) ^ j * X <= (1 + u) ^ k * X) by (apply Rmult_le_compat_r; auto; apply Rle_pow; [lra|auto]). lra.
Qed.
Lemma wi_mult j k X Y x y : 0 <= X -> 0 <= Y -> wi j X 0 x -> wi k Y 0 y -> wi (j + k) (X * Y) 0 (x * y) /\ 0 <= x /\ 0 <= y.
Proof.
  intros X0 Y0 [A B] [C D]. unfold wi in *. rewrite !Rminus_0_r, !Rplus_0_r in *. rewrite !pow_add.
  assert (0 <= (1 - u) ^ j * X) by (apply Rmult_le_pos; [apply Rlt_le, pl|auto]). assert (0 <= (1 - u) ^ k * Y) by (apply Rmult_le_pos; [apply Rlt_le, pl|auto]).
  split; [|split; lra]. split.
  - replace ((1 - u) ^ j * (1 - u) ^ k * (X * Y)) with ((1 - u) ^ j * X * ((1 - u) ^ k * Y)) by ring. apply Rmult_le_compat; lra.
  - replace ((1 + u) ^ j * (1 + u) ^ k * (X * Y)) with ((1 + u) ^ j * X * ((1 + u) ^ k * Y)) by ring. apply Rmult_le_compat; lra.
Qed.
(** one more rounding, of a machine sum *)
Lemma wi_sum k X t x y z : 0 <= X -> 0 <= x + y -> 0 <= t -> wi k X t (x + y) -> rnd x = Fin x -> rnd y = Fin y -> rnd (x + y) = Fin z -> safe_sum x y -> wi (S k) X ((1 + u) * t) z.
Proof.
  intros X0 P T0 [A B] Rx Ry E SF. pose proof u_small. pose proof (re_add _ _ H _ _ _ Rx Ry E SF) as Q. rewrite (Rabs_right (x + y)) in Q by lra. apply Rabs_le_inv in Q.
  split; cbn [pow].
  - apply Rle_trans with ((1 - u) * (x + y)); [|lra]. assert (W : (1 - u) * ((1 - u) ^ k * X - t) <= (1 - u) * (x + y)) by (apply Rmult_le_compat_l; lra). nra.
  - apply Rle_trans with ((1 + u) * (x + y)); [lra|]. assert (W : (1 + u) * (x + y) <= (1 + u) * ((1 + u) ^ k * X + t)) by (apply Rmult_le_compat_l; lra). lra.
Qed.
Lemma wi_round k X t x z : 0 <= X -> 0 <= x -> 0 <= t -> wi k X t x -> rnd x = Fin z -> wi (S k) X ((1 + u) * t + t0) z.
Proof.
  intros X0 P T0 [A B] E. pose proof u_small. pose proof (re_any _ _ H _ _ E) as Q. rewrite (Rabs_right x) in Q by lra. apply Rabs_le_inv in Q. fold t0 in Q.
  split; cbn [pow].
  - apply Rle_trans with ((1 - u) * x - t0); [|lra]. assert (W : (1 - u) * ((1 - u) ^ k * X - t) <= (1 - u) * x) by (apply Rmult_le_compat_l; lra). nra.
  - apply Rle_trans with ((1 + u) * x + t0); [lra|]. assert (W : (1 + u) * x <= (1 + u) * ((1 + u) ^ k * X + t)) by (apply Rmult_le_compat_l; lra). lra.
Qed.
Lemma rnd_finite_nonneg x : 0 <= x <= 10 ^ 38 -> exists z, rnd x = Fin z /\ nonneg_machine z.
Proof.
  intros B. destruct (rnd_range _ G x) as (z & E); [rewrite Rabs_right by lra; lra|]. exists z. split; auto. split; [|eapply (rnd_idem _ G); eauto].
  pose proof (rnd_nonneg G x ltac:(lra)) as N. rewrite E, nle_fin in N. exact N.
Qed.

Lemma step_err a b fa fb c dx sy C k tau : rnd a = Fin a -> rnd b = Fin b -> rnd fa = Fin fa -> rnd fb = Fin fb -> nonneg_machine c -> 0 <= fa -> 0 <= fb -> 0.0009 <= b ->
  0 <= dx <= 1001 -> 0 <= sy <= 10 ^ 25 -> 0 <= C <= 10 ^ 34 -> (7 <= k)%nat -> (1 + u) ^ S k <= 2 -> 0 <= tau <= 1 ->
  wi 1 dx 0 (b - a) -> wi 2 sy 0 (fb + fa) -> wi k C tau c ->
  exists r, (Fin c + (Fin b - Fin a) * (Fin fb + Fin fa) / Fin 2)%num = Fin r /\ nonneg_machine r /\ wi (S k) (C + dx * sy / 2) ((1 + u) * (tau + 3 * t0)) r.
Proof.
  intros Ra Rb Rfa Rfb [C0 Rc] Fa0 Fb0 B0 Bdx Bsy BC Hk P2 Bt Wx Wy Wc. pose proof u_small as Hu. pose proof t0_pos as T0.
  assert (D24 : 1 <= 10 ^ 24) by (apply pow_R1_Rle; lra). assert (D25 : 10 ^ 25 = 10 * 10 ^ 24) by reflexivity.
  assert (D30 : 10 ^ 34 = 10 ^ 10 * 10 ^ 24) by (rewrite <- pow_add; reflexivity). assert (D38 : 10 ^ 38 = 10 ^ 14 * 10 ^ 24) by (rewrite <- pow_add; reflexivity).
  assert (DX0 : 0 <= b - a). { destruct Wx as [A _]. rewrite Rminus_0_r in A. eapply Rle_trans; [|exact A]. apply Rmult_le_pos; [apply Rlt_le, pl|lra]. }
  assert (SY0 : 0 <= fb + fa). { destruct Wy as [A _]. rewrite Rminus_0_r in A. eapply Rle_trans; [|exact A]. apply Rmult_le_pos; [apply Rlt_le, pl|lra]. }
  assert (DX1 : b - a <= 2002). { destruct Wx as [_ A]. rewrite Rplus_0_r, pow_1 in A. nra. }
  assert (SY1 : fb + fa <= 2 * 10 ^ 25). { destruct Wy as [_ A]. rewrite Rplus_0_r in A. eapply Rle_trans; [exact A|]. apply Rmult_le_compat; try lra; [apply pow_le; lra|]. eapply Rle_trans; [|exact P2]. apply Rle_pow; [lra|lia]. }
  assert (D3 : 2002 <= 10 ^ 38) by (apply Rle_trans with (10 ^ 4); [simpl; lra|apply Rle_pow; [lra|lia]]).
  assert (D26 : 2 * 10 ^ 25 <= 10 ^ 38) by (apply Rle_trans with (10 ^ 26); [change (10 ^ 26) with (10 * 10 ^ 25); lra|apply Rle_pow; [lra|lia]]).
  destruct (rnd_finite_nonneg (b - a)) as (x & Ex & Nx); [lra|].
  destruct (rnd_finite_nonneg (fb + fa)) as (y & Ey & Ny); [lra|].
  assert (Rma : rnd (- a) = Fin (- a)) by (rewrite (rnd_opp _ G), Ra; reflexivity).
  assert (W1 : wi 2 dx 0 x). { replace 0 with ((1 + u) * 0) by ring. apply (wi_sum 1 dx 0 b (- a)); auto; try lra. apply safe_big_l. rewrite Rabs_right by lra. simpl. lra. }
  assert (W2 : wi 3 sy 0 y). { replace 0 with ((1 + u) * 0) by ring. apply (wi_sum 2 sy 0 fb fa); auto; try lra. now apply safe_nonneg. }
  destruct (wi_mult 2 3 dx sy x y) as (W3 & X0 & Y0); try lra; auto.
  assert (PU : forall j, (j <= S k)%nat -> (1 + u) ^ j <= 2) by (intros j Hj; eapply Rle_trans; [|exact P2]; apply Rle_pow; [lra|auto]).
  assert (Q0 : 0 <= dx * sy) by (apply Rmult_le_pos; lra).
  assert (QB : dx * sy <= 1001 * 10 ^ 25) by (apply Rmult_le_compat; lra).
  assert (XYB : x * y <= 10 ^ 29).
  { destruct W3 as [_ A]. rewrite Rplus_0_r in A. eapply Rle_trans; [exact A|]. apply Rle_trans with (2 * (1001 * 10 ^ 25)); [apply Rmult_le_compat; try lra; [apply pow_le; lra|apply PU; lia]|].
    replace (10 ^ 29) with (10 ^ 4 * 10 ^ 25) by (rewrite <- pow_add; reflexivity). simpl. lra. }
  assert (D29 : 10 ^ 29 <= 10 ^ 38) by (apply Rle_pow; [lra|lia]).
  assert (XY0 : 0 <= x * y) by (apply Rmult_le_pos; lra).
  destruct (rnd_finite_nonneg (x * y)) as (p & Ep & Np); [lra|].
  assert (W4 : wi 6 (dx * sy) t0 p). { eapply wi_weaken; [auto|apply le_n| |apply (wi_round 5 _ 0 _ _ Q0 XY0 (Rle_refl 0) W3 Ep)]. lra. }
  assert (PB : p <= 10 ^ 30).
  { pose proof (re_any _ _ H _ _ Ep) as A. rewrite (Rabs_right (x * y)) in A by lra. apply Rabs_le_inv in A. fold t0 in A.
    assert (u * (x * y) <= / 1000 * 10 ^ 29) by (apply Rmult_le_compat; lra). assert (1 <= 10 ^ 29) by (apply pow_R1_Rle; lra). assert (t0 <= 1) by (eapply Rle_trans; [apply T0|]; rewrite <- Rinv_1; apply Rinv_le; [lra|apply pow_R1_Rle; lra]).
    replace (10 ^ 30) with (10 * 10 ^ 29) by reflexivity. lra. }
  assert (D30' : 10 ^ 30 <= 10 ^ 38) by (apply Rle_pow; [lra|lia]). destruct Np as [P0 Rp].
  destruct (rnd_finite_nonneg (p / 2)) as (q & Eq & Nq); [lra|].
  assert (W5 : wi 7 (dx * sy / 2) (2 * t0) q).
  { eapply wi_weaken; [lra|apply le_n| |apply (wi_round 6 (dx * sy / 2) (t0 / 2) (p / 2) q); auto; try lra; destruct W4; split; lra]. nra. }
  assert (QB2 : q <= 10 ^ 31).
  { pose proof (re_any _ _ H _ _ Eq) as A. rewrite (Rabs_right (p / 2)) in A by lra. apply Rabs_le_inv in A. fold t0 in A.
    assert (u * (p / 2) <= / 1000 * 10 ^ 30) by (apply Rmult_le_compat; lra). assert (1 <= 10 ^ 30) by (apply pow_R1_Rle; lra). assert (t0 <= 1) by (eapply Rle_trans; [apply T0|]; rewrite <- Rinv_1; apply Rinv_le; [lra|apply pow_R1_Rle; lra]).
    replace (10 ^ 31) with (10 * 10 ^ 30) by reflexivity. lra. }
  assert (CB : c <= 2 * 10 ^ 34 + 1).
  { destruct Wc as [_ A]. eapply Rle_trans; [exact A|]. apply Rplus_le_compat; [|lra]. apply Rmult_le_compat; try lra; [apply pow_le; lra|apply PU; lia]. }
  destruct Nq as [NQ RQ]. destruct (rnd_finite_nonneg (c + q)) as (r & Er & Nr).
  { split; [lra|]. assert (10 ^ 31 <= 10 ^ 34) by (apply Rle_pow; [lra|lia]). assert (1 <= 10 ^ 34) by (apply pow_R1_Rle; lra). replace (10 ^ 38) with (10 ^ 4 * 10 ^ 34) by (rewrite <- pow_add; reflexivity). simpl (10 ^ 4). lra. }
  exists r. split; [|split; auto].
  - unfold nsub. cbn [nopp nadd]. change (b + - a) with (b - a). rewrite Ex, Ey. cbn [nmul]. rewrite Ep. cbn [ndiv]. rewrite Req_bool_false by lra. rewrite Eq. cbn [nadd]. exact Er.
  - apply (wi_sum k (C + dx * sy / 2) (tau + 3 * t0) c q); auto; try lra; [|now apply safe_nonneg].
    pose proof (wi_weaken 7 k (dx * sy / 2) (2 * t0) (2 * t0) q ltac:(lra) Hk ltac:(lra) W5) as [A B]. destruct Wc as [A' B']. split; lra.
Qed.

Lemma In_firstn {A} (x : A) n l : In x (firstn n l) -> In x l.
Proof. revert l. induction n; intros [|y l] Hx; simpl in *; try tauto. destruct Hx; auto. Qed.
Lemma trap_nonneg xs : forall ys, length xs = length ys -> nondecreasing xs -> Forall (fun y => 0 <= y) ys -> 0 <= trapezoid xs ys.
Proof.
  induction xs as [|x xs IH]; intros [|y ys] L N F; [simpl; lra|simpl; lra| |]. { simpl in L; lia. } destruct xs as [|x1 xs], ys as [|y1 ys]; try (simpl; lra); try (simpl in L; lia).
  rewrite trapezoid_cons2. apply Forall_cons_iff in F. destruct F as [Fy F]. pose proof F as F'. apply Forall_cons_iff in F'. destruct F' as [Fy1 _].
  assert (x <= x1) by (specialize (N 0%nat 1%nat); unfold ent in N; simpl in N; apply N; lia).
  specialize (IH (y1 :: ys) ltac:(simpl in *; lia) (nondecreasing_tl _ _ N) F). assert (0 <= (x1 - x) * (y + y1)) by (apply Rmult_le_pos; lra). lra.
Qed.
Lemma scan_err xs : forall ys a fa c C k tau, length xs = length ys ->
  increasing (a :: xs) -> Forall (fun x => rnd x = Fin x) (a :: xs) -> (forall x, In x xs -> x - a <= 1001) -> Forall (fun y => 0 <= y <= 10 ^ 24 /\ rnd y = Fin y) (fa :: ys) -> 0.0009 <= a ->
  nonneg_machine c -> 0 <= C -> (forall i, (i < length xs)%nat -> C + trapezoid (a :: firstn (S i) xs) (fa :: firstn (S i) ys) <= 10 ^ 34) ->
  (7 <= k)%nat -> (1 + u) ^ (k + length xs) <= 2 -> 0 <= tau -> wi k C tau c ->
  (1 + u) ^ length xs * (tau + 3 * INR (length xs) * t0) <= 1 ->
  exists cs, scan cumtrapz_scan_func (Fin a, Fin fa, Fin c) (combine (fins xs) (fins ys)) = fins cs /\ length cs = length xs
    /\ forall i, (i < length xs)%nat -> nonneg_machine (ent cs i)
       /\ wi (k + S i) (C + trapezoid (a :: firstn (S i) xs) (fa :: firstn (S i) ys)) ((1 + u) ^ S i * (tau + 3 * INR (S i) * t0)) (ent cs i).
Proof.
  pose proof u_small as Hu. pose proof t0_pos as T0.
  induction xs as [|x xs IH]; intros ys a fa c C k tau L I RX DX FY A0 Nc C0 BC Hk P2 Bt Wc TB.
  - exists []. split; [reflexivity|]. split; auto. intros i Hi. simpl in Hi. lia.
  - destruct ys as [|y ys]; [simpl in L; lia|]. apply Forall_cons_iff in FY. destruct FY as [[Fa Rfa] FY]. pose proof FY as FY'. apply Forall_cons_iff in FY'. destruct FY' as [[Fy Ry] FYs].
    apply Forall_cons_iff in RX. destruct RX as [Ra RX]. pose proof RX as RX'. apply Forall_cons_iff in RX'. destruct RX' as [Rx RXs].
    assert (AX : a < x) by (specialize (I 0%nat 1%nat); unfold ent in I; simpl in I; apply I; lia).
    assert (X1 : x - a <= 1001) by (apply DX; now left).
    set (C' := C + (x - a) * (y + fa) / 2).
    assert (Tz : trapezoid (a :: firstn 1 (x :: xs)) (fa :: firstn 1 (y :: ys)) = (x - a) * (y + fa) / 2) by (cbn [firstn trapezoid]; lra).
    assert (C'B : C' <= 10 ^ 34). { specialize (BC 0%nat ltac:(simpl; lia)). rewrite Tz in BC. exact BC. }
    assert (Q0 : 0 <= (x - a) * (y + fa) / 2) by (apply Rmult_le_pos; [apply Rmult_le_pos; lra|lra]).
    cbn [length] in P2, TB.
    assert (W0 : forall X, 0 <= X -> wi 1 X 0 X). { intros X X0. split; rewrite ?pow_1; nra. }
    assert (L1 : 1 <= (1 + u) ^ S (length xs)) by apply ph.
    assert (SN : 0 <= 3 * INR (S (length xs)) * t0) by (apply Rmult_le_pos; [apply Rmult_le_pos; [lra|apply pos_INR]|lra]).
    assert (TB0 : tau + 3 * INR (S (length xs)) * t0 <= 1).
    { eapply Rle_trans; [|exact TB]. rewrite <- (Rmult_1_l (tau + _)) at 1. apply Rmult_le_compat_r; lra. }
    destruct (step_err a x fa y c (x - a) (y + fa) C k tau) as (r & Er & Nr & Wr); auto; try lra.
    { split; auto. unfold C' in C'B. lra. }
    { eapply Rle_trans; [|exact P2]. apply Rle_pow; [lra|lia]. }
    { apply W0. lra. }
    { apply (wi_weaken 1 2 _ 0 0); [lra|lia|lra|apply W0; lra]. }
    fold C' in Wr.
    assert (I' : increasing (x :: xs)) by (eapply increasing_tl; eauto).
    destruct (IH ys x y r C' (S k) ((1 + u) * (tau + 3 * t0))) as (cs & Ecs & Lcs & K); auto; try lia; try (intros z Hz; specialize (DX z (or_intror Hz)); lra); try (unfold C'; lra).
    { intros i Hi. specialize (BC (S i) ltac:(simpl; lia)). rewrite !firstn_cons in BC. rewrite trapezoid_cons2, <- !firstn_cons in BC. unfold C'. rewrite !firstn_cons in *. lra. }
    { replace (S k + length xs)%nat with (k + S (length xs))%nat by lia. exact P2. }
    { apply Rmult_le_pos; lra. }
    { eapply Rle_trans; [|exact TB]. rewrite S_INR. cbn [pow]. replace ((1 + u) * (1 + u) ^ length xs * (tau + 3 * (INR (length xs) + 1) * t0)) with ((1 + u) ^ length xs * ((1 + u) * (tau + 3 * (INR (length xs) + 1) * t0))) by ring.
      apply Rmult_le_compat_l; [apply pow_le; lra|]. pose proof (pos_INR (length xs)). assert (0 <= u * (INR (length xs) * t0)) by (apply Rmult_le_pos; [lra|apply Rmult_le_pos; lra]). lra. }
    exists (r :: cs). split; [|split; [simpl; lia|]].
    { cbn [fins map combine scan cumtrapz_scan_func]. rewrite Er. f_equal. exact Ecs. }
    intros [|i] Hi.
    { unfold ent. cbn [nth]. split; auto. rewrite Tz. fold C'. replace (k + 1)%nat with (S k) by lia. rewrite pow_1. simpl (INR 1). rewrite Rmult_1_r. exact Wr. }
    rewrite ent_cons_S. simpl in Hi. destruct (K i ltac:(lia)) as [N W]. split; auto.
    rewrite (firstn_cons (S i)), (firstn_cons (S i)), trapezoid_cons2.
    match goal with |- context [wi _ (C + (_ + ?z))] => assert (EC : C + ((x - a) * (fa + y) / 2 + z) = C' + z) by (unfold C'; lra); rewrite EC; clear EC end.
    replace (k + S (S i))%nat with (S k + S i)%nat by lia. eapply wi_weaken; [|apply le_n| |exact W].
    + unfold C'. specialize (BC (S i) ltac:(simpl; lia)).
      assert (0 <= trapezoid (x :: firstn (S i) xs) (y :: firstn (S i) ys)); [|lra].
      apply trap_nonneg; [cbn [length]; rewrite !firstn_length; simpl in L; lia| |].
      * apply increasing_nondecreasing. change (x :: firstn (S i) xs) with (firstn (S (S i)) (x :: xs)). intros p q Hpq. rewrite firstn_length in Hpq. rewrite !ent_firstn by lia. apply I'. lia.
      * constructor; [lra|]. apply Forall_forall. intros z Hz. rewrite Forall_forall in FYs. apply (FYs z). eapply In_firstn; eauto.
    + rewrite (S_INR (S i)). cbn [pow]. set (P := (1 + u) ^ i). assert (0 < P) by (apply pow_lt; lra). set (j := INR (S i)). assert (0 <= j) by apply pos_INR.
      replace ((1 + u) * ((1 + u) * P) * (tau + 3 * (j + 1) * t0)) with ((1 + u) * P * ((1 + u) * (tau + 3 * (j + 1) * t0))) by ring.
      apply Rmult_le_compat_l; [apply Rmult_le_pos; lra|]. assert (0 <= u * (j * t0)) by (apply Rmult_le_pos; [lra|apply Rmult_le_pos; lra]). lra.
Qed.

Lemma lit_001 : exists b, T_BIRTH_MIN = Fin b /\ Rabs (b - 0.001) <= u * 0.001 + t0.
Proof.
  destruct (tbm G) as (b & E & _). exists b. split; auto. unfold T_BIRTH_MIN, lit in E. pose proof (re_any _ _ H _ _ E) as A. rewrite (Rabs_right 0.001) in A by lra. exact A.
Qed.
Lemma lit_sfr : exists s, SFR_MIN = Fin s /\ 0 <= s <= 1 /\ Rabs (s - 1 / 10 ^ 14) <= u * (1 / 10 ^ 14) + t0.
Proof.
  assert (P : 0 < 1 / 10 ^ 14 <= 1). { split; [apply Rdiv_lt_0_compat; [lra|apply pow_lt; lra]|]. apply Rdiv_le_1'; [apply pow_lt; lra|apply pow_R1_Rle; lra]. }
  unfold SFR_MIN, lit. destruct (rnd_between G 0 (1 / 10 ^ 14) 1 (rnd0 G) (rnd1 G)) as (s & E & B); [lra|]. exists s. split; auto. split; [lra|].
  pose proof (re_any _ _ H _ _ E) as A. rewrite (Rabs_right (1 / 10 ^ 14)) in A by lra. exact A.
Qed.
Lemma t0_rel : t0 <= u / 10 ^ 27.
Proof.
  eapply Rle_trans; [apply (re_tiny2 _ _ H)|]. pose proof u_small. unfold Rdiv. apply Rmult_le_compat_l; [lra|]. apply Rinv_le; [apply pow_lt; lra|].
  replace (10 ^ 27) with ((10 ^ 3) ^ 9) by (rewrite <- pow_mult; reflexivity). replace (2 ^ 90) with ((2 ^ 10) ^ 9) by (rewrite <- pow_mult; reflexivity).
  apply pow_incr. simpl. lra.
Qed.
Lemma increasing_head x l y : increasing (x :: l) -> In y l -> x < y.
Proof. intros I Hy. apply In_ent in Hy. destruct Hy as (i & Hi & <-). specialize (I 0%nat (S i)). rewrite ent_cons_S in I. unfold ent at 1 in I. simpl in I. apply I. lia. Qed.
Lemma trap_bound xs : forall ys x0 y0 Y, length xs = length ys -> increasing (x0 :: xs) -> Forall (fun y => 0 <= y <= Y) (y0 :: ys) ->
  trapezoid (x0 :: xs) (y0 :: ys) <= (last (x0 :: xs) 0 - x0) * Y.
Proof.
  induction xs as [|x xs IH]; intros [|y ys] x0 y0 Y L I F; try (simpl in L; lia); [simpl; lra|]. rewrite trapezoid_cons2.
  apply Forall_cons_iff in F. destruct F as [F0 F]. pose proof F as F'. apply Forall_cons_iff in F'. destruct F' as [F1 _].
  specialize (IH ys x y Y ltac:(simpl in L; lia) (increasing_tl _ _ I) F). assert (x0 < x) by (apply (increasing_head x0 (x :: xs)); [auto|now left]).
  change (last (x0 :: x :: xs) 0) with (last (x :: xs) 0). assert ((x - x0) * (y0 + y) <= (x - x0) * (2 * Y)) by (apply Rmult_le_compat_l; lra). lra.
Qed.
Lemma mass_err ts ss : length ts = length ss -> (1 <= length ts <= 2 ^ 17)%nat -> increasing ts -> 0.003 <= ent ts 0 ->
  Forall (fun t => rnd t = Fin t /\ t <= 1000) ts -> Forall (fun s => rnd s = Fin s /\ 0 <= s <= 10 ^ 20) ss ->
  exists m, cumulative_mstar_formed (fins ts) (fins ss) = Ok (fins m) /\ length m = length ts
    /\ forall i, (i < length ts)%nat -> Rabs (ent m i - ent (cumulative_mass ts ss) i) <= 2 * (INR i + 10) * u * ent (cumulative_mass ts ss) i
      /\ / 10 ^ 8 <= ent (cumulative_mass ts ss) i <= 2 * 10 ^ 32.
Proof.
  intros L Ln I T0 FT FS. pose proof u_small as Hu. pose proof t0_pos as Ht. pose proof t0_rel as Hr.
  rewrite cum_same by (now rewrite !fins_length).
  assert (P17 : forall j, (j <= length ts + 10)%nat -> INR j * u <= / 16).
  { intros j Hj. apply n_u; [apply (re_u _ _ H)|]. assert (N16 : (16 <= 2 ^ 17)%nat) by (apply (Nat.pow_le_mono_r 2 4 17); lia). change (2 ^ 18)%nat with (2 * 2 ^ 17)%nat. lia. }
  assert (N19 : INR (length ts) <= 10 ^ 6).
  { destruct Ln as [_ Ln]. apply le_INR in Ln. rewrite pow_INR in Ln. simpl (INR 2) in Ln. eapply Rle_trans; [exact Ln|]. simpl. lra. }
  destruct Ln as [Ln _]. destruct ts as [|x1 xs]; [cbn [length] in Ln; lia|]. destruct ss as [|s1 ss]; [simpl in L; lia|]. unfold ent in T0; cbn [nth] in T0.
  apply Forall_cons_iff in FT. destruct FT as [[Rx1 Bx1] FT]. apply Forall_cons_iff in FS. destruct FS as [[Rs1 Bs1] FS].
  destruct lit_001 as (b & Eb & Bb). destruct lit_sfr as (s & Es & Bs01 & Bs).
  assert (Rb : rnd b = Fin b) by (unfold T_BIRTH_MIN, lit in Eb; eapply (rnd_idem _ G); eauto).
  assert (Rs : rnd s = Fin s) by (unfold SFR_MIN, lit in Es; eapply (rnd_idem _ G); eauto).
  rewrite cum_k_same by (now rewrite !fins_length). unfold cumtrapz_k. rewrite Eb, Es. cbn [first at_ nth].
  assert (E14 : 0 < 1 / 10 ^ 14 <= 1). { split; [apply Rdiv_lt_0_compat; [lra|apply pow_lt; lra]|]. apply Rdiv_le_1'; [apply pow_lt; lra|apply pow_R1_Rle; lra]. }
  assert (R27 : / 10 ^ 27 <= / 1000 * (1 / 10 ^ 14)).
  { replace (/ 1000 * (1 / 10 ^ 14)) with (/ 10 ^ 17) by (change 17%nat with (3 + 14)%nat; rewrite pow_add; replace (10 ^ 3) with 1000 by (simpl; lra); field; apply pow_nonzero; lra). apply Rinv_le; [apply pow_lt; lra|apply Rle_pow; [lra|lia]]. }
  assert (Hr2 : t0 <= u * (/ 1000 * (1 / 10 ^ 14))). { eapply Rle_trans; [exact Hr|]. unfold Rdiv. apply Rmult_le_compat_l; lra. }
  replace (length (x1 :: xs) + 10)%nat with (length xs + 11)%nat in P17 by (cbn [length]; lia).
  assert (PP : forall j, (j <= length xs + 11)%nat -> (1 + u) ^ j <= 2).
  { intros j Hj. specialize (P17 j Hj). destruct (pow_1pu u j ltac:(lra) P17) as [A _]. lra. }
  assert (E0 : (Fin 0 + (Fin b - Fin b) * (Fin s + Fin s) / Fin 2)%num = Fin 0).
  { unfold nsub. cbn [nopp nadd]. replace (b + - b) with 0 by lra. rewrite (rnd0 G). destruct (rnd_finite_nonneg (s + s)) as (y & -> & _).
    { split; [lra|]. apply Rle_trans with (10 ^ 1); [simpl; lra|apply Rle_pow; [lra|lia]]. }
    cbn [nmul]. rewrite Rmult_0_l, (rnd0 G). cbn [ndiv]. rewrite Req_bool_false by lra. replace (0 / 2) with 0 by lra. rewrite (rnd0 G). cbn [nadd]. replace (0 + 0) with 0 by lra. apply (rnd0 G). }
  apply Rabs_le_inv in Bb, Bs.
  destruct (step_err b x1 s s1 0 (x1 - 0.001) (s1 + 1 / 10 ^ 14) 0 7 0) as (r & Er & Nr & Wr); auto; try lra.
  { split; [lra|apply (rnd0 G)]. }
  { apply PP. lia. }
  { assert (t0 <= u * (/ 1000 * 1)) by (eapply Rle_trans; [exact Hr2|]; apply Rmult_le_compat_l; lra). split; rewrite pow_1; nra. }
  { assert (U2 : 0 <= u * s1) by (apply Rmult_le_pos; lra). assert (0 <= u * u * s1) by (rewrite Rmult_assoc; apply Rmult_le_pos; lra).
    assert (0 <= u * u * (1 / 10 ^ 14)) by (apply Rmult_le_pos; [apply Rmult_le_pos; lra|lra]).
    assert (u * u * (1 / 10 ^ 14) <= u * / 1000 * (1 / 10 ^ 14)) by (apply Rmult_le_compat_r; [lra|apply Rmult_le_compat_l; lra]).
    assert (u * u * s1 <= u * / 1000 * s1) by (apply Rmult_le_compat_r; [lra|apply Rmult_le_compat_l; lra]).
    assert (0 <= u * (1 / 10 ^ 14)) by (apply Rmult_le_pos; lra).
    split; simpl (_ ^ 2); lra. }
  { split; lra. }
  rewrite Rplus_0_l in Wr. set (C1 := (x1 - 0.001) * (s1 + 1 / 10 ^ 14) / 2) in *.
  assert (B20 : 1 <= 10 ^ 20) by (apply pow_R1_Rle; lra).
  assert (T45 : t0 <= / 10 ^ 27 ). { eapply Rle_trans; [apply Ht|]. apply Rinv_le; [apply pow_lt; lra|apply Rle_pow; [lra|lia]]. }
  assert (T27 : / 10 ^ 27 <= / 10 ^ 9) by (apply Rinv_le; [apply pow_lt; lra|apply Rle_pow; [lra|lia]]).
  assert (C1B : 10 ^ 9 * C1 >= / 10 ^ 8).
  { unfold C1. apply Rle_ge. apply Rle_trans with (10 ^ 9 * (0.002 * (1 / 10 ^ 14) / 2)).
    - replace (10 ^ 14) with (10 ^ 6 * 10 ^ 8) by (rewrite <- pow_add; reflexivity). assert (P8 : 10 ^ 8 <> 0) by (apply pow_nonzero; lra).
      replace (10 ^ 9 * (0.002 * (1 / (10 ^ 6 * 10 ^ 8)) / 2)) with (/ 10 ^ 8); [lra|]. replace (10 ^ 6) with 1000000 by (simpl; lra). replace (10 ^ 9) with 1000000000 by (simpl; lra). replace 0.002 with (2 / 1000) by lra. field.
    - apply Rmult_le_compat_l; [apply pow_le; lra|]. unfold Rdiv at 1 3. apply Rmult_le_compat_r; [lra|]. apply Rmult_le_compat; lra. }
  assert (C1U : 0 <= C1 <= 10 ^ 3 * 10 ^ 20).
  { split; [unfold C1; apply Rmult_le_pos; [apply Rmult_le_pos; lra|lra]|]. unfold C1.
    assert ((x1 - 0.001) * (s1 + 1 / 10 ^ 14) <= 1000 * (2 * 10 ^ 20)) by (apply Rmult_le_compat; lra). simpl (10 ^ 3). lra. }
  assert (FS' : Forall (fun y => 0 <= y <= 10 ^ 20) (s1 :: ss)) by (constructor; auto; eapply Forall_impl; [|exact FS]; intros z Hz; apply Hz).
  assert (TU : forall i, (i <= length xs)%nat -> 0 <= trapezoid (x1 :: firstn i xs) (s1 :: firstn i ss) <= 10 ^ 3 * 10 ^ 20).
  { intros i Hi. assert (LL : length (firstn i xs) = length (firstn i ss)) by (rewrite !firstn_length; simpl in L; lia).
    assert (II : increasing (x1 :: firstn i xs)).
    { change (x1 :: firstn i xs) with (firstn (S i) (x1 :: xs)). intros p q Hpq. rewrite firstn_length in Hpq. rewrite !ent_firstn by lia. apply I. lia. }
    assert (FF : Forall (fun y => 0 <= y <= 10 ^ 20) (s1 :: firstn i ss)).
    { apply Forall_cons_iff in FS'. destruct FS' as [F1 F2]. constructor; auto. apply Forall_forall. intros z Hz. rewrite Forall_forall in F2. apply F2. eapply In_firstn; eauto. }
    split.
    - apply trap_nonneg; [simpl; lia|now apply increasing_nondecreasing|]. eapply Forall_impl; [|exact FF]. intros z Hz. apply Hz.
    - eapply Rle_trans; [apply (trap_bound _ _ _ _ (10 ^ 20) LL II FF)|]. apply Rmult_le_compat_r; [lra|].
      assert (In (last (x1 :: firstn i xs) 0) (x1 :: firstn i xs)) as HL.
      { destruct (exists_last (l := x1 :: firstn i xs) ltac:(discriminate)) as (l' & z & Ez). rewrite Ez, last_last. apply in_or_app. right. now left. }
      assert (last (x1 :: firstn i xs) 0 <= 1000).
      { destruct HL as [<-|HL]; [lra|]. rewrite Forall_forall in FT. apply FT. eapply In_firstn; eauto. }
      simpl (10 ^ 3). lra. }
  assert (C24 : 2 * (10 ^ 3 * 10 ^ 20) = 2 * 10 ^ 23) by (rewrite <- pow_add; reflexivity).
  assert (B23 : 2 * 10 ^ 23 <= 10 ^ 34) by (apply Rle_trans with (10 ^ 24); [change (10 ^ 24) with (10 * 10 ^ 23); assert (0 < 10 ^ 23) by (apply pow_lt; lra); lra|apply Rle_pow; [lra|lia]]).
  assert (NX : INR (length xs) <= 10 ^ 6). { cbn [length] in N19. rewrite S_INR in N19. lra. }
  destruct (scan_err xs ss x1 s1 r C1 8 ((1 + u) * (0 + 3 * t0))) as (cs & Ecs & Lcs & K); auto; try lia.
  { constructor; auto. eapply Forall_impl; [|exact FT]. intros z Hz. apply Hz. }
  { intros z Hz. rewrite Forall_forall in FT. destruct (FT z Hz). lra. }
  { assert (10 ^ 20 <= 10 ^ 24) by (apply Rle_pow; [lra|lia]). constructor; [split; auto; lra|]. eapply Forall_impl; [|exact FS]. intros z [Z1 Z2]. split; auto. lra. }
  { lra. } { lra. }
  { intros i Hi. specialize (TU (S i) ltac:(lia)). lra. }
  { apply PP. lia. }
  { apply Rmult_le_pos; lra. }
  { assert (Q : 0 <= (1 + u) ^ length xs <= 2) by (split; [apply pow_le; lra|apply PP; lia]).
    assert (INR (length xs) * t0 <= 10 ^ 6 * t0) by (apply Rmult_le_compat_r; lra).
    apply Rle_trans with (2 * (10 ^ 7 * t0)); [|].
    - apply Rmult_le_compat; try lra; [|simpl (10 ^ 6); simpl (10 ^ 6) in *; nra]. pose proof (pos_INR (length xs)). assert (0 <= INR (length xs) * t0) by (apply Rmult_le_pos; lra). assert (0 <= u * t0) by (apply Rmult_le_pos; lra). lra.
    - assert (10 ^ 7 * t0 <= 10 ^ 7 * / 10 ^ 9) by (apply Rmult_le_compat_l; [apply pow_le; lra|lra]). assert (10 ^ 7 * / 10 ^ 9 = / 100) by (simpl; field). lra. }
  set (X := fun i => C1 + trapezoid (x1 :: firstn i xs) (s1 :: firstn i ss)).
  assert (KK : forall i, (i < S (length xs))%nat -> nonneg_machine (ent (r :: cs) i) /\ wi (9 + i) (X i) (10 ^ 8 * t0) (ent (r :: cs) i)).
  { intros [|i] Hi.
    - unfold ent, X. cbn [nth firstn trapezoid]. rewrite Rplus_0_r. split; auto. eapply wi_weaken; [apply C1U| | |exact Wr]; [lia|]. simpl (10 ^ 8). nra.
    - rewrite ent_cons_S. destruct (K i ltac:(lia)) as [N W]. split; auto. replace (9 + S i)%nat with (S (8 + S i)) by lia. eapply wi_weaken; [| | |exact W]; [|lia|].
      + specialize (TU (S i) ltac:(lia)). unfold X; lra.
      + assert (Q : 0 <= (1 + u) ^ S i <= 2) by (split; [apply pow_le; lra|apply PP; lia]).
        assert (INR (S i) <= 10 ^ 6) by (eapply Rle_trans; [|exact NX]; apply le_INR; lia).
        assert (INR (S i) * t0 <= 10 ^ 6 * t0) by (apply Rmult_le_compat_r; lra). assert (0 <= INR (S i) * t0) by (apply Rmult_le_pos; [apply pos_INR|lra]). assert (0 <= u * t0) by (apply Rmult_le_pos; lra).
        apply Rle_trans with (2 * (10 ^ 7 * t0)); [apply Rmult_le_compat; try lra; simpl (10 ^ 6); simpl (10 ^ 6) in *; nra|simpl; lra]. }
  assert (XC : forall i, (i < S (length xs))%nat -> ent (cumulative_mass (x1 :: xs) (s1 :: ss)) i = 10 ^ 9 * X i).
  { intros i Hi. rewrite cumulative_mass_ent by (cbn [length]; lia). f_equal. rewrite !firstn_cons, trapezoid_cons2. unfold X, C1. lra. }
  assert (XB : forall i, (i < S (length xs))%nat -> / 10 ^ 8 <= 10 ^ 9 * X i /\ 0 <= X i <= 2 * 10 ^ 23).
  { intros i Hi. specialize (TU i ltac:(lia)). unfold X. split; [|lra]. apply Rle_trans with (10 ^ 9 * C1); [lra|]. apply Rmult_le_compat_l; [apply pow_le; lra|lra]. }
  assert (KM : forall i, (i < S (length xs))%nat -> exists z, rnd (ent (r :: cs) i * 10 ^ 9) = Fin z /\ Rabs (z - 10 ^ 9 * X i) <= 2 * (INR i + 10) * u * (10 ^ 9 * X i)).
  { intros i Hi. destruct (KK i Hi) as [[N0 _] W]. destruct (XB i Hi) as [B1 B2]. set (c := ent (r :: cs) i) in *.
    assert (P9 : 0 < 10 ^ 9) by (apply pow_lt; lra). assert (Q : 0 <= (1 + u) ^ (9 + i) <= 2) by (split; [apply pow_le; lra|apply PP; lia]).
    assert (T8 : 10 ^ 8 * t0 <= 1). { apply Rle_trans with (10 ^ 8 * / 10 ^ 9); [apply Rmult_le_compat_l; [apply pow_le; lra|lra]|]. simpl. lra. }
    assert (CB : c <= 10 ^ 25).
    { destruct W as [_ W]. eapply Rle_trans; [exact W|]. assert ((1 + u) ^ (9 + i) * X i <= 2 * (2 * 10 ^ 23)) by (apply Rmult_le_compat; lra).
      change (10 ^ 25) with (10 * (10 * 10 ^ 23)). assert (1 <= 10 ^ 23) by (apply pow_R1_Rle; lra). lra. }
    destruct (rnd_finite_nonneg (c * 10 ^ 9)) as (z & Ez & _).
    { split; [apply Rmult_le_pos; lra|]. apply Rle_trans with (10 ^ 25 * 10 ^ 9); [apply Rmult_le_compat_r; lra|]. rewrite <- pow_add. apply Rle_pow; [lra|lia]. }
    exists z. split; auto.
    assert (W' : wi (9 + i) (10 ^ 9 * X i) (10 ^ 9 * (10 ^ 8 * t0)) (c * 10 ^ 9)).
    { destruct W as [W1 W2]. apply (Rmult_le_compat_r (10 ^ 9)) in W1, W2; try lra. split; lra. }
    assert (M0 : 0 <= 10 ^ 9 * X i) by (apply Rmult_le_pos; lra).
    assert (M1 : 0 <= c * 10 ^ 9) by (apply Rmult_le_pos; lra).
    assert (M2 : 0 <= 10 ^ 9 * (10 ^ 8 * t0)) by (apply Rmult_le_pos; [lra|apply Rmult_le_pos; [apply pow_le; lra|lra]]).
    destruct (wi_round (9 + i) (10 ^ 9 * X i) (10 ^ 9 * (10 ^ 8 * t0)) (c * 10 ^ 9) z) as [A B]; auto.
    replace (S (9 + i)) with (10 + i)%nat in A, B by lia. set (M := 10 ^ 9 * X i) in *.
    destruct (pow_1pu u (10 + i) ltac:(lra) (P17 (10 + i)%nat ltac:(lia))) as [PU _]. pose proof (pow_1mu u (10 + i) ltac:(lra)) as PL.
    assert (EI : INR (10 + i) = INR i + 10) by (rewrite plus_INR; simpl; lra). rewrite EI in PU, PL. pose proof (pos_INR i) as I0.
    assert (TT : (1 + u) * (10 ^ 9 * (10 ^ 8 * t0)) + t0 <= u * M).
    { apply Rle_trans with (10 ^ 18 * t0).
      - replace (10 ^ 9 * (10 ^ 8 * t0)) with (10 ^ 17 * t0) by (rewrite <- Rmult_assoc, <- pow_add; reflexivity). assert (1 <= 10 ^ 17) by (apply pow_R1_Rle; lra).
        change (10 ^ 18) with (10 * 10 ^ 17). assert (u * (10 ^ 17 * t0) <= / 1000 * (10 ^ 17 * t0)) by (apply Rmult_le_compat_r; [apply Rmult_le_pos; lra|lra]).
        assert (1 * t0 <= 10 ^ 17 * t0) by (apply Rmult_le_compat_r; lra). lra.
      - apply Rle_trans with (10 ^ 18 * (u / 10 ^ 27)); [apply Rmult_le_compat_l; [apply pow_le; lra|exact Hr]|].
        replace (10 ^ 18 * (u / 10 ^ 27)) with (u * / 10 ^ 9).
        + apply Rmult_le_compat_l; [lra|]. eapply Rle_trans; [|exact B1]. apply Rinv_le; [apply pow_lt; lra|apply Rle_pow; [lra|lia]].
        + replace (10 ^ 27) with (10 ^ 18 * 10 ^ 9) by (rewrite <- pow_add; reflexivity). field. }
    assert ((1 + u) ^ (10 + i) * M <= (1 + 16 / 15 * ((INR i + 10) * u)) * M) by (apply Rmult_le_compat_r; lra).
    assert ((1 - (INR i + 10) * u) * M <= (1 - u) ^ (10 + i) * M) by (apply Rmult_le_compat_r; lra).
    assert (0 <= u * M) by (apply Rmult_le_pos; lra). assert (0 <= INR i * (u * M)) by (apply Rmult_le_pos; lra).
    apply Rabs_le. split; nra. }
  exists (map (fun c => fval (nmul (Fin c) YEAR_PER_GYR)) (r :: cs)). split; [|split].
  - f_equal. cbn [fins map combine scan cumtrapz_scan_func tl]. rewrite E0, Er. fold (fins xs). fold (fins ss). rewrite Ecs.
    change (Fin r :: fins cs) with (fins (r :: cs)). unfold fins. change (map Fin (r :: cs)) with (Fin r :: map Fin cs).
    apply (list_eq_nth _ _ NaN); [cbn [map length]; now rewrite !map_length|]. cbn [map length]. rewrite !map_length. intros i Hi.
    change (nth i (map (fun m : num => nmul m YEAR_PER_GYR) (map Fin (r :: cs))) NaN = nth i (map Fin (map (fun c => fval (nmul (Fin c) YEAR_PER_GYR)) (r :: cs))) NaN).
    rewrite (nth_map' _ _ _ NaN) by (rewrite map_length; cbn [length]; lia). rewrite (nth_map' _ _ _ 0) by (cbn [length]; lia).
    rewrite (nth_map' _ _ _ 0) by (rewrite map_length; cbn [length]; lia). rewrite (nth_map' _ _ _ 0) by (cbn [length]; lia).
    fold (ent (r :: cs) i). destruct (KM i ltac:(lia)) as (z & Ez & _). unfold YEAR_PER_GYR. cbn [nmul]. rewrite Ez. reflexivity.
  - rewrite map_length. cbn [length]. lia.
  - cbn [length]. intros i Hi. rewrite ent_map by (cbn [length]; lia). rewrite XC by auto. destruct (KM i Hi) as (z & Ez & Bz). unfold YEAR_PER_GYR. cbn [nmul]. rewrite Ez. split; [exact Bz|].
    destruct (XB i Hi) as [X1 X2]. split; [exact X1|]. replace (10 ^ 32) with (10 ^ 9 * 10 ^ 23) by (rewrite <- pow_add; reflexivity). assert (0 < 10 ^ 9) by (apply pow_lt; lra).
    assert (10 ^ 9 * X i <= 10 ^ 9 * (2 * 10 ^ 23)) by (apply Rmult_le_compat_l; lra). lra.
Qed.
End F.
