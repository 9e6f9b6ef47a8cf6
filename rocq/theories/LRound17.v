(** * Fluxes and magnitudes in rounded arithmetic: ratios, logarithms, and the public functions *)
From Coq Require Import Reals List Arith Lra Lia ZArith Bool.
From Coquelicot Require Import Rcomplements.
From Flocq Require Import Core.Raux.
From Verif Require Import Num Arr MUtils MCosmo MPhot Float Spec SpecFloat SpecFloat2 RList LUtils LKern2 LBurst LPhot LFloat LFloat2 LFloat3 LFloat4 LFloat5 LFloat10 LRound1 LRound2 LRound3 LRound4 LRound7 LRound14 LRound15 LRound16.
Import ListNotations.
Open Scope R_scope.

Lemma ab0_range : / 10 ^ 13 <= ab0 <= 2 * / 10 ^ 13.
Proof. unfold ab0. assert (0 < / 10 ^ 13) by (apply Rinv_0_lt_compat, pow_lt; lra). unfold Rdiv. lra. Qed.
Lemma map2_fins_seq (f : num -> num -> num) l1 : forall l2, length l1 = length l2 ->
  map2 f (fins l1) (fins l2) = map (fun i => f (Fin (ent l1 i)) (Fin (ent l2 i))) (seq 0 (length l2)).
Proof.
  induction l1 as [|a l1 IH]; intros [|b l2] L; try discriminate; [reflexivity|]. cbn [fins map map2 length seq]. rewrite <- seq_shift, map_map. f_equal. apply IH. simpl in L. lia.
Qed.
Lemma list_seq (l : list R) : l = map (ent l) (seq 0 (length l)).
Proof. induction l as [|x l IH]; [reflexivity|]. cbn [length seq map]. rewrite <- seq_shift, map_map. f_equal. exact IH. Qed.
Section F.
Context {AR : Arith} (u : R) (H : rel_err AR u) (HE : interp_eps <= / 2 ^ 40).
Notation G := (re_good _ _ H).
Context (E0 : R) (HE0 : 20 <= E0 /\ (E0 + 3) * u <= / 10 ^ 3).

Lemma AB0_err : exists a, AB0 = Fin a /\ rnd a = Fin a /\ Rabs (a - ab0) <= E0 * (u * ab0).
Proof.
  pose proof ab0_range as A. pose proof (u_le u H) as Hu. unfold AB0, lit. change (1.13492 / 10 ^ 13) with ab0.
  assert (P13 : 0 < / 10 ^ 13) by (apply Rinv_0_lt_compat, pow_lt; lra).
  destruct (rnd_err_S u H ab0 ab0) as (a & E & B & R).
  - rewrite Rabs_right; lra.
  - split; [apply Rle_trans with (/ 10 ^ 13); [apply Rinv_le; [apply pow_lt; lra|apply Rle_pow; [lra|lia]]|lra]|]. apply Rle_trans with 1; [simpl in *; lra|apply pow_R1_Rle; lra].
  - exists a. split; auto. split; auto. assert (0 <= u * ab0) by (apply Rmult_le_pos; lra). assert (20 * (u * ab0) <= E0 * (u * ab0)) by (apply Rmult_le_compat_r; lra). lra.
Qed.
Lemma band_ab0 wf tf : band_integral (fun _ => ab0) wf tf = ab0 * band_integral (fun _ => 1) wf tf.
Proof. rewrite <- band_scal. apply band_ext. intros. ring. Qed.
Lemma norm_err wf tf : filter_basic wf tf -> let I := band_integral (fun _ => 1) wf tf in 1 / 10 ^ 4 <= I ->
  exists r, flux_ab0_at_10pc (fins wf) (fins tf) = Fin r /\ rnd r = Fin r /\ Rabs (r - ab0 * I) <= (1.11 * INR (length wf) + 1.01 * E0 + 8) * u * (ab0 * I).
Proof.
  intros FB I HI. destruct AB0_err as (a & Ea & Ra & Aa). pose proof ab0_range as A. assert (P13 : 0 < / 10 ^ 13) by (apply Rinv_0_lt_compat, pow_lt; lra).
  destruct (band_err u H E0 HE0 wf tf (fun _ => a) (fun _ => ab0) ab0 FB) as (r & Er & Rr & Ar & _).
  - split; [apply Rle_trans with (/ 10 ^ 13); [apply Rinv_le; [apply pow_lt; lra|apply Rle_pow; [lra|lia]]|lra]|]. apply Rle_trans with 1; [simpl in *; lra|apply pow_R1_Rle; lra].
  - fold I. apply Rle_trans with (/ 10 ^ 13 * (1 / 10 ^ 4)); [|apply Rmult_le_compat; try lra; unfold Rdiv; rewrite Rmult_1_l; apply Rlt_le, Rinv_0_lt_compat, pow_lt; lra].
    unfold Rdiv. rewrite Rmult_1_l, <- Rinv_mult, <- pow_add. apply Rinv_le; [apply pow_lt; lra|apply Rle_pow; [lra|lia]].
  - intros i Hi. split; auto. split; [lra|exact Aa].
  - destruct FB as (_ & L & _ & _). exists r. split; [|split; [exact Rr|]].
    + rewrite <- Er. unfold flux_ab0_at_10pc. rewrite Ea. rewrite map2_fins_seq by auto. reflexivity.
    + fold I in Ar. pose proof (band_ab0 wf tf) as EB. fold I in EB. rewrite <- EB at 1. exact Ar.
Qed.
(** the integrated flux of a spectrum read from the table [xs], [ls], approximating [sp] *)
Lemma source_err xs ls wf tf (sp : R -> R) B : / 10 ^ 20 <= B <= 10 ^ 20 -> filter_basic wf tf -> let I := band_integral (fun _ => 1) wf tf in / 10 ^ 18 <= B * I ->
  (forall x, In x wf -> rnd x = Fin x -> 0 <= sp x <= B /\ exists s, interp_lr (Fin 0) (Fin 0) (Fin x) xs ls = Fin s /\ rnd s = Fin s /\ Rabs (s - sp x) <= E0 * (u * B)) ->
  exists r, rest_flux_ssp xs ls (fins wf) (fins tf) = Fin r /\ rnd r = Fin r
    /\ Rabs (r - band_integral sp wf tf) <= (1.11 * INR (length wf) + 1.01 * E0 + 8) * u * (B * I)
    /\ 0 <= band_integral sp wf tf <= B * I.
Proof.
  intros HB FB I HI SP. assert (P20 : 0 < / 10 ^ 20) by apply e20_small.
  set (L := fun i => interp_lr (Fin 0) (Fin 0) (Fin (ent wf i)) xs ls). pose proof FB as ([IX GX] & LT & LN & FT).
  assert (Q : forall i, (i < length wf)%nat -> L i = Fin (fval (L i)) /\ rnd (fval (L i)) = Fin (fval (L i)) /\ Rabs (fval (L i) - sp (ent wf i)) <= E0 * (u * B) /\ 0 <= sp (ent wf i) <= B).
  { intros i Hi. destruct (GX i Hi) as (X1 & _). destruct (SP (ent wf i) (nth_In _ _ Hi) X1) as (R0 & s & E & R & A). unfold L. rewrite E. cbn [fval]. auto. }
  destruct (band_err u H E0 HE0 wf tf (fun i => fval (L i)) (fun i => sp (ent wf i)) B FB HB HI) as (r & Er & Rr & Ar & Br).
  { intros i Hi. destruct (Q i Hi) as (_ & Q1 & Q2 & Q3). auto. }
  exists r. split; [|auto]. rewrite <- Er. unfold rest_flux_ssp. f_equal.
  assert (EL : map (fun x => interp_lr (Fin 0) (Fin 0) x xs ls) (fins wf) = fins (map (fun i => fval (L i)) (seq 0 (length wf)))).
  { assert (EW : fins wf = map (fun i => Fin (ent wf i)) (seq 0 (length wf))) by (unfold fins; rewrite (list_seq wf) at 1; now rewrite map_map).
    rewrite EW. unfold fins. rewrite !map_map. apply map_ext_in. intros i Hi. apply in_seq in Hi. apply Q. lia. }
  rewrite EL. clear EL. set (sl := map _ (seq 0 (length wf))). assert (Lsl : length sl = length wf) by (unfold sl; now rewrite map_length, seq_length).
  rewrite (map2_fins_seq nmul tf sl) by lia. rewrite Lsl.
  assert (X : forall (f : nat -> num) (l : list R), map2 (fun a w => ndiv a w) (map f (seq 0 (length l))) (fins l) = map (fun i => ndiv (f i) (Fin (ent l i))) (seq 0 (length l))).
  { intros f l. revert f. induction l as [|x l IH]; intros f; [reflexivity|]. cbn [length seq map fins map2]. rewrite <- seq_shift, !map_map. f_equal. apply (IH (fun i => f (S i))). }
  rewrite X. apply map_ext_in. intros i Hi. apply in_seq in Hi. unfold sl. rewrite ent_map_seq by lia. reflexivity.
Qed.

(** the ratio of two integrals, and its magnitude *)
Lemma ratio_err r1 r0 F1 I B n : (1 <= n <= 2 ^ 18)%nat -> / 10 ^ 20 <= B <= 10 ^ 20 -> 0 < I -> let eta := (1.11 * INR n + 1.01 * E0 + 8) * u in
  0 <= F1 <= B * I -> Rabs (r1 - F1) <= eta * (B * I) -> Rabs (r0 - ab0 * I) <= eta * (ab0 * I) ->
  exists f, ndiv (Fin r1) (Fin r0) = Fin f /\ rnd f = Fin f /\ Rabs (f - F1 / (ab0 * I)) <= 3 * (INR n + E0 + 5) * u * (B / ab0).
Proof.
  intros LN HB I0 eta HF E1 EZ. pose proof (u_le u H) as Hu. pose proof ab0_range as A. assert (P13 : 0 < / 10 ^ 13) by (apply Rinv_0_lt_compat, pow_lt; lra). assert (P20 : 0 < / 10 ^ 20) by apply e20_small.
  set (m := INR n) in *. assert (M1 : 1 <= m) by (apply (le_INR 1); lia). pose proof (n_u u H n ltac:(lia)) as NU. fold m in NU.
  assert (ETA : 0 <= eta <= 0.071). { unfold eta. split; [apply Rmult_le_pos; lra|]. replace ((1.11 * m + 1.01 * E0 + 8) * u) with (1.11 * (m * u) + 1.01 * (E0 * u) + 8 * u) by ring. simpl in Hu. simpl in HE0. lra. }
  assert (EU : eta = 1.11 * (m * u) + 1.01 * (E0 * u) + 8 * u) by (unfold eta; ring).
  set (F0 := ab0 * I) in *. assert (PF0 : 0 < F0) by (apply Rmult_lt_0_compat; lra).
  set (b := B / ab0). assert (Eb : B * I = b * F0) by (unfold b, F0; field; lra). rewrite Eb in *.
  assert (Bb : / 10 ^ 8 <= b <= 10 ^ 33).
  { unfold b. split.
    - apply Rmult_le_reg_r with ab0; [lra|]. unfold Rdiv. rewrite Rmult_assoc, Rinv_l, Rmult_1_r by lra. apply Rle_trans with (/ 10 ^ 20); [|lra]. apply Rle_trans with (/ 10 ^ 8 * (2 * / 10 ^ 13)); [apply Rmult_le_compat_l; [apply Rlt_le, Rinv_0_lt_compat, pow_lt; lra|lra]|].
      replace (10 ^ 20) with (10 ^ 8 * 10 ^ 12) by (rewrite <- pow_add; reflexivity). replace (10 ^ 13) with (10 * 10 ^ 12) by reflexivity. rewrite !Rinv_mult. assert (0 < / 10 ^ 8) by (apply Rinv_0_lt_compat, pow_lt; lra). assert (0 < / 10 ^ 12) by (apply Rinv_0_lt_compat, pow_lt; lra).
      replace (/ 10 ^ 8 * (2 * (/ 10 * / 10 ^ 12))) with ((2 * / 10) * (/ 10 ^ 8 * / 10 ^ 12)) by ring. rewrite <- (Rmult_1_l (/ 10 ^ 8 * / 10 ^ 12)) at 2. apply Rmult_le_compat_r; [apply Rlt_le, Rmult_lt_0_compat; lra|lra].
    - apply Rmult_le_reg_r with ab0; [lra|]. unfold Rdiv. rewrite Rmult_assoc, Rinv_l, Rmult_1_r by lra. apply Rle_trans with (10 ^ 20); [lra|]. apply Rle_trans with (10 ^ 33 * / 10 ^ 13); [|apply Rmult_le_compat_l; [apply pow_le; lra|lra]].
      replace (10 ^ 33) with (10 ^ 20 * 10 ^ 13) by (rewrite <- pow_add; reflexivity). rewrite Rmult_assoc, Rinv_r by (apply pow_nonzero; lra). lra. }
  assert (B0 : 0 < b). { assert (0 < / 10 ^ 8) by (apply Rinv_0_lt_compat, pow_lt; lra). lra. }
  assert (R0 : 0.929 * F0 <= r0 <= 1.071 * F0). { apply Rabs_le_inv in EZ. assert (eta * F0 <= 0.071 * F0) by (apply Rmult_le_compat_r; lra). lra. }
  assert (IR : 0 < / r0) by (apply Rinv_0_lt_compat; lra).
  assert (IRF : / r0 * F0 <= 1.08). { apply Rmult_le_reg_l with r0; [lra|]. rewrite <- Rmult_assoc, Rinv_r by lra. lra. }
  cbn [ndiv]. rewrite Req_bool_false by lra.
  set (q0 := F1 / F0). assert (Eq0 : F1 = q0 * F0) by (unfold q0; field; lra). assert (Hq0 : 0 <= q0 <= b). { split; apply Rmult_le_reg_r with F0; lra. }
  assert (EB : 0 <= eta * b <= 0.071 * b) by (split; [apply Rmult_le_pos; lra|apply Rmult_le_compat_r; lra]).
  assert (QE : Rabs (r1 / r0 - q0) <= 2.16 * (eta * b)).
  { replace (r1 / r0 - q0) with ((r1 - F1 + q0 * (F0 - r0)) * / r0) by (rewrite Eq0; field; lra). rewrite Rabs_mult, (Rabs_right (/ r0)) by lra.
    assert (Rabs (r1 - F1 + q0 * (F0 - r0)) <= 2 * (eta * b) * F0).
    { eapply Rle_trans; [apply Rabs_triang|]. rewrite Rabs_mult, (Rabs_right q0), (Rabs_minus_sym F0) by lra.
      assert (q0 * Rabs (r0 - F0) <= b * (eta * F0)) by (apply Rmult_le_compat; try lra; apply Rabs_pos). lra. }
    apply Rle_trans with (2 * (eta * b) * F0 * / r0); [apply Rmult_le_compat_r; lra|]. replace (2 * (eta * b) * F0 * / r0) with (2 * (eta * b) * (/ r0 * F0)) by ring. apply Rle_trans with (2 * (eta * b) * 1.08); [apply Rmult_le_compat_l; lra|lra]. }
  apply Rabs_le_inv in QE. assert (QB : Rabs (r1 / r0) <= 1.2 * b) by (apply Rabs_le; lra).
  assert (E8 : / 10 ^ 20 <= / 10 ^ 8) by (apply Rinv_le; [apply pow_lt; lra|apply Rle_pow; [lra|lia]]). assert (E35 : 10 ^ 35 = 100 * 10 ^ 33) by (replace 100 with (10 ^ 2) by (simpl; lra); rewrite <- pow_add; reflexivity). assert (0 < 10 ^ 33) by (apply pow_lt; lra).
  destruct (rnd_err_S u H (r1 / r0) (1.2 * b)) as (f & Ef & Af & Rf); [exact QB|split; lra|]. exists f. split; auto. split; auto.
  apply Rabs_le_inv in Af. apply Rabs_le. assert (UB : 0 <= u * b) by (apply Rmult_le_pos; lra). assert (MU : 0 <= m * (u * b)) by (apply Rmult_le_pos; lra).
  assert (EE : eta * b = 1.11 * (m * (u * b)) + 1.01 * (E0 * (u * b)) + 8 * (u * b)) by (rewrite EU; ring). assert (20 * (u * b) <= E0 * (u * b)) by (apply Rmult_le_compat_r; lra). replace (3 * (m + E0 + 5) * u * b) with (3 * (m * (u * b)) + 3 * (E0 * (u * b)) + 15 * (u * b)) by ring. lra.
Qed.
Lemma log_flux_range f B kap : / 10 ^ 20 <= B <= 10 ^ 20 -> 0 < f -> f <= B / ab0 -> B / ab0 <= kap * f -> kap <= 2 ^ 75 -> -34 <= log10 f <= 34.
Proof.
  intros HB F0 FB KF HK. pose proof ab0_range as A. assert (P13 : 0 < / 10 ^ 13) by (apply Rinv_0_lt_compat, pow_lt; lra). assert (P20 : 0 < / 10 ^ 20) by apply e20_small.
  assert (U33 : B / ab0 <= 10 ^ 33).
  { apply Rmult_le_reg_r with ab0; [lra|]. unfold Rdiv. rewrite Rmult_assoc, Rinv_l, Rmult_1_r by lra. apply Rle_trans with (10 ^ 20); [lra|]. apply Rle_trans with (10 ^ 33 * / 10 ^ 13); [|apply Rmult_le_compat_l; [apply pow_le; lra|lra]].
    replace (10 ^ 33) with (10 ^ 20 * 10 ^ 13) by (rewrite <- pow_add; reflexivity). rewrite Rmult_assoc, Rinv_r by (apply pow_nonzero; lra). lra. }
  split.
  - assert (K34 : / 10 ^ 34 <= f).
    { apply Rmult_le_reg_l with (2 ^ 75); [apply pow_lt; lra|]. assert (kap * f <= 2 ^ 75 * f) by (apply Rmult_le_compat_r; lra). apply Rle_trans with (B / ab0); [|lra].
      apply Rle_trans with (/ 10 ^ 9).
      - apply Rle_trans with (10 ^ 25 * / 10 ^ 34); [apply Rmult_le_compat_r; [apply Rlt_le, Rinv_0_lt_compat, pow_lt; lra|]|].
        + replace (2 ^ 75) with ((2 ^ 3) ^ 25) by (rewrite <- pow_mult; reflexivity). apply pow_incr. simpl. lra.
        + replace (10 ^ 34) with (10 ^ 25 * 10 ^ 9) by (rewrite <- pow_add; reflexivity). rewrite Rinv_mult, <- Rmult_assoc, Rinv_r by (apply pow_nonzero; lra). lra.
      - apply Rmult_le_reg_r with ab0; [lra|]. unfold Rdiv. rewrite Rmult_assoc, Rinv_l, Rmult_1_r by lra. apply Rle_trans with (/ 10 ^ 20); [|lra]. apply Rle_trans with (/ 10 ^ 9 * (2 * / 10 ^ 13)); [apply Rmult_le_compat_l; [apply Rlt_le, Rinv_0_lt_compat, pow_lt; lra|lra]|].
        replace (10 ^ 13) with (100 * 10 ^ 11) by (replace 100 with (10 ^ 2) by (simpl; lra); rewrite <- pow_add; reflexivity). replace (10 ^ 20) with (10 ^ 9 * 10 ^ 11) by (rewrite <- pow_add; reflexivity). rewrite !Rinv_mult. replace (/ 10 ^ 9 * (2 * (/ 100 * / 10 ^ 11))) with ((2 * / 100) * (/ 10 ^ 9 * / 10 ^ 11)) by ring.
        rewrite <- (Rmult_1_l (/ 10 ^ 9 * / 10 ^ 11)) at 2. apply Rmult_le_compat_r; [rewrite <- Rinv_mult, <- pow_add; apply Rlt_le, Rinv_0_lt_compat, pow_lt; lra|lra]. }
    pose proof (log10_le (/ 10 ^ 34) f ltac:(apply Rinv_0_lt_compat, pow_lt; lra) K34) as L. replace (log10 (/ 10 ^ 34)) with (-34) in L; [exact L|]. unfold log10. rewrite ln_Rinv by (apply pow_lt; lra). fold (log10 (10 ^ 34)). replace (- ln (10 ^ 34) / ln 10) with (- log10 (10 ^ 34)) by (unfold log10; field; pose proof ln10_ge; lra). rewrite log10_pow. simpl. lra.
  - assert (f <= 10 ^ 34) as K by (eapply Rle_trans; [exact FB|]; eapply Rle_trans; [exact U33|]; apply Rle_pow; [lra|lia]). pose proof (log10_le f (10 ^ 34) F0 K) as L. rewrite log10_pow in L. simpl in L. lra.
Qed.
Lemma mag_err f f0 B kap n : (1 <= n <= 2 ^ 18)%nat -> / 10 ^ 20 <= B <= 10 ^ 20 -> 0 < f0 <= B / ab0 -> B / ab0 <= kap * f0 ->
  3 * (INR n + E0 + 5) * u * kap <= 1 / 100 -> Rabs (f - f0) <= 3 * (INR n + E0 + 5) * u * (B / ab0) ->
  0 < f /\ exists m, nmul (lit (-2.5)) (nlog10 (Fin f)) = Fin m /\ rnd m = Fin m /\ Rabs (m - -2.5 * log10 f0) <= 4 * (INR n + E0 + 50) * u * kap.
Proof.
  intros LN HB Hf0 HK SM E. pose proof (u_le u H) as Hu. set (N := INR n) in *. assert (N1 : 1 <= N) by (apply (le_INR 1); lia).
  assert (K1 : 1 <= kap). { apply Rmult_le_reg_r with f0; lra. }
  assert (UK : u <= u * kap). { rewrite <- (Rmult_1_r u) at 1. apply Rmult_le_compat_l; lra. }
  assert (NUK : 0 <= N * (u * kap)) by (apply Rmult_le_pos; [lra|apply Rmult_le_pos; lra]).
  assert (EUK : 20 * (u * kap) <= E0 * (u * kap)) by (apply Rmult_le_compat_r; lra).
  assert (SM' : 3 * (N * (u * kap)) + 3 * (E0 * (u * kap)) + 15 * (u * kap) <= 1/100) by lra.
  set (rho := 3 * (N + E0 + 5) * u * kap) in *. assert (Er : rho = 3 * (N * (u * kap)) + 3 * (E0 * (u * kap)) + 15 * (u * kap)) by (unfold rho; ring).
  assert (K75 : kap <= 2 ^ 75).
  { pose proof (re_tiny _ _ H) as T. destruct (Rle_dec kap (2 ^ 75)) as [|Q]; auto. exfalso.
    assert (P : 0 < 2 ^ 75) by (apply pow_lt; lra). assert (U75 : / 2 ^ 75 <= u).
    { eapply Rle_trans; [|apply (re_low _ _ H)]. apply Rinv_le; [apply pow_lt; lra|apply Rle_pow; [lra|lia]]. }
    assert (1 <= u * kap). { rewrite <- (Rinv_l (2 ^ 75)) by lra. apply Rmult_le_compat; try lra; apply Rlt_le, Rinv_0_lt_compat; lra. } lra. }
  assert (E2 : Rabs (f - f0) <= rho * f0). { eapply Rle_trans; [exact E|]. unfold rho. replace (3 * (N + E0 + 5) * u * kap * f0) with (3 * (N + E0 + 5) * u * (kap * f0)) by ring. apply Rmult_le_compat_l; [apply Rmult_le_pos; lra|exact HK]. }
  assert (RF : 0 <= rho * f0 <= 1/100 * f0) by (split; [apply Rmult_le_pos; lra|apply Rmult_le_compat_r; lra]).
  pose proof E2 as E3. apply Rabs_le_inv in E3. assert (F0 : 0.99 * f0 <= f) by lra. split; [lra|].
  assert (LL : Rabs (log10 f - log10 f0) <= 0.506 * rho).
  { eapply Rle_trans; [apply (log10_lip (0.99 * f0)); lra|]. apply Rmult_le_reg_r with (2 * (0.99 * f0)); [lra|]. unfold Rdiv. rewrite Rmult_assoc, Rinv_l, Rmult_1_r by lra. replace (0.506 * rho * (2 * (0.99 * f0))) with (1.00188 * (rho * f0)) by lra. lra. }
  pose proof (log_flux_range f0 B kap HB (proj1 Hf0) (proj2 Hf0) HK K75) as L0. apply Rabs_le_inv in LL.
  cbn [nlog10]. rewrite Rlt_bool_true by lra. fold (log10 f).
  destruct (elem_err_B u H (LOG10 f) 35) as (l & El & Al & _); [cbn; lra|cbn [elem_value]; fold (log10 f); apply Rabs_le; lra|split; [lra|apply Rle_trans with (10 ^ 2); [simpl; lra|apply Rle_pow; [lra|lia]]]|]. rewrite El. cbn [elem_value] in Al. fold (log10 f) in Al. apply Rabs_le_inv in Al.
  unfold lit. rewrite (LFloat2.rnd_dy G (-5) 1 (-2.5)) by (try lia; simpl; lra). cbn [nmul].
  destruct (rnd_err_B u H (-2.5 * l) 90) as (m & Em & Am & Rm); [apply Rabs_le; simpl in Hu; lra|split; [lra|apply Rle_trans with (10 ^ 2); [simpl; lra|apply Rle_pow; [lra|lia]]]|].
  exists m. split; auto. split; auto. apply Rabs_le_inv in Am. apply Rabs_le. replace (4 * (N + E0 + 50) * u * kap) with (4 * (N * (u * kap)) + 4 * (E0 * (u * kap)) + 200 * (u * kap)) by ring. lra.
Qed.
End F.
