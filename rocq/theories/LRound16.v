(** * Fluxes and magnitudes in rounded arithmetic *)
From Coq Require Import Reals List Arith Lra Lia ZArith Bool.
From Coquelicot Require Import Rcomplements.
From Flocq Require Import Core.Raux.
From Verif Require Import Num Arr MUtils MCosmo MPhot Float Spec SpecFloat SpecFloat2 RList LUtils LKern2 LBurst LPhot LFloat LFloat2 LFloat3 LFloat4 LFloat5 LFloat10 LRound1 LRound2 LRound3 LRound4 LRound7 LRound14 LRound15.
Import ListNotations.
Open Scope R_scope.

Lemma trapezoid_le xs ys zs : increasing xs -> length xs = length ys -> length xs = length zs -> (forall i, (i < length xs)%nat -> ent ys i <= ent zs i) -> trapezoid xs ys <= trapezoid xs zs.
Proof.
  intros I L L' E. rewrite !trapezoid_cells by auto. apply Rsum_seq_le. intros i Hi. apply in_seq in Hi. unfold cell.
  assert (ent xs i < ent xs (S i)) by (apply I; lia). pose proof (E i ltac:(lia)). pose proof (E (S i) ltac:(lia)).
  assert ((ent xs (S i) - ent xs i) * (ent ys i + ent ys (S i)) <= (ent xs (S i) - ent xs i) * (ent zs i + ent zs (S i))) by (apply Rmult_le_compat_l; lra). lra.
Qed.
Lemma trapezoid_const xs k : (1 <= length xs)%nat -> trapezoid xs (map (fun _ => k) (seq 0 (length xs))) = k * (ent xs (length xs - 1) - ent xs 0).
Proof.
  induction xs as [|x xs IH]; intros L; [simpl in L; lia|]. destruct xs as [|x1 xs]; [unfold ent; simpl; ring|].
  specialize (IH ltac:(simpl; lia)). cbn [length seq map] in *.
  change (trapezoid (x :: x1 :: xs) ?l) with ((x1 - x) * (k + k) / 2 + trapezoid (x1 :: xs) (k :: map (fun _ => k) (seq 2 (length xs)))).
  replace (map (fun _ : nat => k) (seq 2 (length xs))) with (map (fun _ : nat => k) (seq 1 (length xs))) by (rewrite <- (seq_shift (length xs) 1), map_map; reflexivity).
  rewrite IH. replace (S (S (length xs)) - 1)%nat with (S (S (length xs) - 1)) by lia. rewrite ent_cons_S. unfold ent at 2 4. cbn [nth]. field.
Qed.
Lemma trapezoid_lin xs ys zs a b : length xs = length ys -> length xs = length zs ->
  trapezoid xs (map (fun i => a * ent ys i + b * ent zs i) (seq 0 (length xs))) = a * trapezoid xs ys + b * trapezoid xs zs.
Proof.
  intros L L'. rewrite !trapezoid_cells by (auto; rewrite map_length, seq_length; auto). set (l := seq 0 (length xs - 1)).
  assert (E : forall l', (forall i, In i l' -> (S i < length xs)%nat) -> Rsum (map (cell xs (map (fun i => a * ent ys i + b * ent zs i) (seq 0 (length xs)))) l') = a * Rsum (map (cell xs ys) l') + b * Rsum (map (cell xs zs) l')).
  { induction l' as [|i l' IH]; intros Q; [simpl; ring|]. cbn [map Rsum]. rewrite IH by (intros; apply Q; simpl; auto). specialize (Q i (or_introl eq_refl)). unfold cell. rewrite !ent_map_seq by lia. cbn [Nat.add]. set (p := Rsum _). set (q := Rsum _). field. }
  apply E. intros i Hi. apply in_seq in Hi. lia.
Qed.

Section F.
Context {AR : Arith} (u : R) (H : rel_err AR u) (HE : interp_eps <= / 2 ^ 40).
Notation G := (re_good _ _ H).
(** relative error of the spectrum, in units of the roundoff *)
Context (E0 : R) (HE0 : 20 <= E0 /\ (E0 + 3) * u <= / 10 ^ 3).

Lemma integrand_err t s w sg B : rnd t = Fin t -> 0 <= t <= 1 -> rnd s = Fin s -> rnd w = Fin w -> 1 <= w -> / 10 ^ 20 <= B <= 10 ^ 30 -> 0 <= sg <= B -> Rabs (s - sg) <= E0 * (u * B) ->
  exists b, ndiv (nmul (Fin t) (Fin s)) (Fin w) = Fin b /\ rnd b = Fin b /\ Rabs (b - t * sg / w) <= (E0 + 2.1) * u * (B * t / w + / 10 ^ 27).
Proof.
  intros Rt Bt Rs Rw W1 HB Hsg Es. pose proof (u_le u H) as Hu. pose proof (tiny_u u H) as [T0 T1]. assert (P20 : 0 < / 10 ^ 20) by apply e20_small.
  assert (UB : 0 <= u * B <= / (4 * 10 ^ 6) * B) by (split; [apply Rmult_le_pos; lra|apply Rmult_le_compat_r; lra]). simpl (10 ^ 6) in UB.
  assert (EUB : 0 <= E0 * (u * B) <= / 10 ^ 3 * B). { split; [apply Rmult_le_pos; lra|]. rewrite <- Rmult_assoc. apply Rmult_le_compat_r; lra. } simpl (10 ^ 3) in EUB.
  apply Rabs_le_inv in Es. assert (AS : Rabs s <= 1.001 * B) by (apply Rabs_le; lra).
  assert (TB : 0 <= t * B <= B) by (split; [apply Rmult_le_pos; lra|rewrite <- (Rmult_1_l B) at 2; apply Rmult_le_compat_r; lra]).
  assert (TS : Rabs (t * s) <= 1.001 * (t * B)). { rewrite Rabs_mult, (Rabs_right t) by lra. replace (1.001 * (t * B)) with (t * (1.001 * B)) by ring. apply Rmult_le_compat_l; lra. }
  assert (P35 : 2 * 10 ^ 30 <= 10 ^ 38). { apply Rle_trans with (10 ^ 31); [simpl; lra|apply Rle_pow; [lra|lia]]. }
  cbn [nmul]. destruct (rnd_range _ G (t * s)) as (a & Ea); [lra|]. pose proof (re_any _ _ H _ _ Ea) as Aa. rewrite Ea.
  cbn [ndiv]. rewrite Req_bool_false by lra. set (tau := (u * / 2 ^ 102)) in *.
  assert (UTB : 0 <= u * (t * B) <= / (4 * 10 ^ 6) * (t * B)) by (split; [apply Rmult_le_pos; lra|apply Rmult_le_compat_r; lra]). simpl (10 ^ 6) in UTB.
  assert (Aa2 : Rabs (a - t * s) <= 1.001 * (u * (t * B)) + tau).
  { eapply Rle_trans; [exact Aa|]. apply Rplus_le_compat_r. replace (1.001 * (u * (t * B))) with (u * (1.001 * (t * B))) by ring. apply Rmult_le_compat_l; lra. }
  assert (TE : Rabs (t * s - t * sg) <= E0 * (u * (t * B))).
  { replace (t * s - t * sg) with (t * (s - sg)) by ring. rewrite Rabs_mult, (Rabs_right t) by lra. replace (E0 * (u * (t * B))) with (t * (E0 * (u * B))) by ring. apply Rmult_le_compat_l; [lra|]. apply Rabs_le; lra. }
  assert (IW : 0 < / w <= 1). { split; [apply Rinv_0_lt_compat; lra|]. rewrite <- Rinv_1. apply Rinv_le; lra. }
  apply Rabs_le_inv in Aa2, TE, TS.
  assert (AA : Rabs a <= 1.002 * (t * B) + tau) by (apply Rabs_le; lra).
  assert (AW : Rabs (a / w) <= (1.002 * (t * B) + tau) * / w). { unfold Rdiv. rewrite Rabs_mult, (Rabs_right (/ w)) by lra. apply Rmult_le_compat_r; lra. }
  set (V := B * t / w). assert (EV : t * B * / w = V) by (unfold V; field; lra). assert (V0 : 0 <= V) by (rewrite <- EV; apply Rmult_le_pos; lra).
  assert (TW : tau * / w <= tau). { rewrite <- (Rmult_1_r tau) at 2. apply Rmult_le_compat_l; lra. } assert (TW0 : 0 <= tau * / w) by (apply Rmult_le_pos; lra).
  assert (AW2 : Rabs (a / w) <= 1.002 * V + tau) by (rewrite Rmult_plus_distr_r in AW; lra).
  assert (VB : V <= B). { rewrite <- EV. apply Rle_trans with (t * B * 1); [apply Rmult_le_compat_l; lra|lra]. }
  assert (TAU1 : tau <= 1). { pose proof (tiny_u1 u H) as TT. fold tau in TT. assert (u * / 10 ^ 6 <= 1 * 1) by (apply Rmult_le_compat; simpl; lra). lra. }
  destruct (rnd_range _ G (a / w)) as (b & Eb). { eapply Rle_trans; [exact AW2|]. apply Rle_trans with (2 * 10 ^ 30); [|exact P35]. assert (1 <= 10 ^ 30) by (apply pow_R1_Rle; lra). lra. }
  pose proof (re_any _ _ H _ _ Eb) as Ab. rewrite Eb. exists b. split; auto. split; [eapply (rnd_idem _ G); eauto|].
  assert (UV : 0 <= u * V <= / (4 * 10 ^ 6) * V) by (split; [apply Rmult_le_pos; lra|apply Rmult_le_compat_r; lra]). simpl (10 ^ 6) in UV.
  assert (Ab2 : Rabs (b - a / w) <= 1.002 * (u * V) + 1.001 * tau).
  { eapply Rle_trans; [exact Ab|]. fold tau. assert (u * Rabs (a / w) <= u * (1.002 * V + tau)) by (apply Rmult_le_compat_l; lra). assert (u * tau <= / (4 * 10 ^ 6) * tau) by (apply Rmult_le_compat_r; lra). simpl (10 ^ 6) in *. lra. }
  assert (D : Rabs (a / w - t * sg / w) <= (E0 + 1.002) * (u * V) + tau).
  { replace (a / w - t * sg / w) with ((a - t * sg) * / w) by (unfold Rdiv; ring). rewrite Rabs_mult, (Rabs_right (/ w)) by lra.
    apply Rle_trans with (((E0 + 1.001) * (u * (t * B)) + tau) * / w); [apply Rmult_le_compat_r; [lra|apply Rabs_le; lra]|]. rewrite <- EV. rewrite Rmult_plus_distr_r. replace (u * (t * B * / w)) with (u * (t * B) * / w) by ring. assert (0 <= u * (t * B) * / w) by (apply Rmult_le_pos; lra). lra. }
  apply Rabs_le_inv in Ab2, D. apply Rabs_le. set (k := / 10 ^ 27) in *. replace ((E0 + 2.1) * u * (V + k)) with (E0 * (u * V) + 2.1 * (u * V) + 2.1 * (u * k) + E0 * (u * k)) by ring. assert (0 <= E0 * (u * k)) by (apply Rmult_le_pos; [lra|apply Rmult_le_pos; unfold k; [lra|apply Rlt_le, Rinv_0_lt_compat, pow_lt; lra]]). lra.
Qed.

Definition filter_basic (wf tf : list R) : Prop := grid_ok wf /\ length wf = length tf /\ (1 <= length wf <= 2 ^ 18)%nat /\ (forall i, (i < length tf)%nat -> rnd (ent tf i) = Fin (ent tf i) /\ 0 <= ent tf i <= 1).
Lemma band_err wf tf (s sg : nat -> R) B : filter_basic wf tf -> / 10 ^ 20 <= B <= 10 ^ 20 ->
  let n := length wf in let I := band_integral (fun _ => 1) wf tf in / 10 ^ 18 <= B * I ->
  (forall i, (i < n)%nat -> rnd (s i) = Fin (s i) /\ 0 <= sg i <= B /\ Rabs (s i - sg i) <= E0 * (u * B)) ->
  exists r, trapz_k (fins wf) (map (fun i => ndiv (nmul (Fin (ent tf i)) (Fin (s i))) (Fin (ent wf i))) (seq 0 n)) = Fin r /\ rnd r = Fin r
    /\ Rabs (r - trapezoid wf (map (fun i => ent tf i * sg i / ent wf i) (seq 0 n))) <= (1.11 * INR n + 1.01 * E0 + 8) * u * (B * I)
    /\ 0 <= trapezoid wf (map (fun i => ent tf i * sg i / ent wf i) (seq 0 n)) <= B * I.
Proof.
  intros ([IX GX] & LT & LN & FT) HB n I HI SS. pose proof (u_le u H) as Hu. assert (P20 : 0 < / 10 ^ 20) by apply e20_small.
  assert (B30 : / 10 ^ 20 <= B <= 10 ^ 30). { split; [lra|]. eapply Rle_trans; [apply HB|]. apply Rle_pow; [lra|lia]. }
  set (F := fun i => ndiv (nmul (Fin (ent tf i)) (Fin (s i))) (Fin (ent wf i))).
  assert (Q : forall i, (i < n)%nat -> F i = Fin (fval (F i)) /\ rnd (fval (F i)) = Fin (fval (F i)) /\ Rabs (fval (F i) - ent tf i * sg i / ent wf i) <= (E0 + 2.1) * u * (B * ent tf i / ent wf i + / 10 ^ 27)).
  { intros i Hi. destruct (SS i Hi) as (R1 & R2 & R3). destruct (FT i ltac:(unfold n in Hi; lia)) as (T1 & T2). destruct (GX i Hi) as (X1 & X2).
    destruct (integrand_err (ent tf i) (s i) (ent wf i) (sg i) B) as (b & Eb & Rb & Ab); auto; try lra. unfold F. rewrite Eb. cbn [fval]. auto. }
  set (ys := map (fun i => fval (F i)) (seq 0 n)).
  assert (EY : map F (seq 0 n) = fins ys). { unfold ys, fins. rewrite map_map. apply map_ext_in. intros i Hi. apply in_seq in Hi. apply Q. lia. }
  assert (LY : length wf = length ys) by (unfold ys; rewrite map_length, seq_length; reflexivity).
  set (k := / 10 ^ 27). assert (K0 : 0 < k) by (apply Rinv_0_lt_compat, pow_lt; lra).
  set (V := fun i => B * ent tf i / ent wf i + k). set (A := trapezoid wf (map V (seq 0 n))).
  assert (tw : forall i, (i < n)%nat -> 0 <= ent tf i * / ent wf i <= 1).
  { intros i Hi. destruct (FT i ltac:(unfold n in Hi; lia)) as (T1 & T2). destruct (GX i Hi) as (X1 & X2). assert (IW : 0 < / ent wf i <= 1) by (split; [apply Rinv_0_lt_compat; lra|rewrite <- Rinv_1; apply Rinv_le; lra]).
    split; [apply Rmult_le_pos; lra|]. rewrite <- (Rmult_1_r 1). apply Rmult_le_compat; lra. }
  assert (EI : I = trapezoid wf (map (fun i => ent tf i * / ent wf i) (seq 0 n))). { unfold I, band_integral. f_equal. fold n. apply map_ext. intros i. unfold Rdiv. ring. }
  assert (EA : A = B * I + k * (ent wf (n - 1) - ent wf 0)).
  { rewrite EI. unfold n. rewrite <- (trapezoid_const wf k) by lia. fold n. rewrite <- (Rmult_1_l (trapezoid wf (map (fun _ => k) (seq 0 n)))). rewrite <- (trapezoid_lin wf) by (rewrite map_length, seq_length; reflexivity).
    unfold A. f_equal. apply map_ext_in. intros i Hi. apply in_seq in Hi. rewrite !ent_map_seq by (fold n; lia). unfold V, Rdiv. cbn [Nat.add]. ring. }
  assert (SP : 0 <= ent wf (n - 1) - ent wf 0 <= 10 ^ 6). { destruct (GX 0%nat ltac:(lia)) as (_ & X0). destruct (GX (n - 1)%nat ltac:(unfold n; lia)) as (_ & X1). assert (ent wf 0 <= ent wf (n - 1)) by (apply (increasing_le wf); auto; unfold n; lia). lra. }
  assert (KS : 0 <= k * (ent wf (n - 1) - ent wf 0) <= 0.001 * (B * I)).
  { split; [apply Rmult_le_pos; lra|]. apply Rle_trans with (k * 10 ^ 6); [apply Rmult_le_compat_l; lra|]. apply Rle_trans with (0.001 * / 10 ^ 18); [|apply Rmult_le_compat_l; lra].
    unfold k. replace (10 ^ 27) with (10 ^ 3 * 10 ^ 6 * 10 ^ 18) by (rewrite <- !pow_add; reflexivity). rewrite !Rinv_mult. set (z := / 10 ^ 18). assert (0 < z) by (apply Rinv_0_lt_compat, pow_lt; lra). simpl (10 ^ 3); simpl (10 ^ 6). lra. }
  assert (I6 : I <= 10 ^ 6). { rewrite EI. apply Rle_trans with (1 * (ent wf (n - 1) - ent wf 0)); [|lra]. unfold n. rewrite <- trapezoid_const by lia. apply trapezoid_le; auto; try (rewrite map_length, seq_length; reflexivity). intros i Hi. rewrite !ent_map_seq by auto. apply tw. exact Hi. }
  assert (P18 : 0 < / 10 ^ 18) by (apply Rinv_0_lt_compat, pow_lt; lra).
  assert (BI : 0 < B * I <= 10 ^ 26).
  { split; [lra|]. replace (10 ^ 26) with (10 ^ 20 * 10 ^ 6) by (rewrite <- pow_add; reflexivity). destruct (Rle_dec 0 I); [apply Rmult_le_compat; lra|]. assert (B * I <= B * 0) by (apply Rmult_le_compat_l; lra). lra. }
  assert (BP : forall i, (i < n)%nat -> 0 <= B * (ent tf i * / ent wf i) <= B). { intros i Hi. specialize (tw i Hi). split; [apply Rmult_le_pos; lra|]. rewrite <- (Rmult_1_r B) at 2. apply Rmult_le_compat_l; lra. }
  destruct (trapz_err u H wf ys (fun i => ent tf i * sg i / ent wf i) V ((E0 + 2.1) * u)) as (r & Er & Rr & Ar).
  - split; auto.
  - exact LY.
  - exact LN.
  - split; [apply Rmult_le_pos; lra|]. eapply Rle_trans; [|apply HE0]. apply Rmult_le_compat_r; lra.
  - intros i Hi. fold n in Hi. unfold ys. rewrite ent_map_seq by (fold n; auto). cbn [Nat.add]. destruct (Q i Hi) as (_ & R1 & R2). split; auto. split; [exact R2|].
    destruct (SS i Hi) as (_ & R3 & _). specialize (tw i Hi). specialize (BP i Hi).
    replace (ent tf i * sg i / ent wf i) with (sg i * (ent tf i * / ent wf i)) by (unfold Rdiv; ring). unfold V. replace (B * ent tf i / ent wf i) with (B * (ent tf i * / ent wf i)) by (unfold Rdiv; ring).
    assert (0 <= sg i * (ent tf i * / ent wf i)) by (apply Rmult_le_pos; lra). assert (sg i * (ent tf i * / ent wf i) <= B * (ent tf i * / ent wf i)) by (apply Rmult_le_compat_r; lra).
    rewrite Rabs_right by lra. split; [lra|]. assert (k <= 1). { unfold k. rewrite <- Rinv_1. apply Rinv_le; [lra|apply pow_R1_Rle; lra]. } assert (10 ^ 30 * 2 <= 10 ^ 31) by (simpl; lra). assert (1 <= 10 ^ 30) by (apply pow_R1_Rle; lra). lra.
  - fold n A. rewrite EA. split; [lra|]. apply Rle_trans with (2 * 10 ^ 26); [lra|]. apply Rle_trans with (10 ^ 27); [simpl; lra|apply Rle_pow; [lra|lia]].
  - exists r. change (trapz_k (fins wf) _) with (trapz_k (fins wf) (map F (seq 0 n))). rewrite EY. fold n A in Ar, Er |- *. split; auto. split; auto. split.
    + eapply Rle_trans; [exact Ar|]. set (m := INR n). assert (M1 : 1 <= m) by (apply (le_INR 1); unfold n; lia).
      assert (UA : 0 <= u * (B * I)) by (apply Rmult_le_pos; lra). assert (MUA : 0 <= m * (u * (B * I))) by (apply Rmult_le_pos; lra).
      assert (AB : u * A <= u * (1.001 * (B * I))) by (apply Rmult_le_compat_l; lra). assert (MAB : m * (u * A) <= m * (u * (1.001 * (B * I)))) by (apply Rmult_le_compat_l; lra).
      assert (EAB : E0 * (u * A) <= E0 * (u * (1.001 * (B * I)))) by (apply Rmult_le_compat_l; lra). assert (EUA : 20 * (u * (B * I)) <= E0 * (u * (B * I))) by (apply Rmult_le_compat_r; lra).
      replace ((1.001 * ((E0 + 2.1) * u) + (1.1 * m + 5) * u) * A) with (1.001 * (E0 * (u * A)) + 7.1021 * (u * A) + 1.1 * (m * (u * A))) by lra. replace ((1.11 * m + 1.01 * E0 + 8) * u * (B * I)) with (1.11 * (m * (u * (B * I))) + 1.01 * (E0 * (u * (B * I))) + 8 * (u * (B * I))) by ring.
      lra.
    + assert (EZ0 : trapezoid wf (map (fun _ => 0) (seq 0 n)) = 0). { unfold n. rewrite trapezoid_const by lia. ring. }
      assert (E1 : trapezoid wf (map (fun i => B * ent tf i / ent wf i) (seq 0 n)) = B * I).
      { rewrite EI. rewrite <- (Rplus_0_r (B * _)), <- (Rmult_0_l (trapezoid wf (map (fun _ => 0) (seq 0 n)))). rewrite <- (trapezoid_lin wf) by (rewrite map_length, seq_length; reflexivity).
        f_equal. apply map_ext_in. intros i Hi. apply in_seq in Hi. rewrite !ent_map_seq by (fold n; lia). unfold Rdiv. cbn [Nat.add]. ring. }
      rewrite <- E1, <- EZ0.
      assert (LM : forall Z : nat -> R, length wf = length (map Z (seq 0 n))) by (intros; rewrite map_length, seq_length; reflexivity).
      split; (apply trapezoid_le; auto; intros i Hi; fold n in Hi; rewrite !ent_map_seq by auto; cbn [Nat.add]; destruct (SS i Hi) as (_ & R3 & _); specialize (tw i Hi)).
      * replace (ent tf i * sg i / ent wf i) with (sg i * (ent tf i * / ent wf i)) by (unfold Rdiv; ring). apply Rmult_le_pos; lra.
      * replace (ent tf i * sg i / ent wf i) with (sg i * (ent tf i * / ent wf i)) by (unfold Rdiv; ring). replace (B * ent tf i / ent wf i) with (B * (ent tf i * / ent wf i)) by (unfold Rdiv; ring). apply Rmult_le_compat_r; lra.
Qed.
End F.
