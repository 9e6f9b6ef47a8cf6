(** * Weights in rounded arithmetic sum to 1 up to rounding; forward error of the SED *)
From Coq Require Import Reals List Arith Lra Lia ZArith Bool.
From Flocq Require Import Core.Raux.
From Verif Require Import Num Arr MUtils MSed Float Spec SpecFloat RList LUtils LFloat LFloat2 LFloat3 LFloat4 LFloat5 LFloat6 LFloat10.
Import ListNotations.
Open Scope R_scope.

Lemma n_u n u : 0 < u <= / 2 ^ 22 -> (n <= 2 ^ 18)%nat -> INR n * u <= / 16.
Proof.
  intros Hu Hn. apply Rle_trans with (2 ^ 18 * / 2 ^ 22).
  - apply Rmult_le_compat; try lra; [apply pos_INR|]. apply le_INR in Hn. rewrite pow_INR in Hn. simpl (INR 2) in Hn. exact Hn.
  - simpl. lra.
Qed.

Section F.
Context {AR : Arith} {u : R} (H : rel_err AR u).
Let G := re_good _ _ H.

Lemma pos_reps D : Forall pos_rep D -> exists l, D = fins l /\ Forall nonneg_machine l.
Proof.
  induction 1 as [|v D (d & -> & D0 & Rd) F (l & -> & Fl)]; [exists []; split; auto|]. exists (d :: l). split; [reflexivity|]. constructor; auto. split; auto.
Qed.
Lemma mult_le_1' x y : 0 <= x <= 1 -> 0 <= y <= 1 -> 0 <= x * y <= 1.
Proof. intros. split; [apply Rmult_le_pos; lra|]. rewrite <- (Rmult_1_r 1). apply Rmult_le_compat; lra. Qed.
Lemma big30 y : rnd (2 * 10 ^ 30) = Fin y -> y <= 3 * 10 ^ 30.
Proof.
  intros E. pose proof (re_any _ _ H _ _ E) as A. assert (P : 1 <= 10 ^ 30) by (apply pow_R1_Rle; lra). rewrite (Rabs_right (2 * 10 ^ 30)) in A by lra. apply Rabs_le_inv in A.
  pose proof (re_u _ _ H) as Hu. assert (U : / 2 ^ 22 <= / 4) by (apply Rinv_le; [lra|simpl; lra]).
  assert (t : (u * / 2 ^ 102) <= / 4).
  { assert (/ 2 ^ 102 <= 1) by (rewrite <- Rinv_1; apply Rinv_le; [lra|]; apply pow_R1_Rle; lra). assert (0 < / 2 ^ 102) by (apply Rinv_0_lt_compat, pow_lt; lra).
    rewrite <- (Rmult_1_r (/ 4)). apply Rmult_le_compat; lra. }
  assert (u * (2 * 10 ^ 30) <= / 4 * (2 * 10 ^ 30)) by (apply Rmult_le_compat_r; lra). lra.
Qed.

Lemma deltas_sum w : normalised_deltas w -> (length w <= 2 ^ 18)%nat ->
  all_nan w \/ exists x, w = fins x /\ Forall (fun x => 0 <= x <= 1) x /\ Rabs (Rsum x - 1) <= 2 * (INR (length x) + 1) * u.
Proof.
  intros (D & -> & FD & BD) Ln. rewrite map_length in Ln. destruct (pos_reps D FD) as (l & -> & Fl). rewrite fins_length in Ln.
  pose proof (re_u _ _ H) as Hu.
  assert (B : Rsum l <= 10 ^ 37).
  { assert (B1 : Forall (fun d => d <= 3 * 10 ^ 30) l).
    { apply Forall_forall. intros d Hd. rewrite Forall_forall in BD. specialize (BD (Fin d) (in_map _ _ _ Hd)).
      destruct (rnd_range _ G (2 * 10 ^ 30)) as (y & Ey). { assert (P30 : 0 < 10 ^ 30) by (apply pow_lt; lra). rewrite Rabs_right by lra. apply Rle_trans with (10 ^ 31); [change (10 ^ 31) with (10 * 10 ^ 30); lra|apply Rle_pow; [lra|lia]]. }
      rewrite Ey, nle_fin in BD. pose proof (big30 y Ey). lra. }
    apply Rle_trans with (INR (length l) * (3 * 10 ^ 30)).
    - clear - B1. induction B1; [cbn; lra|]. cbn [Rsum length]. rewrite S_INR. lra.
    - apply Rle_trans with (2 ^ 18 * (3 * 10 ^ 30)).
      + apply Rmult_le_compat_r; [apply Rmult_le_pos; [lra|apply pow_le; lra]|]. apply le_INR in Ln. rewrite pow_INR in Ln. simpl (INR 2) in Ln. exact Ln.
      + replace (10 ^ 37) with (10 ^ 7 * 10 ^ 30) by (rewrite <- pow_add; reflexivity). rewrite <- Rmult_assoc. apply Rmult_le_compat_r; [apply pow_le; lra|simpl; lra]. }
  destruct (normalised_error H l Fl (n_u _ _ Hu Ln) B) as [[_ N]|(_ & S & K)]; [left; exact N|]. right.
  exists (map (fun d => fval (ndiv (Fin d) (vsum (fins l)))) l). rewrite map_length. split; [|split; [|exact S]].
  - unfold fins. rewrite !map_map. apply map_ext_in. intros d Hd. destruct (K d Hd) as (x & E & _). fold fins. fold (fins l). rewrite E. reflexivity.
  - apply Forall_map, Forall_forall. intros d Hd. destruct (K d Hd) as (x & -> & B' & _). exact B'.
Qed.

(** ** joint weights *)
Lemma Rsum_map_err {A} (f g : A -> R) l e t : (forall a, In a l -> Rabs (f a - g a) <= e * g a + t) ->
  Rabs (Rsum (map f l) - Rsum (map g l)) <= e * Rsum (map g l) + INR (length l) * t.
Proof.
  intros K. induction l as [|a l IH]; [cbn; rewrite Rminus_0_r, Rabs_R0; lra|]. cbn [map Rsum length]. rewrite S_INR.
  pose proof (K a (or_introl eq_refl)). specialize (IH (fun b Hb => K b (or_intror Hb))).
  replace (f a + Rsum (map f l) - (g a + Rsum (map g l))) with ((f a - g a) + (Rsum (map f l) - Rsum (map g l))) by ring.
  eapply Rle_trans; [apply Rabs_triang|]. lra.
Qed.
Lemma tiny_facts n : (n <= 2 ^ 18)%nat -> (INR n + 1) * (u * / 2 ^ 102) <= / 2 ^ 100 /\ 0 < (u * / 2 ^ 102).
Proof.
  intros Hn. pose proof (re_u _ _ H) as Hu. assert (T0 : 0 < / 2 ^ 102) by (apply Rinv_0_lt_compat, pow_lt; lra). assert (TP : 0 < u * / 2 ^ 102) by (apply Rmult_lt_0_compat; lra).
  split; auto. apply Rle_trans with (2 ^ 21 * (u * / 2 ^ 102)).
  - apply Rmult_le_compat_r; [lra|]. apply le_INR in Hn. rewrite pow_INR in Hn. simpl (INR 2) in Hn. simpl in *. lra.
  - apply Rle_trans with (2 ^ 21 * (/ 2 ^ 22 * / 2 ^ 102)); [apply Rmult_le_compat_l; [apply pow_le; lra|]; apply Rmult_le_compat_r; lra|].
    apply Rle_trans with (1 * / 2 ^ 102); [|rewrite Rmult_1_l; apply half_pow_le; lia]. rewrite <- Rmult_assoc. apply Rmult_le_compat_r; [lra|]. simpl. lra.
Qed.

Lemma joint_core L : Forall (Forall (fun x => 0 <= x <= 1)) L -> (length (concat L) <= 2 ^ 18)%nat -> / 4 <= Rsum2 L ->
  exists W, normalize_matrix (map (map rnd) L) = map fins W
    /\ W = map (map (fun x => fval (ndiv (rnd x) (vsum (concat (map (map rnd) L)))))) L
    /\ Rabs (Rsum2 W - 1) <= 2 * (INR (length (concat L)) + 1) * u
    /\ forall x, In x (concat L) -> let w := fval (ndiv (rnd x) (vsum (concat (map (map rnd) L)))) in 0 <= w <= 1
         /\ Rabs (w - x / Rsum2 L) <= 3 * (INR (length (concat L)) + 2) * u * (x / Rsum2 L) + 8 * (INR (length (concat L)) + 1) * (u * / 2 ^ 102).
Proof.
  intros F Ln S4. set (l := concat L) in *. set (n := INR (length l)) in *. pose proof (re_u _ _ H) as Hu.
  assert (U4 : / 2 ^ 22 <= / 1000) by (apply Rinv_le; [lra|simpl; lra]).
  assert (N0 : 0 <= n) by apply pos_INR. pose proof (n_u _ _ Hu Ln) as NU. fold n in NU.
  destruct (tiny_facts _ Ln) as [TN T0]. fold n in TN. set (t := (u * / 2 ^ 102)) in *.
  assert (T100 : / 2 ^ 100 <= / 1000). { apply Rinv_le; [lra|]. apply Rle_trans with (2 ^ 10); [simpl; lra|apply Rle_pow; [lra|lia]]. }
  assert (Fl : Forall (fun x => 0 <= x <= 1) l) by (unfold l; now apply Forall_concat).
  assert (SL : Rsum2 L = Rsum l) by (unfold l; symmetry; apply Rsum_concat). rewrite SL in *. set (S := Rsum l) in *.
  assert (Q : forall x, In x l -> rnd x = Fin (fval (rnd x)) /\ nonneg_machine (fval (rnd x)) /\ fval (rnd x) <= 1 /\ Rabs (fval (rnd x) - x) <= u * x + t).
  { intros x Hx. rewrite Forall_forall in Fl. specialize (Fl x Hx). destruct (rnd_between G 0 x 1 (rnd0 G) (rnd1 G) Fl) as (y & Ey & By). rewrite Ey. cbn [fval].
    split; auto. split; [split; [lra|eapply (rnd_idem _ G); eauto]|]. split; [lra|]. pose proof (re_any _ _ H _ _ Ey) as E. rewrite (Rabs_right x) in E by lra. exact E. }
  set (p := map (fun x => fval (rnd x)) l).
  assert (Lp : length p = length l) by (unfold p; now rewrite map_length).
  assert (CP : concat (map (map rnd) L) = fins p).
  { rewrite <- concat_map. fold l. unfold p, fins. rewrite map_map. apply map_ext_in. intros x Hx. apply Q. auto. }
  assert (Fp : Forall nonneg_machine p) by (unfold p; apply Forall_map, Forall_forall; intros x Hx; apply Q; auto).
  assert (SP : Rabs (Rsum p - S) <= u * S + n * t).
  { unfold p, S, n. rewrite <- (map_id l) at 2 3. apply (Rsum_map_err (fun x => fval (rnd x)) (fun x => x)). intros x Hx. apply Q. auto. }
  assert (SN : S <= n). { unfold S, n. clear - Fl. induction Fl; [cbn; lra|]. cbn [Rsum length]. rewrite S_INR. lra. }
  assert (N20 : n <= 2 ^ 18). { apply le_INR in Ln. rewrite pow_INR in Ln. simpl (INR 2) in Ln. exact Ln. }
  assert (PB : Rsum p <= 10 ^ 37).
  { apply Rabs_le_inv in SP. apply Rle_trans with (2 ^ 22); [|].
    - assert (u * S <= / 1000 * S) by (apply Rmult_le_compat_r; lra). assert (n * t <= / 1000) by lra. replace (2 ^ 22) with (16 * 2 ^ 18) by ring. assert (1 <= 2 ^ 18) by (apply pow_R1_Rle; lra). lra.
    - apply Rle_trans with (10 ^ 7); [simpl; lra|apply Rle_pow; [lra|lia]]. }
  assert (PL : 99 / 100 * S <= Rsum p).
  { apply Rabs_le_inv in SP. assert (u * S <= / 1000 * S) by (apply Rmult_le_compat_r; lra). assert (n * t <= / 1000) by lra. lra. }
  destruct (normalised_error H p Fp) as [[Z _]|(P0 & SW & K)]; [rewrite Lp; exact NU|exact PB|lra|].
  rewrite Lp in SW, K. fold n in SW, K. rewrite CP. set (T := vsum (fins p)) in *. set (P := Rsum p) in *.
  exists (map (map (fun x => fval (ndiv (rnd x) T))) L). split; [|split; [reflexivity|split]].
  - unfold normalize_matrix. rewrite CP. fold T. rewrite !map_map. apply map_ext_in. intros r Hr. unfold fins. rewrite !map_map. apply map_ext_in. intros x Hx.
    assert (Hl : In x l) by (unfold l; apply in_concat; eauto). destruct (Q x Hl) as (E & _). destruct (K (fval (rnd x))) as (y & Ey & _); [unfold p; apply in_map_iff; eauto|].
    rewrite E at 1 2. now rewrite Ey.
  - rewrite <- Rsum_concat, <- concat_map. fold l.
    assert (map (fun x => fval (ndiv (rnd x) T)) l = map (fun d => fval (ndiv (Fin d) T)) p) as ->; [|exact SW].
    unfold p. rewrite map_map. apply map_ext_in. intros x Hx. destruct (Q x Hx) as (E & _). now rewrite E at 1.
  - intros x Hx. destruct (Q x Hx) as (E & (M0 & _) & M1 & EE). destruct (K (fval (rnd x))) as (y & Ey & By & _ & Ry); [unfold p; apply in_map_iff; eauto|].
    assert (YE : fval (ndiv (rnd x) T) = y) by (rewrite E at 1; now rewrite Ey). cbv zeta. rewrite YE. split; auto. set (v := fval (rnd x)) in *.
    assert (X0 : 0 <= x) by (rewrite Forall_forall in Fl; apply Fl; auto).
    assert (XS : x <= S) by (apply Rsum_In_le; auto; eapply Forall_impl; [|exact Fl]; intros z Hz; apply Hz).
    set (q := x / S). assert (Q0 : 0 <= q <= 1) by (split; [apply Rdiv_le_0_compat'; lra|apply Rdiv_le_1'; lra]).
    assert (XQ : x = q * S) by (unfold q; field; lra).
    assert (VP : Rabs (v / P - q) <= 203 / 100 * u * q + 41 / 10 * (n + 1) * t).
    { assert (A1 : Rabs (v - q * P) <= 2 * u * q * S + (n + 1) * t).
      { replace (v - q * P) with ((v - x) - q * (P - S)) by (rewrite XQ at 1; ring). eapply Rle_trans; [apply Rabs_triang|]. rewrite Rabs_Ropp, Rabs_mult, (Rabs_right q) by lra.
        assert (q * Rabs (P - S) <= q * (u * S + n * t)) by (apply Rmult_le_compat_l; lra).
        assert (q * (n * t) <= 1 * (n * t)) by (apply Rmult_le_compat_r; [apply Rmult_le_pos; lra|lra]).
        replace (u * x) with (u * q * S) in EE by (rewrite XQ at 1; ring). lra. }
      replace (v / P - q) with ((v - q * P) / P) by (field; lra). unfold Rdiv at 1. rewrite Rabs_mult, Rabs_inv, (Rabs_right P) by lra.
      apply Rmult_le_reg_r with P; [lra|]. rewrite Rmult_assoc, Rinv_l, Rmult_1_r by lra. eapply Rle_trans; [exact A1|].
      assert (U0 : 0 <= u * q) by (apply Rmult_le_pos; lra). assert (V0 : 0 <= (n + 1) * t) by (apply Rmult_le_pos; lra).
      assert ((203 / 100 * (u * q) + 41 / 10 * ((n + 1) * t)) * (99 / 100 * S) <= (203 / 100 * (u * q) + 41 / 10 * ((n + 1) * t)) * P) by (apply Rmult_le_compat_l; lra).
      assert ((n + 1) * t * / 4 <= (n + 1) * t * S) by (apply Rmult_le_compat_l; lra).
      assert (0 <= u * q * S) by (apply Rmult_le_pos; lra). nra. }
    assert (VQ : v / P <= q + (203 / 100 * u * q + 41 / 10 * (n + 1) * t)) by (apply Rabs_le_inv in VP; lra).
    replace (y - q) with ((y - v / P) + (v / P - q)) by ring. eapply Rle_trans; [apply Rabs_triang|].
    set (k := (n + 1) * t) in *. assert (K0 : 0 <= k) by (apply Rmult_le_pos; lra).
    assert (Z : 2 * (n + 1) * u * (v / P) <= 2 * (n + 1) * u * (q + (203 / 100 * u * q + 41 / 10 * k))).
    { apply Rmult_le_compat_l; [apply Rmult_le_pos; lra|]. unfold k. lra. }
    assert (NU1 : (n + 1) * u <= / 15) by lra. set (m := (n + 1) * u) in *. assert (0 <= m) by (apply Rmult_le_pos; lra).
    assert (m * u * q <= m * / 1000 * q). { apply Rmult_le_compat_r; [lra|]. apply Rmult_le_compat_l; lra. }
    assert (m * k <= / 15 * k) by (apply Rmult_le_compat_r; lra).
    assert (t <= k) by (unfold k; rewrite <- (Rmult_1_l t) at 1; apply Rmult_le_compat_r; lra).
    assert (0 <= m * q) by (apply Rmult_le_pos; lra). assert (0 <= u * q) by (apply Rmult_le_pos; lra).
    replace (3 * (n + 2) * u * q + 8 * (n + 1) * t) with (3 * (m * q) + 3 * (u * q) + 8 * k) by (unfold m, k; ring).
    assert (Z' : 2 * (n + 1) * u * (v / P) <= 2 * (m * q) + 406 / 100 * (m * u * q) + 82 / 10 * (m * k)) by (eapply Rle_trans; [exact Z|]; unfold m; lra).
    fold t in Ry.
    assert (VP' : Rabs (v / P - q) <= 203 / 100 * (u * q) + 41 / 10 * k) by (unfold k; lra).
    lra.
Qed.

(** ** the SED *)
Lemma dot_error (l : list (R * R)) : Forall (fun p => 0 <= fst p /\ 0 <= snd p) l -> (length l <= 2 ^ 18)%nat ->
  Rsum (map (fun p => fst p * snd p) l) <= 10 ^ 36 ->
  exists T, vsum (map (fun p => nmul (Fin (fst p)) (Fin (snd p))) l) = Fin T /\ 0 <= T
    /\ Rabs (T - Rsum (map (fun p => fst p * snd p) l)) <= (11 / 10 * INR (length l) + 1) * u * Rsum (map (fun p => fst p * snd p) l) + 16 / 15 * INR (length l) * (u * / 2 ^ 102).
Proof.
  intros F Ln B. set (S := Rsum _) in *. set (n := INR (length l)) in *. pose proof (re_u _ _ H) as Hu. pose proof (n_u _ _ Hu Ln) as NU. fold n in NU.
  assert (U4 : / 2 ^ 22 <= / 1000) by (apply Rinv_le; [lra|simpl; lra]).
  destruct (tiny_facts _ Ln) as [TN T0]. fold n in TN. set (t := (u * / 2 ^ 102)) in *.
  assert (T100 : / 2 ^ 100 <= 1). { rewrite <- Rinv_1. apply Rinv_le; [lra|]. apply pow_R1_Rle; lra. }
  assert (N0 : 0 <= n) by apply pos_INR.
  set (e := fun p : R * R => fst p * snd p) in *.
  assert (E0 : Forall (fun x => 0 <= x) (map e l)).
  { apply Forall_map. eapply Forall_impl; [|exact F]. intros p [P1 P2]. unfold e. now apply Rmult_le_pos. }
  assert (S0 : 0 <= S) by (apply Rsum_nonneg; exact E0).
  assert (Q : forall p, In p l -> rnd (e p) = Fin (fval (rnd (e p))) /\ nonneg_machine (fval (rnd (e p))) /\ Rabs (fval (rnd (e p)) - e p) <= u * e p + t).
  { intros p Hp. rewrite Forall_forall in F. destruct (F p Hp) as [A1 A2]. assert (A : 0 <= e p) by (unfold e; now apply Rmult_le_pos).
    assert (A' : e p <= S) by (apply Rsum_In_le; [exact E0|now apply in_map]).
    destruct (rnd_range _ G (e p)) as (y & Ey). { rewrite Rabs_right by lra. apply Rle_trans with (10 ^ 36); [lra|apply Rle_pow; [lra|lia]]. }
    rewrite Ey. cbn [fval]. split; auto. split.
    - split; [|eapply (rnd_idem _ G); eauto]. pose proof (rnd_nonneg G (e p) A) as N. rewrite Ey, nle_fin in N. exact N.
    - pose proof (re_any _ _ H _ _ Ey) as E. rewrite (Rabs_right (e p)) in E by lra. exact E. }
  set (p := map (fun x => fval (rnd (e x))) l). assert (Lp : length p = length l) by (unfold p; now rewrite map_length).
  assert (EP : map (fun p => nmul (Fin (fst p)) (Fin (snd p))) l = fins p).
  { unfold p, fins. rewrite map_map. apply map_ext_in. intros x Hx. cbn [nmul]. change (fst x * snd x) with (e x). apply Q. auto. }
  assert (Fp : Forall nonneg_machine p) by (unfold p; apply Forall_map, Forall_forall; intros x Hx; apply Q; auto).
  assert (SP : Rabs (Rsum p - S) <= u * S + n * t).
  { unfold p, S, n. apply (Rsum_map_err (fun x => fval (rnd (e x))) e). intros x Hx. apply Q. auto. }
  assert (SP' : Rsum p <= S * (1 + u) + n * t) by (apply Rabs_le_inv in SP; lra).
  assert (P1 : 1 <= 10 ^ 36) by (apply pow_R1_Rle; lra).
  destruct (vsum_error H p Fp) as (T & ET & [TP _] & BT).
  { rewrite Lp. exact NU. }
  { replace (10 ^ 37) with (10 * 10 ^ 36) by reflexivity. assert (u * S <= 1 * S) by (apply Rmult_le_compat_r; lra). lra. }
  rewrite Lp in BT. fold n in BT. exists T. rewrite EP. split; auto. split; auto.
  assert (Sp0 : 0 <= Rsum p) by (apply Rsum_nonneg; eapply Forall_impl; [|exact Fp]; intros z Hz; apply Hz).
  set (m := n * u) in *. assert (M0 : 0 <= m) by (apply Rmult_le_pos; lra). set (k := n * t) in *. assert (K0 : 0 <= k) by (apply Rmult_le_pos; lra).
  assert (D : Rabs (T - Rsum p) <= 16 / 15 * m * Rsum p).
  { assert (0 <= m * Rsum p) by (apply Rmult_le_pos; lra). apply Rabs_le. lra. }
  assert (D' : m * Rsum p <= m * (S * (1 + u) + k)) by (apply Rmult_le_compat_l; lra).
  assert (m * k <= / 16 * k) by (apply Rmult_le_compat_r; lra).
  assert (m * S * u <= m * S * / 1000) by (apply Rmult_le_compat_l; [apply Rmult_le_pos|]; lra). assert (0 <= m * S) by (apply Rmult_le_pos; lra).
  replace (T - S) with ((T - Rsum p) + (Rsum p - S)) by ring. eapply Rle_trans; [apply Rabs_triang|].
  replace ((11 / 10 * n + 1) * u * S + 16 / 15 * n * t) with (11 / 10 * (m * S) + u * S + 16 / 15 * k) by (unfold m, k; ring).
  replace (m * (S * (1 + u) + k)) with (m * S + m * S * u + m * k) in D' by ring. lra.
Qed.
Lemma scaled_dot_error (l : list (R * R)) M : Forall (fun p => 0 <= fst p /\ 0 <= snd p) l -> (length l <= 2 ^ 18)%nat -> 0 <= M ->
  Rsum (map (fun p => fst p * snd p) l) * (1 + M) <= 10 ^ 36 -> M <= 10 ^ 36 ->
  exists x, nmul (vsum (map (fun p => nmul (Fin (fst p)) (Fin (snd p))) l)) (Fin M) = Fin x /\ 0 <= x
    /\ Rabs (x - M * Rsum (map (fun p => fst p * snd p) l)) <= 2 * (INR (length l) + 2) * u * (M * Rsum (map (fun p => fst p * snd p) l)) + (2 * INR (length l) * M + 1) * (u * / 2 ^ 102).
Proof.
  intros F Ln M0 B BM.
  assert (S0 : 0 <= Rsum (map (fun p => fst p * snd p) l)).
  { apply Rsum_nonneg, Forall_map. eapply Forall_impl; [|exact F]. intros p [P1 P2]. now apply Rmult_le_pos. }
  destruct (dot_error l F Ln) as (T & ET & T0 & BT). { eapply Rle_trans; [|exact B]. rewrite <- (Rmult_1_r (Rsum _)) at 1. apply Rmult_le_compat_l; lra. }
  rewrite ET. cbn [nmul]. set (S := Rsum _) in *. set (n := INR (length l)) in *. pose proof (re_u _ _ H) as Hu. pose proof (n_u _ _ Hu Ln) as NU. fold n in NU.
  assert (U4 : / 2 ^ 22 <= / 1000) by (apply Rinv_le; [lra|simpl; lra]).
  destruct (tiny_facts _ Ln) as [TN T00]. fold n in TN. set (t := (u * / 2 ^ 102)) in *. assert (N0 : 0 <= n) by apply pos_INR.
  assert (T100 : / 2 ^ 100 <= 1). { rewrite <- Rinv_1. apply Rinv_le; [lra|]. apply pow_R1_Rle; lra. }
  set (k := n * t) in *. assert (K0 : 0 <= k) by (apply Rmult_le_pos; lra).
  set (m := n * u) in *. assert (N0' : 0 <= m) by (apply Rmult_le_pos; lra).
  replace ((11 / 10 * n + 1) * u * S + 16 / 15 * n * t) with ((11 / 10 * m + u) * S + 16 / 15 * k) in BT by (unfold m, k; ring).
  assert (SM : 0 <= S * M) by (apply Rmult_le_pos; lra).
  assert (TS : T <= 11 / 10 * S + 16 / 15 * k).
  { apply Rabs_le_inv in BT. assert ((11 / 10 * m + u) * S <= / 10 * S) by (apply Rmult_le_compat_r; lra). lra. }
  assert (TM : T * M <= (11 / 10 * S + 16 / 15 * k) * M) by (apply Rmult_le_compat_r; lra).
  assert (K1 : k <= 1) by (unfold k; lra).
  assert (KM : k * M <= 1 * 10 ^ 36) by (apply Rmult_le_compat; lra).
  assert (TM0 : 0 <= T * M) by (apply Rmult_le_pos; lra).
  destruct (rnd_range _ G (T * M)) as (x & Ex).
  { rewrite Rabs_right by lra. replace (10 ^ 38) with (100 * 10 ^ 36) by (simpl; lra). assert (0 < 10 ^ 36) by (apply pow_lt; lra). lra. }
  exists x. split; auto. split.
  { pose proof (rnd_nonneg G (T * M) TM0) as N. rewrite Ex, nle_fin in N. exact N. }
  pose proof (re_any _ _ H _ _ Ex) as E. rewrite (Rabs_right (T * M)) in E by lra. fold t in E.
  assert (D : Rabs (T * M - M * S) <= M * ((11 / 10 * m + u) * S + 16 / 15 * k)).
  { replace (T * M - M * S) with (M * (T - S)) by ring. rewrite Rabs_mult, (Rabs_right M) by lra. apply Rmult_le_compat_l; lra. }
  replace (x - M * S) with ((x - T * M) + (T * M - M * S)) by ring. eapply Rle_trans; [apply Rabs_triang|].
  assert (u * (T * M) <= u * ((11 / 10 * S + 16 / 15 * k) * M)) by (apply Rmult_le_compat_l; lra).
  assert (KM0 : 0 <= k * M) by (apply Rmult_le_pos; lra). assert (u * (k * M) <= / 1000 * (k * M)) by (apply Rmult_le_compat_r; lra).
  assert (0 <= m * (S * M)) by (apply Rmult_le_pos; lra). assert (0 <= u * (S * M)) by (apply Rmult_le_pos; lra).
  replace (2 * (n + 2) * u * (M * S) + (2 * n * M + 1) * t) with (2 * (m * (S * M)) + 4 * (u * (S * M)) + 2 * (k * M) + t) by (unfold m, k; ring).
  nra.
Qed.
End F.
