(** * Rounding error of the power-law density and sampler *)
From Coq Require Import Reals List Arith Lra Lia ZArith Bool.
From Flocq Require Import Core.Raux.
From Verif Require Import Num Arr MUtils Float Spec SpecFloat SpecFloat8 RList LUtils LKern2 LFloat LFloat2 LFloat10 LRound1 LRound2 LRound6 LRound14 LRound21 LRound23 LRound24 LRound25 LRound35 LRound52 LRound56 LRound60.
Import ListNotations.
Open Scope R_scope.

Ltac nm := first [lra|simpl; lra|simpl; repeat split; lra].
Lemma ln_range n x : / 10 ^ n <= x <= 10 ^ n -> Rabs (ln x) <= INR n * ln 10.
Proof.
  intros B. pose proof ln10_ge as L. pose proof (LRound24.log10_range n x B) as R. unfold log10 in R. replace (ln x) with (ln x / ln 10 * ln 10) by (field; lra).
  rewrite Rabs_mult, (Rabs_right (ln 10)) by lra. apply Rmult_le_compat_r; lra.
Qed.
Lemma exp_range n t : Rabs t <= INR n * ln 10 -> / 10 ^ n <= exp t <= 10 ^ n.
Proof.
  intros B. apply Rabs_le_inv in B. assert (E : 10 ^ n = exp (INR n * ln 10)). { change (exp (INR n * ln 10)) with (Rpower 10 (INR n)). now rewrite Rpower_pow by lra. }
  rewrite E. rewrite <- exp_Ropp. split; apply exp_mono; lra.
Qed.
Lemma pw_range x p : / 100 <= x <= 100 -> Rabs p <= 5 -> / 10 ^ 10 <= Rpower x p <= 10 ^ 10.
Proof.
  intros X P. apply (exp_range 10). pose proof (ln_range 2 x ltac:(simpl; lra)) as L. pose proof ln10_ge. rewrite Rabs_mult.
  apply Rle_trans with (5 * (INR 2 * ln 10)); [apply Rmult_le_compat; auto; apply Rabs_pos|simpl; lra].
Qed.

Section F.
Context {AR : Arith} (u : R) (H : rel_err AR u).
Notation G := (re_good _ _ H).
Notation npos := (npos (AR := AR) u).
Notation near := (near (AR := AR) u).
Notation mach x := (rnd x = Fin x).
Section P.
Variables a b g : R.
Hypothesis (Ma : mach a) (Mb : mach b) (Mg : mach g) (Ba : / 100 <= a) (Bab : a < b) (Bb : b <= 100) (Bg : / 10 <= Rabs g <= 5).
Let A := Rpower a g. Let B := Rpower b g.
Lemma A_range : / 10 ^ 10 <= A <= 10 ^ 10. Proof. apply pw_range; lra. Qed.
Lemma B_range : / 10 ^ 10 <= B <= 10 ^ 10. Proof. apply pw_range; lra. Qed.
Lemma wide x : / 10 ^ 10 <= x <= 10 ^ 10 -> / 10 ^ 20 <= x <= 10 ^ 20.
Proof. intros X. split; [apply Rle_trans with (/ 10 ^ 10); [|lra]; apply Rinv_le_contravar; [apply pow_lt; lra|apply Rle_pow; [lra|lia]]|apply Rle_trans with (10 ^ 10); [lra|apply Rle_pow; [lra|lia]]]. Qed.
Lemma pw x : mach x -> / 100 <= x <= 100 -> npos 1.02 (npow (Fin x) (Fin g)) (Rpower x g).
Proof.
  intros Mx X. pose proof (ln_range 2 x ltac:(simpl; lra)) as L. apply (npos_weaken u H) with ((5 + 0 / (4 * 10 ^ 6)) * 0 + 0 * (INR 2 * ln 10) + 1.02); [|lra].
  apply (npow_npos u H); auto; try lra; [apply npos_machine; auto; lra|apply near_rep; [auto|lra]|apply wide, pw_range; lra].
Qed.
(** the computed powers and their difference *)
Lemma ends : exists a' b' d, npow (Fin a) (Fin g) = Fin a' /\ npow (Fin b) (Fin g) = Fin b' /\ (Fin b' - Fin a')%num = Fin d
  /\ mach a' /\ mach d /\ Rabs (a' - A) <= 1.03 * u * A /\ Rabs (d - (B - A)) <= 2.05 * u * (A + B).
Proof.
  pose proof (upos u H) as U. simpl (10 ^ 6) in U. pose proof A_range as RA. pose proof B_range as RB. assert (P10 : 0 < / 10 ^ 10) by (apply Rinv_0_lt_compat, pow_lt; lra).
  destruct (pw a Ma ltac:(lra)) as (a' & Ea & Ra & La). destruct (pw b Mb ltac:(lra)) as (b' & Eb & Rb & Lb). fold A in La. fold B in Lb.
  apply (lre_diff u H) in La; [|lra|lra]. apply (lre_diff u H) in Lb; [|lra|lra].
  assert (UA : 0 < u * A) by (apply Rmult_lt_0_compat; lra). assert (UB : 0 < u * B) by (apply Rmult_lt_0_compat; lra).
  assert (UA1 : u * A <= 0.00000025 * A) by (apply Rmult_le_compat_r; lra). assert (UB1 : u * B <= 0.00000025 * B) by (apply Rmult_le_compat_r; lra).
  assert (D : Rabs (b' - a' - (B - A)) <= 1.03 * u * (A + B)). { replace (b' - a' - (B - A)) with ((b' - B) + - (a' - A)) by ring. eapply Rle_trans; [apply Rabs_triang|]. rewrite Rabs_Ropp. lra. }
  assert (D1 : Rabs (b' - a') <= 1.001 * (A + B)). { apply Rabs_le_inv in D. apply Rabs_le. lra. }
  destruct (rnd_err_S u H (b' - a') (1.001 * (A + B)) D1) as (d & Ed & Ad & Rd).
  { destruct (wide A RA). destruct (wide B RB). split; [lra|]. apply Rle_trans with (1.001 * (10 ^ 10 + 10 ^ 10)); [lra|simpl; lra]. }
  exists a', b', d. split; auto. split; auto. split; [cbn [nsub nopp nadd]; exact Ed|]. split; auto. split; auto. split; [lra|].
  replace (d - (B - A)) with ((d - (b' - a')) + (b' - a' - (B - A))) by ring. eapply Rle_trans; [apply Rabs_triang|]. lra.
Qed.

(** ** the sampler *)
Lemma rvs_gen r kap : mach r -> 0 <= r < 1 -> 1 <= kap <= 50 -> A <= kap * (A + (B - A) * r) -> r * (A + B) <= kap * (A + (B - A) * r) -> a <= Rpower (A + (B - A) * r) (1 / g) < b ->
  npos (41.4 * kap + 264) (powerlaw_rvs (Fin r) (Fin a) (Fin b) (Fin g)) (Rpower (A + (B - A) * r) (1 / g)).
Proof.
  intros Mr Br K AS RS RR. pose proof (upos u H) as U. simpl (10 ^ 6) in U. pose proof A_range as RA. pose proof B_range as RB. assert (P10 : 0 < / 10 ^ 10) by (apply Rinv_0_lt_compat, pow_lt; lra).
  destruct ends as (a' & b' & d & Ea & Eb & Ed & Ra & Rd & Aa & Ad). unfold powerlaw_rvs. rewrite Ea, Eb, Ed.
  set (S := A + (B - A) * r) in *. destruct K as [K1 K]. assert (HS : S = A * (1 - r) + B * r) by (unfold S; ring).
  assert (Ar : 0 <= A * (1 - r)) by (apply Rmult_le_pos; lra). assert (Brr : 0 <= B * r) by (apply Rmult_le_pos; lra).
  assert (S10 : / 10 ^ 10 <= S <= 10 ^ 10).
  { rewrite HS. assert (/ 10 ^ 10 * (1 - r) <= A * (1 - r) <= 10 ^ 10 * (1 - r)) by (split; apply Rmult_le_compat_r; lra). assert (/ 10 ^ 10 * r <= B * r <= 10 ^ 10 * r) by (split; apply Rmult_le_compat_r; lra). lra. }
  assert (S27 : u * / 10 ^ 27 <= 0.001 * u * S).
  { assert (/ 10 ^ 27 <= 0.001 * / 10 ^ 10) by (simpl; lra). replace (0.001 * u * S) with (u * (0.001 * S)) by ring. apply Rmult_le_compat_l; lra. }
  assert (US : 0 < u * S) by (apply Rmult_lt_0_compat; lra). assert (KS : S <= kap * S) by (rewrite <- (Rmult_1_l S) at 1; apply Rmult_le_compat_r; lra).
  assert (UKS : u * S <= u * (kap * S)) by (apply Rmult_le_compat_l; lra).
  assert (E1 : Rabs (d * r - (B - A) * r) <= 2.05 * u * (kap * S)).
  { replace (d * r - (B - A) * r) with ((d - (B - A)) * r) by ring. rewrite Rabs_mult, (Rabs_right r) by lra. apply Rle_trans with (2.05 * u * (A + B) * r); [apply Rmult_le_compat_r; lra|]. replace (2.05 * u * (A + B) * r) with (2.05 * u * (r * (A + B))) by ring. apply Rmult_le_compat_l; lra. }
  assert (E2 : Rabs ((B - A) * r) <= kap * S). { apply Rabs_le. assert (0 <= A * r) by (apply Rmult_le_pos; lra). lra. }
  assert (UK : u * (kap * S) <= 0.00000025 * (kap * S)) by (apply Rmult_le_compat_r; lra).
  assert (E3 : Rabs (d * r) <= 1.001 * (kap * S)). { replace (d * r) with ((d * r - (B - A) * r) + (B - A) * r) by ring. eapply Rle_trans; [apply Rabs_triang|]. lra. }
  assert (KSB : kap * S <= 50 * 10 ^ 10). { apply Rmult_le_compat; lra. }
  destruct (any u H (d * r)) as (p & Ep & Rp & Ap). { simpl in *. lra. }
  assert (E4 : Rabs (p - (B - A) * r) <= 3.07 * u * (kap * S)).
  { replace (p - (B - A) * r) with ((p - d * r) + (d * r - (B - A) * r)) by ring. eapply Rle_trans; [apply Rabs_triang|]. assert (u * Rabs (d * r) <= u * (1.001 * (kap * S))) by (apply Rmult_le_compat_l; lra). lra. }
  assert (E5 : Rabs (a' + p - S) <= 4.11 * kap * u * S).
  { unfold S. replace (a' + p - (A + (B - A) * r)) with ((a' - A) + (p - (B - A) * r)) by ring. eapply Rle_trans; [apply Rabs_triang|]. fold S. assert (u * A <= u * (kap * S)) by (apply Rmult_le_compat_l; lra). lra. }
  assert (KU : kap * u <= 50 * 0.00000025) by (apply Rmult_le_compat; lra).
  assert (L : lre u (1.002 * (4.11 * kap)) (a' + p) S) by (apply lre_abs; auto; lra).
  assert (NS : npos (1.002 * (4.11 * kap) + 1.02) (Fin a' + Fin d * Fin r)%num S).
  { cbn [nmul]. rewrite Ep. cbn [nadd]. apply npos_rnd; [exact H|exact L|lra|]. destruct (wide S S10). split; [apply Rle_trans with (/ 10 ^ 20); [simpl; lra|lra]|apply Rle_trans with (10 ^ 20); [lra|simpl; lra]]. }
  assert (Gnz : g <> 0). { intros ->. rewrite Rabs_R0 in Bg. lra. }
  assert (IG : Rabs (1 / g) <= 10). { unfold Rdiv. rewrite Rmult_1_l, Rabs_inv. replace 10 with (/ / 10) by lra. apply Rinv_le_contravar; lra. }
  assert (NG : near (Fin 1 / Fin g)%num (1 / g) 10.1 10). { cbn [ndiv]. rewrite Req_bool_false by auto. eapply (near_rnd u H) with (d := 0) (B := 10); [rewrite Rminus_eq_0, Rabs_R0; lra|exact IG|nm..]. }
  pose proof (ln_range 10 S S10) as LS. pose proof ln10_le as L10. replace (INR 10) with 10 in LS by (simpl; lra).
  eapply npos_weaken; [exact H|apply (npow_npos u H) with (L := 25); [exact NS|exact NG| |lra|lra|lra|simpl; lra]|simpl; lra].
  assert (/ 10 ^ 20 <= / 100) by (simpl; lra). assert (100 <= 10 ^ 20) by (simpl; lra). lra.
Qed.

Let kap := 1 + A / B.
Lemma rvs_err r : mach r -> 0 <= r < 1 -> kap <= 50 -> a <= Rpower (A + (B - A) * r) (1 / g) < b ->
  npos (41.4 * kap + 264) (powerlaw_rvs (Fin r) (Fin a) (Fin b) (Fin g)) (Rpower (A + (B - A) * r) (1 / g)).
Proof.
  intros Mr Br K RR. pose proof A_range as RA. pose proof B_range as RB. assert (P10 : 0 < / 10 ^ 10) by (apply Rinv_0_lt_compat, pow_lt; lra).
  set (S := A + (B - A) * r). assert (HS : S = A * (1 - r) + B * r) by (unfold S; ring).
  assert (Ar : 0 <= A * (1 - r)) by (apply Rmult_le_pos; lra). assert (Brr : 0 <= B * r) by (apply Rmult_le_pos; lra).
  assert (rA : A * r <= (A / B) * S). { replace (A * r) with (A / B * (B * r)) by (field; lra). apply Rmult_le_compat_l; [apply Rlt_le, Rdiv_lt_0_compat; lra|lra]. }
  assert (0 < A / B) by (apply Rdiv_lt_0_compat; lra).
  apply rvs_gen; auto; fold S; unfold kap in *; lra.
Qed.
(** away from r = 1 the amplification is at most 1 / (1 - r), whatever the ratio of the end powers *)
Lemma rvs_away r : mach r -> 0 <= r <= 0.98 -> a <= Rpower (A + (B - A) * r) (1 / g) < b ->
  npos (41.4 * (1 / (1 - r)) + 264) (powerlaw_rvs (Fin r) (Fin a) (Fin b) (Fin g)) (Rpower (A + (B - A) * r) (1 / g)).
Proof.
  intros Mr Br RR. pose proof A_range as RA. pose proof B_range as RB. assert (P10 : 0 < / 10 ^ 10) by (apply Rinv_0_lt_compat, pow_lt; lra).
  set (S := A + (B - A) * r). assert (HS : S = A * (1 - r) + B * r) by (unfold S; ring).
  assert (Ar : 0 <= A * (1 - r)) by (apply Rmult_le_pos; lra). assert (Brr : 0 <= B * r) by (apply Rmult_le_pos; lra).
  assert (I : 0 < 1 / (1 - r)) by (apply Rdiv_lt_0_compat; lra).
  assert (AS : A <= 1 / (1 - r) * S). { replace A with (1 / (1 - r) * (A * (1 - r))) at 1 by (field; lra). apply Rmult_le_compat_l; lra. }
  assert (RS : r * (A + B) <= 1 / (1 - r) * S).
  { replace (r * (A + B)) with (1 / (1 - r) * (r * (1 - r) * (A + B))) by (field; lra). apply Rmult_le_compat_l; [lra|]. rewrite HS.
    assert (r * (1 - r) * A <= 1 * (1 - r) * A) by (apply Rmult_le_compat_r; [lra|apply Rmult_le_compat_r; lra]). assert (r * (1 - r) * B <= r * 1 * B) by (apply Rmult_le_compat_r; [lra|apply Rmult_le_compat_l; lra]). lra. }
  apply rvs_gen; auto; try lra. split.
  - apply Rmult_le_reg_r with (1 - r); [lra|]. unfold Rdiv. rewrite Rmult_assoc, Rinv_l by lra. lra.
  - apply Rmult_le_reg_r with (1 - r); [lra|]. unfold Rdiv. rewrite Rmult_assoc, Rinv_l by lra. lra.
Qed.

(** ** the density, for a positive index *)
Lemma pdf_err x : 0 < g -> mach x -> / 100 <= x <= 100 -> (A + B) <= 1000 * (B - A) ->
  npos (2.06 * ((A + B) / (B - A)) + 28.8) (powerlaw_pdf (Fin x) (Fin a) (Fin b) (Fin g)) (g * Rpower x (g - 1) / (B - A)).
Proof.
  intros Pg Mx Bx K. pose proof (upos u H) as U. simpl (10 ^ 6) in U. pose proof A_range as RA. pose proof B_range as RB. assert (P10 : 0 < / 10 ^ 10) by (apply Rinv_0_lt_compat, pow_lt; lra).
  destruct ends as (a' & b' & d & Ea & Eb & Ed & Ra & Rd & Aa & Ad). unfold powerlaw_pdf. rewrite Ea, Eb, Ed. rewrite Rabs_right in Bg by lra.
  assert (D0 : 0 < B - A) by lra. set (q := (A + B) / (B - A)). assert (Q : A + B = q * (B - A)) by (unfold q; field; lra).
  assert (Q1 : 0 < q <= 1000). { unfold q. split; [apply Rdiv_lt_0_compat; lra|]. apply Rmult_le_reg_r with (B - A); [lra|]. unfold Rdiv. rewrite Rmult_assoc, Rinv_l by lra. lra. }
  assert (QU : q * u <= 1000 * 0.00000025) by (apply Rmult_le_compat; lra).
  assert (ND : npos (1.002 * (2.05 * q)) (Fin d) (B - A)). { exists d. split; auto. split; auto. apply lre_abs; [exact D0| |lra]. rewrite Q in Ad. lra. }
  assert (NG : near (Fin g - Fin 1)%num (g - 1) 5.1 4). { cbn [nsub nopp nadd]. apply near_M with 5; [|apply Rabs_le; lra]. eapply (near_rnd u H) with (d := 0) (B := 5); [replace (g + - (1) - (g - 1)) with 0 by ring; rewrite Rabs_R0; lra|apply Rabs_le; lra|nm..]. }
  pose proof (ln_range 2 x ltac:(simpl; lra)) as LX. pose proof ln10_le as L10. pose proof ln10_ge as L10'. replace (INR 2) with 2 in LX by (simpl; lra).
  assert (R8 : / 10 ^ 8 <= Rpower x (g - 1) <= 10 ^ 8). { apply (exp_range 8). rewrite Rabs_mult. replace (INR 8 * ln 10) with (4 * (2 * ln 10)) by (simpl; lra). apply Rmult_le_compat; auto; try apply Rabs_pos. apply Rabs_le. lra. }
  assert (NX : npos 26.6 (npow (Fin x) (Fin g - Fin 1)%num) (Rpower x (g - 1))).
  { eapply npos_weaken; [exact H|apply (npow_npos u H) with (L := 5) (k := 0); [apply npos_machine; auto; lra|exact NG| |lra|lra|lra|simpl; lra]|simpl; lra]. simpl in *. lra. }
  assert (PX : / 10 ^ 10 <= g * Rpower x (g - 1) <= 10 ^ 10). { split; [apply Rle_trans with (/ 10 * / 10 ^ 8); [simpl; lra|apply Rmult_le_compat; simpl in *; lra]|apply Rle_trans with (5 * 10 ^ 8); [apply Rmult_le_compat; simpl in *; lra|simpl; lra]]. }
  assert (NN : npos 27.7 (Fin g * npow (Fin x) (Fin g - Fin 1))%num (g * Rpower x (g - 1))).
  { apply (npos_weaken u H) with (0 + 26.6 + 1.02); [|lra]. apply npos_mul; [exact H|apply npos_machine; auto; lra|exact NX|lra|]. simpl in *. lra. }
  apply (npos_weaken u H) with (27.7 + 1.002 * (2.05 * q) + 1.02); [|lra]. apply npos_div; [exact H|exact NN|exact ND|lra|].
  assert (DB : / 10 ^ 13 <= B - A <= 10 ^ 10) by (simpl in *; lra). assert (I13 : 0 < / (B - A)) by (apply Rinv_0_lt_compat; lra).
  assert (IL : / 10 ^ 10 <= / (B - A)) by (apply Rinv_le_contravar; lra). assert (IH : / (B - A) <= 10 ^ 13). { rewrite <- (Rinv_inv (10 ^ 13)). apply Rinv_le_contravar; [apply Rinv_0_lt_compat, pow_lt; lra|lra]. }
  unfold Rdiv. split; [apply Rle_trans with (/ 10 ^ 10 * / 10 ^ 10); [simpl; lra|apply Rmult_le_compat; lra]|apply Rle_trans with (10 ^ 10 * 10 ^ 13); [apply Rmult_le_compat; lra|simpl; lra]].
Qed.
End P.
End F.

Lemma rpow_ratio a b g : 0 < a -> 0 < b -> Rpower a g / Rpower b g = Rpower (a / b) g.
Proof.
  intros A B. unfold Rpower. assert (E : ln (a / b) = ln a - ln b) by (unfold Rdiv; rewrite ln_mult, ln_Rinv; auto; now apply Rinv_0_lt_compat). rewrite E, Rmult_minus_distr_l. unfold Rminus. rewrite exp_plus, exp_Ropp. reflexivity.
Qed.
Lemma C175_sampler : forall AR u, accurate_to AR u -> forall r a b g, @machine_number AR r -> @machine_number AR a -> @machine_number AR b -> @machine_number AR g ->
  0 <= r < 1 -> / 100 <= a -> a < b -> b <= 100 -> / 10 <= Rabs g <= 5 ->
  (0 < g -> relatively_close (350 * u) (@powerlaw_rvs AR (Fin r) (Fin a) (Fin b) (Fin g)) (@powerlaw_rvs exact (Fin r) (Fin a) (Fin b) (Fin g)))
  /\ (1 + Rpower (a / b) g <= 50 ->
      relatively_close ((42 * (1 + Rpower (a / b) g) + 265) * u) (@powerlaw_rvs AR (Fin r) (Fin a) (Fin b) (Fin g)) (@powerlaw_rvs exact (Fin r) (Fin a) (Fin b) (Fin g))).
Proof.
  intros AR u A r a b g Mr Ma Mb Mg Br Ba Bab Bb Bg. pose proof (rel_err_unit AR u A) as H. assert (Gnz : g <> 0). { intros ->. rewrite Rabs_R0 in Bg. lra. }
  assert (RR : a <= Rpower (Rpower a g + (Rpower b g - Rpower a g) * r) (1 / g) < b).
  { destruct (C29_lemma a b g ltac:(lra) Gnz) as (pdf & rvs & _ & _ & R & _). destruct (R r Br) as (E & R2 & _). rewrite powerlaw_rvs_fin in E by (auto; lra). injection E as E. now rewrite E. }
  pose proof (rpow_ratio a b g ltac:(lra) ltac:(lra)) as Q.
  assert (W : 1 + Rpower (a / b) g <= 50 -> forall k, 42 * (1 + Rpower (a / b) g) + 265 <= k -> relatively_close (k * u) (@powerlaw_rvs AR (Fin r) (Fin a) (Fin b) (Fin g)) (@powerlaw_rvs exact (Fin r) (Fin a) (Fin b) (Fin g))).
  { intros K k Hk. pose proof (Rpower_pos (a / b) g) as PP. eapply (pub55 u H); [apply (rvs_err u H a b g); auto; rewrite Q; lra|apply powerlaw_rvs_fin; auto; lra| |]; rewrite Q; lra. }
  split; [|intros K; apply W; [exact K|lra]].
  intros Pg. assert (Rpower (a / b) g <= 1). { rewrite <- Q. pose proof (Rpower_lt_base a b g Pg ltac:(lra) Bab). pose proof (Rpower_pos b g). apply Rmult_le_reg_r with (Rpower b g); [lra|]. unfold Rdiv. rewrite Rmult_assoc, Rinv_l by lra. lra. }
  apply W; lra.
Qed.
Lemma C175_density : forall AR u, accurate_to AR u -> forall x a b g, @machine_number AR x -> @machine_number AR a -> @machine_number AR b -> @machine_number AR g ->
  / 100 <= x <= 100 -> / 100 <= a -> a < b -> b <= 100 -> / 10 <= g <= 5 ->
  let amp := (Rpower b g + Rpower a g) / (Rpower b g - Rpower a g) in amp <= 1000 ->
  relatively_close ((2.1 * amp + 29) * u) (@powerlaw_pdf AR (Fin x) (Fin a) (Fin b) (Fin g)) (@powerlaw_pdf exact (Fin x) (Fin a) (Fin b) (Fin g)).
Proof.
  intros AR u A x a b g Mx Ma Mb Mg Bx Ba Bab Bb Bg amp K. pose proof (rel_err_unit AR u A) as H. pose proof (Rpower_lt_base a b g ltac:(lra) ltac:(lra) Bab) as L. pose proof (Rpower_pos a g) as PA.
  assert (P : 0 < amp) by (apply Rdiv_lt_0_compat; lra). assert (E : amp = (Rpower a g + Rpower b g) / (Rpower b g - Rpower a g)) by (unfold amp; f_equal; ring).
  eapply (pub55 u H); [apply (pdf_err u H a b g); auto; [rewrite Rabs_right; lra|lra|]|apply powerlaw_pdf_fin; lra| |]; try (rewrite <- E; lra).
  rewrite E in K. apply Rmult_le_compat_r with (r := Rpower b g - Rpower a g) in K; [|lra]. unfold Rdiv in K. rewrite Rmult_assoc, Rinv_l in K by lra. lra.
Qed.
Lemma C175_away : forall AR u, accurate_to AR u -> forall r a b g, @machine_number AR r -> @machine_number AR a -> @machine_number AR b -> @machine_number AR g ->
  0 <= r <= 0.98 -> / 100 <= a -> a < b -> b <= 100 -> / 10 <= Rabs g <= 5 ->
  relatively_close ((42 / (1 - r) + 265) * u) (@powerlaw_rvs AR (Fin r) (Fin a) (Fin b) (Fin g)) (@powerlaw_rvs exact (Fin r) (Fin a) (Fin b) (Fin g)).
Proof.
  intros AR u A r a b g Mr Ma Mb Mg Br Ba Bab Bb Bg. pose proof (rel_err_unit AR u A) as H. assert (Gnz : g <> 0). { intros ->. rewrite Rabs_R0 in Bg. lra. }
  assert (RR : a <= Rpower (Rpower a g + (Rpower b g - Rpower a g) * r) (1 / g) < b).
  { destruct (C29_lemma a b g ltac:(lra) Gnz) as (pdf & rvs & _ & _ & R & _). destruct (R r ltac:(lra)) as (E & R2 & _). rewrite powerlaw_rvs_fin in E by (auto; lra). injection E as E. now rewrite E. }
  assert (I : 0 < 1 / (1 - r)) by (apply Rdiv_lt_0_compat; lra).
  assert (I2 : 1 / (1 - r) <= 50). { apply Rmult_le_reg_r with (1 - r); [lra|]. unfold Rdiv. rewrite Rmult_assoc, Rinv_l by lra. lra. }
  eapply (pub55 u H); [apply (rvs_away u H a b g); auto|apply powerlaw_rvs_fin; auto; lra|lra|unfold Rdiv in *; lra].
Qed.
