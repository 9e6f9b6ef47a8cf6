(** * Burst weights in rounded arithmetic: mixing with the smooth weights *)
From Coq Require Import Reals List Arith Lra Lia ZArith Bool.
From Coquelicot Require Import Coquelicot.
From Flocq Require Import Core.Raux.
From Verif Require Import Num Arr MUtils MSed MDiffburst Float Spec SpecFloat RList LUtils LCalc LKern LBurst LFloat LFloat2 LFloat3 LFloat4 LFloat5 LFloat9 LFloat10 LFloat11 LFloat12 LRound1 LRound2 LRound3 LRound4 LRound5 LRound6 LRound29 LRound30 LRound31.
Import ListNotations.
Open Scope R_scope.

Section F.
Context {AR : Arith} (u : R) (UR : accurate_to AR u).
Let H : rel_err AR u := rel_err_unit AR u UR.
Let G := re_good _ _ H.
Let t := (u * / 2 ^ 102).
Lemma t_u : 0 < t <= u / 10 ^ 20.
Proof. unfold t. split; [apply (tiny_u u H)|]. pose proof (tiny_u u H) as [_ T]. pose proof (u_le u H). eapply Rle_trans; [exact T|]. unfold Rdiv. apply Rmult_le_compat_l; [lra|]. apply Rinv_le; [apply pow_lt; lra|]. apply Rle_pow; [lra|lia]. Qed.

(** the burst fraction and its complement *)
Definition mix_bound (f g : R) : Prop := forall x y w, x <= f -> y <= g -> rnd (x + y) = Fin w -> w <= 1.
Lemma fraction_float lgfb : lgfb <= 0 -> exists f g, npow10 (Fin lgfb) = Fin f /\ nsub (Fin 1) (Fin f) = Fin g /\ 0 <= f <= 1 /\ 0 <= g <= 1 /\ rnd f = Fin f /\ rnd g = Fin g
  /\ Rabs (f - pow10 lgfb) <= 1.01 * u /\ Rabs (g - (1 - f)) <= u * (1 - f) /\ mix_bound f g.
Proof.
  intros L. pose proof (pow10_le1 lgfb L) as P. pose proof (u_le u H) as Hu. simpl (10 ^ 6) in Hu.
  destruct (npow10_unit G lgfb L) as (f & Ef & Bf & Rf). rewrite Ef. exists f.
  unfold nsub. cbn [nopp nadd]. destruct (rnd_unit u H (1 + - f)) as (g & Eg & Bg & Rg); [lra|]. exists g. split; auto. split; auto. split; auto. split; auto. split; auto. split; auto.
  assert (Rnf : rnd (- f) = Fin (- f)) by (rewrite (rnd_opp _ G), Rf; reflexivity). assert (SF : safe_sum 1 (- f)) by (apply safe_big_l; rewrite Rabs_R1; simpl; lra). split; [|split].
  - destruct (npow10_any u H lgfb) as (y & Ey & _ & _ & Ay); [apply Rle_trans with 1; [lra|apply pow_R1_Rle; lra]|]. rewrite Ef in Ey. injection Ey as <-.
    pose proof t_u as Ht. fold t in Ay. simpl (10 ^ 20) in Ht. assert (u * pow10 lgfb <= u * 1) by (apply Rmult_le_compat_l; lra). lra.
  - pose proof (re_add _ _ H 1 (- f) g (rnd1 G) Rnf Eg SF) as A. rewrite (Rabs_right (1 + - f)) in A by lra. replace (g - (1 - f)) with (g - (1 + - f)) by lra. lra.
  - intros x y w X Y W. destruct (sharp_rounding AR u UR) as (v & V & SH & SA). apply (SH _ _ W).
    pose proof (SA 1 (- f) g (rnd1 G) Rnf Eg SF) as A. rewrite (Rabs_right (1 + - f)) in A by lra. apply Rabs_le_inv in A.
    destruct (Rle_lt_or_eq_dec 0 f ltac:(lra)) as [F0|F0].
    + assert (v * f > 0) by (apply Rmult_lt_0_compat; lra). lra.
    + lra.
Qed.

Lemma entry_float f g b s : 0 <= f <= 1 -> 0 <= g <= 1 -> rnd f = Fin f -> rnd g = Fin g -> Rabs (g - (1 - f)) <= u * (1 - f) -> mix_bound f g -> 0 <= b <= 1 -> 0 <= s <= 1 ->
  exists w, nadd (nmul (Fin f) (Fin b)) (nmul (Fin g) (Fin s)) = Fin w /\ rnd w = Fin w /\ 0 <= w <= 1 /\ Rabs (w - (f * b + g * s)) <= 2.1 * u * (f * b + g * s) + 3 * t.
Proof.
  intros Bf Bg Rf Rg Ag MB Bb Bs. pose proof (u_le u H) as Hu. simpl (10 ^ 6) in Hu. pose proof t_u as Ht. simpl (10 ^ 20) in Ht.
  cbn [nmul]. assert (FB : 0 <= f * b <= f) by nra. assert (GS : 0 <= g * s <= g) by nra.
  destruct (rnd_between G 0 (f * b) f (rnd0 G) Rf FB) as (x & Ex & Bx). destruct (rnd_between G 0 (g * s) g (rnd0 G) Rg GS) as (y & Ey & By).
  pose proof (rnd_idem _ G _ _ Ex) as Rx. pose proof (rnd_idem _ G _ _ Ey) as Ry.
  pose proof (re_any _ _ H _ _ Ex) as Ax. pose proof (re_any _ _ H _ _ Ey) as Ay. fold t in Ax, Ay. rewrite (Rabs_right (f * b)) in Ax by lra. rewrite (Rabs_right (g * s)) in Ay by lra.
  rewrite Ex, Ey. cbn [nadd]. destruct (rnd_err_B u H (x + y) 2) as (w & Ew & _ & Rw); [apply Rabs_le; lra|split; [lra|apply Rle_trans with (10 ^ 1); [simpl; lra|apply Rle_pow; [lra|lia]]]|].
  pose proof (re_add _ _ H x y w Rx Ry Ew ltac:(apply safe_nonneg; lra)) as Aw. rewrite (Rabs_right (x + y)) in Aw by lra. rewrite Ew. exists w. split; auto. split; auto.
  apply Rabs_le_inv in Ax, Ay, Aw, Ag. split.
  - split; [pose proof (rnd_nonneg G (x + y) ltac:(lra)) as N; rewrite Ew, nle_fin in N; exact N|].
    apply (MB x y); auto; lra.
  - set (S := f * b + g * s) in *. assert (HS : 0 <= S <= 2) by (unfold S; lra).
    assert (XY : - (u * S + 2 * t) <= x + y - S <= u * S + 2 * t) by (unfold S; lra).
    assert (u * (x + y) <= u * (S + u * S + 2 * t)) by (apply Rmult_le_compat_l; lra).
    assert (u * (u * S) <= 0.01 * (u * S)) by (apply Rmult_le_compat_r; [apply Rmult_le_pos|]; lra). assert (u * t <= 0.01 * t) by (apply Rmult_le_compat_r; lra).
    apply Rabs_le. lra.
Qed.

Definition mixf (f g : R) (b s : list R) : list R := map2 (fun b s => fval (nadd (nmul (Fin f) (Fin b)) (nmul (Fin g) (Fin s)))) b s.
Definition unit_m (x : R) : Prop := 0 <= x <= 1 /\ rnd x = Fin x.

Lemma mixf_props f g : 0 <= f <= 1 -> 0 <= g <= 1 -> rnd f = Fin f -> rnd g = Fin g -> Rabs (g - (1 - f)) <= u * (1 - f) -> mix_bound f g ->
  forall b s, length b = length s -> List.Forall (fun x => 0 <= x <= 1) b -> List.Forall (fun x => 0 <= x <= 1) s ->
  map2 (fun b s => nadd (nmul (Fin f) b) (nmul (Fin g) s)) (fins b) (fins s) = fins (mixf f g b s)
  /\ List.Forall unit_m (mixf f g b s)
  /\ Rabs (Rsum (mixf f g b s) - (f * Rsum b + g * Rsum s)) <= 2.1 * u * (f * Rsum b + g * Rsum s) + 3 * INR (length b) * t
  /\ forall f0 b0 s0, 0 <= f0 <= 1 -> Rabs (f - f0) <= 1.01 * u -> length b0 = length b -> length s0 = length s -> List.Forall (fun x => 0 <= x) b0 -> List.Forall (fun x => 0 <= x) s0 ->
      sumdiff (mixf f g b s) (mix_w f0 b0 s0) <= (1 + 2.1 * u) * (sumdiff b b0 + sumdiff s s0) + 4.3 * u * (Rsum b0 + Rsum s0) + 3 * INR (length b) * t.
Proof.
  intros Bf Bg Rf Rg Ag MB b. pose proof (u_le u H) as Hu. simpl (10 ^ 6) in Hu. induction b as [|x b IH]; intros [|y s] Ln Fb Fs; try discriminate.
  - split; [reflexivity|]. split; [constructor|]. split; [cbn; replace (0 - (f * 0 + g * 0)) with 0 by lra; rewrite Rabs_R0; lra|].
    intros f0 b0 s0 _ _ L1 L2 _ _. destruct b0; [|discriminate]. destruct s0; [|discriminate]. cbn. lra.
  - apply List.Forall_cons_iff in Fb, Fs. destruct Fb as [Bx Fb], Fs as [By Fs]. cbn [length] in Ln. destruct (IH s ltac:(lia) Fb Fs) as (E & F & S & D).
    destruct (entry_float f g x y Bf Bg Rf Rg Ag MB Bx By) as (w & Ew & Rw & Bw & Aw).
    assert (EM : mixf f g (x :: b) (y :: s) = w :: mixf f g b s) by (unfold mixf; cbn [map2]; rewrite Ew; reflexivity). rewrite EM.
    split; [|split; [|split]].
    + cbn [fins map map2]. unfold fins in E. rewrite E, Ew. reflexivity.
    + constructor; auto. split; auto.
    + cbn [Rsum length]. rewrite S_INR. replace (w + Rsum (mixf f g b s) - (f * (x + Rsum b) + g * (y + Rsum s))) with ((w - (f * x + g * y)) + (Rsum (mixf f g b s) - (f * Rsum b + g * Rsum s))) by ring.
      eapply Rle_trans; [apply Rabs_triang|]. lra.
    + intros f0 b0 s0 B0 A0 L1 L2 F1 F2. destruct b0 as [|x0 b0]; [discriminate|]. destruct s0 as [|y0 s0]; [discriminate|]. cbn [length] in L1, L2.
      apply List.Forall_cons_iff in F1, F2. destruct F1 as [X0 F1], F2 as [Y0 F2]. specialize (D f0 b0 s0 B0 A0 ltac:(lia) ltac:(lia) F1 F2).
      unfold sumdiff, mix_w in *. cbn [map2 Rsum length]. rewrite S_INR.
      enough (Q : Rabs (w - (f0 * x0 + (1 - f0) * y0)) <= (1 + 2.1 * u) * (Rabs (x - x0) + Rabs (y - y0)) + 4.3 * u * (x0 + y0) + 3 * t) by lra.
      set (dx := Rabs (x - x0)) in *. set (dy := Rabs (y - y0)) in *. assert (0 <= dx) by apply Rabs_pos. assert (0 <= dy) by apply Rabs_pos.
      assert (XX : x <= x0 + dx). { unfold dx. pose proof (Rle_abs (x - x0)). lra. } assert (YY : y <= y0 + dy). { unfold dy. pose proof (Rle_abs (y - y0)). lra. }
      assert (AG : Rabs (g - (1 - f0)) <= 2.1 * u).
      { replace (g - (1 - f0)) with ((g - (1 - f)) - (f - f0)) by ring. eapply Rle_trans; [unfold Rminus at 1; apply Rabs_triang|]. rewrite Rabs_Ropp. assert (u * (1 - f) <= u * 1) by (apply Rmult_le_compat_l; lra). lra. }
      assert (M : Rabs (f * x + g * y - (f0 * x0 + (1 - f0) * y0)) <= dx + dy + 2.1 * u * (x0 + y0)).
      { replace (f * x + g * y - (f0 * x0 + (1 - f0) * y0)) with (f * (x - x0) + (f - f0) * x0 + (g * (y - y0) + (g - (1 - f0)) * y0)) by ring.
        eapply Rle_trans; [apply Rabs_triang|]. pose proof (Rabs_triang (f * (x - x0)) ((f - f0) * x0)) as T1. pose proof (Rabs_triang (g * (y - y0)) ((g - (1 - f0)) * y0)) as T2. rewrite !Rabs_mult in T1, T2.
        rewrite (Rabs_right f), (Rabs_right x0) in T1 by lra. rewrite (Rabs_right g), (Rabs_right y0) in T2 by lra. fold dx in T1. fold dy in T2.
        assert (f * dx <= 1 * dx) by (apply Rmult_le_compat_r; lra). assert (g * dy <= 1 * dy) by (apply Rmult_le_compat_r; lra).
        assert (Rabs (f - f0) * x0 <= 2.1 * u * x0) by (apply Rmult_le_compat_r; lra). assert (Rabs (g - (1 - f0)) * y0 <= 2.1 * u * y0) by (apply Rmult_le_compat_r; lra). lra. }
      assert (FX : f * x + g * y <= (x0 + dx) + (y0 + dy)).
      { assert (f * x <= 1 * x) by (apply Rmult_le_compat_r; lra). assert (g * y <= 1 * y) by (apply Rmult_le_compat_r; lra). lra. }
      assert (2.1 * u * (f * x + g * y) <= 2.1 * u * ((x0 + dx) + (y0 + dy))) by (apply Rmult_le_compat_l; lra).
      assert (0 <= u * (x0 + y0)) by (apply Rmult_le_pos; lra).
      replace (w - (f0 * x0 + (1 - f0) * y0)) with ((w - (f * x + g * y)) + (f * x + g * y - (f0 * x0 + (1 - f0) * y0))) by ring. eapply Rle_trans; [apply Rabs_triang|]. lra.
Qed.
End F.
