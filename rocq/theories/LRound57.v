(** * Remnant and surviving stellar mass in rounded arithmetic *)
From Coq Require Import Reals List Arith Lra Lia ZArith Bool.
From Flocq Require Import Core.Raux.
From Verif Require Import Num Arr MUtils MSed MImf Float Spec SpecFloat SpecFloat8 RList LUtils LKern2 LFloat LFloat2 LFloat9 LFloat10 LRound1 LRound2 LRound6 LRound12 LRound21 LRound23 LRound24 LRound25 LRound26 LRound35 LRound38 LRound52 LRound56 LFake2 LImf.
Import ListNotations.
Open Scope R_scope.

Ltac nm := first [lra|simpl; lra|simpl; repeat split; lra].
Section F.
Context {AR : Arith} (u : R) (H : rel_err AR u).
Notation G := (re_good _ _ H).
Notation npos := (npos (AR := AR) u).
Notation near := (near (AR := AR) u).
Notation mach x := (rnd x = Fin x).
Lemma lit1 x M : Rabs x <= M -> M <= 1 -> near (lit x) x 1.001 M.
Proof. intros X HM. apply near_M with 1; [|auto]. eapply near_weaken; [exact H|apply (near_lit u H x 1); [lra|simpl; lra]|lra|lra]. Qed.
Lemma diff57 x c M : mach x -> mach c -> Rabs (x - c) <= M -> 1 <= M <= 100 -> near (Fin x - Fin c)%num (x - c) (1.01 * M) M.
Proof.
  intros Mx Mc B HM. cbn [nsub nopp nadd]. eapply (near_rnd u H) with (d := 0) (B := M); [|auto|nm..]. replace (x + - c - (x - c)) with 0 by ring. rewrite Rabs_R0. lra.
Qed.
Lemma ln10_25 : Rabs (ln 10) <= 2.5.
Proof. pose proof ln10_le. pose proof ln10_ge. rewrite Rabs_right; lra. Qed.
Lemma pow10_1 : pow10 1 = 10. Proof. unfold pow10. apply Rpower_1. lra. Qed.
Lemma pow57 v p e M : near v p e M -> 0 <= e <= 1000 -> / 10 ^ 20 <= pow10 p <= 10 ^ 20 -> npos (2.5 * e + 1.02) (npow10 v) (pow10 p).
Proof.
  intros N E B. assert (HM : 0 <= M). { destruct N as (y & _ & _ & _ & Q). pose proof (Rabs_pos p). lra. }
  apply (npos_weaken u H) with ((M + e / (4 * 10 ^ 6)) * 0 + e * 2.5 + 1.02); [|lra].
  unfold npow10, pow10 in *. apply (npow_npos u H); auto; try nm.
  - apply npos_machine; [apply (machine_int u H 10); lia|lra].
  - apply ln10_25.
Qed.
Section X.
Variable x : R.
Hypothesis (Mx : mach x) (Bx : 3 <= x <= 11).
Lemma rem57 a : Rabs a <= 2 -> npos 517 (remnant_mass (Fin x) (remnant_params_of a)) (pow10 (remf a x)).
Proof.
  intros Ba. unfold remnant_mass, remnant_params_of, remf. cbn [rem_a rem_b rem_lgk1 rem_d rem_e]. unfold sig_slope, sigmoid.
  pose proof (logistic_bounds (10 * (x - 7))) as LB.
  assert (K : near (npow10 (Fin 1)) 10 10.3 10).
  { eapply near_weaken; [exact H|apply (npos_near u H) with (k := 1.02); [|lra|apply Rle_refl]|lra|lra]. rewrite <- pow10_1 at 1. eapply npos_weaken; [exact H|apply (pow57 _ 1 0 1); [apply near_rep; [apply (rnd1 G)|rewrite Rabs_right; lra]|lra|rewrite pow10_1; simpl; lra]|lra]. }
  assert (D : near (Fin x - Fin 7)%num (x - 7) 4.1 4).
  { eapply near_weaken; [exact H|apply (diff57 x 7 4); auto; [apply (machine_int u H 7); lia|apply Rabs_le; lra|lra]|lra|lra]. }
  assert (A : near (npow10 (Fin 1) * (Fin x - Fin 7))%num (10 * (x - 7)) 123 40) by (eapply (near_mul u H) with (B := 40.1); [exact K|exact D|nm..]).
  assert (L : near (nlogistic (npow10 (Fin 1) * (Fin x - Fin 7))%num) (logistic (10 * (x - 7))) 34 1) by (eapply near_weaken; [exact H|eapply near_logistic; [exact H|exact A|nm..]|nm..]).
  set (vl := nlogistic _) in *. clearbody vl. set (l := logistic _) in *. clearbody l.
  assert (Lo : near (lit 1.3) 1.3 1.31 1.3) by (eapply near_weaken; [exact H|apply (near_lit u H 1.3 1.3); [rewrite Rabs_right; lra|simpl; lra]|lra|lra]).
  assert (Hi : near (lit 0.2) 0.2 1.001 0.2) by (apply lit1; [rewrite Rabs_right; lra|lra]).
  assert (La : near (lit a) a 2.01 2) by (eapply near_weaken; [exact H|apply (near_lit u H a 2); [auto|simpl; lra]|lra|lra]).
  assert (Hd : near (lit 0.2 - lit 1.3)%num (0.2 - 1.3) 3.9 1.1) by (apply near_M with 1.5; [eapply (near_sub u H) with (B := 1.51); [exact Hi|exact Lo|nm..]|apply Rabs_le; lra]).
  assert (P : near ((lit 0.2 - lit 1.3) * vl)%num ((0.2 - 1.3) * l) 42.6 1.1) by (eapply (near_mul u H) with (B := 1.11); [exact Hd|exact L|nm..]).
  assert (S : near (lit 1.3 + (lit 0.2 - lit 1.3) * vl)%num (1.3 + (0.2 - 1.3) * l) 46.4 1.3) by (apply near_M with 2.4; [eapply (near_add u H) with (B := 2.41); [exact Lo|exact P|nm..]|apply Rabs_le; lra]).
  assert (Q : near ((lit 1.3 + (lit 0.2 - lit 1.3) * vl) * (Fin x - Fin 7))%num ((1.3 + (0.2 - 1.3) * l) * (x - 7)) 196.5 5.2) by (eapply (near_mul u H) with (B := 5.21); [exact S|exact D|nm..]).
  assert (R : near (lit a + (lit 1.3 + (lit 0.2 - lit 1.3) * vl) * (Fin x - Fin 7))%num (a + (1.3 + (0.2 - 1.3) * l) * (x - 7)) 206 7.2) by (eapply (near_add u H) with (B := 7.21); [exact La|exact Q|nm..]).
  eapply npos_weaken; [exact H|eapply pow57; [exact R|lra|]|lra].
  destruct R as (_ & _ & _ & _ & RB). apply Rabs_le_inv in RB. split.
  - rewrite <- (pow10_int 20). replace (/ pow10 (INR 20)) with (pow10 (- INR 20)) by (unfold pow10; apply Rpower_Ropp). apply pow10_le. simpl. lra.
  - rewrite <- (pow10_int 20). apply pow10_le. simpl. lra.
Qed.
Lemma sur57 a d : Rabs a <= 0.24 -> 0 <= d <= 0.16 -> near (surviving_mstar (Fin x) (surviving_params_of a d)) (1 - ret a d x) 82 2.05.
Proof.
  intros Ba Bd. unfold surviving_mstar, returned_mass, surviving_params_of, ret, ret_z. cbn [sur_a sur_b sur_lgk1 sur_d sur_e sur_f sur_lgk2 sur_h]. unfold sig_slope, sigmoid.
  pose proof (logistic_bounds (pow10 (-0.5) * (x - 8))) as LB. pose proof pow10_neg_half as K1. pose proof pow10_07 as K2.
  assert (R20 : forall y, 0.3 <= y <= 6 -> / 10 ^ 20 <= y <= 10 ^ 20) by (intros; simpl; lra).
  assert (Ka : near (npow10 (lit (-0.5))) (pow10 (-0.5)) 1.13 0.3163).
  { eapply near_weaken; [exact H|apply (npos_near u H) with (k := 3.53); [|lra|apply K1]|lra|lra]. eapply npos_weaken; [exact H|eapply pow57; [apply (lit1 (-0.5) 0.5); [apply Rabs_le; lra|lra]|lra|apply R20; lra]|lra]. }
  assert (Kb : near (npow10 (lit 0.7)) (pow10 0.7) 18.1 5.1).
  { eapply near_weaken; [exact H|apply (npos_near u H) with (k := 3.53); [|lra|apply K2]|lra|lra]. eapply npos_weaken; [exact H|eapply pow57; [apply (lit1 0.7 0.7); [apply Rabs_le; lra|lra]|lra|apply R20; lra]|lra]. }
  set (va := npow10 (lit (-0.5))) in *. clearbody va. set (vb := npow10 (lit 0.7)) in *. clearbody vb. set (ka := pow10 (-0.5)) in *. clearbody ka. set (kb := pow10 0.7) in *. clearbody kb.
  assert (E65 : lit 6.5 = Fin 6.5) by (unfold lit; apply (rnd_dy G 13 1); [lia|lia|simpl; lra]).
  assert (D : near (Fin x - Fin 8)%num (x - 8) 5.1 5).
  { eapply near_weaken; [exact H|apply (diff57 x 8 5); auto; [apply (machine_int u H 8); lia|apply Rabs_le; lra|lra]|lra|lra]. }
  assert (D2 : near (Fin x - lit 6.5)%num (x - 6.5) 4.6 4.5).
  { rewrite E65. eapply near_weaken; [exact H|apply (diff57 x 6.5 4.5); auto; [apply Rabs_le; lra|lra]|lra|lra]. }
  assert (A : near (va * (Fin x - Fin 8))%num (ka * (x - 8)) 8.9 1.6) by (eapply (near_mul u H) with (B := 1.61); [exact Ka|exact D|nm..]).
  assert (L : near (nlogistic (va * (Fin x - Fin 8))%num) (logistic (ka * (x - 8))) 5.4 1) by (eapply near_weaken; [exact H|eapply near_logistic; [exact H|exact A|nm..]|nm..]).
  set (vl := nlogistic _) in *. clearbody vl. set (l := logistic _) in *. clearbody l.
  assert (A2 : near (vb * (Fin x - lit 6.5))%num (kb * (x - 6.5)) 128.4 23) by (eapply (near_mul u H) with (B := 23.1); [exact Kb|exact D2|nm..]).
  assert (L2 : near (nlogistic (vb * (Fin x - lit 6.5))%num) (logistic (kb * (x - 6.5))) 35.3 1) by (eapply near_weaken; [exact H|eapply near_logistic; [exact H|exact A2|nm..]|nm..]).
  set (vl2 := nlogistic _) in *. clearbody vl2. set (l2 := logistic _) in *. clearbody l2.
  assert (Lo : near (lit d) d 1.001 0.16) by (apply lit1; [apply Rabs_le; lra|lra]).
  assert (Hi : near (lit 0.08) 0.08 1.001 0.08) by (apply lit1; [apply Rabs_le; lra|lra]).
  assert (Lh : near (lit 0.005) 0.005 1.001 0.005) by (apply lit1; [apply Rabs_le; lra|lra]).
  assert (La : near (lit a) a 1.001 0.24) by (apply lit1; [auto|lra]).
  assert (Hd : near (lit 0.08 - lit d)%num (0.08 - d) 3.1 0.08) by (apply near_M with 0.24; [eapply (near_sub u H) with (B := 1); [exact Hi|exact Lo|nm..]|apply Rabs_le; lra]).
  assert (P : near ((lit 0.08 - lit d) * vl)%num ((0.08 - d) * l) 4.6 0.08) by (eapply (near_mul u H) with (B := 1); [exact Hd|exact L|nm..]).
  assert (S : near (lit d + (lit 0.08 - lit d) * vl)%num (d + (0.08 - d) * l) 6.7 0.16) by (apply near_M with 0.24; [eapply (near_add u H) with (B := 1); [exact Lo|exact P|nm..]|apply Rabs_le; nra]).
  assert (Q : near ((lit d + (lit 0.08 - lit d) * vl) * (Fin x - Fin 8))%num ((d + (0.08 - d) * l) * (x - 8)) 35.5 0.8) by (eapply (near_mul u H) with (B := 1); [exact S|exact D|nm..]).
  assert (Z : near (lit a + (lit d + (lit 0.08 - lit d) * vl) * (Fin x - Fin 8))%num (a + (d + (0.08 - d) * l) * (x - 8)) 37.6 1.04) by (eapply (near_add u H) with (B := 1.05); [exact La|exact Q|nm..]).
  set (vz := (lit a + _)%num) in *. clearbody vz. set (z := a + _) in *. clearbody z.
  assert (Zh : near (vz - lit 0.005)%num (z - 0.005) 39.7 1.045) by (eapply (near_sub u H) with (B := 1.05); [exact Z|exact Lh|nm..]).
  assert (P2 : near ((vz - lit 0.005) * vl2)%num ((z - 0.005) * l2) 77.8 1.045) by (eapply (near_mul u H) with (B := 1.05); [exact Zh|exact L2|nm..]).
  assert (S2 : near (lit 0.005 + (vz - lit 0.005) * vl2)%num (0.005 + (z - 0.005) * l2) 79.9 1.05) by (eapply (near_add u H) with (B := 1.06); [exact Lh|exact P2|nm..]).
  assert (N1 : near (Fin 1) 1 0 1) by (apply near_rep; [apply (rnd1 G)|rewrite Rabs_right; lra]).
  eapply (near_sub u H) with (B := 2.06); [exact N1|exact S2|nm..].
Qed.
End X.
End F.

Lemma C157_remnant : forall AR u, accurate_to AR u -> forall x, machine_number (AR := AR) x -> 3 <= x <= 11 ->
  relatively_close (520 * u) (@remnant_mass AR (Fin x) (@REM_CHABRIER AR)) (@remnant_mass exact (Fin x) (@REM_CHABRIER exact))
  /\ relatively_close (520 * u) (@remnant_mass AR (Fin x) (@REM_SALPETER AR)) (@remnant_mass exact (Fin x) (@REM_SALPETER exact))
  /\ relatively_close (520 * u) (@remnant_mass AR (Fin x) (@REM_KROUPA AR)) (@remnant_mass exact (Fin x) (@REM_KROUPA exact))
  /\ relatively_close (520 * u) (@remnant_mass AR (Fin x) (@REM_VAN_DOKKUM AR)) (@remnant_mass exact (Fin x) (@REM_VAN_DOKKUM exact)).
Proof.
  intros AR u Hu x Mx Bx. apply rel_err_unit in Hu.
  assert (K : forall a, Rabs a <= 2 -> relatively_close (520 * u) (@remnant_mass AR (Fin x) (@remnant_params_of AR a)) (@remnant_mass exact (Fin x) (@remnant_params_of exact a))).
  { intros a Ba. eapply pub55; [exact Hu|apply (rem57 u Hu x Mx Bx a Ba)|apply remnant_fin|lra|lra]. }
  repeat split; apply K; apply Rabs_le; lra.
Qed.
Lemma C157_surviving : forall AR u, accurate_to AR u -> forall x, machine_number (AR := AR) x -> 3 <= x <= 11 ->
  absolutely_close (82 * u) (@surviving_mstar AR (Fin x) (@SUR_CHABRIER AR)) (@surviving_mstar exact (Fin x) (@SUR_CHABRIER exact))
  /\ absolutely_close (82 * u) (@surviving_mstar AR (Fin x) (@SUR_SALPETER AR)) (@surviving_mstar exact (Fin x) (@SUR_SALPETER exact))
  /\ absolutely_close (82 * u) (@surviving_mstar AR (Fin x) (@SUR_KROUPA AR)) (@surviving_mstar exact (Fin x) (@SUR_KROUPA exact))
  /\ absolutely_close (82 * u) (@surviving_mstar AR (Fin x) (@SUR_VAN_DOKKUM AR)) (@surviving_mstar exact (Fin x) (@SUR_VAN_DOKKUM exact)).
Proof.
  intros AR u Hu x Mx Bx. apply rel_err_unit in Hu.
  assert (K : forall a d, Rabs a <= 0.24 -> 0 <= d <= 0.16 -> absolutely_close (82 * u) (@surviving_mstar AR (Fin x) (@surviving_params_of AR a d)) (@surviving_mstar exact (Fin x) (@surviving_params_of exact a d))).
  { intros a d Ba Bd. destruct (sur57 u Hu x Mx Bx a d Ba Bd) as (y & E & _ & D & _). exists y, (1 - ret a d x). split; auto. split; auto. apply surviving_fin. }
  repeat split; apply K; try lra; apply Rabs_le; lra.
Qed.
Lemma e157 : machine_number (AR := binary64) 9 /\ machine_number (AR := binary32) 9
  /\ absolutely_close (1 / 10 ^ 5) (@surviving_mstar binary32 (Fin 9) (@SUR_KROUPA binary32)) (@surviving_mstar exact (Fin 9) (@SUR_KROUPA exact)).
Proof.
  assert (M64 : machine_number (AR := binary64) 9) by exact (machine_int _ (rel_err_unit _ _ rd_unit) 9 ltac:(lia)).
  assert (M32 : machine_number (AR := binary32) 9) by exact (machine_int _ (rel_err_unit _ _ rd_unit32) 9 ltac:(lia)).
  split; auto. split; auto. destruct (C157_surviving _ _ rd_unit32 9 M32 ltac:(lra)) as (_ & _ & (a & b & A & B & D) & _). exists a, b. split; auto. split; auto. eapply Rle_trans; [exact D|]. simpl. lra.
Qed.
