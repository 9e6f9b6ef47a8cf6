(** * The mass-metallicity relation in rounded arithmetic *)
From Coq Require Import Reals List Arith Lra Lia ZArith Bool.
From Flocq Require Import Core.Raux.
From Verif Require Import Num Arr MUtils MSed MMzr Float Spec SpecFloat RList LUtils LKern2 LFloat LFloat2 LFloat10 LRound1 LRound2 LRound6 LRound21 LRound23 LRound24 LRound35 LRound38 LRound52.
From Verif Require Spec2.
Import ListNotations.
Open Scope R_scope.
Notation sigmoid_slope_line := Spec2.sigmoid_slope_line.

Ltac nm := first [lra|simpl; lra|simpl; repeat split; lra].
Section F.
Context {AR : Arith} (u : R) (H : rel_err AR u).
Notation G := (re_good _ _ H).
Notation npos := (npos (AR := AR) u).
Notation near := (near (AR := AR) u).
Notation mach x := (rnd x = Fin x).

(** present-day relation *)
Lemma t0_line m xtp ytp x0 k lo hi : mach m -> mach xtp -> mach ytp -> mach x0 -> mach k -> mach lo -> mach hi ->
  0 <= m <= 16 -> 8 <= xtp <= 12 -> Rabs ytp <= 2 -> 8 <= x0 <= 12 -> 0 <= k <= 2 -> Rabs lo <= 2 -> Rabs hi <= 2 ->
  near (sig_slope (Fin m) (Fin xtp) (Fin ytp) (Fin x0) (Fin k) (Fin lo) (Fin hi)) (sigmoid_slope_line xtp ytp x0 k lo hi m) 1300 74.
Proof.
  intros Mm Mxtp Mytp Mx0 Mk Mlo Mhi Bm Bxtp Bytp Bx0 Bk Blo Bhi. unfold sig_slope, sigmoid, Spec2.sigmoid_slope_line.
  assert (D1 : near (Fin m - Fin x0)%num (m - x0) 12.1 12).
  { cbn [nsub nopp nadd]. eapply (near_rnd u H) with (d := 0) (B := 12); [|apply Rabs_le; lra|nm..]. replace (m + - x0 - (m - x0)) with 0 by ring. rewrite Rabs_R0. lra. }
  assert (D2 : near (Fin m - Fin xtp)%num (m - xtp) 12.1 12).
  { cbn [nsub nopp nadd]. eapply (near_rnd u H) with (d := 0) (B := 12); [|apply Rabs_le; lra|nm..]. replace (m + - xtp - (m - xtp)) with 0 by ring. rewrite Rabs_R0. lra. }
  assert (Nk : near (Fin k) k 0 2) by (apply near_rep; auto; apply Rabs_le; lra).
  assert (Nlo : near (Fin lo) lo 0 2) by (apply near_rep; auto). assert (Nhi : near (Fin hi) hi 0 2) by (apply near_rep; auto). assert (Ny : near (Fin ytp) ytp 0 2) by (apply near_rep; auto).
  assert (A : near (Fin k * (Fin m - Fin x0))%num (k * (m - x0)) 48.5 24) by (eapply (near_mul u H) with (B := 24.1); [exact Nk|exact D1|nm..]).
  assert (L : near (nlogistic (Fin k * (Fin m - Fin x0))%num) (logistic (k * (m - x0))) 15.3 1) by (eapply near_weaken; [exact H|eapply near_logistic; [exact H|exact A|nm..]|nm..]).
  assert (Hd : near (Fin hi - Fin lo)%num (hi - lo) 4.1 4) by (eapply (near_sub u H) with (B := 4.01); [exact Nhi|exact Nlo|nm..]).
  assert (P : near ((Fin hi - Fin lo) * nlogistic (Fin k * (Fin m - Fin x0)))%num ((hi - lo) * logistic (k * (m - x0))) 70 4) by (eapply (near_mul u H) with (B := 4.1); [exact Hd|exact L|nm..]).
  assert (S : near (Fin lo + (Fin hi - Fin lo) * nlogistic (Fin k * (Fin m - Fin x0)))%num (lo + (hi - lo) * logistic (k * (m - x0))) 77 6) by (eapply (near_add u H) with (B := 6.1); [exact Nlo|exact P|nm..]).
  assert (Q : near ((Fin lo + (Fin hi - Fin lo) * nlogistic (Fin k * (Fin m - Fin x0))) * (Fin m - Fin xtp))%num ((lo + (hi - lo) * logistic (k * (m - x0))) * (m - xtp)) 1080 72) by (eapply (near_mul u H) with (B := 72.1); [exact S|exact D2|nm..]).
  eapply (near_add u H) with (B := 74.1); [exact Ny|exact Q|nm..].
Qed.
Lemma solar : near LGMET_SOLAR (log10 0.012) 6 2.
Proof.
  unfold LGMET_SOLAR. eapply near_weaken; [exact H|apply (log_npos u H) with (n := 2%nat) (k := 1.02); [apply npos_lit; auto; simpl; lra|lra|simpl; lra|lia]|simpl; lra|simpl; lra].
Qed.
Lemma near_where_clip v x e M : near v x e M -> near (nwhere (v <? Fin 0)%num (Fin 0) v) (Rmax 0 x) e M.
Proof. intros N. now destruct (near_clip u H _ _ _ _ N). Qed.

(** evolution *)
Lemma evol_line m t a b c d vtc tc : mach m -> mach t -> mach a -> mach b -> mach c -> mach d -> near vtc tc 9 13 ->
  0 <= m <= 16 -> 0 <= t <= 20 -> Rabs a <= 4 -> Rabs b <= 1/2 -> Rabs c <= 3 -> Rabs d <= 1/2 -> 4 <= tc <= 13 ->
  near (nwhere (sig_slope (nwhere (MZR_EVOL_T0 - Fin t <? Fin 0)%num (Fin 0) (MZR_EVOL_T0 - Fin t)%num) vtc (Fin a + Fin b * Fin m)%num vtc MZR_EVOL_K ((Fin a + Fin b * Fin m) / vtc)%num (Fin c + Fin d * Fin m)%num >? Fin 0)%num (Fin 0)
     (sig_slope (nwhere (MZR_EVOL_T0 - Fin t <? Fin 0)%num (Fin 0) (MZR_EVOL_T0 - Fin t)%num) vtc (Fin a + Fin b * Fin m)%num vtc MZR_EVOL_K ((Fin a + Fin b * Fin m) / vtc)%num (Fin c + Fin d * Fin m)%num))
   (Rmin 0 (sigmoid_slope_line tc (a + b * m) tc 1.6 ((a + b * m) / tc) (c + d * m) (Rmax 0 (12.5 - t)))) 8600 233.
Proof.
  intros Mm Mt Ma Mb Mc Md Ntc Bm Bt Ba Bb Bc Bd Btc. apply near_low; auto. unfold sig_slope, sigmoid, Spec2.sigmoid_slope_line.
  assert (E125 : MZR_EVOL_T0 = Fin 12.5) by (unfold MZR_EVOL_T0, lit; apply (rnd_dy G 25 1); [lia|lia|simpl; lra]).
  assert (Nm : near (Fin m) m 0 16) by (apply near_rep; auto; apply Rabs_le; lra).
  assert (Na : near (Fin a) a 0 4) by (apply near_rep; auto). assert (Nb : near (Fin b) b 0 (1/2)) by (apply near_rep; auto). assert (Nc : near (Fin c) c 0 3) by (apply near_rep; auto). assert (Nd : near (Fin d) d 0 (1/2)) by (apply near_rep; auto).
  assert (Tl : near (MZR_EVOL_T0 - Fin t)%num (12.5 - t) 12.6 12.5).
  { rewrite E125. cbn [nsub nopp nadd]. eapply (near_rnd u H) with (d := 0) (B := 12.5); [|apply Rabs_le; lra|nm..]. replace (12.5 + - t - (12.5 - t)) with 0 by ring. rewrite Rabs_R0. lra. }
  apply near_where_clip in Tl. set (vt := nwhere (MZR_EVOL_T0 - Fin t <? Fin 0)%num (Fin 0) (MZR_EVOL_T0 - Fin t)%num) in *. set (tl := Rmax 0 (12.5 - t)) in *.
  assert (Btl : 0 <= tl <= 12.5) by (unfold tl; split; [apply Rmax_l|apply Rmax_lub; lra]).
  assert (Bm1 : near (Fin b * Fin m)%num (b * m) 8.1 8) by (eapply (near_mul u H) with (B := 8.01); [exact Nb|exact Nm|nm..]).
  assert (Dm1 : near (Fin d * Fin m)%num (d * m) 8.1 8) by (eapply (near_mul u H) with (B := 8.01); [exact Nd|exact Nm|nm..]).
  assert (Y : near (Fin a + Fin b * Fin m)%num (a + b * m) 20.2 12) by (eapply (near_add u H) with (B := 12.01); [exact Na|exact Bm1|nm..]).
  assert (Ea : near (Fin c + Fin d * Fin m)%num (c + d * m) 19.2 11) by (eapply (near_add u H) with (B := 11.01); [exact Nc|exact Dm1|nm..]).
  set (vy := (Fin a + Fin b * Fin m)%num) in *. set (ve := (Fin c + Fin d * Fin m)%num) in *. set (yy := a + b * m) in *. set (ee := c + d * m) in *.
  assert (La : near (vy / vtc)%num (yy / tc) 16 3) by (eapply (near_div2 u H) with (c := 4) (B := 3.5); [exact Y|exact Ntc|nm..]).
  set (vl := (vy / vtc)%num) in *. set (ll := yy / tc) in *.
  assert (D1 : near (vt - vtc)%num (tl - tc) 47.2 13).
  { apply near_M with 25.5; [|apply Rabs_le; lra]. eapply (near_sub u H) with (B := 25.51); [exact Tl|exact Ntc|nm..]. }
  assert (Nk : near MZR_EVOL_K 1.6 1.61 1.6) by (eapply near_weaken; [exact H|apply (near_lit u H 1.6 1.6); [rewrite Rabs_right; lra|simpl; lra]|lra|lra]).
  assert (A : near (MZR_EVOL_K * (vt - vtc))%num (1.6 * (tl - tc)) 118 20.8) by (eapply (near_mul u H) with (B := 20.81); [exact Nk|exact D1|nm..]).
  assert (L : near (nlogistic (MZR_EVOL_K * (vt - vtc))%num) (logistic (1.6 * (tl - tc))) 32.7 1) by (eapply near_weaken; [exact H|eapply near_logistic; [exact H|exact A|nm..]|nm..]).
  assert (Hd : near (ve - vl)%num (ee - ll) 49.5 14) by (eapply (near_sub u H) with (B := 14.01); [exact Ea|exact La|nm..]).
  assert (P : near ((ve - vl) * nlogistic (MZR_EVOL_K * (vt - vtc)))%num ((ee - ll) * logistic (1.6 * (tl - tc))) 522 14) by (eapply (near_mul u H) with (B := 14.1); [exact Hd|exact L|nm..]).
  assert (S : near (vl + (ve - vl) * nlogistic (MZR_EVOL_K * (vt - vtc)))%num (ll + (ee - ll) * logistic (1.6 * (tl - tc))) 556 17) by (eapply (near_add u H) with (B := 17.1); [exact La|exact P|nm..]).
  assert (Q : near ((vl + (ve - vl) * nlogistic (MZR_EVOL_K * (vt - vtc))) * (vt - vtc))%num ((ll + (ee - ll) * logistic (1.6 * (tl - tc))) * (tl - tc)) 8260 221) by (eapply (near_mul u H) with (B := 221.1); [exact S|exact D1|nm..]).
  eapply (near_add u H) with (B := 233.1); [exact Y|exact Q|nm..].
Qed.
End F.
