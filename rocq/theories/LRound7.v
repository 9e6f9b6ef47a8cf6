(** * Sums, normalisation and weighted sums of arrays of any sign in rounded arithmetic *)
From Coq Require Import Reals List Arith Lra Lia ZArith Bool.
From Coquelicot Require Import Rcomplements.
From Flocq Require Import Core.Raux.
From Verif Require Import Num Arr MUtils MSed Float Spec SpecFloat RList LUtils LFloat LFloat2 LFloat3 LFloat10 LFloat11 LRound1 LRound2 LRound3 LRound4.
Import ListNotations.
Open Scope R_scope.

Definition l1 (a b : list R) : R := Rsum (map2 (fun x y => Rabs (x - y)) a b).
Lemma l1_nonneg a b : 0 <= l1 a b.
Proof. unfold l1. revert b. induction a as [|x a IH]; intros [|y b]; cbn [map2 Rsum]; try lra. specialize (IH b). pose proof (Rabs_pos (x - y)). lra. Qed.
Lemma l1_self a : l1 a a = 0.
Proof. unfold l1. induction a as [|x a IH]; cbn [map2 Rsum]; [lra|]. rewrite IH. replace (x - x) with 0 by lra. rewrite Rabs_R0. lra. Qed.
Lemma l1_triangle a : forall b c, length a = length b -> length b = length c -> l1 a c <= l1 a b + l1 b c.
Proof.
  unfold l1. induction a as [|x a IH]; intros [|y b] [|z c] L1 L2; try discriminate; cbn [map2 Rsum]; [lra|]. injection L1 as L1. injection L2 as L2.
  specialize (IH b c L1 L2). assert (Rabs (x - z) <= Rabs (x - y) + Rabs (y - z)); [|lra]. replace (x - z) with ((x - y) + (y - z)) by lra. apply Rabs_triang.
Qed.
Lemma l1_sum a : forall b, length a = length b -> Rabs (Rsum a - Rsum b) <= l1 a b.
Proof.
  unfold l1. induction a as [|x a IH]; intros [|y b] L; try discriminate; cbn [map2 Rsum]; [rewrite Rminus_0_r, Rabs_R0; lra|]. injection L as L. specialize (IH b L).
  replace (x + Rsum a - (y + Rsum b)) with ((x - y) + (Rsum a - Rsum b)) by lra. eapply Rle_trans; [apply Rabs_triang|]. lra.
Qed.
Lemma l1_suma a : forall b, length a = length b -> Rsuma a <= l1 a b + Rsuma b.
Proof.
  unfold l1, Rsuma. induction a as [|x a IH]; intros [|y b] L; try discriminate; cbn [map map2 Rsum]; [lra|]. injection L as L. specialize (IH b L).
  assert (Rabs x <= Rabs (x - y) + Rabs y); [|lra]. replace x with ((x - y) + y) at 1 by lra. apply Rabs_triang.
Qed.
Lemma suma_nonneg l : Forall (fun x => 0 <= x) l -> Rsuma l = Rsum l.
Proof. unfold Rsuma. induction 1 as [|x l Hx F IH]; cbn [map Rsum]; [reflexivity|]. rewrite IH, Rabs_right by lra. reflexivity. Qed.
Lemma l1_map (f g : R -> R) (l : list R) c t : (forall x, In x l -> Rabs (f x - g x) <= c * Rabs (g x) + t) -> l1 (map f l) (map g l) <= c * Rsuma (map g l) + INR (length l) * t.
Proof.
  intros K. unfold l1, Rsuma. induction l as [|x l IH]; [cbn; lra|]. cbn [map map2 Rsum length]. rewrite S_INR. pose proof (K x (or_introl eq_refl)). specialize (IH (fun y Hy => K y (or_intror Hy))). lra.
Qed.
Lemma suma_scal c l : Rsuma (map (fun x => x * c) l) = Rsuma l * Rabs c.
Proof. unfold Rsuma. rewrite map_map. induction l as [|x l IH]; cbn [map Rsum]; [ring|]. rewrite IH, Rabs_mult. ring. Qed.
Lemma l1_scal c a : forall b, l1 (map (fun x => x * c) a) (map (fun x => x * c) b) = l1 a b * Rabs c.
Proof. unfold l1. induction a as [|x a IH]; intros [|y b]; cbn [map map2 Rsum]; try ring. rewrite IH, <- Rmult_minus_distr_r, Rabs_mult. ring. Qed.
Lemma l1_app a : forall b c d, length a = length b -> l1 (a ++ c) (b ++ d) = l1 a b + l1 c d.
Proof. unfold l1. induction a as [|x a IH]; intros [|y b] c d L; try discriminate; cbn [app map2 Rsum]; [ring|]. injection L as L. rewrite IH by auto. ring. Qed.
Lemma suma_app a b : Rsuma (a ++ b) = Rsuma a + Rsuma b.
Proof. unfold Rsuma. rewrite map_app. induction (map Rabs a) as [|x l IH]; cbn [app Rsum]; [ring|]. rewrite IH. ring. Qed.
Lemma suma_In x l : In x l -> Rabs x <= Rsuma l.
Proof. unfold Rsuma. intros Hx. apply Rsum_In_le; [apply Forall_map, Forall_forall; intros; apply Rabs_pos|now apply in_map]. Qed.
Lemma l1_entries a : forall b e, length a = length b -> (forall i, (i < length a)%nat -> Rabs (ent a i - ent b i) <= e) -> l1 a b <= INR (length a) * e.
Proof.
  unfold l1. induction a as [|x a IH]; intros [|y b] e L K; try discriminate; [cbn; lra|]. cbn [map2 Rsum length]. rewrite S_INR. injection L as L.
  specialize (IH b e L). specialize (K O) as K0. rewrite !ent_0 in K0. specialize (K0 ltac:(simpl; lia)).
  assert (Rsum (map2 (fun x y => Rabs (x - y)) a b) <= INR (length a) * e); [|lra]. apply IH. intros i Hi. specialize (K (S i)). rewrite !ent_cons_S in K. apply K. simpl. lia.
Qed.

Section F.
Context {AR : Arith} (u : R) (H : rel_err AR u).
Let G := re_good _ _ H.

(** rounding every entry *)
Lemma round_list l : Forall (fun x => Rabs x <= 10 ^ 36) l ->
  exists p, map rnd l = fins p /\ length p = length l /\ Forall (fun x => rnd x = Fin x) p /\ l1 p l <= u * Rsuma l + INR (length l) * (u * / 2 ^ 102).
Proof.
  intros F. exists (map (fun x => fval (rnd x)) l). rewrite map_length.
  assert (Q : forall x, In x l -> rnd x = Fin (fval (rnd x)) /\ Rabs (fval (rnd x) - x) <= u * Rabs x + (u * / 2 ^ 102)).
  { intros x Hx. rewrite Forall_forall in F. specialize (F x Hx). destruct (rnd_range _ G x) as (y & Ey). { eapply Rle_trans; [exact F|]. apply Rle_pow; [lra|lia]. }
    rewrite Ey. cbn [fval]. split; auto. apply (re_any _ _ H _ _ Ey). }
  split; [|split; [reflexivity|split]].
  - unfold fins. rewrite map_map. apply map_ext_in. intros x Hx. apply Q. auto.
  - apply Forall_map, Forall_forall. intros x Hx. destruct (Q x Hx) as [E _]. eapply (rnd_idem _ G). exact E.
  - pose proof (l1_map (fun x => fval (rnd x)) (fun x => x) l u ((u * / 2 ^ 102))) as L. rewrite map_id in L. apply L. intros x Hx. apply Q. auto.
Qed.

Lemma vsum_signed p : (1 <= length p)%nat -> Forall (fun x => rnd x = Fin x) p -> INR (length p) * u <= / 16 -> Rsuma p <= 10 ^ 37 ->
  exists s, vsum (fins p) = Fin s /\ Rabs (s - Rsum p) <= 16 / 15 * (INR (length p) * u) * Rsuma p + 16 / 15 * INR (length p) * (u * / 2 ^ 102).
Proof.
  intros L F N B. pose proof (u_le u H) as Hu. destruct (pow_1pu u (length p) ltac:(lra) N) as [P1 P2]. pose proof (Rsuma_pos p) as S0.
  assert (T0 : 0 < u * / 2 ^ 102) by apply (tiny_u u H). assert (NP : 1 <= INR (length p)) by (apply (le_INR 1); auto).
  assert (NT0 : 0 <= INR (length p) * (u * / 2 ^ 102) <= 1).
  { split; [apply Rmult_le_pos; lra|]. apply Rle_trans with (INR (length p) * u); [apply Rmult_le_compat_l; [lra|]|lra]. rewrite <- (Rmult_1_r u) at 2. apply Rmult_le_compat_l; [lra|]. rewrite <- Rinv_1. apply Rinv_le; [lra|]. apply pow_R1_Rle. lra. }
  assert (P37 : 1 <= 10 ^ 37) by (apply pow_R1_Rle; lra).
  destruct (vsum_err u H p ltac:(intros ->; simpl in L; lia) F) as (s & E & A).
  { apply Rle_trans with ((10 ^ 37 + 1) * 2); [apply Rmult_le_compat; lra|]. replace (10 ^ 38) with (10 * 10 ^ 37) by reflexivity. assert (0 < 10 ^ 37) by (apply pow_lt; lra). lra. }
  exists s. split; [exact E|]. eapply Rle_trans; [exact A|]. apply Rplus_le_compat; [apply Rmult_le_compat_r; lra|].
  replace (16 / 15 * INR (length p) * (u * / 2 ^ 102)) with (INR (length p) * (u * / 2 ^ 102) * (16 / 15)) by ring. apply Rmult_le_compat; [apply Rmult_le_pos; lra|lra|apply Rmult_le_compat_r; lra|lra].
Qed.

Lemma normalise_signed p ls T eps : Forall (fun x => rnd x = Fin x) p -> length p = length ls -> (1 <= length p)%nat -> Forall (fun x => 0 <= x) ls -> Rsum ls = T -> / 2 ^ 30 <= T <= 2 ->
  l1 p ls <= eps * T -> 0 <= eps <= 1/10 -> INR (length p) * u <= 1/100 ->
  exists w, map (fun d => ndiv d (vsum (fins p))) (fins p) = fins w /\ length w = length p /\ Forall (fun x => rnd x = Fin x) w
    /\ l1 w (map (fun x => x / T) ls) <= 2.5 * eps + 5 * (INR (length p) * u).
Proof.
  intros F LL L0 P ST BT L1 Be NU. pose proof (u_le u H) as Hu. set (N := INR (length p)) in *. assert (N1 : 1 <= N) by (apply (le_INR 1); auto).
  assert (T0 : 0 < T). { assert (0 < / 2 ^ 30) by (apply Rinv_0_lt_compat, pow_lt; lra). lra. }
  assert (SA : Rsuma p <= (1 + eps) * T). { eapply Rle_trans; [apply (l1_suma p ls LL)|]. rewrite (suma_nonneg ls P), ST. lra. }
  assert (eT : eps * T <= / 10 * T) by (apply Rmult_le_compat_r; lra). assert (eT0 : 0 <= eps * T) by (apply Rmult_le_pos; lra).
  destruct (vsum_signed p L0 F) as (s & Es & As). { fold N. lra. } { apply Rle_trans with 10; [lra|]. apply Rle_trans with (10 ^ 1); [simpl; lra|apply Rle_pow; [lra|lia]]. }
  fold N in As. set (m := N * u) in *. assert (M0 : u <= m) by (unfold m; rewrite <- (Rmult_1_l u) at 1; apply Rmult_le_compat_r; lra).
  pose proof (Rsuma_pos p) as SP0.
  assert (mT : 0 <= m * T) by (apply Rmult_le_pos; lra). assert (mT2 : m * T <= 1/100 * T) by (apply Rmult_le_compat_r; lra).
  assert (NT0 : N * (u * / 2 ^ 102) <= 0.001 * (m * T)).
  { replace (N * (u * / 2 ^ 102)) with (m * / 2 ^ 102) by (unfold m; ring). replace (0.001 * (m * T)) with (m * (0.001 * T)) by ring. apply Rmult_le_compat_l; [lra|].
    apply Rle_trans with (0.001 * / 2 ^ 30); [|lra]. apply Rle_trans with (/ 2 ^ 40); [apply half_pow_le; lia|simpl; lra]. }
  assert (As2 : Rabs (s - Rsum p) <= 1.18 * (m * T)).
  { eapply Rle_trans; [exact As|]. apply Rle_trans with (16 / 15 * m * (1.1 * T) + 0.002 * (m * T)); [apply Rplus_le_compat; [apply Rmult_le_compat_l; lra|lra]|lra]. }
  pose proof (l1_sum p ls LL) as AL. rewrite ST in AL.
  assert (Ds : Rabs (s - T) <= eps * T + 1.18 * (m * T)). { replace (s - T) with ((s - Rsum p) + (Rsum p - T)) by lra. eapply Rle_trans; [apply Rabs_triang|]. lra. }
  assert (Sl : 0.88 * T <= s <= 1.12 * T) by (apply Rabs_le_inv in Ds; lra).
  assert (IS : 0 < / s) by (apply Rinv_0_lt_compat; lra).
  assert (IST : / s * T <= 1.14). { apply Rmult_le_reg_l with s; [lra|]. rewrite <- Rmult_assoc, Rinv_r by lra. lra. }
  rewrite Es. set (q := map (fun x => x * / s) p).
  assert (SQ : Rsuma q <= 1.26). { unfold q. rewrite suma_scal, Rabs_right by lra. apply Rle_trans with (1.1 * T * / s); [apply Rmult_le_compat_r; lra|]. lra. }
  assert (Lq : length q = length p) by (unfold q; now rewrite map_length).
  destruct (round_list q) as (w & Ew & Lw & Fw & Aw).
  { apply Forall_forall. intros x Hx. apply suma_In in Hx. apply Rle_trans with 10; [lra|]. apply Rle_trans with (10 ^ 1); [simpl; lra|apply Rle_pow; [lra|lia]]. }
  exists w. split; [|split; [lia|split; auto]].
  { rewrite <- Ew. unfold q, fins. rewrite !map_map. apply map_ext. intros d. cbn [ndiv]. rewrite Req_bool_false by lra. reflexivity. }
  rewrite Lq in Aw. fold N in Aw.
  assert (LT : l1 q (map (fun x => x / T) ls) <= 1.14 * (2 * eps + 1.18 * m)).
  { assert (L2 : l1 q (map (fun x => x * / s) ls) <= eps * T * / s). { unfold q. rewrite l1_scal, Rabs_right by lra. apply Rmult_le_compat_r; lra. }
    assert (L3 : l1 (map (fun x => x * / s) ls) (map (fun x => x / T) ls) <= Rabs (s - T) * / s).
    { assert (Ext : map (fun x => x * / s) ls = map (fun y => y * (T * / s)) (map (fun x => x / T) ls)) by (rewrite map_map; apply map_ext; intros; field; lra). rewrite Ext.
      set (ws := map (fun x => x / T) ls) in *. assert (SW : Rsuma ws = 1).
      { unfold ws. rewrite suma_nonneg. - rewrite Rsum_div, ST. field. lra. - apply Forall_map. eapply Forall_impl; [|exact P]. intros x Hx. apply Rmult_le_pos; [auto|]. apply Rlt_le, Rinv_0_lt_compat. lra. }
      pose proof (l1_map (fun y => y * (T * / s)) (fun y => y) ws (Rabs (s - T) * / s) 0) as LM. rewrite map_id, SW in LM. eapply Rle_trans; [apply LM|lra].
      intros x _. rewrite Rplus_0_r. replace (x * (T * / s) - x) with (- ((s - T) * / s * x)) by (field; lra). rewrite Rabs_Ropp, !Rabs_mult, (Rabs_right (/ s)) by lra. lra. }
    assert (L4 : Rabs (s - T) * / s <= (eps + 1.18 * m) * (/ s * T)). { replace ((eps + 1.18 * m) * (/ s * T)) with ((eps * T + 1.18 * (m * T)) * / s) by ring. apply Rmult_le_compat_r; lra. }
    assert (L5 : (eps + 1.18 * m) * (/ s * T) <= (eps + 1.18 * m) * 1.14) by (apply Rmult_le_compat_l; lra).
    assert (L6 : eps * (/ s * T) <= eps * 1.14) by (apply Rmult_le_compat_l; lra).
    pose proof (l1_triangle q (map (fun x => x * / s) ls) (map (fun x => x / T) ls) ltac:(rewrite map_length; lia) ltac:(now rewrite !map_length)). lra. }
  pose proof (l1_triangle w q (map (fun x => x / T) ls) ltac:(lia) ltac:(rewrite map_length; lia)) as TR.
  pose proof (tiny_u1 u H) as Ht. assert (NT : N * (u * / 2 ^ 102) <= m * / 10 ^ 6). { unfold m. rewrite Rmult_assoc. apply Rmult_le_compat_l; lra. } simpl (10 ^ 6) in NT.
  assert (u * Rsuma q <= u * 1.26) by (apply Rmult_le_compat_l; lra). lra.
Qed.

(** weighted sums *)
Lemma dot_signed (l : list (R * R)) F0 : Forall (fun p => Rabs (fst p) <= F0) l -> 0 <= F0 <= 10 ^ 30 -> (1 <= length l)%nat -> Rsuma (map snd l) <= 2 -> INR (length l) * u <= 1/100 ->
  exists T, vsum (map (fun p => nmul (Fin (fst p)) (Fin (snd p))) l) = Fin T
    /\ Rabs (T - Rsum (map (fun p => fst p * snd p) l)) <= 5 * (INR (length l) * u) * F0 + 2.2 * INR (length l) * (u * / 2 ^ 102).
Proof.
  intros F BF L0 SW NU. pose proof (u_le u H) as Hu. set (N := INR (length l)) in *. assert (N1 : 1 <= N) by (apply (le_INR 1); auto).
  set (e := fun p : R * R => fst p * snd p) in *. set (q := map e l). assert (Lq : length q = length l) by (unfold q; now rewrite map_length).
  assert (SQ : Rsuma q <= F0 * 2).
  { apply Rle_trans with (F0 * Rsuma (map snd l)); [|apply Rmult_le_compat_l; lra]. unfold q, Rsuma. clear - F. induction F as [|p l Hp F IH]; cbn [map Rsum]; [lra|].
    unfold e at 1. rewrite Rabs_mult. assert (Rabs (fst p) * Rabs (snd p) <= F0 * Rabs (snd p)) by (apply Rmult_le_compat_r; [apply Rabs_pos|auto]). lra. }
  assert (B30 : 1 <= 10 ^ 30) by (apply pow_R1_Rle; lra). assert (B36 : 10 ^ 36 = 10 ^ 6 * 10 ^ 30) by (rewrite <- pow_add; reflexivity). simpl (10 ^ 6) in B36.
  destruct (round_list q) as (p & Ep & Lp & Fp & Ap). { apply Forall_forall. intros x Hx. apply suma_In in Hx. lra. }
  rewrite Lq in Ap. fold N in Ap. pose proof (tiny_u1 u H) as Ht. assert (T0 : 0 < (u * / 2 ^ 102)) by apply (tiny_u u H).
  set (m := N * u) in *. assert (M0 : u <= m) by (unfold m; rewrite <- (Rmult_1_l u) at 1; apply Rmult_le_compat_r; lra).
  assert (NT : N * (u * / 2 ^ 102) <= m * / 10 ^ 6). { unfold m. rewrite Rmult_assoc. apply Rmult_le_compat_l; lra. } simpl (10 ^ 6) in NT.
  pose proof (Rsuma_pos q) as Q0. assert (UQ : u * Rsuma q <= u * (F0 * 2)) by (apply Rmult_le_compat_l; lra).
  assert (UF : u * F0 <= m * F0) by (apply Rmult_le_compat_r; lra). assert (UF2 : u * F0 <= / (4 * 10 ^ 6) * F0) by (apply Rmult_le_compat_r; lra). simpl (10 ^ 6) in UF2.
  pose proof (l1_suma p q Lp) as SP. set (k := N * (u * / 2 ^ 102)) in *.
  destruct (vsum_signed p ltac:(lia) Fp) as (s & Es & As). { rewrite Lp, Lq. fold N m. lra. } { replace (10 ^ 37) with (10 * 10 ^ 36) by reflexivity. lra. }
  rewrite Lp, Lq in As. fold N m in As. exists s. split.
  { rewrite <- Es. f_equal. rewrite <- Ep. unfold q. rewrite map_map. apply map_ext. intros x. reflexivity. }
  pose proof (l1_sum p q Lp) as AL. fold q. replace (s - Rsum q) with ((s - Rsum p) + (Rsum p - Rsum q)) by lra. eapply Rle_trans; [apply Rabs_triang|].
  assert (16 / 15 * m * Rsuma p <= 16 / 15 * m * (2.01 * F0 + k)) by (apply Rmult_le_compat_l; lra).
  assert (m * k <= 1/100 * k) by (apply Rmult_le_compat_r; [apply Rmult_le_pos; lra|lra]).
  assert (K0 : 0 <= k) by (apply Rmult_le_pos; lra). replace (2.2 * N * (u * / 2 ^ 102)) with (2.2 * k) by (unfold k; ring). replace (16 / 15 * N * (u * / 2 ^ 102)) with (16 / 15 * k) in As by (unfold k; ring). assert (0 <= m * F0) by (apply Rmult_le_pos; lra). lra.
Qed.

(** a weighted sum times a mass, against the exact weighted sum times the exact mass *)
Lemma sed_signed (l : list (R * R)) (ws : list R) F0 M M' lam mu : Forall (fun p => Rabs (fst p) <= F0) l -> 0 <= F0 <= 10 ^ 30 -> (1 <= length l)%nat -> length ws = length l ->
  Forall (fun x => 0 <= x) ws -> Rsum ws = 1 -> l1 (map snd l) ws <= lam -> lam <= 1/2 -> INR (length l) * u <= 1/100 ->
  0 <= M -> F0 * M <= 10 ^ 36 -> M <= 10 ^ 36 -> Rabs (M' - M) <= mu * M -> 0 <= mu <= 1/25 ->
  exists x, nmul (vsum (map (fun p => nmul (Fin (fst p)) (Fin (snd p))) l)) (Fin M') = Fin x
   /\ Rabs (x - M * Rsum (map2 Rmult ws (map fst l))) <= F0 * M * (1.1 * lam + 7 * (INR (length l) * u) + mu) + (3 * INR (length l) * M + 1) * (u * / 2 ^ 102).
Proof.
  intros F BF L0 LW PW SW L1 BL NU M0 BFM BM DM Bmu. pose proof (u_le u H) as Hu. set (N := INR (length l)) in *. assert (N1 : 1 <= N) by (apply (le_INR 1); auto).
  assert (LS : length (map snd l) = length ws) by (rewrite map_length; lia).
  assert (SA : Rsuma (map snd l) <= 2). { pose proof (l1_suma (map snd l) ws LS) as Q. rewrite (suma_nonneg ws PW), SW in Q. lra. }
  assert (lam0 : 0 <= lam) by (eapply Rle_trans; [apply l1_nonneg|exact L1]).
  destruct (dot_signed l F0 F BF L0 SA NU) as (T & ET & AT). fold N in AT. rewrite ET. cbn [nmul].
  set (S0 := Rsum (map (fun p => fst p * snd p) l)) in *. set (S := Rsum (map2 Rmult ws (map fst l))).
  assert (DS : Rabs (S0 - S) <= F0 * lam).
  { apply Rle_trans with (F0 * l1 (map snd l) ws); [|apply Rmult_le_compat_l; lra]. unfold S0, S, l1. clear - F LS BF. revert ws LS. induction F as [|p l Hp F IH]; intros [|w ws] LS; try discriminate.
    - cbn. rewrite Rminus_0_r, Rabs_R0. lra.
    - cbn [map map2 Rsum]. injection LS as LS. specialize (IH ws LS).
      set (a := Rsum (map (fun p => fst p * snd p) l)) in *. set (b := Rsum (map2 Rmult ws (map fst l))) in *.
      replace (fst p * snd p + a - (w * fst p + b)) with (fst p * (snd p - w) + (a - b)) by ring. eapply Rle_trans; [apply Rabs_triang|]. rewrite Rabs_mult.
      assert (Rabs (fst p) * Rabs (snd p - w) <= F0 * Rabs (snd p - w)) by (apply Rmult_le_compat_r; [apply Rabs_pos|auto]). lra. }
  assert (BS : Rabs S <= F0).
  { unfold S. rewrite <- (Rmult_1_r F0), <- SW. clear - F LW PW BF. revert l F LW. induction PW as [|w ws Hw PW IH]; intros [|p l] F LW; try discriminate; [cbn; rewrite Rabs_R0; lra|].
    cbn [map map2 Rsum]. injection LW as LW. apply Forall_cons_iff in F. destruct F as [Hp F]. specialize (IH l F LW). eapply Rle_trans; [apply Rabs_triang|]. rewrite Rabs_mult, (Rabs_right w) by lra.
    assert (w * Rabs (fst p) <= w * F0) by (apply Rmult_le_compat_l; auto). lra. }
  set (m := N * u) in *. assert (MU : u <= m) by (unfold m; rewrite <- (Rmult_1_l u) at 1; apply Rmult_le_compat_r; lra).
  assert (T0 : 0 < (u * / 2 ^ 102)) by apply (tiny_u u H). set (t := (u * / 2 ^ 102)) in *.
  replace (2.2 * N * t) with (2.2 * (N * t)) in AT by ring. set (k := N * t) in *. assert (K0 : 0 <= k) by (apply Rmult_le_pos; lra).
  pose proof (tiny_u1 u H) as Ht. fold t in Ht. assert (NT : k <= m * / 10 ^ 6). { unfold m, k. rewrite Rmult_assoc. apply Rmult_le_compat_l; lra. } simpl (10 ^ 6) in NT.
  assert (DT : Rabs (T - S) <= F0 * (lam + 5 * m) + 2.2 * k). { replace (T - S) with ((T - S0) + (S0 - S)) by ring. eapply Rle_trans; [apply Rabs_triang|]. lra. }
  assert (BM' : 0 <= M' <= 1.04 * M). { apply Rabs_le_inv in DM. assert (mu * M <= 1/25 * M) by (apply Rmult_le_compat_r; lra). lra. }
  assert (FL : 0 <= F0 * (lam + 5 * m)) by (apply Rmult_le_pos; lra).
  assert (BT : Rabs T <= 1.55 * F0 + 2.2 * k).
  { replace T with ((T - S) + S) by ring. eapply Rle_trans; [apply Rabs_triang|]. assert (F0 * (lam + 5 * m) <= F0 * 0.55) by (apply Rmult_le_compat_l; lra). lra. }
  assert (FM0 : 0 <= F0 * M) by (apply Rmult_le_pos; lra). assert (KM : 0 <= k * M) by (apply Rmult_le_pos; lra).
  assert (KM2 : k * M <= 1/100 * M) by (apply Rmult_le_compat_r; lra).
  assert (BTM : Rabs (T * M') <= 1.62 * (F0 * M) + 2.3 * (k * M)).
  { rewrite Rabs_mult, (Rabs_right M') by lra. apply Rle_trans with ((1.55 * F0 + 2.2 * k) * (1.04 * M)); [apply Rmult_le_compat; try lra; apply Rabs_pos|]. lra. }
  destruct (rnd_range _ G (T * M')) as (x & Ex). { replace (10 ^ 38) with (100 * 10 ^ 36) by (simpl; lra). lra. }
  exists x. split; auto. pose proof (re_any _ _ H _ _ Ex) as RX. fold t in RX.
  replace (x - M * S) with ((x - T * M') + ((T - S) * M' + S * (M' - M))) by ring. eapply Rle_trans; [apply Rabs_triang|].
  assert (A1 : Rabs ((T - S) * M' + S * (M' - M)) <= (F0 * (lam + 5 * m) + 2.2 * k) * (1.04 * M) + F0 * (mu * M)).
  { eapply Rle_trans; [apply Rabs_triang|]. rewrite !Rabs_mult, (Rabs_right M') by lra. apply Rplus_le_compat; apply Rmult_le_compat; try lra; apply Rabs_pos. }
  assert (A2 : u * Rabs (T * M') <= u * (1.62 * (F0 * M) + 2.3 * (k * M))) by (apply Rmult_le_compat_l; lra).
  assert (A3 : u * (F0 * M) <= m * (F0 * M)) by (apply Rmult_le_compat_r; lra).
  assert (A4 : u * (k * M) <= 1/100 * (k * M)) by (apply Rmult_le_compat_r; lra).
  assert (A5 : 0 <= (F0 * M) * m) by (apply Rmult_le_pos; lra). assert (A6 : 0 <= (F0 * M) * lam) by (apply Rmult_le_pos; lra).
  replace (F0 * M * (1.1 * lam + 7 * m + mu) + (3 * N * M + 1) * t) with (1.1 * (F0 * M * lam) + 7 * (F0 * M * m) + F0 * (mu * M) + 3 * (k * M) + t) by (unfold k; lra).
  replace ((F0 * (lam + 5 * m) + 2.2 * k) * (1.04 * M)) with (1.04 * (F0 * M * lam) + 5.2 * (F0 * M * m) + 2.288 * (k * M)) in A1 by lra. lra.
Qed.
End F.
