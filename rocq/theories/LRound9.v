(** * Joint weights and SEDs in rounded arithmetic against the exact ones *)
From Coq Require Import Reals List Arith Lra Lia ZArith Bool.
From Coquelicot Require Import Rcomplements.
From Flocq Require Import Core.Raux.
From Verif Require Import Num Arr MUtils MSed Float Spec SpecFloat RList LUtils LAge LMet LJoint LFloat LFloat2 LFloat3 LFloat5 LFloat10 LFloat11 LFloat12 LRound1 LRound2 LRound3 LRound4 LRound5 LRound6 LRound7 LRound8.
Import ListNotations.
Open Scope R_scope.

Lemma suma_scal_l c l : Rsuma (map (fun x => c * x) l) = Rabs c * Rsuma l.
Proof. unfold Rsuma. rewrite map_map. induction l as [|x l IH]; cbn [map Rsum]; [ring|]. rewrite IH, Rabs_mult. ring. Qed.
Lemma outer_suma b a : Rsuma (concat (outer b a)) = Rsuma b * Rsuma a.
Proof. unfold outer. induction b as [|y b IH]; [cbn; unfold Rsuma; cbn; ring|]. cbn [map concat]. rewrite suma_app, IH, suma_scal_l. unfold Rsuma at 4. cbn [map Rsum]. fold (Rsuma b). ring. Qed.
Lemma outer_l1 b : forall b0 a a0, length b = length b0 -> length a = length a0 ->
  l1 (concat (outer b a)) (concat (outer b0 a0)) <= l1 b b0 * Rsuma a + Rsuma b0 * l1 a a0.
Proof.
  induction b as [|y b IH]; intros [|y0 b0] a a0 L La; try discriminate; [unfold l1, Rsuma; cbn; lra|]. injection L as L. specialize (IH b0 a a0 L La).
  cbn [outer map concat]. rewrite l1_app by (rewrite !map_length; auto). fold (outer b a) (outer b0 a0).
  assert (R1 : l1 (map (fun x => y * x) a) (map (fun x => y0 * x) a0) <= Rabs (y - y0) * Rsuma a + Rabs y0 * l1 a a0).
  { clear -La. revert a0 La. induction a as [|x a IH]; intros [|x0 a0] La; try discriminate; [unfold l1, Rsuma; cbn; lra|]. injection La as La. specialize (IH a0 La).
    unfold l1, Rsuma in *. cbn [map map2 Rsum]. assert (Rabs (y * x - y0 * x0) <= Rabs (y - y0) * Rabs x + Rabs y0 * Rabs (x - x0)); [|lra].
    replace (y * x - y0 * x0) with ((y - y0) * x + y0 * (x - x0)) by ring. eapply Rle_trans; [apply Rabs_triang|]. rewrite !Rabs_mult. lra. }
  unfold l1 at 3. unfold Rsuma at 2. cbn [map map2 Rsum]. fold (l1 b b0) (Rsuma b0). lra.
Qed.
Lemma concat_map_fins W : concat (map fins W) = fins (concat W).
Proof. unfold fins. now rewrite concat_map. Qed.
Lemma suma_bound a a0 e : length a = length a0 -> distribution a0 -> l1 a a0 <= e -> Rsuma a <= 1 + e.
Proof. intros L [P S] E. pose proof (l1_suma a a0 L). rewrite (suma_nonneg a0) in * by auto. lra. Qed.

Section F.
Context {AR : Arith} (u : R) (H : rel_err AR u) (HE : interp_eps <= / 2 ^ 40).
Let G := re_good _ _ H.

Lemma matrix_norm L L0 T e0 n m : is_matrix n m L -> is_matrix n m L0 -> (1 <= n * m)%nat ->
  Forall (fun x => 0 <= x) (concat L0) -> Rsum (concat L0) = T -> / 2 ^ 30 <= T <= 2 -> l1 (concat L) (concat L0) <= e0 * T -> 0 <= e0 <= 1/20 ->
  INR (n * m) * u <= 1/100 ->
  exists W, normalize_matrix (map (map rnd) L) = map fins W /\ is_matrix n m W
    /\ l1 (concat W) (map (fun x => x / T) (concat L0)) <= 2.5 * e0 + 8 * (INR (n * m) * u).
Proof.
  intros ML ML0 N0 P ST BT E0 Be NU. pose proof (u_le u H) as Hu. simpl (10 ^ 6) in Hu.
  pose proof (concat_length_matrix _ _ _ ML) as LC. pose proof (concat_length_matrix _ _ _ ML0) as LC0.
  assert (N1 : 1 <= INR (n * m)) by (apply (le_INR 1); auto). set (N := INR (n * m)) in *.
  assert (T30 : 0 < / 2 ^ 30) by (apply Rinv_0_lt_compat, pow_lt; lra).
  assert (EB : e0 * T <= 1/10) by (replace (1/10) with (1/20 * 2) by lra; apply Rmult_le_compat; lra).
  pose proof (l1_suma (concat L) (concat L0) ltac:(lia)) as SU. rewrite (suma_nonneg (concat L0)) in SU by auto. rewrite ST in SU.
  assert (SU2 : Rsuma (concat L) <= (1 + e0) * T) by lra.
  destruct (round_list u H (concat L)) as (p & Ep & Lp & Rp & Dp).
  { apply Forall_forall. intros x Hx. apply suma_In in Hx. assert (1 <= 10 ^ 36) by (apply pow_R1_Rle; lra). change (10 ^ 36) with (10 * 10 ^ 35). assert (1 <= 10 ^ 35) by (apply pow_R1_Rle; lra). lra. }
  rewrite LC in Dp, Lp. fold N in Dp.
  assert (TN : N * (u * / 2 ^ 102) <= 0.01 * (N * u) * T).
  { assert ((u * / 2 ^ 102) <= 0.01 * u * T).
    { eapply Rle_trans; [apply (re_tiny2 _ _ H)|]. replace (0.01 * u * T) with (u * (0.01 * T)) by ring. apply Rmult_le_compat_l; [lra|].
      apply Rle_trans with (0.01 * / 2 ^ 30); [|lra]. apply Rle_trans with (/ 2 ^ 10 * / 2 ^ 30); [|apply Rmult_le_compat_r; [lra|simpl; lra]].
      rewrite <- Rinv_mult, <- pow_add. apply Rinv_le; [apply pow_lt; lra|apply Rle_pow; [lra|lia]]. }
    replace (0.01 * (N * u) * T) with (N * (0.01 * u * T)) by ring. apply Rmult_le_compat_l; lra. }
  assert (U1 : u * Rsuma (concat L) <= 1.05 * u * T).
  { replace (1.05 * u * T) with (u * (1.05 * T)) by ring. apply Rmult_le_compat_l; [lra|]. eapply Rle_trans; [exact SU2|]. apply Rmult_le_compat_r; lra. }
  assert (NU0 : 0 <= N * u) by (apply Rmult_le_pos; lra).
  set (eps := e0 + 1.06 * (N * u)).
  assert (UT : u * T <= N * u * T). { apply Rmult_le_compat_r; [lra|]. rewrite <- (Rmult_1_l u) at 1. apply Rmult_le_compat_r; lra. }
  assert (DL : l1 p (concat L0) <= eps * T).
  { eapply Rle_trans; [apply (l1_triangle p (concat L) (concat L0)); lia|]. unfold eps. lra. }
  destruct (normalise_signed u H p (concat L0) T eps) as (w & Ew & Lw & Rw & Dw); auto; try lia.
  { unfold eps. lra. } { rewrite Lp. fold N. exact NU. }
  rewrite Lp in Dw, Lw. fold N in Dw.
  (* reshape *)
  set (total := vsum (fins p)) in *.
  set (P' := map (map (fun x => fval (rnd x))) L). set (W := map (map (fun d => fval (ndiv (Fin d) total))) P').
  assert (Q1 : forall x, In x (concat L) -> rnd x = Fin (fval (rnd x))).
  { intros x Hx. assert (In (rnd x) (fins p)) as Hi by (rewrite <- Ep; now apply in_map). apply in_map_iff in Hi. destruct Hi as (y & <- & _). reflexivity. }
  assert (EP' : map (map rnd) L = map fins P').
  { unfold P'. rewrite map_map. apply map_ext_in. intros row Hr. unfold fins. rewrite map_map. apply map_ext_in. intros x Hx. apply Q1. apply in_concat. eauto. }
  assert (CP : concat P' = p). { apply fins_inj. rewrite <- concat_map_fins, <- EP', <- concat_map. auto. }
  assert (Q2 : forall d, In d p -> ndiv (Fin d) total = Fin (fval (ndiv (Fin d) total))).
  { intros d Hd. assert (In (ndiv (Fin d) total) (fins w)) as Hi. { rewrite <- Ew. apply (in_map (fun d => ndiv d total)). now apply in_map. } apply in_map_iff in Hi. destruct Hi as (y & <- & _). reflexivity. }
  assert (MP : is_matrix n m P'). { destruct ML as [A B]. split; [unfold P'; now rewrite map_length|]. unfold P'. apply Forall_map. eapply Forall_impl; [|exact B]. intros r Hr. now rewrite map_length. }
  exists W. split; [|split].
  - rewrite EP'. unfold normalize_matrix. rewrite concat_map_fins, CP. fold total. unfold W. rewrite !map_map. apply map_ext_in. intros row Hr. unfold fins. rewrite !map_map. apply map_ext_in. intros d Hd. apply Q2. rewrite <- CP. apply in_concat. eauto.
  - destruct MP as [A B]. split; [unfold W; now rewrite map_length|]. unfold W. apply Forall_map. eapply Forall_impl; [|exact B]. intros r Hr. now rewrite map_length.
  - assert (CW : concat W = w).
    { apply fins_inj. rewrite <- Ew. unfold W. rewrite <- concat_map, CP. unfold fins. rewrite !map_map. apply map_ext_in. intros d Hd. symmetry. now apply Q2. }
    rewrite CW. eapply Rle_trans; [exact Dw|]. unfold eps. lra.
Qed.

(** from SED weights to the SED *)
Lemma pairs_snd n m w W f k : is_matrix n m W -> is_cube n m w f -> map snd (sed_pairs f W k) = concat W.
Proof.
  intros [<- HW] [Hn Hf]. unfold sed_pairs. revert f Hn Hf. induction HW as [|r W Hr HW IH]; intros [|p f] Hn Hf; try discriminate; [reflexivity|].
  cbn [map2 concat]. rewrite map_app. apply Forall_cons_iff in Hf. destruct Hf as [[Hp _] Hf]. rewrite (IH f) by (auto; simpl in Hn; lia). f_equal.
  assert (length p = length r) as E by lia. clear -E. revert p E. induction r as [|x r IH]; intros [|s p] E; try discriminate; [reflexivity|]. cbn [map2 map snd]. f_equal. apply IH. simpl in E. lia.
Qed.
Lemma pairs_fst n m w W W0 f k : is_matrix n m W -> is_matrix n m W0 -> is_cube n m w f -> map fst (sed_pairs f W k) = map fst (sed_pairs f W0 k).
Proof.
  intros [L HW] [L0 HW0] [Hn Hf]. unfold sed_pairs. revert n W W0 L L0 Hn HW HW0. induction f as [|p f IH]; intros n [|r W] [|r0 W0] L L0 Hn HW HW0; simpl in *; try lia; try reflexivity.
  rewrite !map_app. apply Forall_cons_iff in Hf, HW, HW0. destruct Hf as [[Hp _] Hf]. f_equal.
  - assert (E : length r = length p) by lia. assert (E0 : length r0 = length p) by lia. clear -E E0. revert p r0 E E0. induction r as [|x r IH]; intros [|s p] [|x0 r0] E E0; try discriminate; [reflexivity|]. cbn [map2 map fst]. f_equal. apply IH; simpl in *; lia.
  - apply (IH Hf (n - 1)%nat); try lia; tauto.
Qed.
Lemma pairs_dot (l : list (R * R)) : Rsum (map2 Rmult (map snd l) (map fst l)) = Rsum (map (fun p => fst p * snd p) l).
Proof. induction l as [|[x y] l IH]; [reflexivity|]. cbn [map map2 Rsum fst snd]. rewrite IH. ring. Qed.
Lemma pairs_bound n m w W f k F0 : is_matrix n m W -> is_cube n m w f -> (k < w)%nat ->
  (forall i j, (i < n)%nat -> (j < m)%nat -> Rabs (ent3 f i j k) <= F0) -> Forall (fun p => Rabs (fst p) <= F0) (sed_pairs f W k).
Proof.
  intros [L HW] [Hn Hf] Hk P. unfold sed_pairs. apply Forall_concat, Forall_forall. intros row Hr.
  destruct (In_nth _ _ [] Hr) as [i [Hi <-]]. rewrite map2_length in Hi. rewrite map2_nth with (d1 := []) (d2 := []) by lia.
  rewrite Forall_forall in HW, Hf. assert (L1 := HW (nth i W []) ltac:(apply nth_In; lia)). destruct (Hf (nth i f [])) as [L2 _]; [apply nth_In; lia|].
  apply Forall_forall. intros p Hp. destruct (In_nth _ _ (0, 0) Hp) as [j [Hj <-]]. rewrite map2_length in Hj.
  rewrite map2_nth with (d1 := []) (d2 := 0) by lia. cbn [fst]. apply (P i j ltac:(lia) ltac:(lia)).
Qed.

Lemma sed_err n m w W W0 f M M' lam mu F0 : is_matrix n m W -> is_matrix n m W0 -> is_cube n m w f -> (0 < n)%nat -> (0 < m)%nat ->
  Forall (fun x => 0 <= x) (concat W0) -> Rsum (concat W0) = 1 -> l1 (concat W) (concat W0) <= lam -> lam <= 1/2 -> INR (n * m) * u <= 1/100 ->
  (forall i j k, (i < n)%nat -> (j < m)%nat -> (k < w)%nat -> Rabs (ent3 f i j k) <= F0 k) ->
  (forall k, (k < w)%nat -> 0 <= F0 k <= 10 ^ 30 /\ F0 k * M <= 10 ^ 36) -> 0 <= M <= 10 ^ 36 -> Rabs (M' - M) <= mu * M -> 0 <= mu <= 1/25 ->
  exists sed, map (fun s => nmul s (Fin M')) (sed_unit_mstar (fins3 f) (map fins W)) = fins sed /\ length sed = w
    /\ forall k, (k < w)%nat -> Rabs (ent sed k - template_mix n m W0 f k * M) <= F0 k * M * (1.1 * lam + 7 * (INR (n * m) * u) + mu) + (3 * INR (n * m) * M + 1) * (u * / 2 ^ 102).
Proof.
  intros HW HW0 Hf N0 M0 P0 S0 DL HL NU BF BF2 BM DM Bmu. unfold sed_unit_mstar. rewrite (cube_n_wave n m w f) by auto. rewrite map_map.
  set (g := fun k => nmul (vsum (concat (map2 (map2 (fun spec x => nmul (at_ spec k) x)) (fins3 f) (map fins W)))) (Fin M')).
  assert (K : forall k, (k < w)%nat -> exists x, g k = Fin x /\ Rabs (x - template_mix n m W0 f k * M) <= F0 k * M * (1.1 * lam + 7 * (INR (n * m) * u) + mu) + (3 * INR (n * m) * M + 1) * (u * / 2 ^ 102)).
  { intros k Hk. unfold g. destruct (sed_pairs_props n m w W f k HW Hf Hk) as (_ & E & L & _). rewrite (E AR).
    assert (1 <= n * m)%nat by nia. destruct (BF2 k Hk) as [B1 B2].
    destruct (sed_signed u H (sed_pairs f W k) (concat W0) (F0 k) M M' lam mu) as (x & Ex & Bx); auto; try lia; try lra.
    - apply (pairs_bound n m w); auto. - rewrite L. apply (concat_length_matrix _ n m). auto. - rewrite (pairs_snd n m w); auto. - rewrite L. auto.
    - exists x. split; auto. rewrite L in Bx. rewrite (pairs_fst n m w W W0) in Bx by auto. rewrite <- (pairs_snd n m w W0 f k) in Bx by auto. rewrite pairs_dot, (sed_pairs_sum n m w) in Bx by auto. rewrite (Rmult_comm M) in Bx. exact Bx. }
  exists (map (fun k => fval (g k)) (seq 0 w)). rewrite map_length, seq_length. split; [|split; auto].
  - unfold fins. rewrite map_map. apply map_ext_in. intros k Hk. apply in_seq in Hk. destruct (K k ltac:(lia)) as (x & -> & _). reflexivity.
  - intros k Hk. rewrite ent_map_seq by auto. rewrite Nat.add_0_l. destruct (K k Hk) as (x & -> & B). exact B.
Qed.
End F.
