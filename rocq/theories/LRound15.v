(** * Spectra and band integrals in rounded arithmetic *)
From Coq Require Import Reals List Arith Lra Lia ZArith Bool.
From Coquelicot Require Import Rcomplements.
From Flocq Require Import Core.Raux.
From Verif Require Import Num Arr MUtils MCosmo MPhot Float Spec SpecFloat RList LUtils LKern2 LFloat LFloat2 LFloat3 LFloat4 LFloat5 LFloat10 LRound1 LRound2 LRound3 LRound4 LRound7 LRound14.
Import ListNotations.
Open Scope R_scope.

Section F.
Context {AR : Arith} (u : R) (H : rel_err AR u) (HE : interp_eps <= / 2 ^ 40).
Notation G := (re_good _ _ H).

(** the spectrum read at a filter wavelength *)
Lemma spectrum_err T S x B : spectrum_ok T S B -> / 10 ^ 20 <= B <= 10 ^ 30 -> rnd x = Fin x ->
  exists s, interp_lr (Fin 0) (Fin 0) (Fin x) (fins T) (fins S) = Fin s /\ rnd s = Fin s /\ Rabs (s - spectrum_at T S x) <= 20 * (u * B).
Proof.
  intros TO HB Rx. pose proof (spectrum_increasing _ _ _ TO) as I. destruct TO as (NT & LS & RT & GT & RS). pose proof (u_le u H) as Hu.
  assert (P20 : 0 < / 10 ^ 20) by apply e20_small.
  assert (Z : forall v, Rabs (v - v) <= 20 * (u * B)). { intros v. unfold Rminus. rewrite Rplus_opp_r, Rabs_R0. apply Rmult_le_pos; [lra|]. apply Rmult_le_pos; lra. }
  assert (N0 : length T <> 0%nat) by (destruct T; [congruence|discriminate]).
  unfold spectrum_at. destruct (Rlt_dec x (ent T 0)) as [X|X].
  { exists 0. split; [|split; [apply (rnd0 G)|apply Z]]. unfold interp_lr. rewrite first_fins, last_fins by auto. unfold nwhere, ngtb, nltb.
    assert (ent T 0 <= ent T (length T - 1)) by (apply (increasing_le T); auto; lia). rewrite (Rlt_bool_false (ent T (length T - 1))) by lra. now rewrite Rlt_bool_true. }
  destruct (Rlt_dec (ent T (length T - 1)) x) as [X'|X'].
  { exists 0. split; [|split; [apply (rnd0 G)|apply Z]]. unfold interp_lr. rewrite first_fins, last_fins by auto. unfold nwhere, ngtb, nltb. now rewrite (Rlt_bool_true (ent T (length T - 1))). }
  rewrite interp_lr_in by (auto; lra).
  destruct (le_lt_dec 2 (length T)) as [L2|L2].
  - destruct (interp_seg T S x L2 (eq_sym LS) (increasing_nondecreasing _ I)) as (i & Hi & _ & _ & C).
    destruct (C ltac:(lra)) as (D & _ & ->).
    destruct (RT i ltac:(lia)) as [R1 B1]. destruct (RT (i - 1)%nat ltac:(lia)) as [R0 B0]. destruct (RS i ltac:(lia)) as [S1 D1]. destruct (RS (i - 1)%nat ltac:(lia)) as [S0 D0].
    specialize (GT (i - 1)%nat ltac:(lia)). replace (Datatypes.S (i - 1)) with i in GT by lia.
    destruct (seg_err_S u H HE T S i x B) as (s & Es & Rs & Bs); auto; try lra; try (rewrite Rabs_right; lra). exists s. split; auto. split; auto.
    rewrite (pwlin_at T S x (i - 1)) by (auto; try lia; replace (Datatypes.S (i - 1)) with i by lia; auto). replace (Datatypes.S (i - 1)) with i by lia. exact Bs.
  - destruct T as [|t [|]]; simpl in L2; try lia; try congruence. destruct S as [|s [|]]; simpl in LS; try lia.
    exists s. destruct (RS 0%nat ltac:(simpl; lia)) as [Rs0 _]. split; [|split; [exact Rs0|cbn [combine pwlin]; apply Z]]. unfold interp, interp_lr, interp_core, first, last_, at_, nwhere, clip_index. cbn [fins map length].
    rewrite Nat.min_0_r. cbn [nth Nat.sub]. unfold nsub. cbn [nopp nadd]. replace (t + - t) with 0 by lra. rewrite (rnd0 G). cbn [nabs]. rewrite Rabs_R0.
    assert (W : nle (Fin 0) (Fin interp_eps)) by (apply nle_fin; apply (eps_nonneg _ G)). unfold nle in W. rewrite W.
    destruct (_ >? _)%num; auto. destruct (_ <? _)%num; auto.
Qed.
Lemma spectrum_range T S x B : spectrum_ok T S B -> 0 <= B -> 0 <= spectrum_at T S x <= B.
Proof.
  intros TO HB. pose proof (spectrum_increasing _ _ _ TO) as I. destruct TO as (NT & LS & RT & GT & RS). unfold spectrum_at.
  destruct (Rlt_dec _ _); [lra|]. destruct (Rlt_dec _ _); [lra|]. apply pwlin_range; auto. apply Forall_ent. intros i Hi. apply RS. lia.
Qed.

(** ** the trapezoid rule *)
(** machine wavelengths *)
Definition grid_ok (xs : list R) : Prop := increasing xs /\ forall i, (i < length xs)%nat -> rnd (ent xs i) = Fin (ent xs i) /\ 1 <= ent xs i <= 10 ^ 6.

Lemma cells_fins xs : forall ys, length xs = length ys ->
  map2 nmul (diff (fins xs)) (map2 nadd (tl (fins ys)) (fins ys)) =
  map (fun i => nmul (nsub (Fin (ent xs (S i))) (Fin (ent xs i))) (nadd (Fin (ent ys (S i))) (Fin (ent ys i)))) (seq 0 (length xs - 1)).
Proof.
  unfold diff. induction xs as [|x xs IH]; intros ys L; [reflexivity|]. destruct ys as [|y ys]; [discriminate|].
  destruct xs as [|x1 xs], ys as [|y1 ys]; try discriminate; [reflexivity|].
  replace (length (x :: x1 :: xs) - 1)%nat with (S (length (x1 :: xs) - 1)) by (simpl; lia). cbn [seq map]. rewrite <- seq_shift, map_map.
  specialize (IH (y1 :: ys) ltac:(simpl in *; lia)). cbn [fins map tl map2] in IH |- *. f_equal. exact IH.
Qed.

Lemma cell_err x x' y y' Y Y' V V' c : rnd x = Fin x -> rnd x' = Fin x' -> rnd y = Fin y -> rnd y' = Fin y' ->
  1 <= x -> x < x' -> x' <= 10 ^ 6 -> 0 <= V <= 10 ^ 31 -> 0 <= V' <= 10 ^ 31 -> 0 <= c <= / 10 ^ 3 -> Rabs Y <= V -> Rabs Y' <= V' -> Rabs (y - Y) <= c * V -> Rabs (y' - Y') <= c * V' ->
  exists p, nmul (nsub (Fin x') (Fin x)) (nadd (Fin y') (Fin y)) = Fin p /\ rnd p = Fin p
   /\ Rabs (p - (x' - x) * (Y + Y')) <= (1.001 * c + 3.01 * u) * ((x' - x) * (V + V')) + (u * / 2 ^ 82)
   /\ Rabs p <= 1.002 * ((x' - x) * (V + V')) + (u * / 2 ^ 82).
Proof.
  intros Rx Rx' Ry Ry' X1 XX X6 HV HV' Hc AY AY' EY EY'. pose proof (u_le u H) as Hu.
  assert (NX : rnd (- x) = Fin (- x)) by (rewrite (rnd_opp _ G x), Rx; reflexivity).
  unfold nsub. cbn [nopp nadd].
  set (D := x' - x). assert (HD : 0 < D <= 10 ^ 6) by (unfold D; lra).
  assert (E6 : 10 ^ 6 <= 10 ^ 37) by (apply Rle_pow; [lra|lia]).
  destruct (rnd_range _ G (x' + - x)) as (d & Ed). { replace (x' + - x) with D by (unfold D; lra). rewrite Rabs_right by lra. eapply Rle_trans; [apply HD|]. apply Rle_pow; [lra|lia]. }
  assert (X22 : / 10 ^ 22 <= Rabs x'). { rewrite Rabs_right by lra. apply Rle_trans with 1; [|lra]. rewrite <- Rinv_1. apply Rinv_le; [lra|apply pow_R1_Rle; lra]. }
  pose proof (re_add _ _ H _ _ _ Rx' NX Ed (safe_big_l _ _ X22)) as Ad. replace (x' + - x) with D in * by (unfold D; lra). rewrite (Rabs_right D) in Ad by lra. rewrite Ed.
  set (W := V + V'). assert (HW : 0 <= W <= 2 * 10 ^ 31) by (unfold W; lra).
  assert (CV : 0 <= c * V) by (apply Rmult_le_pos; lra). assert (CV' : 0 <= c * V') by (apply Rmult_le_pos; lra).
  apply Rabs_le_inv in AY, AY', EY, EY'.
  assert (CW : 0 <= c * W <= 0.001 * W) by (split; [apply Rmult_le_pos; lra|apply Rmult_le_compat_r; [lra|simpl in Hc; lra]]).
  assert (ECW : c * W = c * V + c * V') by (unfold W; ring).
  assert (YY : Rabs (y' + y) <= 1.001 * W) by (apply Rabs_le; unfold W in *; lra).
  destruct (rnd_range _ G (y' + y)) as (s & Es). { eapply Rle_trans; [exact YY|]. apply Rle_trans with (10 ^ 32); [simpl in *; lra|apply Rle_pow; [lra|lia]]. }
  pose proof (re_any _ _ H _ _ Es) as As. pose proof (tiny_u u H) as T0. set (t := u * / 2 ^ 102) in *.
  assert (Et : u * / 2 ^ 82 = 2 ^ 20 * t) by (unfold t; replace (2 ^ 102) with (2 ^ 20 * 2 ^ 82) by (rewrite <- pow_add; reflexivity); field; split; apply pow_nonzero; lra). rewrite Et.
  assert (Tu : 0 < t <= 1). { split; [apply T0|]. pose proof (tiny_u1 u H) as T1. fold t in T1. eapply Rle_trans; [exact T1|]. assert (u * / 10 ^ 6 <= 1 * 1) by (apply Rmult_le_compat; simpl; lra). lra. }
  assert (Dt : 0 <= D * t <= 10 ^ 6 * t) by (split; [apply Rmult_le_pos; lra|apply Rmult_le_compat_r; lra]). assert (ANY : forall v z, rnd v = Fin z -> Rabs (z - v) <= u * Rabs v + t) by exact (re_any _ _ H). clear T0. clearbody t. simpl (10 ^ 6) in Dt. assert (P20 : 2 ^ 20 = 1048576) by (simpl; lra). rewrite P20 in *. clear P20.
  assert (uDt : 0 <= u * (D * t) <= 0.001 * (D * t)) by (split; [apply Rmult_le_pos; lra|apply Rmult_le_compat_r; simpl in Hu; lra]). rewrite Es. cbn [nmul].
  assert (As' : Rabs (s - (y' + y)) <= u * (1.001 * W) + t) by (eapply Rle_trans; [exact As|apply Rplus_le_compat_r, Rmult_le_compat_l; lra]).
  assert (UW : 0 <= u * W <= / (4 * 10 ^ 6) * W) by (split; [apply Rmult_le_pos; lra|apply Rmult_le_compat_r; lra]). simpl (10 ^ 6) in UW.
  apply Rabs_le_inv in As', YY. assert (SS : Rabs s <= 1.0011 * W + t) by (apply Rabs_le; lra).
  assert (UD : 0 <= u * D <= / (4 * 10 ^ 6) * D) by (split; [apply Rmult_le_pos; lra|apply Rmult_le_compat_r; lra]). simpl (10 ^ 6) in UD.
  apply Rabs_le_inv in Ad. assert (DD : 0 < d <= 1.0000003 * D) by lra.
  assert (HDW : 0 <= D * W) by (apply Rmult_le_pos; lra).
  assert (DS : Rabs (d * s) <= 1.0012 * (D * W) + 1.01 * (D * t)).
  { rewrite Rabs_mult, (Rabs_right d) by lra. apply Rle_trans with ((1.0000003 * D) * (1.0011 * W + t)); [apply Rmult_le_compat; try lra; apply Rabs_pos|]. lra. }
  assert (DWB : D * W <= 2 * 10 ^ 37).
  { apply Rle_trans with (10 ^ 6 * (2 * 10 ^ 31)); [apply Rmult_le_compat; lra|]. replace (10 ^ 37) with (10 ^ 6 * 10 ^ 31) by (rewrite <- pow_add; reflexivity). lra. }
  destruct (rnd_range _ G (d * s)) as (p & Ep). { eapply Rle_trans; [exact DS|]. replace (10 ^ 38) with (10 * 10 ^ 37) by reflexivity. assert (1 <= 10 ^ 37) by (apply pow_R1_Rle; lra). assert (1000000 <= 10 ^ 37) by (replace 1000000 with (10 ^ 6) by (simpl; lra); apply Rle_pow; [lra|lia]). lra. }
  pose proof (ANY _ _ Ep) as Ap. rewrite Ep. exists p. split; auto. split; [eapply (rnd_idem _ G); eauto|].
  assert (Ap' : Rabs (p - d * s) <= u * (1.0012 * (D * W) + 1.01 * (D * t)) + t).
  { eapply Rle_trans; [exact Ap|]. apply Rplus_le_compat_r. apply Rmult_le_compat_l; lra. }
  assert (UDW : 0 <= u * (D * W) <= / (4 * 10 ^ 6) * (D * W)) by (split; [apply Rmult_le_pos; lra|apply Rmult_le_compat_r; lra]). simpl (10 ^ 6) in UDW.
  split.
  - assert (E1 : Rabs (d * s - D * (Y + Y')) <= (1.001 * c + 2.002 * u) * (D * W) + 1.01 * (D * t)).
    { replace (d * s - D * (Y + Y')) with (d * (s - (Y + Y')) + (d - D) * (Y + Y')) by ring. eapply Rle_trans; [apply Rabs_triang|]. rewrite !Rabs_mult, (Rabs_right d) by lra.
      assert (A1 : Rabs (s - (Y + Y')) <= 1.001 * (u * W) + c * W + t) by (apply Rabs_le; lra).
      assert (A2 : d * Rabs (s - (Y + Y')) <= (1.0000003 * D) * (1.001 * (u * W) + c * W + t)) by (apply Rmult_le_compat; try lra; apply Rabs_pos).
      assert (A3 : Rabs (d - D) * Rabs (Y + Y') <= (u * D) * W) by (apply Rmult_le_compat; try apply Rabs_pos; apply Rabs_le; unfold W; lra).
      assert (0 <= c * (D * W)) by (apply Rmult_le_pos; lra). lra. }
    apply Rabs_le_inv in E1, Ap'. apply Rabs_le. fold W. lra.
  - apply Rabs_le_inv in DS, Ap'. apply Rabs_le. fold W. lra.
Qed.
Lemma Rsum_seq_le (f g : nat -> R) l : (forall i, In i l -> f i <= g i) -> Rsum (map f l) <= Rsum (map g l).
Proof. induction l as [|a l IH]; intros Q; [simpl; lra|]. cbn [map Rsum]. pose proof (Q a (or_introl eq_refl)). specialize (IH (fun i Hi => Q i (or_intror Hi))). lra. Qed.
Lemma Rsum_seq_absle (f g : nat -> R) l : (forall i, In i l -> Rabs (f i) <= g i) -> Rabs (Rsum (map f l)) <= Rsum (map g l).
Proof. induction l as [|a l IH]; intros Q; [simpl; rewrite Rabs_R0; lra|]. cbn [map Rsum]. pose proof (Q a (or_introl eq_refl)). specialize (IH (fun i Hi => Q i (or_intror Hi))). eapply Rle_trans; [apply Rabs_triang|]. lra. Qed.
Lemma Rsum_seq_affine (f : nat -> R) a t l : Rsum (map (fun i => a * f i + t) l) = a * Rsum (map f l) + INR (length l) * t.
Proof. induction l as [|x l IH]; [simpl; lra|]. cbn [map Rsum length]. rewrite IH, S_INR. lra. Qed.

Lemma n_tiny n A : (n <= 2 ^ 18)%nat -> / 10 ^ 18 <= A -> INR n * (u * / 2 ^ 82) <= 0.06 * (u * A).
Proof.
  intros N HA. pose proof (u_le u H) as Hu. assert (N' : INR n <= 2 ^ 18). { apply le_INR in N. rewrite pow_INR in N. simpl (INR 2) in N. exact N. }
  assert (Z : 0 < / 2 ^ 82) by (apply Rinv_0_lt_compat, pow_lt; lra).
  assert (U82 : 0 < u * / 2 ^ 82) by (apply Rmult_lt_0_compat; lra).
  apply Rle_trans with (2 ^ 18 * (u * / 2 ^ 82)). { apply Rmult_le_compat_r; lra. }
  replace (2 ^ 18 * (u * / 2 ^ 82)) with (u * / 2 ^ 64) by (replace (2 ^ 82) with (2 ^ 18 * 2 ^ 64) by (rewrite <- pow_add; reflexivity); field; split; apply pow_nonzero; lra).
  replace (0.06 * (u * A)) with (u * (0.06 * A)) by ring. apply Rmult_le_compat_l; [lra|]. apply Rle_trans with (0.06 * / 10 ^ 18); [simpl; lra|apply Rmult_le_compat_l; lra].
Qed.
Lemma n_u n : (n <= 2 ^ 18)%nat -> INR n * u <= / 16.
Proof.
  intros N. assert (N' : INR n <= 2 ^ 18). { apply le_INR in N. rewrite pow_INR in N. exact N. } pose proof (re_u _ _ H) as U.
  apply Rle_trans with (2 ^ 18 * / 2 ^ 22); [apply Rmult_le_compat; [apply pos_INR| | |]; lra|simpl; lra].
Qed.

Lemma trapz_err xs ys (Y V : nat -> R) c : grid_ok xs -> length xs = length ys -> (1 <= length xs <= 2 ^ 18)%nat -> 0 <= c <= / 10 ^ 3 ->
  (forall i, (i < length xs)%nat -> rnd (ent ys i) = Fin (ent ys i) /\ Rabs (ent ys i - Y i) <= c * V i /\ Rabs (Y i) <= V i /\ V i <= 10 ^ 31) ->
  let n := length xs in let A := trapezoid xs (map V (seq 0 n)) in / 10 ^ 18 <= A <= 10 ^ 36 ->
  exists r, trapz_k (fins xs) (fins ys) = Fin r /\ rnd r = Fin r
    /\ Rabs (r - trapezoid xs (map Y (seq 0 n))) <= (1.001 * c + (1.1 * INR n + 5) * u) * A.
Proof.
  intros [I GX] LY LN Hc Q n A HA. pose proof (u_le u H) as Hu.
  assert (CE : forall i, (i < n - 1)%nat -> exists p, nmul (nsub (Fin (ent xs (S i))) (Fin (ent xs i))) (nadd (Fin (ent ys (S i))) (Fin (ent ys i))) = Fin p /\ rnd p = Fin p
     /\ Rabs (p - (ent xs (S i) - ent xs i) * (Y i + Y (S i))) <= (1.001 * c + 3.01 * u) * ((ent xs (S i) - ent xs i) * (V i + V (S i))) + (u * / 2 ^ 82)
     /\ Rabs p <= 1.002 * ((ent xs (S i) - ent xs i) * (V i + V (S i))) + (u * / 2 ^ 82)).
  { intros i Hi. unfold n in Hi. destruct (Q i ltac:(lia)) as (R0 & E0 & A0 & B0). destruct (Q (S i) ltac:(lia)) as (R1 & E1 & A1 & B1). destruct (GX i ltac:(lia)) as (X0 & XB0). destruct (GX (S i) ltac:(lia)) as (X1 & XB1).
    apply cell_err; auto; try lra; try (apply I; lia); pose proof (Rabs_pos (Y i)); pose proof (Rabs_pos (Y (S i))); lra. }
  unfold trapz_k. rewrite cells_fins by auto. fold n.
  set (F := fun i => nmul (nsub (Fin (ent xs (S i))) (Fin (ent xs i))) (nadd (Fin (ent ys (S i))) (Fin (ent ys i)))) in *.
  set (g := fun i => fval (F i)).
  assert (EF : map F (seq 0 (n - 1)) = fins (map g (seq 0 (n - 1)))).
  { unfold fins. rewrite map_map. apply map_ext_in. intros i Hi. apply in_seq in Hi. destruct (CE i ltac:(lia)) as (p & E & _). unfold g. change (F i = Fin (fval (F i))). unfold F. rewrite E. reflexivity. }
  assert (CG : forall i, (i < n - 1)%nat -> rnd (g i) = Fin (g i) /\ Rabs (g i - (ent xs (S i) - ent xs i) * (Y i + Y (S i))) <= (1.001 * c + 3.01 * u) * ((ent xs (S i) - ent xs i) * (V i + V (S i))) + (u * / 2 ^ 82)
     /\ Rabs (g i) <= 1.002 * ((ent xs (S i) - ent xs i) * (V i + V (S i))) + (u * / 2 ^ 82)).
  { intros i Hi. destruct (CE i Hi) as (p & E & B). unfold g, F. rewrite E. exact B. }
  rewrite EF. clear CE EF.
  assert (EM : forall Z, length xs = length (map (Z : nat -> R) (seq 0 n))) by (intros; rewrite map_length, seq_length; reflexivity).
  assert (EC : forall (Z : nat -> R), Rsum (map (fun i => (ent xs (S i) - ent xs i) * (Z i + Z (S i))) (seq 0 (n - 1))) = 2 * trapezoid xs (map Z (seq 0 n))).
  { intros Z. rewrite trapezoid_cells by auto. fold n. rewrite <- (Rplus_0_r (2 * _)). rewrite <- (Rmult_0_r (INR (length (seq 0 (n - 1))))), <- Rsum_seq_affine. f_equal. apply map_ext_in. intros i Hi. apply in_seq in Hi.
    unfold cell. rewrite !ent_map_seq by lia. cbn [Nat.add]. field. }
  set (T0 := trapezoid xs (map Y (seq 0 n))) in *.
  assert (NT : INR (n - 1) * (u * / 2 ^ 82) <= 0.06 * (u * A)) by (apply n_tiny; [unfold n; lia|apply HA]).
  assert (T1 : (u * / 2 ^ 82) <= 0.06 * (u * A)). { pose proof (n_tiny 1 A ltac:(apply Nat.le_trans with n; [unfold n; lia|unfold n; lia]) (proj1 HA)) as Q1. simpl (INR 1) in Q1. lra. }
  assert (NU : INR (n - 1) * u <= / 16) by (apply n_u; unfold n; lia).
  assert (P18 : 0 < / 10 ^ 18) by (apply Rinv_0_lt_compat, pow_lt; lra).
  assert (UA : 0 <= u * A <= / (4 * 10 ^ 6) * A) by (split; [apply Rmult_le_pos; lra|apply Rmult_le_compat_r; lra]). simpl (10 ^ 6) in UA.
  assert (S1 : Rabs (Rsum (map g (seq 0 (n - 1))) - 2 * T0) <= (1.001 * c + 3.01 * u) * (2 * A) + 0.06 * (u * A)).
  { unfold T0. rewrite <- EC, Rsum_minus_seq. eapply Rle_trans; [apply Rsum_seq_absle with (g := fun i => (1.001 * c + 3.01 * u) * ((ent xs (S i) - ent xs i) * (V i + V (S i))) + (u * / 2 ^ 82)); intros i Hi; apply in_seq in Hi; apply CG; lia|].
    rewrite Rsum_seq_affine, EC, seq_length. fold A. lra. }
  assert (S2 : Rsuma (map g (seq 0 (n - 1))) <= 2.005 * A).
  { unfold Rsuma. rewrite map_map. eapply Rle_trans; [apply Rsum_seq_le with (g := fun i => 1.002 * ((ent xs (S i) - ent xs i) * (V i + V (S i))) + (u * / 2 ^ 82)); intros i Hi; apply in_seq in Hi; apply CG; lia|].
    rewrite Rsum_seq_affine, EC, seq_length. fold A. lra. }
  assert (P36 : 10 ^ 37 = 10 * 10 ^ 36 /\ 10 ^ 38 = 100 * 10 ^ 36) by (split; [reflexivity|replace 100 with (10 ^ 2) by (simpl; lra); rewrite <- pow_add; reflexivity]). assert (0 < 10 ^ 36) by (apply pow_lt; lra).
  assert (N2 : (1 <= n - 1)%nat). { destruct (n - 1)%nat eqn:E; [|lia]. specialize (EC V). cbn [seq map Rsum] in EC. fold A in EC. lra. }
  destruct (vsum_signed u H (map g (seq 0 (n - 1)))) as (s & Es & As). { rewrite map_length, seq_length. exact N2. }
  { apply Forall_map, Forall_forall. intros i Hi. apply in_seq in Hi. apply CG. lia. } { rewrite map_length, seq_length. exact NU. } { lra. }
  rewrite map_length, seq_length in As. rewrite Es. cbn [nmul].
  assert (TL : 0 < u * / 2 ^ 102 <= u * / 2 ^ 82) by (split; [apply (tiny_u u H)|apply Rmult_le_compat_l; [lra|apply Rinv_le; [apply pow_lt; lra|apply Rle_pow; [lra|lia]]]]).
  assert (TN : 16 / 15 * INR (n - 1) * (u * / 2 ^ 102) <= 0.065 * (u * A)). { assert (INR (n - 1) * (u * / 2 ^ 102) <= INR (n - 1) * (u * / 2 ^ 82)) by (apply Rmult_le_compat_l; [apply pos_INR|lra]). lra. }
  set (m := INR (n - 1) * u) in *. assert (M0 : 0 <= m) by (apply Rmult_le_pos; [apply pos_INR|lra]).
  assert (mA : 0 <= m * A <= / 16 * A) by (split; [apply Rmult_le_pos; lra|apply Rmult_le_compat_r; lra]).
  assert (As2 : Rabs (s - Rsum (map g (seq 0 (n - 1)))) <= 2.14 * (m * A) + 0.065 * (u * A)).
  { eapply Rle_trans; [exact As|]. assert (16 / 15 * m * Rsuma (map g (seq 0 (n - 1))) <= 16 / 15 * m * (2.005 * A)) by (apply Rmult_le_compat_l; lra). lra. }
  assert (SA : Rabs (Rsum (map g (seq 0 (n - 1)))) <= 2.005 * A).
  { eapply Rle_trans; [|exact S2]. unfold Rsuma. rewrite map_map. apply Rsum_seq_absle. intros; lra. }
  assert (Sb : Rabs s <= 2.15 * A) by (apply Rabs_le_inv in As2, SA; apply Rabs_le; lra).
  destruct (rnd_range _ G (1 / 2 * s)) as (r & Er). { rewrite Rabs_mult, Rabs_right by lra. lra. }
  pose proof (re_any _ _ H _ _ Er) as Ar. exists r. split; auto. split; [eapply (rnd_idem _ G); eauto|].
  assert (Ar2 : Rabs (r - 1 / 2 * s) <= 1.08 * (u * A)).
  { eapply Rle_trans; [exact Ar|]. rewrite Rabs_mult, (Rabs_right (1 / 2)) by lra. assert (u * (1 / 2 * Rabs s) <= u * (1.075 * A)) by (apply Rmult_le_compat_l; lra). lra. }
  assert (mn : m * A <= INR n * (u * A)). { unfold m. rewrite Rmult_assoc. apply Rmult_le_compat_r; [lra|]. apply le_INR. lia. }
  assert (Nn : 0 <= INR n * (u * A)) by (apply Rmult_le_pos; [apply pos_INR|lra]).
  apply Rabs_le_inv in Ar2, As2, S1. apply Rabs_le.
  replace ((1.001 * c + (1.1 * INR n + 5) * u) * A) with (1.001 * (c * A) + 1.1 * (INR n * (u * A)) + 5 * (u * A)) by lra.
  replace ((1.001 * c + 3.01 * u) * (2 * A)) with (2.002 * (c * A) + 6.02 * (u * A)) in S1 by lra. lra.
Qed.
End F.
