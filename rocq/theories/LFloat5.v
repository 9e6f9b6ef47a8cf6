(** * Age weights in rounded arithmetic: non-negative, at most 1 *)
From Coq Require Import Reals List Arith Lra Lia ZArith Bool.
From Flocq Require Import Core.Raux.
From Coq Require Import Permutation.
From Verif Require Import Num Arr MUtils MSed Float Spec SpecFloat LOrder RList LUtils LFloat LFloat2 LFloat3 LFloat4.
Import ListNotations.
Open Scope R_scope.

Lemma u20 : 0 < / 2 ^ 20 <= 1 / 131072. Proof. simpl. lra. Qed.
Section Good.
Context {AR : Arith} (G : good_rounding AR) (LM : monotone_library AR).

Lemma rnd_nonneg x : 0 <= x -> nle (Fin 0) (rnd x).
Proof. intros H. rewrite <- (rnd0 G). now apply (rnd_mono _ G). Qed.
Lemma pow10_le_pow n x : x <= INR n -> pow10 x <= 10 ^ n.
Proof. intros H. rewrite <- Rpower_pow by lra. unfold pow10. apply Rle_Rpower; lra. Qed.

Lemma tbm : exists m, T_BIRTH_MIN = Fin m /\ 1 / 1024 <= m <= 1.
Proof.
  unfold T_BIRTH_MIN, lit. assert (R10 : rnd (1/1024) = Fin (1/1024)) by (apply (rnd_dy G 1 10); [lia|lia|simpl; lra]).
  apply (rnd_between G (1/1024) 0.001 1 R10 (rnd1 G)). lra.
Qed.
Lemma log10_1024 : -4 <= log10 (1/1024).
Proof.
  replace (-4) with (log10 (pow10 (-4))) by apply log10_pow10. apply log10_le; [apply pow10_pos|].
  replace (-4) with (- (4)) by lra. unfold pow10. rewrite Rpower_Ropp. replace 4 with (INR 4) by (simpl; lra). rewrite Rpower_pow by lra.
  replace (1 / 1024) with (/ 1024) by lra. apply Rinv_le; lra.
Qed.
Lemma log10_1000 : log10 1000 <= 3.
Proof. replace 3 with (log10 (pow10 3)) by apply log10_pow10. apply log10_le; [lra|]. unfold pow10. replace 3 with (INR 3) by (simpl; lra). rewrite Rpower_pow by lra. lra. Qed.

(** the clipped birth time, in logs *)
Lemma lgt_birth_props t e f : rnd t = Fin t -> t <= 1000 -> e <= f ->
  exists x y, get_lgt_birth (Fin t) (Fin e) = Fin x /\ get_lgt_birth (Fin t) (Fin f) = Fin y /\ y <= x.
Proof.
  intros Rt Bt EF. destruct tbm as (m & Em & Bm). unfold get_lgt_birth. rewrite Em.
  assert (P : nle (npow10 (Fin e)) (npow10 (Fin f))) by now apply (npow10_mono G LM).
  assert (Pe : nle (Fin 0) (npow10 (Fin e))) by apply (npow10_nonneg G).
  assert (C : forall p, nle (Fin 0) p -> exists b, (let t_birth := (Fin t - p)%num in nwhere (t_birth <? Fin m)%num (Fin m) t_birth) = Fin b
            /\ m <= b <= Rmax m t
            /\ forall q, nle p q -> nle ((let t_birth := (Fin t - q)%num in nwhere (t_birth <? Fin m)%num (Fin m) t_birth)) (Fin b)).
  { intros p Hp. pose proof (Rmax_l m t). pose proof (Rmax_r m t).
    destruct p as [p| | |]; try discriminate; cbv zeta; unfold nsub; cbn [nopp nadd].
    - rewrite nle_fin in Hp.
      assert (U : nle (rnd (t + - p)) (Fin t)) by (rewrite <- Rt; apply (rnd_mono _ G); lra).
      destruct (rnd (t + - p)) as [b| | |] eqn:Eb; try discriminate; unfold nwhere; cbn [nltb].
      + rewrite nle_fin in U. destruct (Rlt_bool_spec b m) as [Q|Q].
        * exists m. split; [reflexivity|]. split; [lra|]. intros q Hq. destruct q as [q| | |]; try discriminate.
          -- rewrite nle_fin in Hq. assert (V : nle (rnd (t + - q)) (rnd (t + - p))) by (apply (rnd_mono _ G); lra). cbn [nopp nadd]. rewrite Eb in V.
             destruct (rnd (t + - q)) as [z| | |]; try discriminate; cbn [nltb]; [|apply nle_fin; lra]. rewrite nle_fin in V. rewrite Rlt_bool_true by lra. apply nle_fin; lra.
          -- cbn [nopp nadd nltb]. apply nle_fin; lra.
        * exists b. split; [reflexivity|]. split; [lra|]. intros q Hq. destruct q as [q| | |]; try discriminate.
          -- rewrite nle_fin in Hq. assert (V : nle (rnd (t + - q)) (rnd (t + - p))) by (apply (rnd_mono _ G); lra). cbn [nopp nadd]. rewrite Eb in V.
             destruct (rnd (t + - q)) as [z| | |]; try discriminate; cbn [nltb]; [|apply nle_fin; lra]. rewrite nle_fin in V.
             destruct (Rlt_bool_spec z m); apply nle_fin; lra.
          -- cbn [nopp nadd nltb]. apply nle_fin; lra.
      + exists m. split; [reflexivity|]. split; [lra|]. intros q Hq. destruct q as [q| | |]; try discriminate.
        -- rewrite nle_fin in Hq. assert (V : nle (rnd (t + - q)) (rnd (t + - p))) by (apply (rnd_mono _ G); lra). cbn [nopp nadd]. rewrite Eb in V.
           destruct (rnd (t + - q)) as [z| | |]; try discriminate; cbn [nltb]. apply nle_fin; lra.
        -- cbn [nopp nadd nltb]. apply nle_fin; lra.
    - unfold nwhere; cbn [nltb]. exists m. split; [reflexivity|]. split; [lra|]. intros q Hq. destruct q; try discriminate. cbn [nopp nadd nltb]. apply nle_fin; lra. }
  assert (Pf : nle (Fin 0) (npow10 (Fin f))) by (eapply nle_trans; eauto).
  destruct (C _ Pe) as (b & Eb & Bb & Mb). destruct (C _ Pf) as (c & Ec & Bc & _). specialize (Mb _ P). cbv zeta in *.
  rewrite Ec in Mb. rewrite nle_fin in Mb. rewrite Eb, Ec.
  assert (LG : forall b, m <= b <= Rmax m t -> exists x, nlog10 (Fin b) = Fin x /\ nlog10 (Fin b) = elem (LOG10 b)).
  { intros z Hz. unfold nlog10. rewrite Rlt_bool_true by lra.
    assert (z <= 1000) by (unfold Rmax in Hz; destruct (Rle_dec m t); lra).
    assert (-4 <= log10 z <= 4).
    { split; [apply Rle_trans with (log10 (1/1024)); [apply log10_1024|apply log10_le; lra]|].
      apply Rle_trans with (log10 1000); [apply log10_le; lra|]. pose proof log10_1000. lra. }
    destruct (elem_fin G (LOG10 z)) as (x & Ex & _); [cbn; lra| |eauto]. cbn [elem_value]. fold (log10 z). apply Rle_trans with 4; [apply Rabs_le; lra|simpl; lra]. }
  destruct (LG b Bb) as (x & Ex & Lx). destruct (LG c Bc) as (y & Ey & Ly). exists x, y. split; auto. split; auto.
  assert (W : nle (elem (LOG10 c)) (elem (LOG10 b))) by (apply (LM c b Mb); lra).
  rewrite <- Lx, <- Ly, Ex, Ey in W. now apply nle_fin.
Qed.

(** ** Differences of a finite non-increasing sequence, normalised by their sum *)
Definition pos_rep (v : num) : Prop := exists d, v = Fin d /\ 0 <= d /\ rnd d = Fin d.
Lemma add_pos_rep s d : pos_rep s \/ s = PInf -> pos_rep d ->
  (pos_rep (nadd s d) \/ nadd s d = PInf) /\ nle s (nadd s d) /\ nle d (nadd s d).
Proof.
  intros Hs (x & -> & Xp & Rx). destruct Hs as [(a & -> & Ap & Ra)| ->]; cbn [nadd]; [|repeat split; auto].
  pose proof (rnd_nonneg (a + x) ltac:(lra)) as N.
  assert (M : nle (Fin x) (rnd (a + x))) by (rewrite <- Rx; apply (rnd_mono _ G); lra).
  assert (M' : nle (Fin a) (rnd (a + x))) by (rewrite <- Ra at 1; apply (rnd_mono _ G); lra).
  split; auto. destruct (rnd (a + x)) as [y| | |] eqn:E; try discriminate; auto. left. rewrite nle_fin in N. exists y. split; auto. split; auto.
  eapply (rnd_idem _ G); eauto.
Qed.
Lemma comb_nonneg l v : combines nadd l v -> Forall pos_rep l -> (pos_rep v \/ v = PInf) /\ Forall (fun x => nle x v) l.
Proof.
  induction 1 as [x|l l1 l2 v1 v2 P A IA B IB]; intros F.
  - apply Forall_cons_iff in F. destruct F as [F _]. split; [now left|]. constructor; [|constructor]. destruct F as (a & -> & _). apply nle_refl. congruence.
  - assert (F' : Forall pos_rep (l1 ++ l2)) by (apply Forall_forall; intros y Hy; rewrite Forall_forall in F; apply F; apply Permutation.Permutation_sym in P; eapply Permutation.Permutation_in; eauto).
    apply Forall_app in F'. destruct F' as [F1 F2]. destruct (IA F1) as [A1 A2]. destruct (IB F2) as [B1 B2].
    assert (K : (pos_rep (nadd v1 v2) \/ nadd v1 v2 = PInf) /\ nle v1 (nadd v1 v2) /\ nle v2 (nadd v1 v2)).
    { destruct B1 as [B1| ->]; [now apply add_pos_rep|]. destruct A1 as [(a & -> & _)| ->]; cbn [nadd]; repeat split; auto. }
    destruct K as (K1 & K2 & K3). split; auto. apply Forall_forall. intros y Hy. apply (Permutation.Permutation_in _ P) in Hy. apply in_app_or in Hy.
    rewrite Forall_forall in A2, B2. destruct Hy as [Hy|Hy]; eapply nle_trans; eauto.
Qed.
Lemma vsum_nonneg l : Forall pos_rep l -> (pos_rep (vsum l) \/ vsum l = PInf) /\ Forall (fun x => nle x (vsum l)) l.
Proof.
  intros F. destruct l as [|x l].
  - split; [|constructor]. left. exists 0. split; auto. split; [lra|apply (rnd0 G)].
  - apply comb_nonneg; auto. apply vsum_comb; [exact (sum_order _ G)|congruence].
Qed.

(** weights: all NaN, or all finite and between 0 and 1 *)
Lemma normalised l : Forall pos_rep l -> let w := map (fun d => ndiv d (vsum l)) l in
  (vsum l = Fin 0 -> all_nan w) /\ (vsum l <> Fin 0 -> all_unit w).
Proof.
  intros F w. unfold w. destruct (vsum_nonneg l F) as (A & C).
  unfold all_nan, all_unit. rewrite !Forall_map. rewrite Forall_forall in F, C. split.
  - intros E. rewrite E in *. apply Forall_forall. intros v Hv. specialize (F v Hv). specialize (C v Hv). destruct F as (d & -> & Dp & _).
    rewrite nle_fin in C. replace d with 0 by lra. cbn [ndiv]. rewrite Req_bool_true by lra. rewrite Rlt_bool_false by lra. reflexivity.
  - intros N. apply Forall_forall. intros v Hv. specialize (F v Hv). specialize (C v Hv). destruct F as (d & -> & Dp & Rd).
    destruct A as [(s & Es & Sp & _)|Es]; rewrite Es in *; cbn [ndiv]; [|exists 0; split; [reflexivity|lra]].
    rewrite nle_fin in C. assert (0 < s) by (destruct Sp as [Q|Q]; [exact Q|exfalso; apply N; now rewrite <- Q]).
    rewrite Req_bool_false by lra. apply rnd_between; [exact G|apply (rnd0 G)|apply (rnd1 G)|].
    split; [apply Rdiv_le_0_compat'; lra|apply Rdiv_le_1'; lra].
Qed.

Definition normalised_deltas (w : list num) : Prop :=
  exists D, w = map (fun d => ndiv d (vsum D)) D /\ Forall pos_rep D /\ Forall (fun v => nle v (rnd (2 * 10 ^ 30))) D.
Lemma deltas_unit w : normalised_deltas w -> all_nan w \/ all_unit w.
Proof.
  intros (D & -> & FD & _). destruct (normalised D FD) as [N1 N2].
  destruct (vsum D) as [s| | |] eqn:Es; try (right; apply N2; discriminate).
  destruct (Req_dec s 0) as [->|Q]; [left; now apply N1|right; apply N2; congruence].
Qed.
Lemma float_age_weights T S ages t : good_table T S -> T <> [] -> ent S (length S - 1) <= 30 -> rnd t = Fin t -> t <= 1000 ->
  (3 <= length ages)%nat -> (forall i, (i < length ages)%nat -> -4 <= ent ages i <= 4) ->
  (forall i, (i < length ages)%nat -> age_edge ages i + / 2 ^ 16 <= age_edge ages (Datatypes.S i)) ->
  let w := snd (calc_age_weights_from_logsm_table_k (fins T) (fins S) (fins ages) (Fin t)) in
  length w = length ages /\ normalised_deltas w.
Proof.
  intros GT NT BS Rt Bt L3 BA GA. cbv zeta. unfold calc_age_weights_from_logsm_table_k. cbn [snd].
  set (E := get_lg_age_bin_edges_k (fins ages)).
  set (M := map npow10 (map (fun x => interp x (fins T) (fins S)) (map (get_lgt_birth (Fin t)) E))).
  assert (LE : length E = Datatypes.S (length ages)) by (apply (edges_approx (/ 2 ^ 20) u20 (rnd_err _ G) ages 0); auto; lia).
  assert (LMl : length M = Datatypes.S (length ages)) by (unfold M; rewrite !map_length; exact LE).
  assert (LS : length S = length T) by apply GT.
  assert (OE : forall i, (i < length ages)%nat -> exists e f, at_ E i = Fin e /\ at_ E (Datatypes.S i) = Fin f /\ e <= f).
  { intros i Hi. destruct (edges_approx (/ 2 ^ 20) u20 (rnd_err _ G) ages i L3 BA ltac:(lia)) as [_ (e & Ee & Be)].
    destruct (edges_approx (/ 2 ^ 20) u20 (rnd_err _ G) ages (Datatypes.S i) L3 BA ltac:(lia)) as [_ (f & Ef & Bf)]. exists e, f. split; auto. split; auto.
    specialize (GA i Hi). apply Rabs_le_inv in Be, Bf. assert (/ 2 ^ 16 = 16 * / 2 ^ 20) by (simpl; lra). assert (0 < / 2 ^ 20) by (apply Rinv_0_lt_compat; lra). lra. }
  assert (PM : forall v, v <= ent S (length T - 1) -> exists p, npow10 (Fin v) = Fin p /\ 0 <= p /\ rnd p = Fin p /\ nle (Fin p) (rnd (2 * 10 ^ 30))).
  { intros v Hv. assert (P0 : 0 < pow10 v) by apply pow10_pos. rewrite LS in BS.
    assert (P1 : pow10 v <= 10 ^ 30) by (apply pow10_le_pow; replace (INR 30) with 30 by (simpl; lra); lra).
    destruct (npow10_fin G v) as (p & Ep & Pp & Rp & Dp).
    { apply Rle_trans with (10 ^ 30); auto. apply Rle_pow; [lra|lia]. }
    exists p. split; auto. split; auto. split; auto. rewrite <- Rp. apply (rnd_mono _ G). fold (pow10 v) in Dp. apply Rabs_le_inv in Dp.
    pose proof u20. assert (/ 2 ^ 20 * pow10 v <= 1 / 131072 * 10 ^ 30) by (apply Rmult_le_compat; lra).
    assert (/ 2 ^ 122 <= 1) by (rewrite <- Rinv_1; apply Rinv_le; [lra|apply pow_R1_Rle; lra]). assert (1 <= 10 ^ 30 / 10) by (simpl; lra). lra. }
  assert (OM : forall i, (i < length ages)%nat -> exists p q, at_ M i = Fin p /\ at_ M (Datatypes.S i) = Fin q /\ 0 <= q <= p /\ rnd p = Fin p /\ nle (Fin p) (rnd (2 * 10 ^ 30))).
  { intros i Hi. destruct (OE i Hi) as (e & f & Ee & Ef & EF). destruct (lgt_birth_props t e f Rt Bt EF) as (x & y & Ex & Ey & XY).
    destruct (interp_float_range G T S x GT NT) as (vx & Ix & Bx). destruct (interp_float_range G T S y GT NT) as (vy & Iy & By).
    pose proof (interp_float_mono G T S y x GT NT XY) as MO. rewrite Ix, Iy, nle_fin in MO.
    destruct (PM vx ltac:(lra)) as (p & Ep & Pp & Rp & Up). destruct (PM vy ltac:(lra)) as (q & Eq & Qp & Rq & _).
    exists p, q. unfold M, at_. rewrite !(nth_map' _ _ _ NaN) by (rewrite ?map_length; lia). fold (at_ E i). fold (at_ E (Datatypes.S i)).
    rewrite Ee, Ef, Ex, Ey, Ix, Iy, Ep, Eq. split; auto. split; auto.
    split; [|split; auto]. split; auto.
    assert (W : nle (npow10 (Fin vy)) (npow10 (Fin vx))) by now apply (npow10_mono G LM). rewrite Ep, Eq in W. now apply nle_fin. }
  set (D := map nopp (diff M)).
  assert (LD : length D = length ages) by (unfold D, diff; rewrite map_length, map2_length, tl_length; lia).
  assert (FD : Forall (fun v => pos_rep v /\ nle v (rnd (2 * 10 ^ 30))) D).
  { apply Forall_forall. intros v Hv. apply (In_nth _ _ NaN) in Hv. destruct Hv as (i & Hi & <-). rewrite LD in Hi.
    destruct (OM i Hi) as (p & q & Ep & Eq & PQ & Rp & UP).
    unfold D, diff. rewrite (nth_map' _ _ _ NaN) by (rewrite map2_length, tl_length; lia). rewrite (map2_nth _ _ _ _ NaN NaN) by (rewrite ?tl_length; lia).
    rewrite tl_nth. fold (at_ M i). fold (at_ M (Datatypes.S i)). rewrite Ep, Eq. unfold nsub. cbn [nopp nadd].
    assert (Rmp : rnd (- p) = Fin (- p)) by (rewrite (rnd_opp _ G), Rp; reflexivity).
    destruct (rnd_between G (- p) (q + - p) 0 Rmp (rnd0 G) ltac:(lra)) as (z & Ez & Bz). rewrite Ez. cbn [nopp]. split.
    - exists (- z). split; auto. split; [lra|]. rewrite (rnd_opp _ G), (rnd_idem _ G _ _ Ez). reflexivity.
    - apply nle_trans with (Fin p); auto. apply nle_fin. lra. }
  split; [now rewrite map_length|]. exists D. split; [reflexivity|]. split; (eapply Forall_impl; [|exact FD]); intros v Hv; apply Hv.
Qed.
End Good.
