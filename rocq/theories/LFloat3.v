(** * Monotonicity that survives rounding: interpolation and age weights *)
From Coq Require Import Reals List Arith Lra Lia ZArith Bool.
From Flocq Require Import Core.Raux.
From Verif Require Import Num Arr MUtils MSed Float Spec RList LFloat LFloat2.
Import ListNotations.
Open Scope R_scope.

Lemma nondecreasing_tl x l : nondecreasing (x :: l) -> nondecreasing l.
Proof. intros H i j Hij. specialize (H (S i) (S j)). simpl in H. rewrite !ent_cons_S in H. apply H. lia. Qed.
Lemma filter_le_count T x : nondecreasing T ->
  let k := length (filter (fun e => Rle_bool e x) T) in
  (k <= length T)%nat /\ (forall i, (i < k)%nat -> ent T i <= x) /\ (forall i, (k <= i < length T)%nat -> x < ent T i).
Proof.
  induction T as [|t T IH]; intros I; cbn [filter length].
  { split; [lia|]. split; intros; simpl in *; lia. }
  destruct (IH (nondecreasing_tl _ _ I)) as (A & B & C). destruct (Rle_bool_spec t x) as [L|L]; cbn [length].
  - split; [lia|]. split.
    + intros [|i] Hi; [exact L|]. rewrite ent_cons_S. apply B. lia.
    + intros [|i] Hi; [lia|]. rewrite ent_cons_S. apply C. simpl in Hi. lia.
  - assert (E : filter (fun e => Rle_bool e x) T = []).
    { apply filter_none_gt. intros y Hy. apply In_ent in Hy. destruct Hy as (i & Hi & <-). specialize (I 0%nat (S i)).
      rewrite ent_cons_S in I. unfold ent at 1 in I. simpl in I. specialize (I ltac:(lia)). lra. }
    rewrite E. simpl. split; [lia|]. split; [lia|].
    intros [|i] Hi; [exact L|]. specialize (I 0%nat (S i)). unfold ent at 1 in I. simpl length in I. cbn [nth] in I. specialize (I ltac:(lia)). lra.
Qed.

Section Good.
Context {AR : Arith} (G : good_rounding AR).
Definition rep (x : R) : Prop := rnd x = Fin x.

Lemma ssr_fins T x : searchsorted_right (fins T) (Fin x) = length (filter (fun e => Rle_bool e x) T).
Proof. unfold searchsorted_right. induction T; simpl; auto. unfold nltb. destruct (Rlt_bool_spec x a), (Rle_bool_spec a x); simpl; auto; lra. Qed.

(** the value on segment [i-1, i] *)
Definition seg (T S : list R) (i : nat) (x : R) : num :=
  let dx := rnd (ent T i + - ent T (i - 1)) in
  if nleb (nabs dx) (Fin interp_eps) then Fin (ent S (i - 1))
  else nadd (Fin (ent S (i - 1))) (nmul (ndiv (rnd (x + - ent T (i - 1))) dx) (rnd (ent S i + - ent S (i - 1)))).

Lemma interp_seg T S x : (2 <= length T)%nat -> length S = length T -> nondecreasing T ->
  exists i, (1 <= i < length T)%nat
   /\ (x < ent T 0 -> i = 1%nat /\ interp (Fin x) (fins T) (fins S) = Fin (ent S 0))
   /\ (ent T (length T - 1) < x -> i = (length T - 1)%nat /\ interp (Fin x) (fins T) (fins S) = Fin (ent S (length T - 1)))
   /\ (ent T 0 <= x <= ent T (length T - 1) ->
        ent T (i - 1) <= x <= ent T i /\ ((i < length T - 1)%nat -> x < ent T i) /\ interp (Fin x) (fins T) (fins S) = seg T S i x).
Proof.
  intros L2 LS I. destruct (filter_le_count T x I) as (A & B & C). rewrite <- ssr_fins in A, B, C. set (k := searchsorted_right (fins T) (Fin x)) in *.
  exists (clip_index k (length T)). unfold clip_index in *.
  assert (R : (1 <= Nat.min (Nat.max k 1) (length T - 1) < length T)%nat) by lia. set (i := Nat.min (Nat.max k 1) (length T - 1)) in *.
  split; auto.
  assert (NT : T <> []) by (intros E; rewrite E in L2; simpl in L2; lia). assert (NS : S <> []) by (intros E; rewrite E in LS; simpl in LS; lia).
  assert (I0 : ent T 0 <= ent T (length T - 1)) by (apply I; lia).
  assert (IR : interp (Fin x) (fins T) (fins S) = if Rlt_bool (ent T (length T - 1)) x then Fin (ent S (length T - 1))
               else if Rlt_bool x (ent T 0) then Fin (ent S 0) else seg T S i x).
  { unfold interp, interp_lr, interp_core. rewrite fins_length. fold k. unfold clip_index. fold i. rewrite !first_fins, !last_fins by auto. rewrite LS.
    rewrite !at_fins by lia. unfold seg, nsub. cbn [nopp nadd]. unfold ngtb, nltb, nwhere.
    destruct (Rlt_bool _ x); auto. destruct (Rlt_bool x _); auto. cbv zeta. destruct (nleb _ (Fin interp_eps)); auto. }
  rewrite IR. split; [|split].
  - intros Lx. rewrite Rlt_bool_false by lra. rewrite Rlt_bool_true by lra. split; auto.
    assert (k = 0)%nat by (destruct k; auto; specialize (B 0%nat ltac:(lia)); lra). lia.
  - intros Lx. rewrite Rlt_bool_true by lra. split; auto.
    destruct (Nat.eq_dec k (length T)); [lia|]. specialize (C (length T - 1)%nat ltac:(lia)). lra.
  - intros [X1 X2]. rewrite !Rlt_bool_false by lra.
    assert (k1 : (1 <= k)%nat). { destruct k; [|lia]. specialize (C 0%nat ltac:(lia)). lra. }
    split; [split|split; auto].
    + apply B. lia.
    + destruct (le_lt_dec (length T) k) as [Q|Q].
      * replace i with (length T - 1)%nat by lia. lra.
      * apply Rlt_le. destruct (Nat.eq_dec k (length T - 1)); [|apply C; lia]. apply C. lia.
    + intros Hi. apply C. lia.
Qed.

(** one segment: between the two table values, and monotone *)
Definition good_table (T S : list R) : Prop :=
  length S = length T /\ nondecreasing T /\ nondecreasing S
  /\ (forall i, (i < length T)%nat -> rep (ent T i) /\ -1000 <= ent T i <= 1000)
  /\ (forall i, (i < length S)%nat -> rep (ent S i))
  /\ (forall i, (Datatypes.S i < length S)%nat -> rep (ent S (Datatypes.S i) - ent S i)).
Lemma int_rep n : (Z.abs n <= 2 ^ 24)%Z -> rep (IZR n).
Proof. intros H. apply (rnd_dy G n 0); auto; [lia|simpl; lra]. Qed.
Lemma seg_props T S i x y : good_table T S -> (1 <= i < length T)%nat -> ent T (i - 1) <= x -> x <= y -> y <= ent T i ->
  exists u v, seg T S i x = Fin u /\ seg T S i y = Fin v /\ ent S (i - 1) <= u <= v /\ v <= ent S i.
Proof.
  intros (LS & I & N & RT & RS & RD) Hi X XY Y.
  assert (SS : ent S (i - 1) <= ent S i) by (apply N; lia).
  assert (Rd : rep (ent S i + - ent S (i - 1))).
  { replace (ent S i + - ent S (i - 1)) with (ent S (Datatypes.S (i - 1)) - ent S (i - 1)) by (replace (Datatypes.S (i - 1)) with i by lia; lra). apply RD. lia. }
  unfold rep in *. unfold seg. rewrite Rd. set (df := ent S i + - ent S (i - 1)) in *. assert (Dp : 0 <= df) by (unfold df; lra).
  destruct (RT i ltac:(lia)) as [Ri Bi]. destruct (RT (i - 1)%nat ltac:(lia)) as [Rj Bj].
  assert (It : ent T (i - 1) <= ent T i) by (apply I; lia).
  assert (R2k : rnd 2000 = Fin 2000) by (apply (int_rep 2000); lia).
  destruct (rnd_between G 0 (ent T i + - ent T (i - 1)) 2000 (rnd0 G) R2k ltac:(lra)) as (dx & Edx & Bdx). rewrite Edx.
  pose proof (RS i ltac:(lia)) as RSi. pose proof (RS (i - 1)%nat ltac:(lia)) as RSj.
  destruct (nleb (nabs (Fin dx)) (Fin interp_eps)) eqn:Q.
  { exists (ent S (i - 1)), (ent S (i - 1)). repeat split; auto; lra. }
  assert (Px : 0 < dx).
  { destruct (Req_dec dx 0) as [Z|Z]; [|lra]. rewrite Z in Q. cbn [nabs] in Q. rewrite Rabs_R0 in Q.
    assert (nle (Fin 0) (Fin interp_eps)) by (apply nle_fin; apply (eps_nonneg _ G)). unfold nle in *. congruence. }
  assert (Rdx : rnd dx = Fin dx) by (eapply (rnd_idem _ G); eauto).
  assert (DL : forall z, ent T (i - 1) <= z -> z <= ent T i -> exists d, rnd (z + - ent T (i - 1)) = Fin d /\ 0 <= d <= dx).
  { intros z Z1 Z2. destruct (rnd_between G 0 (z + - ent T (i - 1)) 2000 (rnd0 G) R2k ltac:(lra)) as (d & Ed & Bd).
    exists d. split; auto. split; [lra|]. assert (W : nle (rnd (z + - ent T (i - 1))) (rnd (ent T i + - ent T (i - 1)))) by (apply (rnd_mono _ G); lra).
    rewrite Ed, Edx in W. now apply nle_fin. }
  destruct (DL x ltac:(lra) ltac:(lra)) as (d1 & E1 & B1). destruct (DL y ltac:(lra) ltac:(lra)) as (d2 & E2 & B2).
  assert (D12 : d1 <= d2). { assert (W : nle (rnd (x + - ent T (i - 1))) (rnd (y + - ent T (i - 1)))) by (apply (rnd_mono _ G); lra). rewrite E1, E2 in W. now apply nle_fin. }
  rewrite E1, E2. cbn [ndiv]. rewrite Req_bool_false by lra.
  assert (QL : forall d, 0 <= d <= dx -> exists q, rnd (d / dx) = Fin q /\ 0 <= q <= 1).
  { intros d Hd. apply rnd_between; [exact G|apply (rnd0 G)|apply (rnd1 G)|]. split; [apply Rdiv_le_0_compat'; lra|apply Rdiv_le_1'; lra]. }
  destruct (QL d1 B1) as (q1 & F1 & C1). destruct (QL d2 B2) as (q2 & F2 & C2).
  assert (Q12 : q1 <= q2).
  { assert (W : nle (rnd (d1 / dx)) (rnd (d2 / dx))) by (apply (rnd_mono _ G); unfold Rdiv; apply Rmult_le_compat_r; [apply Rlt_le, Rinv_0_lt_compat; lra|lra]).
    rewrite F1, F2 in W. now apply nle_fin. }
  rewrite F1, F2. cbn [nmul].
  assert (PL : forall q, 0 <= q <= 1 -> exists p, rnd (q * df) = Fin p /\ 0 <= p <= df).
  { intros q Hq. apply rnd_between; [exact G|apply (rnd0 G)|exact Rd|]. nra. }
  destruct (PL q1 C1) as (p1 & G1 & H1). destruct (PL q2 C2) as (p2 & G2 & H2).
  assert (P12 : p1 <= p2). { assert (W : nle (rnd (q1 * df)) (rnd (q2 * df))) by (apply (rnd_mono _ G); nra). rewrite G1, G2 in W. now apply nle_fin. }
  rewrite G1, G2. cbn [nadd].
  assert (AL : forall p, 0 <= p <= df -> exists s, rnd (ent S (i - 1) + p) = Fin s /\ ent S (i - 1) <= s <= ent S i).
  { intros p Hp. apply rnd_between; auto. unfold df in Hp. lra. }
  destruct (AL p1 H1) as (s1 & K1 & M1). destruct (AL p2 H2) as (s2 & K2 & M2).
  assert (S12 : s1 <= s2). { assert (W : nle (rnd (ent S (i - 1) + p1)) (rnd (ent S (i - 1) + p2))) by (apply (rnd_mono _ G); lra). rewrite K1, K2 in W. now apply nle_fin. }
  exists s1, s2. repeat split; auto; lra.
Qed.

Lemma interp_float_range T S x : good_table T S -> T <> [] ->
  exists v, interp (Fin x) (fins T) (fins S) = Fin v /\ ent S 0 <= v <= ent S (length T - 1).
Proof.
  intros GT NT. pose proof GT as (LS & I & N & RT & RS & RD).
  destruct (le_lt_dec 2 (length T)) as [L2|L2].
  - destruct (interp_seg T S x L2 LS I) as (i & Hi & A & B & C).
    assert (N0 : forall j, (j < length S)%nat -> ent S 0 <= ent S j <= ent S (length T - 1)).
    { intros j Hj. split; apply nondecreasing_le; auto; lia. }
    destruct (Rlt_le_dec x (ent T 0)) as [X|X]; [destruct (A X) as [_ ->]; eexists; split; [reflexivity|apply N0; lia]|].
    destruct (Rlt_le_dec (ent T (length T - 1)) x) as [X'|X']; [destruct (B X') as [_ ->]; eexists; split; [reflexivity|apply N0; lia]|].
    destruct (C (conj X X')) as (D & _ & ->). destruct (seg_props T S i x x GT Hi ltac:(lra) ltac:(lra) ltac:(lra)) as (u & v & E & _ & H & H').
    exists u. split; auto. pose proof (N0 i ltac:(lia)). pose proof (N0 (i - 1)%nat ltac:(lia)).
    assert (u <= ent S i) by lra. lra.
  - destruct T as [|t [|]]; simpl in L2; try lia; try congruence. destruct S as [|s [|]]; simpl in LS; try lia.
    exists s. split; [|unfold ent; simpl; lra]. unfold interp, interp_lr, interp_core, first, last_, at_, nwhere, clip_index. cbn [fins map length].
    rewrite Nat.min_0_r. cbn [nth Nat.sub]. unfold nsub. cbn [nopp nadd]. replace (t + - t) with 0 by lra. rewrite (rnd0 G). cbn [nabs]. rewrite Rabs_R0.
    assert (W : nle (Fin 0) (Fin interp_eps)) by (apply nle_fin; apply (eps_nonneg _ G)). unfold nle in W. rewrite W.
    destruct (_ >? _)%num; auto. destruct (_ <? _)%num; auto.
Qed.
Lemma interp_float_mono T S x y : good_table T S -> T <> [] -> x <= y ->
  nle (interp (Fin x) (fins T) (fins S)) (interp (Fin y) (fins T) (fins S)).
Proof.
  intros GT NT XY. pose proof GT as (LS & I & N & RT & RS & RD).
  destruct (interp_float_range T S x GT NT) as (vx & Ex & Bx). destruct (interp_float_range T S y GT NT) as (vy & Ey & By).
  destruct (le_lt_dec 2 (length T)) as [L2|L2].
  2:{ rewrite Ex, Ey. apply nle_fin. replace (length T - 1)%nat with 0%nat in * by lia. lra. }
  destruct (interp_seg T S x L2 LS I) as (i & Hi & A & B & C).
  destruct (interp_seg T S y L2 LS I) as (j & Hj & A' & B' & C').
  destruct (Rlt_le_dec x (ent T 0)) as [X|X]; [destruct (A X) as [_ ->]; rewrite Ey; apply nle_fin; lra|].
  destruct (Rlt_le_dec (ent T (length T - 1)) y) as [Y|Y]; [destruct (B' Y) as [_ ->]; rewrite Ex; apply nle_fin; lra|].
  destruct (C ltac:(lra)) as (D1 & D2 & D3). destruct (C' ltac:(lra)) as (F1 & F2 & F3). rewrite D3, F3.
  destruct (lt_eq_lt_dec i j) as [[Q|Q]|Q].
  - destruct (seg_props T S i x x GT Hi ltac:(lra) ltac:(lra) ltac:(lra)) as (u & v & -> & _ & H & H').
    destruct (seg_props T S j y y GT Hj ltac:(lra) ltac:(lra) ltac:(lra)) as (u' & v' & -> & _ & H2 & H2').
    apply nle_fin. assert (ent S i <= ent S (j - 1)) by (apply nondecreasing_le; auto; lia). lra.
  - rewrite <- Q in *. destruct (seg_props T S i x y GT Hi ltac:(lra) ltac:(lra) ltac:(lra)) as (u & v & -> & -> & H & H'). apply nle_fin. lra.
  - exfalso. assert (ent T j <= ent T (i - 1)) by (apply nondecreasing_le; auto; lia). assert (y < ent T j) by (apply F2; lia). lra.
Qed.

End Good.
