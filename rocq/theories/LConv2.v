(** * Convergence, continued: the mass history between the table nodes *)
From Coq Require Import Reals List Arith Lra Lia.
From Coquelicot Require Import Coquelicot.
From Verif Require Import Num MUtils MSed Spec SpecConv RList LUtils LCalc LAge LMet LJoint LConv1.
Import ListNotations.
Open Scope R_scope.

Lemma chasles (f : R -> R) K a b c : (forall s t, Rabs (f s - f t) <= K * Rabs (s - t)) -> RInt f a b + RInt f b c = RInt f a c.
Proof. intros H. apply (RInt_Chasles (V := R_CompleteNormedModule) f a b c); eapply lip_ex; eauto. Qed.

Lemma node_error K F f h ts : (forall s t, Rabs (f s - f t) <= K * Rabs (s - t)) -> (forall t, 0 <= f t <= F) -> 1 / 10 ^ 14 <= F ->
  increasing (0.001 :: ts) -> (forall i, (i < length ts)%nat -> gap (0.001 :: ts) i <= h) ->
  forall i, (i < length ts)%nat ->
  Rabs (ent (cumulative_mass ts (map f ts)) i - 10 ^ 9 * RInt f 0.001 (ent ts i)) <= 10 ^ 9 * ((K * (ent ts i - 0.001) + F) / 2 * h).
Proof.
  intros H HF H14 Hi Hg. pose proof (lip_K K f H) as HK. pose proof (proj1 (increasing_cons _ _) Hi) as [H0 Hi1].
  induction i as [|i IH]; intros Hlt.
  - destruct ts as [|t ts]; [simpl in Hlt; lia|]. simpl map. rewrite cumulative_mass_0. rewrite ent_0.
    assert (Ht : 0.001 < t) by (apply (H0 t); left; reflexivity).
    pose proof (Hg 0%nat ltac:(simpl; lia)) as G. unfold gap in G. rewrite ent_cons_S, !ent_0 in G.
    pose proof (panel_error K f 0.001 t H ltac:(lra)) as P. pose proof (HF 0.001) as HF0.
    assert (B1 : Rabs ((t - 0.001) * (1 / 10 ^ 14 - f 0.001) / 2) <= F / 2 * h).
    { replace ((t - 0.001) * (1 / 10 ^ 14 - f 0.001) / 2) with (((1 / 10 ^ 14 - f 0.001) / 2) * (t - 0.001)) by field.
      rewrite Rabs_mult, (Rabs_right (t - 0.001)) by lra. apply Rmult_le_compat; [apply Rabs_pos|lra| |lra]. apply Rabs_le_between. lra. }
    assert (B2 : K * (t - 0.001) * (t - 0.001) / 2 <= K * (t - 0.001) / 2 * h).
    { replace (K * (t - 0.001) * (t - 0.001) / 2) with (K * (t - 0.001) / 2 * (t - 0.001)) by field.
      apply Rmult_le_compat_l; [|lra]. pose proof (Rmult_le_pos K (t - 0.001) HK ltac:(lra)). lra. }
    apply Rabs_le_between in P. apply Rabs_le_between in B1. apply Rabs_le_between.
    replace (10 ^ 9 * ((t - 0.001) * (1 / 10 ^ 14 + f t) / 2)) with
      (10 ^ 9 * ((t - 0.001) * (f 0.001 + f t) / 2 + (t - 0.001) * (1 / 10 ^ 14 - f 0.001) / 2)) by field.
    replace ((K * (t - 0.001) + F) / 2 * h) with (K * (t - 0.001) / 2 * h + F / 2 * h) by field. lra.
  - specialize (IH ltac:(lia)). pose proof (cumulative_mass_step ts (map f ts) i ltac:(now rewrite map_length) Hlt) as CS.
    rewrite !ent_map in CS by lia. pose proof (Hi1 i (S i) ltac:(lia)) as L.
    pose proof (Hg (S i) Hlt) as G. unfold gap in G. rewrite !ent_cons_S in G.
    set (a := ent ts i) in *. set (b := ent ts (S i)) in *. pose proof (panel_error K f a b H ltac:(lra)) as P.
    rewrite <- (chasles f K 0.001 a b H).
    assert (B2 : K * (b - a) * (b - a) / 2 <= K * (b - a) / 2 * h).
    { replace (K * (b - a) * (b - a) / 2) with (K * (b - a) / 2 * (b - a)) by field.
      apply Rmult_le_compat_l; [|lra]. pose proof (Rmult_le_pos K (b - a) HK ltac:(lra)). lra. }
    apply Rabs_le_between in P. apply Rabs_le_between in IH. apply Rabs_le_between.
    replace ((K * (b - 0.001) + F) / 2 * h) with ((K * (a - 0.001) + F) / 2 * h + K * (b - a) / 2 * h) by field. lra.
Qed.

(** the panel that contains a time *)
Lemma find_panel ts : forall t, increasing ts -> ts <> [] -> ent ts 0 <= t -> t <= ent ts (length ts - 1) ->
  exists i, (i < length ts)%nat /\ ent ts i <= t /\ (t <= ent ts i \/ ((S i < length ts)%nat /\ t <= ent ts (S i))).
Proof.
  induction ts as [|a ts IH]; intros t Hi Hn H1 H2; [congruence|].
  destruct ts as [|b ts].
  - exists 0%nat. simpl in *. split; [lia|]. split; [exact H1|]. left. exact H2.
  - rewrite ent_0 in H1. destruct (Rle_dec t b) as [Hb|Hb].
    + exists 0%nat. simpl length. split; [lia|]. split; [exact H1|]. right. split; [lia|]. exact Hb.
    + apply increasing_tl in Hi. destruct (IH t Hi ltac:(discriminate)) as (i & L & A & B).
      * rewrite ent_0. lra.
      * simpl length in *. replace (S (length ts) - 0)%nat with (S (length ts)) in * by lia.
        replace (S (length ts) - 1)%nat with (length ts) by lia. rewrite <- (ent_cons_S a). simpl in H2. exact H2.
      * exists (S i). rewrite !ent_cons_S. simpl length in *. split; [lia|]. split; [exact A|].
        destruct B as [B|[B1 B2]]; [left; exact B|right; split; [lia|exact B2]].
Qed.

Lemma history_error K F f h ts t : (forall s t, Rabs (f s - f t) <= K * Rabs (s - t)) -> (forall t, 0 < f t <= F) -> 1 / 10 ^ 14 <= F ->
  increasing (0.001 :: ts) -> ts <> [] -> (forall i, (i < length ts)%nat -> gap (0.001 :: ts) i <= h) ->
  0.001 <= t -> t <= ent ts (length ts - 1) ->
  Rabs (mass_formed_by ts (map f ts) t - 10 ^ 9 * RInt f 0.001 t) <= 10 ^ 9 * ((K * ent ts (length ts - 1) + 3 * F) / 2 * h).
Proof.
  intros H HF H14 Hi Hn Hg H1 H2. pose proof (lip_K K f H) as HK. pose proof (proj1 (increasing_cons _ _) Hi) as [H0 Hi1].
  assert (HF' : forall t, 0 <= f t <= F) by (intros s; specialize (HF s); lra).
  assert (Hl : length ts = length (map f ts)) by (now rewrite map_length).
  assert (Hp : List.Forall (fun s => 0 < s) (map f ts)) by (apply Forall_map, Forall_forall; intros; apply HF).
  assert (HFp : 0 < F) by (specialize (HF 0); lra).
  assert (L0 : (0 < length ts)%nat) by (destruct ts; simpl; [congruence|lia]).
  pose proof (node_error K F f h ts H HF' H14 Hi Hg) as NE. set (T := ent ts (length ts - 1)) in *.
  assert (LT : forall i, (i < length ts)%nat -> ent ts i <= T).
  { intros i Li. unfold T. destruct (Nat.eq_dec i (length ts - 1)) as [->|]; [lra|]. left. apply Hi1. lia. }
  assert (EX : forall a b, ex_RInt f a b) by (intros; eapply lip_ex; eauto).
  assert (Hh : 0 < h). { specialize (Hg 0%nat L0). unfold gap in Hg. rewrite ent_cons_S, ent_0 in Hg. pose proof (H0 (ent ts 0) (ent_In ts 0 L0)). lra. }
  assert (GB : forall i, (i < length ts)%nat -> (K * (ent ts i - 0.001) + F) / 2 * h <= (K * T + F) / 2 * h).
  { intros i Li. apply Rmult_le_compat_r; [lra|]. pose proof (Rmult_le_compat_l K _ _ HK (LT i Li)). lra. }
  assert (FH : F * h = (2 * F) / 2 * h) by field.
  assert (EQ : (K * T + 3 * F) / 2 * h = (K * T + F) / 2 * h + F * h) by field.
  destruct (Rle_dec t (ent ts 0)) as [E|E].
  - rewrite (mass_formed_before ts (map f ts) t Hl Hi Hn ltac:(lra) E), mass_formed_node by auto.
    pose proof (NE 0%nat L0) as N0. pose proof (GB 0%nat L0) as G0. specialize (Hg 0%nat L0). unfold gap in Hg. rewrite ent_cons_S, ent_0 in Hg.
    rewrite <- (chasles f K 0.001 t (ent ts 0) H) in N0.
    pose proof (RInt_range f F t (ent ts 0) HF' (EX _ _) E) as [R1 R2].
    assert (F * (ent ts 0 - t) <= F * h) by (apply Rmult_le_compat_l; lra).
    apply Rabs_le_between in N0. apply Rabs_le_between. lra.
  - destruct (find_panel ts t Hi1 Hn ltac:(lra) H2) as (i & Li & A & B).
    pose proof (mass_formed_by_mono ts (map f ts) (ent ts i) t Hl Hi Hp ltac:(apply (times_pos _ Hi), ent_In; auto) A) as M1.
    rewrite mass_formed_node in M1 by auto. pose proof (NE i Li) as Ni. pose proof (GB i Li) as Gi.
    pose proof (RInt_range f F (ent ts i) t HF' (EX _ _) A) as [R1 R2].
    pose proof (chasles f K 0.001 (ent ts i) t H) as C1. apply Rabs_le_between in Ni.
    assert (0 < F * h) by (apply Rmult_lt_0_compat; lra).
    destruct B as [B|[Ls B]].
    + assert (t = ent ts i) by lra. subst t. rewrite mass_formed_node by auto. apply Rabs_le_between. lra.
    + pose proof (mass_formed_by_mono ts (map f ts) t (ent ts (S i)) Hl Hi Hp ltac:(lra) B) as M2.
      rewrite mass_formed_node in M2 by auto. pose proof (NE (S i) Ls) as Ns. pose proof (GB (S i) Ls) as Gs. apply Rabs_le_between in Ns.
      pose proof (RInt_range f F t (ent ts (S i)) HF' (EX _ _) B) as [R3 R4]. pose proof (chasles f K 0.001 t (ent ts (S i)) H) as C2.
      specialize (Hg (S i) Ls). unfold gap in Hg. rewrite !ent_cons_S in Hg.
      assert (F * (t - ent ts i) <= F * h) by (apply Rmult_le_compat_l; lra).
      assert (F * (ent ts (S i) - t) <= F * h) by (apply Rmult_le_compat_l; lra).
      apply Rabs_le_between. lra.
Qed.

(** with the floor *)
Lemma Rmax_lip m x y : Rabs (Rmax m x - Rmax m y) <= Rabs (x - y).
Proof. apply Rabs_le_between. pose proof (Rle_abs (x - y)). pose proof (Rle_abs (- (x - y))) as Q. rewrite Rabs_Ropp in Q. unfold Rmax. destruct (Rle_dec m x), (Rle_dec m y); lra. Qed.
Lemma history_error_floored K F f h d m ts t : smooth_history K F f -> 1 / 10 ^ 14 <= F -> 0 < m <= F -> 0 <= d -> (forall t, m <= f t + d) ->
  increasing (0.001 :: ts) -> ts <> [] -> (forall i, (i < length ts)%nat -> gap (0.001 :: ts) i <= h) ->
  0.001 <= t -> t <= ent ts (length ts - 1) ->
  Rabs (mass_formed_by ts (floored m (map f ts)) t - 10 ^ 9 * RInt f 0.001 t) <= 10 ^ 9 * table_error K F h d (ent ts (length ts - 1)).
Proof.
  intros [HF H] H14 Hm Hd Hdf Hi Hn Hg H1 H2.
  set (g := fun x => Rmax m (f x)).
  assert (Lg : forall s t, Rabs (g s - g t) <= K * Rabs (s - t)) by (intros a b; eapply Rle_trans; [apply Rmax_lip|apply H]).
  assert (Bg : forall t, 0 < g t <= F). { intros a. unfold g. specialize (HF a). split; [apply Rlt_le_trans with m; [lra|apply Rmax_l]|apply Rmax_lub; lra]. }
  replace (floored m (map f ts)) with (map g ts) by (unfold floored; now rewrite map_map).
  pose proof (history_error K F g h ts t Lg Bg H14 Hi Hn Hg H1 H2) as E.
  set (T := ent ts (length ts - 1)) in *.
  assert (Df : forall x, 0 <= g x - f x <= d). { intros a. unfold g. specialize (Hdf a). split; [pose proof (Rmax_r m (f a)); lra|]. assert (Rmax m (f a) <= f a + d) by (apply Rmax_lub; lra). lra. }
  assert (QD : is_RInt (fun x => g x - f x) 0.001 t (RInt g 0.001 t - RInt f 0.001 t)).
  { apply (is_RInt_minus (V := R_NormedModule) g f).
    - apply (RInt_correct (V := R_CompleteNormedModule)). eapply lip_ex; eauto.
    - apply (RInt_correct (V := R_CompleteNormedModule)). eapply lip_ex; eauto. }
  pose proof (RInt_range (fun x => g x - f x) d 0.001 t Df (ex_intro _ _ QD) H1) as [R1 R2].
  rewrite (is_RInt_unique _ _ _ _ QD) in R1, R2.
  assert (d * (t - 0.001) <= d * T) by (apply Rmult_le_compat_l; lra).
  unfold table_error. apply Rabs_le_between in E. apply Rabs_le_between. lra.
Qed.
