(** * Photometry of a mixture of templates *)
From Coq Require Import Reals List Arith Lra Lia Bool.
From Coquelicot Require Import Coquelicot.
From Flocq Require Import Core.Raux.
From Verif Require Import Num Arr MUtils MSed MCosmo MPhot Spec Spec2 SpecApi RList LUtils LCalc LKern LKern2 LAge LMet LJoint LBurst LDust LCosmo LPhot.
Import ListNotations.
Open Scope R_scope.

Section Linear.
  Variable w : nat.
  Variable Phi : list R -> R.
  Hypothesis lin : forall a b l l', length l = w -> length l' = w ->
    Phi (map2 (fun y z => a * y + b * z) l l') = a * Phi l + b * Phi l'.
  Lemma Phi_sum {A} (a : A -> R) (v : A -> list R) l : (forall p, In p l -> length (v p) = w) ->
    Phi (map (fun k => Rsum (map (fun p => a p * ent (v p) k) l)) (seq 0 w)) = Rsum (map (fun p => a p * Phi (v p)) l).
  Proof.
    induction l as [|p l IH]; intros H.
    - cbn [map Rsum]. set (z := map (fun _ => 0) (seq 0 w)).
      assert (Lz : length z = w) by (unfold z; now rewrite map_length, seq_length).
      assert (E : map2 (fun y z => 0 * y + 0 * z) z z = z).
      { unfold z. generalize (seq 0 w). intros s. induction s; simpl; auto. f_equal; auto. lra. }
      pose proof (lin 0 0 z z Lz Lz) as L0. rewrite E in L0. lra.
    - cbn [map Rsum]. rewrite <- IH by (intros; apply H; now right).
      set (u := map (fun k => Rsum (map (fun p => a p * ent (v p) k) l)) (seq 0 w)).
      assert (Lu : length u = w) by (unfold u; now rewrite map_length, seq_length).
      pose proof (lin (a p) 1 (v p) u (H p (or_introl eq_refl)) Lu) as E. rewrite Rmult_1_l in E. rewrite <- E. f_equal.
      apply nth_ext with (d := 0) (d' := 0).
      { rewrite map_length, seq_length, length_map2_gen; rewrite H by (now left); auto. }
      intros k Hk. rewrite map_length, seq_length in Hk.
      rewrite (nth_map2_gen _ _ _ _ 0 0) by (rewrite ?Lu, ?H by (now left); auto).
      unfold u. rewrite !(nth_map_gen _ _ _ 0%nat) by (rewrite seq_length; auto). rewrite seq_nth by auto.
      cbn [Nat.add]. unfold ent. lra.
  Qed.
End Linear.

Lemma flux_linear ws wf tf z a b l l' : length l = length ws -> length l' = length ws ->
  band_flux (zspec ws (map2 (fun y z => a * y + b * z) l l') z) wf tf
  = a * band_flux (zspec ws l z) wf tf + b * band_flux (zspec ws l' z) wf tf.
Proof.
  intros L L'. unfold band_flux.
  rewrite (band_ext (zspec ws (map2 _ l l') z) (fun x => a * zspec ws l z x + b * zspec ws l' z x))
    by (intros; unfold zspec; apply spectrum_linear; auto).
  rewrite band_linear. unfold Rdiv. ring.
Qed.
Lemma spec_len n k (w : nat) flux i j : is_cube n k w flux -> (i < n)%nat -> (j < k)%nat -> length (nth j (nth i flux []) []) = w.
Proof.
  intros (L & F) Hi Hj. rewrite List.Forall_forall in F. destruct (F (nth i flux [])) as (L2 & F2).
  { apply nth_In. lia. }
  rewrite List.Forall_forall in F2. apply F2. apply nth_In. lia.
Qed.
Lemma flux_mixture n k ws flux W M l wf tf z : is_cube n k (length ws) flux -> length l = length ws ->
  (forall i, (i < length ws)%nat -> ent l i = M * template_mix n k W flux i) ->
  band_flux (zspec ws l z) wf tf
  = M * mixture n k W (fun i j => band_flux (zspec ws (nth j (nth i flux []) []) z) wf tf).
Proof.
  intros C Ll H. set (w := length ws) in *.
  set (Phi := fun l => band_flux (zspec ws l z) wf tf).
  assert (Lin : forall a b l l', length l = w -> length l' = w ->
    Phi (map2 (fun y z => a * y + b * z) l l') = a * Phi l + b * Phi l').
  { intros. unfold Phi. now apply flux_linear. }
  set (inner := fun i => map (fun q => Rsum (map (fun j => ent2 W i j * ent (nth j (nth i flux []) []) q) (seq 0 k))) (seq 0 w)).
  assert (El : l = map (fun q => Rsum (map (fun u : unit => M * ent (map (fun q => Rsum (map (fun i => 1 * ent (inner i) q) (seq 0 n))) (seq 0 w)) q) [tt])) (seq 0 w)).
  { apply nth_ext with (d := 0) (d' := 0); [now rewrite map_length, seq_length|].
    intros q Hq. rewrite Ll in Hq. rewrite (nth_map_gen _ _ _ 0%nat) by (rewrite seq_length; auto). rewrite seq_nth by auto.
    cbn [map Rsum Nat.add]. change (nth q l 0) with (ent l q). rewrite H by auto. rewrite Rplus_0_r. f_equal.
    unfold ent at 1. rewrite (nth_map_gen _ _ _ 0%nat) by (rewrite seq_length; auto). rewrite seq_nth by auto. cbn [Nat.add].
    unfold template_mix. f_equal. apply map_ext_in. intros i Hi. rewrite Rmult_1_l. unfold inner, ent at 1.
    rewrite (nth_map_gen _ _ _ 0%nat) by (rewrite seq_length; auto). rewrite seq_nth by auto. reflexivity. }
  change (band_flux (zspec ws l z) wf tf) with (Phi l). rewrite El.
  rewrite (Phi_sum w Phi Lin (fun _ : unit => M) (fun _ => map (fun q => Rsum (map (fun i => 1 * ent (inner i) q) (seq 0 n))) (seq 0 w)) [tt]).
  2: { intros. now rewrite map_length, seq_length. }
  cbn [map Rsum]. rewrite Rplus_0_r. f_equal.
  rewrite (Phi_sum w Phi Lin (fun _ => 1) inner).
  2: { intros. unfold inner. now rewrite map_length, seq_length. }
  unfold mixture. f_equal. apply map_ext_in. intros i Hi. apply in_seq in Hi. rewrite Rmult_1_l. unfold inner.
  rewrite (Phi_sum w Phi Lin (fun j => ent2 W i j) (fun j => nth j (nth i flux []) [])).
  2: { intros j Hj. apply in_seq in Hj. apply (spec_len n k); auto; lia. }
  reflexivity.
Qed.

Lemma Rsum_nonneg l : List.Forall (fun x => 0 <= x) l -> 0 <= Rsum l.
Proof. induction 1; simpl; lra. Qed.
Lemma Rsum_ge_elt l x : List.Forall (fun x => 0 <= x) l -> In x l -> x <= Rsum l.
Proof.
  induction l as [|a l IH]; intros F [].
  - subst. simpl. inversion F; subst. pose proof (Rsum_nonneg l H2). lra.
  - simpl. inversion F; subst. specialize (IH H3 H). lra.
Qed.
(** a mixture of positive numbers is positive *)
Lemma mixture_pos n k W F : is_matrix n k W -> Rsum2 W = 1 ->
  (forall i j, (i < n)%nat -> (j < k)%nat -> 0 <= ent2 W i j) ->
  (forall i j, (i < n)%nat -> (j < k)%nat -> 0 < F i j) -> 0 < mixture n k W F.
Proof.
  intros MW S1 P HF.
  assert (Rn : forall i, (i < n)%nat -> 0 <= Rsum (map (fun j => ent2 W i j * F i j) (seq 0 k))).
  { intros i Hi. apply Rsum_nonneg. rewrite List.Forall_forall. intros x Hx. apply in_map_iff in Hx as (j & <- & Hj).
    apply in_seq in Hj. apply Rmult_le_pos; [apply P|left; apply HF]; lia. }
  assert (N : 0 <= mixture n k W F).
  { apply Rsum_nonneg. rewrite List.Forall_forall. intros x Hx. apply in_map_iff in Hx as (i & <- & Hi). apply in_seq in Hi. apply Rn. lia. }
  destruct N as [N|N]; [exact N|]. exfalso.
  assert (Z : forall i j, (i < n)%nat -> (j < k)%nat -> ent2 W i j = 0).
  { intros i j Hi Hj.
    assert (A1 : Rsum (map (fun j => ent2 W i j * F i j) (seq 0 k)) <= 0).
    { rewrite N. unfold mixture. apply Rsum_ge_elt.
      - rewrite List.Forall_forall. intros x Hx. apply in_map_iff in Hx as (i' & <- & Hi'). apply in_seq in Hi'. apply Rn. lia.
      - apply in_map_iff. exists i. split; auto. apply in_seq. lia. }
    assert (A2 : ent2 W i j * F i j <= Rsum (map (fun j => ent2 W i j * F i j) (seq 0 k))).
    { apply Rsum_ge_elt.
      - rewrite List.Forall_forall. intros x Hx. apply in_map_iff in Hx as (j' & <- & Hj'). apply in_seq in Hj'.
        apply Rmult_le_pos; [apply P|left; apply HF]; lia.
      - apply in_map_iff. exists j. split; auto. apply in_seq. lia. }
    pose proof (P i j Hi Hj). pose proof (HF i j Hi Hj). nra. }
  destruct MW as (L & F2).
  assert (E : W = map (fun _ => map (fun _ => 0) (seq 0 k)) (seq 0 n)).
  { apply nth_ext with (d := []) (d' := []); [now rewrite map_length, seq_length|].
    intros i Hi. rewrite (nth_map_gen _ _ _ 0%nat) by (rewrite seq_length; lia).
    assert (Li : length (nth i W []) = k) by (rewrite List.Forall_forall in F2; apply F2, nth_In; auto).
    apply nth_ext with (d := 0) (d' := 0); [now rewrite map_length, seq_length|].
    intros j Hj. rewrite Li in Hj. rewrite (nth_map_gen _ _ _ 0%nat) by (rewrite seq_length; lia).
    apply (Z i j); lia. }
  assert (Z0 : forall s : list nat, Rsum (map (fun _ => 0) s) = 0) by (induction s; simpl; lra).
  rewrite E in S1. unfold Rsum2 in S1. rewrite map_map in S1.
  rewrite (map_ext _ (fun _ => 0)) in S1 by (intros; apply Z0). rewrite Z0 in S1. lra.
Qed.
Lemma mixture_ext n k W F G : (forall i j, (i < n)%nat -> (j < k)%nat -> F i j = G i j) -> mixture n k W F = mixture n k W G.
Proof.
  intros H. unfold mixture. f_equal. apply map_ext_in. intros i Hi. apply in_seq in Hi. f_equal.
  apply map_ext_in. intros j Hj. apply in_seq in Hj. rewrite H by lia. reflexivity.
Qed.
Lemma mixture_scal n k W F c : mixture n k W (fun i j => F i j * c) = mixture n k W F * c.
Proof.
  assert (S : forall {A} (f : A -> R) l, Rsum (map (fun x => f x * c) l) = Rsum (map f l) * c)
    by (intros A f l; induction l; simpl; lra).
  unfold mixture. rewrite <- S. f_equal. apply map_ext. intros i. rewrite <- S. f_equal. apply map_ext. intros j. ring.
Qed.
(** the magnitude of the mixture from the magnitudes of its parts *)
Lemma mixture_magnitude n k W M F mu : is_matrix n k W -> Rsum2 W = 1 ->
  (forall i j, (i < n)%nat -> (j < k)%nat -> 0 <= ent2 W i j) ->
  (forall i j, (i < n)%nat -> (j < k)%nat -> 0 < F i j) -> 0 < M ->
  -2.5 * log10 (M * mixture n k W F) + mu
  = magnitude (M * mixture n k W (fun i j => brightness (-2.5 * log10 (F i j) + mu))).
Proof.
  intros MW S1 P HF HM. pose proof (mixture_pos n k W F MW S1 P HF) as PM.
  rewrite (mixture_ext n k W (fun i j => brightness (-2.5 * log10 (F i j) + mu)) (fun i j => F i j * pow10 (-0.4 * mu))).
  2: { intros i j Hi Hj. cbv beta. unfold brightness. replace (-0.4 * (-2.5 * log10 (F i j) + mu)) with (log10 (F i j) + -0.4 * mu) by lra.
       rewrite pow10_plus, pow10_log10 by auto. reflexivity. }
  rewrite mixture_scal, <- Rmult_assoc. unfold magnitude.
  rewrite (log10_mult (M * mixture n k W F) _) by (auto using pow10_pos; nra). rewrite log10_pow10. lra.
Qed.

(** ** The precomputed tables *)
Lemma cube_spec_fins n k (w : nat) flux : is_cube n k w flux -> List.Forall (List.Forall (fun s => length s = w)) (fins3 flux).
Proof.
  intros (L & F). unfold fins3. apply List.Forall_forall. intros m Hm. apply in_map_iff in Hm as (m0 & <- & Hm0).
  rewrite List.Forall_forall in F. destruct (F m0 Hm0) as (_ & F2). apply List.Forall_forall. intros s Hs.
  apply in_map_iff in Hs as (s0 & <- & Hs0). rewrite fins_length. rewrite List.Forall_forall in F2. auto.
Qed.
Lemma nth_fins3 flux i j : nth j (nth i (fins3 flux) []) [] = fins (nth j (nth i flux []) []).
Proof.
  unfold fins3. change (@nil (list num)) with (map fins []). rewrite (map_nth (map fins)).
  change (@nil num) with (fins []) at 1. now rewrite map_nth.
Qed.
Lemma nth_fins2 fw b : nth b (map fins fw) [] = fins (nth b fw []).
Proof. change (@nil num) with (fins []). now rewrite map_nth. Qed.

Definition filters_ok (fw ft : list (list R)) : Prop :=
  length fw = length ft /\ forall b, (b < length fw)%nat -> good_filter (nth b fw []) (nth b ft []).
Lemma filters_len fw ft : filters_ok fw ft -> length (map fins fw) = length (map fins ft)
  /\ forall ib, (ib < length (map fins fw))%nat -> length (nth ib (map fins fw) []) = length (nth ib (map fins ft) []).
Proof.
  intros (L & G). rewrite !map_length. split; auto. intros b Hb. rewrite !nth_fins2, !fins_length. apply G; auto.
Qed.
Lemma cube_shape n k (w : nat) flux i : is_cube n k w flux -> length (fins3 flux) = n /\ ((i < n)%nat -> length (nth i (fins3 flux) []) = k).
Proof.
  intros (L & F). unfold fins3. rewrite map_length. split; auto. intros Hi.
  rewrite (nth_map_gen _ _ _ []) by lia. rewrite map_length. rewrite List.Forall_forall in F. apply F, nth_In. lia.
Qed.
Lemma template_good n k ws flux i j : increasing ws -> ws <> [] -> is_cube n k (length ws) flux -> (i < n)%nat -> (j < k)%nat ->
  good_spectrum ws (nth j (nth i flux []) []).
Proof. intros I N C Hi Hj. split; auto. split; auto. symmetry. now apply (spec_len n k). Qed.

Section Mix.
  Variables (n k : nat) (ws : list R) (flux : list (list (list R))) (fw ft : list (list R)) (W : list (list R)) (M : R) (l : list R).
  Hypothesis Iw : increasing ws.
  Hypothesis Nw : ws <> [].
  Hypothesis C : is_cube n k (length ws) flux.
  Hypothesis Fok : filters_ok fw ft.
  Hypothesis MW : is_matrix n k W.
  Hypothesis S1 : Rsum2 W = 1.
  Hypothesis P : forall i j, (i < n)%nat -> (j < k)%nat -> 0 <= ent2 W i j.
  Hypothesis HM : 0 < M.
  Hypothesis Ll : length l = length ws.
  Hypothesis H : forall q, (q < length ws)%nat -> ent l q = M * template_mix n k W flux q.
  Let F z b i j := band_flux (zspec ws (nth j (nth i flux []) []) z) (nth b fw []) (nth b ft []).
  Let good_l : good_spectrum ws l.
  Proof. split; auto. Qed.

  Lemma mix_flux z b : (forall i j, (i < n)%nat -> (j < k)%nat -> 0 < F z b i j) ->
    0 < band_flux (zspec ws l z) (nth b fw []) (nth b ft [])
    /\ forall mu, -2.5 * log10 (band_flux (zspec ws l z) (nth b fw []) (nth b ft [])) + mu
       = magnitude (M * mixture n k W (fun i j => brightness (-2.5 * log10 (F z b i j) + mu))).
  Proof.
    intros HF. rewrite (flux_mixture n k ws flux W M l) by auto. split.
    - apply Rmult_lt_0_compat; auto. now apply mixture_pos.
    - intros mu. now apply mixture_magnitude.
  Qed.

  Lemma mix_nodim z : -1 < z -> (forall b i j, (b < length fw)%nat -> (i < n)%nat -> (j < k)%nat -> 0 < F z b i j) ->
    exists tab, precompute_ssp_restmags_z_kcorrect (fins ws) (fins3 flux) (map fins fw) (map fins ft) (Fin z) = Ok tab
    /\ forall b, (b < length fw)%nat -> exists m : nat -> nat -> R,
       (forall i j, (i < n)%nat -> (j < k)%nat -> entry3 tab i j b = Fin (m i j))
       /\ calc_obs_mag_no_dimming (fins ws) (fins l) (fins (nth b fw [])) (fins (nth b ft [])) (Fin z)
          = Ok (Fin (magnitude (M * mixture n k W (fun i j => brightness (m i j))))).
  Proof.
    intros Hz HF. destruct (filters_len fw ft Fok) as (L1 & L2).
    destruct (C70_kcorrect_lemma (fins ws) (fins3 flux) (map fins fw) (map fins ft) (Fin z)) as (E & T).
    destruct E as (tab & E); auto.
    { destruct ws; discriminate || congruence. }
    { rewrite fins_length. now apply (cube_spec_fins n k). }
    exists tab. split; auto. intros b Hb.
    destruct (T tab E) as (La & T2).
    exists (fun i j => -2.5 * log10 (F z b i j)). split.
    - intros i j Hi Hj. destruct (cube_shape n k (length ws) flux i C) as (C1 & C2).
      destruct (T2 i ltac:(lia)) as (Lb & T3). destruct (T3 j ltac:(rewrite C2; auto)) as (Lc & T4).
      specialize (T4 b ltac:(now rewrite map_length)). rewrite nth_fins3, !nth_fins2 in T4.
      rewrite nodim_ok in T4.
      + injection T4 as T4. symmetry. exact T4.
      + now apply (template_good n k).
      + now apply Fok.
      + auto.
      + now apply HF.
    - destruct (mix_flux z b) as (Pz & E2); [intros; now apply HF|].
      rewrite nodim_ok; auto; [|now apply Fok]. do 2 f_equal. specialize (E2 0). rewrite Rplus_0_r in E2. rewrite E2.
      do 2 f_equal. apply mixture_ext. intros. now rewrite Rplus_0_r.
  Qed.

  Lemma mix_rest : (forall b i j, (b < length fw)%nat -> (i < n)%nat -> (j < k)%nat ->
      0 < band_flux (spectrum_at ws (nth j (nth i flux []) [])) (nth b fw []) (nth b ft [])) ->
    exists tab, precompute_ssp_restmags (fins ws) (fins3 flux) (map fins fw) (map fins ft) = Ok tab
    /\ forall b, (b < length fw)%nat -> exists m : nat -> nat -> R,
       (forall i j, (i < n)%nat -> (j < k)%nat -> entry3 tab i j b = Fin (m i j))
       /\ calc_rest_mag (fins ws) (fins l) (fins (nth b fw [])) (fins (nth b ft []))
          = Ok (Fin (magnitude (M * mixture n k W (fun i j => brightness (m i j))))).
  Proof.
    intros HF. destruct (filters_len fw ft Fok) as (L1 & L2).
    destruct (C70_rest_lemma (fins ws) (fins3 flux) (map fins fw) (map fins ft)) as (E & T).
    destruct E as (tab & E); auto.
    { destruct ws; discriminate || congruence. }
    { rewrite fins_length. now apply (cube_spec_fins n k). }
    exists tab. split; auto. intros b Hb.
    destruct (T tab E) as (La & T2).
    exists (fun i j => -2.5 * log10 (F 0 b i j)). split.
    - intros i j Hi Hj. destruct (cube_shape n k (length ws) flux i C) as (C1 & C2).
      destruct (T2 i ltac:(lia)) as (Lb & T3). destruct (T3 j ltac:(rewrite C2; auto)) as (Lc & T4).
      specialize (T4 b ltac:(now rewrite map_length)). rewrite nth_fins3, !nth_fins2 in T4.
      rewrite mag_ok in T4.
      + injection T4 as T4. symmetry. unfold F. rewrite zspec_0. exact T4.
      + now apply (template_good n k).
      + now apply Fok.
      + now apply HF.
    - destruct (mix_flux 0 b) as (Pz & E2); [intros; unfold F; rewrite zspec_0; now apply HF|].
      rewrite mag_ok; auto; [|now apply Fok|now rewrite zspec_0 in Pz]. do 2 f_equal. specialize (E2 0). rewrite Rplus_0_r, zspec_0 in E2. rewrite E2.
      do 2 f_equal. apply mixture_ext. intros. now rewrite Rplus_0_r.
  Qed.

  Lemma mix_obs zs Om0 w0 wa h : List.Forall (fun z => 0 < z) zs -> 0 < Om0 <= 1 -> 0 < h ->
    (forall a b i j, (a < length zs)%nat -> (b < length fw)%nat -> (i < n)%nat -> (j < k)%nat -> 0 < F (ent zs a) b i j) ->
    exists tab, precompute_ssp_obsmags_on_z_table (fins ws) (fins3 flux) (map fins fw) (map fins ft) (fins zs)
                  (Fin Om0) (Fin w0) (Fin wa) (Fin h) = Ok tab
    /\ forall a b, (a < length zs)%nat -> (b < length fw)%nat -> exists m : nat -> nat -> R,
       (forall i j, (i < n)%nat -> (j < k)%nat -> entry3 (nth a tab []) i j b = Fin (m i j))
       /\ calc_obs_mag (fins ws) (fins l) (fins (nth b fw [])) (fins (nth b ft [])) (Fin (ent zs a)) (Fin Om0) (Fin w0) (Fin wa) (Fin h)
          = Ok (Fin (magnitude (M * mixture n k W (fun i j => brightness (m i j))))).
  Proof.
    intros Pz HO Hh HF. destruct (filters_len fw ft Fok) as (L1 & L2).
    destruct (C70_obs_lemma (fins ws) (fins3 flux) (map fins fw) (map fins ft) (fins zs) (Fin Om0) (Fin w0) (Fin wa) (Fin h)) as (E & T).
    destruct E as (tab & E); auto.
    { destruct ws; discriminate || congruence. }
    { rewrite fins_length. now apply (cube_spec_fins n k). }
    exists tab. split; auto. intros a b Ha Hb.
    assert (Hz : 0 < ent zs a) by (rewrite List.Forall_forall in Pz; apply Pz, nth_In; auto).
    destruct (dimming_fin (ent zs a) Om0 w0 wa h Hz HO Hh) as (mu & _ & D).
    destruct (T tab E) as (La & T1). destruct (T1 a ltac:(now rewrite fins_length)) as (Laa & T2).
    exists (fun i j => -2.5 * log10 (F (ent zs a) b i j) + (mu - 2.5 * log10 (1 + ent zs a))). split.
    - intros i j Hi Hj. destruct (cube_shape n k (length ws) flux i C) as (C1 & C2).
      destruct (T2 i ltac:(lia)) as (Lb & T3). destruct (T3 j ltac:(rewrite C2; auto)) as (Lc & T4).
      specialize (T4 b ltac:(now rewrite map_length)). rewrite nth_fins3, !nth_fins2 in T4.
      replace (nth a (fins zs) NaN) with (Fin (ent zs a)) in T4.
      2: { unfold fins. symmetry. now apply (nth_map_gen Fin zs a 0). }
      rewrite obs_gen, D, mag_of_pos, nadd_fin in T4.
      + injection T4 as T4. symmetry. exact T4.
      + now apply HF.
      + now apply (template_good n k).
      + now apply Fok.
      + lra.
    - destruct (mix_flux (ent zs a) b) as (Pf & E2); [intros; now apply HF|].
      rewrite obs_gen, D, mag_of_pos, nadd_fin; auto; [|now apply Fok|lra]. do 2 f_equal. apply E2.
  Qed.
End Mix.

Lemma C121_lognormal_lemma : forall ts sfrs lgmet scatter ssp_lgmet ages ws flux fw ft t_obs sfr_min,
  good_grids ts sfrs scatter ssp_lgmet ages t_obs -> 0 < t_obs -> 0 < sfr_min ->
  increasing ws -> ws <> [] -> is_cube (length ssp_lgmet) (length ages) (length ws) flux ->
  length fw = length ft -> (forall b, (b < length fw)%nat -> good_filter (nth b fw []) (nth b ft [])) ->
  exists sed W, let mass := mass_formed_by ts (floored sfr_min sfrs) t_obs in
    let mix := mixture (length ssp_lgmet) (length ages) W in
    let template i j := nth j (nth i flux []) [] in
    calc_rest_sed_sfh_table_lognormal_mdf (fins ts) (fins sfrs) (Fin lgmet) (Fin scatter)
      (fins ssp_lgmet) (fins ages) (fins3 flux) (Fin t_obs) (Fin sfr_min) = Ok sed
    /\ rs_weights sed = map fins W
    (* rest-frame *)
    /\ ((forall b i j, (b < length fw)%nat -> (i < length ssp_lgmet)%nat -> (j < length ages)%nat ->
           0 < band_flux (spectrum_at ws (template i j)) (nth b fw []) (nth b ft [])) ->
        exists tab, precompute_ssp_restmags (fins ws) (fins3 flux) (map fins fw) (map fins ft) = Ok tab
        /\ forall b, (b < length fw)%nat -> exists m : nat -> nat -> R,
           (forall i j, (i < length ssp_lgmet)%nat -> (j < length ages)%nat -> entry3 tab i j b = Fin (m i j))
           /\ calc_rest_mag (fins ws) (rest_sed sed) (fins (nth b fw [])) (fins (nth b ft []))
              = Ok (Fin (magnitude (mass * mix (fun i j => brightness (m i j))))))
    (* observed at a fixed redshift, no dimming *)
    /\ (forall z, -1 < z -> (forall b i j, (b < length fw)%nat -> (i < length ssp_lgmet)%nat -> (j < length ages)%nat ->
           0 < band_flux (fun x => spectrum_at ws (template i j) (x / (1 + z))) (nth b fw []) (nth b ft [])) ->
        exists tab, precompute_ssp_restmags_z_kcorrect (fins ws) (fins3 flux) (map fins fw) (map fins ft) (Fin z) = Ok tab
        /\ forall b, (b < length fw)%nat -> exists m : nat -> nat -> R,
           (forall i j, (i < length ssp_lgmet)%nat -> (j < length ages)%nat -> entry3 tab i j b = Fin (m i j))
           /\ calc_obs_mag_no_dimming (fins ws) (rest_sed sed) (fins (nth b fw [])) (fins (nth b ft [])) (Fin z)
              = Ok (Fin (magnitude (mass * mix (fun i j => brightness (m i j))))))
    (* observed, on a table of redshifts *)
    /\ (forall zs Om0 w0 wa h, List.Forall (fun z => 0 < z) zs -> 0 < Om0 <= 1 -> 0 < h ->
        (forall a b i j, (a < length zs)%nat -> (b < length fw)%nat -> (i < length ssp_lgmet)%nat -> (j < length ages)%nat ->
           0 < band_flux (fun x => spectrum_at ws (template i j) (x / (1 + ent zs a))) (nth b fw []) (nth b ft [])) ->
        exists tab, precompute_ssp_obsmags_on_z_table (fins ws) (fins3 flux) (map fins fw) (map fins ft) (fins zs)
                      (Fin Om0) (Fin w0) (Fin wa) (Fin h) = Ok tab
        /\ forall a b, (a < length zs)%nat -> (b < length fw)%nat -> exists m : nat -> nat -> R,
           (forall i j, (i < length ssp_lgmet)%nat -> (j < length ages)%nat -> entry3 (nth a tab []) i j b = Fin (m i j))
           /\ calc_obs_mag (fins ws) (rest_sed sed) (fins (nth b fw [])) (fins (nth b ft [])) (Fin (ent zs a))
                (Fin Om0) (Fin w0) (Fin wa) (Fin h)
              = Ok (Fin (magnitude (mass * mix (fun i j => brightness (m i j)))))).
Proof.
  intros ts sfrs lgmet h lgmets ages ws flux fw ft t_obs smin G Ht Hs Iw Nw C L GF.
  destruct (C17_lemma ts sfrs lgmet h lgmets ages (length ws) t_obs smin G Ht Hs) as (W & MW & S1 & P & HW).
  destruct (HW flux C) as (sed & l & E & El & EW & Ll & H).
  assert (HM : 0 < mass_formed_by ts (floored smin sfrs) t_obs) by (unfold mass_formed_by; apply pow10_pos).
  exists sed, W. cbv zeta. split; auto. split; auto. rewrite El.
  assert (Fok : filters_ok fw ft) by (split; auto).
  split; [|split].
  - intros. eapply mix_rest; eauto.
  - intros. eapply mix_nodim; eauto.
  - intros. eapply mix_obs; eauto.
Qed.
Lemma C121_met_lemma : forall ts sfrs lgmet_table scatter ssp_lgmet ages ws flux fw ft t_obs sfr_min,
  good_grids ts sfrs scatter ssp_lgmet ages t_obs -> length ts = length lgmet_table -> 0 < t_obs -> 0 < sfr_min ->
  increasing ws -> ws <> [] -> is_cube (length ssp_lgmet) (length ages) (length ws) flux ->
  length fw = length ft -> (forall b, (b < length fw)%nat -> good_filter (nth b fw []) (nth b ft [])) ->
  exists sed W, let mass := mass_formed_by ts (floored sfr_min sfrs) t_obs in
    let mix := mixture (length ssp_lgmet) (length ages) W in
    let template i j := nth j (nth i flux []) [] in
    calc_rest_sed_sfh_table_met_table (fins ts) (fins sfrs) (fins lgmet_table) (Fin scatter)
      (fins ssp_lgmet) (fins ages) (fins3 flux) (Fin t_obs) (Fin sfr_min) = Ok sed
    /\ rs_weights sed = map fins W
    (* rest-frame *)
    /\ ((forall b i j, (b < length fw)%nat -> (i < length ssp_lgmet)%nat -> (j < length ages)%nat ->
           0 < band_flux (spectrum_at ws (template i j)) (nth b fw []) (nth b ft [])) ->
        exists tab, precompute_ssp_restmags (fins ws) (fins3 flux) (map fins fw) (map fins ft) = Ok tab
        /\ forall b, (b < length fw)%nat -> exists m : nat -> nat -> R,
           (forall i j, (i < length ssp_lgmet)%nat -> (j < length ages)%nat -> entry3 tab i j b = Fin (m i j))
           /\ calc_rest_mag (fins ws) (rest_sed sed) (fins (nth b fw [])) (fins (nth b ft []))
              = Ok (Fin (magnitude (mass * mix (fun i j => brightness (m i j))))))
    (* observed, on a table of redshifts *)
    /\ (forall zs Om0 w0 wa h, List.Forall (fun z => 0 < z) zs -> 0 < Om0 <= 1 -> 0 < h ->
        (forall a b i j, (a < length zs)%nat -> (b < length fw)%nat -> (i < length ssp_lgmet)%nat -> (j < length ages)%nat ->
           0 < band_flux (fun x => spectrum_at ws (template i j) (x / (1 + ent zs a))) (nth b fw []) (nth b ft [])) ->
        exists tab, precompute_ssp_obsmags_on_z_table (fins ws) (fins3 flux) (map fins fw) (map fins ft) (fins zs)
                      (Fin Om0) (Fin w0) (Fin wa) (Fin h) = Ok tab
        /\ forall a b, (a < length zs)%nat -> (b < length fw)%nat -> exists m : nat -> nat -> R,
           (forall i j, (i < length ssp_lgmet)%nat -> (j < length ages)%nat -> entry3 (nth a tab []) i j b = Fin (m i j))
           /\ calc_obs_mag (fins ws) (rest_sed sed) (fins (nth b fw [])) (fins (nth b ft [])) (Fin (ent zs a))
                (Fin Om0) (Fin w0) (Fin wa) (Fin h)
              = Ok (Fin (magnitude (mass * mix (fun i j => brightness (m i j)))))).
Proof.
  intros ts sfrs lgmet h lgmets ages ws flux fw ft t_obs smin G Lm Ht Hs Iw Nw C L GF.
  destruct (C17_met_lemma ts sfrs lgmet h lgmets ages (length ws) t_obs smin G Lm Ht Hs) as (W & MW & S1 & P & HW).
  destruct (HW flux C) as (sed & l & E & El & EW & Ll & H).
  assert (HM : 0 < mass_formed_by ts (floored smin sfrs) t_obs) by (unfold mass_formed_by; apply pow10_pos).
  exists sed, W. cbv zeta. split; auto. split; auto. rewrite El.
  assert (Fok : filters_ok fw ft) by (split; auto).
  split.
  - intros. eapply mix_rest; eauto.
  - intros. eapply mix_obs; eauto.
Qed.
