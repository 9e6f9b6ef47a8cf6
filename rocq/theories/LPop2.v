(** * Magnitudes of perturbed and of dusty spectra *)
From Coq Require Import Reals List Arith Lra Lia Bool.
From Coquelicot Require Import Coquelicot.
From Flocq Require Import Core.Raux.
From Verif Require Import Num Arr MUtils MSed MCosmo MPhot MDust Spec Spec2 SpecApi RList LUtils LCalc LKern LKern2 LBurst LDust LCosmo LPhot.
Import ListNotations.
Open Scope R_scope.

Lemma ent_scal c l i : ent (map (Rmult c) l) i = c * ent l i.
Proof. unfold ent. rewrite <- (Rmult_0_r c) at 1. now rewrite map_nth. Qed.
Lemma flux_le ws ls ls' wf tf z : good_spectrum ws ls -> good_spectrum ws ls' -> good_filter wf tf ->
  increasing wf -> List.Forall (fun t => 0 <= t) tf -> -1 < z ->
  (forall i, (i < length ws)%nat -> ent ls i <= ent ls' i) ->
  band_flux (zspec ws ls z) wf tf <= band_flux (zspec ws ls' z) wf tf.
Proof.
  intros G G' (L & P & N) I T Hz H. unfold band_flux. apply div_le_mono; auto. apply band_mono; auto.
  intros. apply spectrum_le; auto. apply G'.
Qed.
Lemma flux_sandwich ws ls ls' wf tf z a b : good_spectrum ws ls -> good_spectrum ws ls' -> good_filter wf tf ->
  increasing wf -> List.Forall (fun t => 0 <= t) tf -> -1 < z ->
  (forall i, (i < length ws)%nat -> a * ent ls i <= ent ls' i <= b * ent ls i) ->
  a * band_flux (zspec ws ls z) wf tf <= band_flux (zspec ws ls' z) wf tf <= b * band_flux (zspec ws ls z) wf tf.
Proof.
  intros G G' F I T Hz H.
  assert (S : forall c, band_flux (zspec ws (map (Rmult c) ls) z) wf tf = c * band_flux (zspec ws ls z) wf tf).
  { intros c. rewrite <- flux_scal. apply flux_ext. intros. unfold zspec. apply spectrum_scal. apply G. }
  rewrite <- !S. split; apply flux_le; auto using scal_good; intros i Hi; rewrite ent_scal; apply H; auto.
Qed.
Lemma C122_lemma : forall ws l l' wf tf a b, good_spectrum ws l -> good_spectrum ws l' -> good_filter wf tf ->
  increasing wf -> List.Forall (fun t => 0 <= t) tf -> 0 < a -> 0 < b ->
  (forall i, (i < length ws)%nat -> a * ent l i <= ent l' i <= b * ent l i) ->
  let close m m' := m - 2.5 * log10 b <= m' <= m - 2.5 * log10 a in
  (0 < band_flux (spectrum_at ws l) wf tf -> exists m m',
     calc_rest_mag (fins ws) (fins l) (fins wf) (fins tf) = Ok (Fin m)
     /\ calc_rest_mag (fins ws) (fins l') (fins wf) (fins tf) = Ok (Fin m') /\ close m m')
  /\ (forall z Om0 w0 wa h, 0 < z -> 0 < Om0 <= 1 -> 0 < h ->
     0 < band_flux (fun x => spectrum_at ws l (x / (1 + z))) wf tf -> exists m m',
     calc_obs_mag (fins ws) (fins l) (fins wf) (fins tf) (Fin z) (Fin Om0) (Fin w0) (Fin wa) (Fin h) = Ok (Fin m)
     /\ calc_obs_mag (fins ws) (fins l') (fins wf) (fins tf) (Fin z) (Fin Om0) (Fin w0) (Fin wa) (Fin h) = Ok (Fin m') /\ close m m').
Proof.
  intros ws l l' wf tf a b G G' F I T Ha Hb H close.
  assert (K : forall z, -1 < z -> 0 < band_flux (zspec ws l z) wf tf -> 0 < band_flux (zspec ws l' z) wf tf
    /\ close (-2.5 * log10 (band_flux (zspec ws l z) wf tf)) (-2.5 * log10 (band_flux (zspec ws l' z) wf tf))).
  { intros z Hz P. pose proof (flux_sandwich ws l l' wf tf z a b G G' F I T Hz H) as [S1 S2].
    assert (P' : 0 < band_flux (zspec ws l' z) wf tf) by nra. split; auto. unfold close.
    assert (A1 : 0 < a * band_flux (zspec ws l z) wf tf) by (apply Rmult_lt_0_compat; lra).
    pose proof (log10_le _ _ A1 S1) as L1.
    pose proof (log10_le _ _ P' S2) as L2. rewrite log10_mult in L1, L2 by lra. lra. }
  split.
  - intros P. rewrite <- zspec_0 in P. destruct (K 0 ltac:(lra) P) as (P' & Q). rewrite zspec_0 in *.
    do 2 eexists. split; [now apply mag_ok|]. split; [rewrite zspec_0 in Q; now apply mag_ok|]. rewrite zspec_0 in Q. exact Q.
  - intros z Om0 w0 wa h Hz HO Hh P. destruct (K z ltac:(lra) P) as (P' & Q).
    destruct (dimming_fin z Om0 w0 wa h Hz HO Hh) as (mu & _ & D).
    rewrite !obs_gen, D, !mag_of_pos, !nadd_fin by (auto; lra). do 2 eexists. split; [reflexivity|]. split; [reflexivity|].
    unfold close in *. lra.
Qed.

Lemma C123_lemma : forall ws l ks wf tf floor kmax, good_spectrum ws l -> length ks = length ws -> good_filter wf tf ->
  increasing wf -> List.Forall (fun t => 0 <= t) tf -> List.Forall (fun x => 0 <= x) l -> List.Forall (fun k => 0 <= k <= kmax) ks ->
  0 <= floor <= 1 -> 0 < band_flux (spectrum_at ws l) wf tf ->
  exists (dusty : R -> list R) (mag : R -> R),
    (forall av, length (dusty av) = length ws /\ forall i, (i < length ws)%nat ->
       nmul (Fin (ent l i)) (frac_transmission_from_k_lambda (Fin (ent ks i)) (Fin av) (Fin floor)) = Fin (ent (dusty av) i))
    /\ (forall av, calc_rest_mag (fins ws) (fins (dusty av)) (fins wf) (fins tf) = Ok (Fin (mag av)))
    /\ calc_rest_mag (fins ws) (fins l) (fins wf) (fins tf) = Ok (Fin (mag 0))
    /\ (forall av1 av2, av1 <= av2 -> mag av1 <= mag av2)
    /\ (forall av, 0 <= av -> mag av <= mag 0 + av * kmax / 4.05).
Proof.
  intros ws l ks wf tf floor kmax G Lk F I T Pl Pk Hf P.
  destruct C40_lemma as (t & E & R1 & R2 & T0 & Tm & Tk & _ & TE).
  assert (Tpos : forall k av, 0 < t k av floor).
  { intros k av. destruct (Rlt_dec floor 1); [pose proof (R2 k av floor); lra|]. pose proof (R1 k av floor Hf). lra. }
  set (dusty := fun av => map2 (fun x k => x * t k av floor) l ks).
  assert (Ll : length l = length ws) by (symmetry; apply G).
  assert (Ld : forall av, length (dusty av) = length ws).
  { intros av. unfold dusty. rewrite length_map2_gen; lia. }
  assert (Ed : forall av i, (i < length ws)%nat -> ent (dusty av) i = ent l i * t (ent ks i) av floor).
  { intros av i Hi. unfold dusty, ent at 1. rewrite (nth_map2_gen _ _ _ _ 0 0) by lia. reflexivity. }
  assert (Gd : forall av, good_spectrum ws (dusty av)).
  { intros av. destruct G as (A & B & C). split; auto. }
  assert (Pi : forall i, (i < length ws)%nat -> 0 <= ent l i).
  { intros i Hi. rewrite List.Forall_forall in Pl. apply Pl, nth_In. lia. }
  assert (Pki : forall i, (i < length ws)%nat -> 0 <= ent ks i <= kmax).
  { intros i Hi. rewrite List.Forall_forall in Pk. apply Pk, nth_In. lia. }
  assert (D0 : dusty 0 = l).
  { apply nth_ext with (d := 0) (d' := 0); [rewrite Ld; auto|]. intros i Hi. rewrite Ld in Hi.
    change (ent (dusty 0) i = ent l i). rewrite Ed, T0 by auto. lra. }
  (* positivity for every av: a common lower factor *)
  assert (Q : forall av, 0 < band_flux (spectrum_at ws (dusty av)) wf tf).
  { intros av.
    assert (Lo : forall i, (i < length ws)%nat -> t kmax (Rmax 0 av) floor <= t (ent ks i) av floor).
    { intros i Hi. destruct (Pki i Hi). apply Rle_trans with (t (ent ks i) (Rmax 0 av) floor).
      - apply Tk; auto. apply Rmax_l.
      - apply Tm; auto. apply Rmax_r. }
    rewrite <- zspec_0.
    pose proof (flux_sandwich ws l (dusty av) wf tf 0 (t kmax (Rmax 0 av) floor) 1 G (Gd av) F I T ltac:(lra)) as S.
    rewrite !zspec_0 in *. destruct S as [S _].
    - intros i Hi. rewrite Ed by auto. specialize (Lo i Hi). specialize (Pi i Hi). pose proof (R1 (ent ks i) av floor Hf). nra.
    - pose proof (Tpos kmax (Rmax 0 av)). nra. }
  exists dusty, (fun av => -2.5 * log10 (band_flux (spectrum_at ws (dusty av)) wf tf)).
  split; [|split; [|split; [|split]]].
  - intros av. split; auto. intros i Hi. rewrite E, nmul_fin, Ed by auto. reflexivity.
  - intros av. apply mag_ok; auto.
  - rewrite D0. now apply mag_ok.
  - intros av1 av2 Hav.
    assert (K : band_flux (zspec ws (dusty av2) 0) wf tf <= band_flux (zspec ws (dusty av1) 0) wf tf).
    { apply flux_le; auto; [lra|]. intros i Hi. rewrite !Ed by auto. apply Rmult_le_compat_l; auto. apply Tm; auto. apply Pki; auto. }
    rewrite !zspec_0 in K. pose proof (log10_le _ _ (Q av2) K). lra.
  - intros av Hav.
    set (a := pow10 (-0.4 * (av * kmax / 4.05))).
    assert (Ta : forall i, (i < length ws)%nat -> a <= t (ent ks i) av floor).
    { intros i Hi. destruct (Pki i Hi) as [K1 K2].
      assert (Et : t (ent ks i) av floor = trans (ent ks i) av floor).
      { assert (X : Fin (t (ent ks i) av floor) = Fin (trans (ent ks i) av floor)) by (rewrite <- E; apply trans_fin). now injection X. }
      rewrite Et. unfold trans.
      assert (A : att (ent ks i) av <= av * kmax / 4.05).
      { unfold att. apply Rmax_lub; [|unfold Rdiv; apply Rmult_le_compat_r; [lra|]; apply Rmult_le_compat_l; auto].
        apply Rdiv_le_0_compat; [|lra]. apply Rmult_le_pos; lra. }
      assert (a <= pow10 (-0.4 * att (ent ks i) av)) by (apply pow10_le; lra).
      pose proof (pow10_le_1 (-0.4 * att (ent ks i) av) ltac:(pose proof (att_nonneg (ent ks i) av); lra)). nra. }
    pose proof (flux_sandwich ws (dusty 0) (dusty av) wf tf 0 a 1 (Gd 0) (Gd av) F I T ltac:(lra)) as S.
    rewrite !zspec_0 in S. destruct S as [S _].
    { intros i Hi. rewrite !Ed, T0 by auto. specialize (Ta i Hi). specialize (Pi i Hi). pose proof (R1 (ent ks i) av floor Hf). nra. }
    assert (Pa : 0 < a) by apply pow10_pos.
    assert (Pq : 0 < a * band_flux (spectrum_at ws (dusty 0)) wf tf) by (apply Rmult_lt_0_compat; auto).
    pose proof (log10_le _ _ Pq S) as L1. rewrite log10_mult in L1 by auto. unfold a in L1 at 1. rewrite log10_pow10 in L1. lra.
Qed.
