(** * Tables of magnitudes of a template library in rounded arithmetic *)
From Coq Require Import Reals List Arith Lra Lia ZArith Bool.
From Verif Require Import Num Arr MUtils MSed MCosmo MPhot Float Spec SpecFloat SpecFloat2 SpecFloat8 RList LPhot LPop LRound12 LRound19 LRound20 LRound25 LRound26.
From Verif Require Spec2.
Import ListNotations.
Open Scope R_scope.
Notation entry3 := Spec2.entry3.

Section T.
Context {AR : Arith}.
Variables (nm na : nat) (B : nat -> nat -> R) (ws : list R) (flux : list (list (list R))) (fw ft : list (list R)).
Hypothesis (C : is_cube nm na (length ws) flux) (W : ws <> []) (L : length fw = length ft).
Hypothesis (F : forall b, (b < length fw)%nat -> rounding_filter (AR := AR) (nth b fw []) (nth b ft [])).
Lemma pre58 : fins ws <> [] /\ length (map fins fw) = length (map fins ft) /\ List.Forall (List.Forall (fun s => length s = length (fins ws))) (fins3 flux)
  /\ (forall ib, (ib < length (map fins fw))%nat -> length (nth ib (map fins fw) []) = length (nth ib (map fins ft) [])).
Proof.
  split; [unfold fins; destruct ws; [congruence|discriminate]|]. split; [now rewrite !map_length|]. split.
  - unfold fins. rewrite map_length. now apply (cube_spec_fins nm na).
  - intros b Hb. rewrite map_length in Hb. rewrite !nth_fins2. unfold fins. rewrite !map_length. now destruct (F b Hb) as (_ & E & _).
Qed.
End T.

Lemma C158_rest_lemma : forall AR u, accurate_to AR u -> forall nm na B ws flux fw ft kappa,
  is_cube nm na (length ws) flux -> ws <> [] -> length fw = length ft ->
  (forall i j, (i < nm)%nat -> (j < na)%nat -> rounding_spectrum (AR := AR) (B i j) ws (nth j (nth i flux []) [])) ->
  (forall b, (b < length fw)%nat -> rounding_filter (AR := AR) (nth b fw []) (nth b ft [])) -> 0 < kappa ->
  (forall i j b, (i < nm)%nat -> (j < na)%nat -> (b < length fw)%nat ->
     1 / 10 ^ 18 <= B i j * band_integral (fun _ => 1) (nth b fw []) (nth b ft [])
     /\ B i j <= kappa * (ab0 * band_flux (spectrum_at ws (nth j (nth i flux []) [])) (nth b fw []) (nth b ft []))
     /\ 3 * (INR (length (nth b fw [])) + 25) * u * kappa <= 1 / 100) ->
  exists tab tab0, precompute_ssp_restmags (AR := AR) (fins ws) (fins3 flux) (map fins fw) (map fins ft) = Ok tab
    /\ precompute_ssp_restmags (AR := exact) (fins ws) (fins3 flux) (map fins fw) (map fins ft) = Ok tab0
    /\ forall i j b, (i < nm)%nat -> (j < na)%nat -> (b < length fw)%nat ->
       absolutely_close (4 * (INR (length (nth b fw [])) + 70) * u * kappa) (entry3 tab i j b) (entry3 tab0 i j b).
Proof.
  intros AR u Hu nm na B ws flux fw ft kappa C W L S F K HB. destruct (pre58 (AR := AR) nm na ws flux fw ft C W L F) as (P1 & P2 & P3 & P4).
  destruct (C70_rest_lemma (AR := AR) (fins ws) (fins3 flux) (map fins fw) (map fins ft)) as [X1 Y1]. destruct (X1 P1 P2 P3 P4) as (tab & E). destruct (Y1 tab E) as (_ & Z1).
  destruct (C70_rest_lemma (AR := exact) (fins ws) (fins3 flux) (map fins fw) (map fins ft)) as [X0 Y0]. destruct (X0 P1 P2 P3 P4) as (tab0 & E0). destruct (Y0 tab0 E0) as (_ & Z0).
  exists tab, tab0. split; auto. split; auto. intros i j b Hi Hj Hb. destruct (cube_shape nm na (length ws) flux i C) as [LM LA]. specialize (LA Hi).
  rewrite LM in Z1, Z0. destruct (Z1 i Hi) as (_ & Z1'). destruct (Z0 i Hi) as (_ & Z0'). rewrite LA in Z1', Z0'. destruct (Z1' j Hj) as (_ & Q1). destruct (Z0' j Hj) as (_ & Q0).
  rewrite map_length in Q1, Q0. specialize (Q1 b Hb). specialize (Q0 b Hb). rewrite nth_fins3, !nth_fins2 in Q1, Q0.
  destruct (HB i j b Hi Hj Hb) as (B1 & B2 & B3).
  destruct (C135_mag_lemma AR u Hu (B i j) ws _ _ _ kappa (S i j Hi Hj) (F b Hb) B1 K B2 B3) as (m & m0 & M & M0 & D).
  rewrite M in Q1. rewrite M0 in Q0. injection Q1 as Q1. injection Q0 as Q0. exists m, m0. unfold Spec2.entry3. rewrite <- Q1, <- Q0. auto.
Qed.
Lemma C158_kcorrect_lemma : forall AR u, accurate_to AR u -> forall nm na B Res ws flux fw ft z kappa,
  is_cube nm na (length ws) flux -> ws <> [] -> length fw = length ft ->
  (forall i j, (i < nm)%nat -> (j < na)%nat -> rounding_spectrum (AR := AR) (B i j) ws (nth j (nth i flux []) [])) ->
  rounding_resolution Res ws -> machine_number (AR := AR) z -> 0 <= z <= 20 ->
  (forall b, (b < length fw)%nat -> rounding_filter (AR := AR) (nth b fw []) (nth b ft []) /\ inside_spectrum ws (nth b fw []) z) -> 0 < kappa ->
  (forall i j b, (i < nm)%nat -> (j < na)%nat -> (b < length fw)%nat ->
     1 / 10 ^ 18 <= B i j * band_integral (fun _ => 1) (nth b fw []) (nth b ft [])
     /\ B i j <= kappa * (ab0 * band_flux (fun x => spectrum_at ws (nth j (nth i flux []) []) (x / (1 + z))) (nth b fw []) (nth b ft []))
     /\ 3 * (INR (length (nth b fw [])) + 5 * Res + 25) * u * kappa <= 1 / 1000) ->
  exists tab tab0, precompute_ssp_restmags_z_kcorrect (AR := AR) (fins ws) (fins3 flux) (map fins fw) (map fins ft) (Fin z) = Ok tab
    /\ precompute_ssp_restmags_z_kcorrect (AR := exact) (fins ws) (fins3 flux) (map fins fw) (map fins ft) (Fin z) = Ok tab0
    /\ forall i j b, (i < nm)%nat -> (j < na)%nat -> (b < length fw)%nat ->
       absolutely_close (4 * (INR (length (nth b fw [])) + 5 * Res + 70) * u * kappa) (entry3 tab i j b) (entry3 tab0 i j b).
Proof.
  intros AR u Hu nm na B Res ws flux fw ft z kappa C W L S HR Mz Bz F K HB. destruct (pre58 (AR := AR) nm na ws flux fw ft C W L (fun b Hb => proj1 (F b Hb))) as (P1 & P2 & P3 & P4).
  destruct (C70_kcorrect_lemma (AR := AR) (fins ws) (fins3 flux) (map fins fw) (map fins ft) (Fin z)) as [X1 Y1]. destruct (X1 P1 P2 P3 P4) as (tab & E). destruct (Y1 tab E) as (_ & Z1).
  destruct (C70_kcorrect_lemma (AR := exact) (fins ws) (fins3 flux) (map fins fw) (map fins ft) (Fin z)) as [X0 Y0]. destruct (X0 P1 P2 P3 P4) as (tab0 & E0). destruct (Y0 tab0 E0) as (_ & Z0).
  exists tab, tab0. split; auto. split; auto. intros i j b Hi Hj Hb. destruct (cube_shape nm na (length ws) flux i C) as [LM LA]. specialize (LA Hi).
  rewrite LM in Z1, Z0. destruct (Z1 i Hi) as (_ & Z1'). destruct (Z0 i Hi) as (_ & Z0'). rewrite LA in Z1', Z0'. destruct (Z1' j Hj) as (_ & Q1). destruct (Z0' j Hj) as (_ & Q0).
  rewrite map_length in Q1, Q0. specialize (Q1 b Hb). specialize (Q0 b Hb). rewrite nth_fins3, !nth_fins2 in Q1, Q0.
  destruct (HB i j b Hi Hj Hb) as (B1 & B2 & B3). destruct (F b Hb) as [Fb Ib].
  destruct (C136_lemma AR u Hu (B i j) Res ws _ _ _ z kappa (S i j Hi Hj) Fb HR Mz Bz Ib B1 K B2 B3) as (m & m0 & M & M0 & D).
  rewrite M in Q1. rewrite M0 in Q0. injection Q1 as Q1. injection Q0 as Q0. exists m, m0. unfold Spec2.entry3. rewrite <- Q1, <- Q0. auto.
Qed.
Lemma C158_obs_lemma : forall AR u, accurate_to AR u -> forall nm na B Res ws flux fw ft zs Om0 w0 wa h kappa,
  is_cube nm na (length ws) flux -> ws <> [] -> length fw = length ft ->
  (forall i j, (i < nm)%nat -> (j < na)%nat -> rounding_spectrum (AR := AR) (B i j) ws (nth j (nth i flux []) [])) ->
  rounding_resolution Res ws -> List.Forall (fun z => rounding_cosmology (AR := AR) z Om0 w0 wa h) zs ->
  (forall b, (b < length fw)%nat -> rounding_filter (AR := AR) (nth b fw []) (nth b ft [])) -> 0 < kappa ->
  (forall i j b k, (i < nm)%nat -> (j < na)%nat -> (b < length fw)%nat -> (k < length zs)%nat ->
     inside_spectrum ws (nth b fw []) (ent zs k)
     /\ 1 / 10 ^ 18 <= B i j * band_integral (fun _ => 1) (nth b fw []) (nth b ft [])
     /\ B i j <= kappa * (ab0 * band_flux (fun x => spectrum_at ws (nth j (nth i flux []) []) (x / (1 + ent zs k))) (nth b fw []) (nth b ft []))
     /\ 3 * (INR (length (nth b fw [])) + 5 * Res + 25) * u * kappa <= 1 / 1000) ->
  exists tab tab0, precompute_ssp_obsmags_on_z_table (AR := AR) (fins ws) (fins3 flux) (map fins fw) (map fins ft) (fins zs) (Fin Om0) (Fin w0) (Fin wa) (Fin h) = Ok tab
    /\ precompute_ssp_obsmags_on_z_table (AR := exact) (fins ws) (fins3 flux) (map fins fw) (map fins ft) (fins zs) (Fin Om0) (Fin w0) (Fin wa) (Fin h) = Ok tab0
    /\ forall k i j b, (k < length zs)%nat -> (i < nm)%nat -> (j < na)%nat -> (b < length fw)%nat ->
       absolutely_close (4 * (INR (length (nth b fw [])) + 5 * Res + 70) * u * kappa + 4200 * u) (entry3 (nth k tab []) i j b) (entry3 (nth k tab0 []) i j b).
Proof.
  intros AR u Hu nm na B Res ws flux fw ft zs Om0 w0 wa h kappa C W L S HR Hz F K HB. destruct (pre58 (AR := AR) nm na ws flux fw ft C W L F) as (P1 & P2 & P3 & P4).
  destruct (C70_obs_lemma (AR := AR) (fins ws) (fins3 flux) (map fins fw) (map fins ft) (fins zs) (Fin Om0) (Fin w0) (Fin wa) (Fin h)) as [X1 Y1]. destruct (X1 P1 P2 P3 P4) as (tab & E). destruct (Y1 tab E) as (_ & Z1).
  destruct (C70_obs_lemma (AR := exact) (fins ws) (fins3 flux) (map fins fw) (map fins ft) (fins zs) (Fin Om0) (Fin w0) (Fin wa) (Fin h)) as [X0 Y0]. destruct (X0 P1 P2 P3 P4) as (tab0 & E0). destruct (Y0 tab0 E0) as (_ & Z0).
  exists tab, tab0. split; auto. split; auto. intros k i j b Hk Hi Hj Hb. destruct (cube_shape nm na (length ws) flux i C) as [LM LA]. specialize (LA Hi).
  assert (Hk' : (k < length (fins zs))%nat) by (unfold fins; now rewrite map_length). destruct (Z1 k Hk') as (_ & Z1k). destruct (Z0 k Hk') as (_ & Z0k). clear Z1 Z0.
  rewrite LM in Z1k, Z0k. destruct (Z1k i Hi) as (_ & Z1'). destruct (Z0k i Hi) as (_ & Z0'). rewrite LA in Z1', Z0'. destruct (Z1' j Hj) as (_ & Q1). destruct (Z0' j Hj) as (_ & Q0).
  rewrite map_length in Q1, Q0. specialize (Q1 b Hb). specialize (Q0 b Hb). rewrite nth_fins3, !nth_fins2 in Q1, Q0.
  assert (EZ : nth k (fins zs) NaN = Fin (ent zs k)) by (unfold fins, ent; rewrite (nth_indep _ NaN (Fin 0)) by auto; apply map_nth). rewrite EZ in Q1, Q0.
  destruct (HB i j b k Hi Hj Hb Hk) as (Ib & B1 & B2 & B3). assert (RC : rounding_cosmology (AR := AR) (ent zs k) Om0 w0 wa h) by (rewrite List.Forall_forall in Hz; apply Hz; unfold ent; now apply nth_In).
  destruct (C140_lemma AR u Hu (B i j) Res ws _ _ _ (ent zs k) Om0 w0 wa h kappa (S i j Hi Hj) (F b Hb) HR RC Ib B1 K B2 B3) as (m & m0 & M & M0 & D).
  rewrite M in Q1. rewrite M0 in Q0. injection Q1 as Q1. injection Q0 as Q0. exists m, m0. unfold Spec2.entry3. rewrite <- Q1, <- Q0. auto.
Qed.

(** a library of two templates, one filter, two redshifts *)
Definition e158_flux : list (list (list R)) := [[ph_ls; ph_ls]].
Lemma e158_cube : is_cube 1 2 (length ph_ws) e158_flux.
Proof. repeat constructor. Qed.
Lemma e158_template i j : (i < 1)%nat -> (j < 2)%nat -> nth j (nth i e158_flux []) [] = ph_ls.
Proof. intros Hi Hj. destruct i; [|lia]. destruct j as [|[|j]]; [reflexivity|reflexivity|lia]. Qed.
Lemma e158_filter (P : list R -> list R -> Prop) : P ph_wf ph_tf -> forall b, (b < length [ph_wf])%nat -> P (nth b [ph_wf] []) (nth b [ph_tf] []).
Proof. intros HP b Hb. destruct b; [exact HP|simpl in Hb; lia]. Qed.
