(** * Rounding error of age weights, mass and metallicity weights: the public functions *)
From Coq Require Import Reals List Arith Lra Lia ZArith Bool.
From Coquelicot Require Import Rcomplements.
From Flocq Require Import Core.Raux Core.Zaux.
From Verif Require Import Num Arr MUtils MSed Float Spec SpecFloat RList LUtils LAge LMet LJoint LFloat LFloat2 LFloat3 LFloat4 LFloat5 LFloat10 LFloat11 LFloat13 LRound1 LRound2 LRound3 LRound4 LRoundF LRound5 LRound6 LRound7.
Import ListNotations.
Open Scope R_scope.

Lemma unit_eps AR u : accurate_to AR u -> @interp_eps AR <= / 2 ^ 40.
Proof.
  assert (K : forall k : nat, (40 <= k)%nat -> bpow radix2 (- Z.of_nat k) <= / 2 ^ 40).
  { intros k Hk. rewrite bpow_opp. apply Rinv_le; [apply pow_lt; lra|]. rewrite (bpow_powerRZ radix2). change (IZR radix2) with 2. rewrite <- pow_powerRZ. apply Rle_pow; [lra|lia]. }
  intros ((red & lib & _ & [[[->| ->] _]|[[->| ->] _]]) & _); cbn [double_precision single_precision double_flushed single_flushed interp_eps].
  - apply (K 104%nat). lia.
  - apply (K 104%nat). lia.
  - apply (K 46%nat). lia.
  - apply (K 46%nat). lia.
Qed.

Lemma times_increasing {AR : Arith} ts : times_ok ts -> increasing (0.001 :: ts).
Proof.
  intros TO. destruct (times_range _ TO) as [I R]. apply increasing_cons. split; auto. intros y Hy. apply In_nth with (d := 0) in Hy. destruct Hy as (i & Hi & <-). specialize (R i Hi). unfold ent in R. lra.
Qed.

Section F.
Context {AR : Arith} (u : R) (H : rel_err AR u) (HE : interp_eps <= / 2 ^ 40).
Let G := re_good _ _ H.

Lemma floor_lit s0 ss : 1 / 10 ^ 20 <= s0 <= 10 ^ 19 -> Forall (fun s => rnd s = Fin s /\ s <= 10 ^ 20) ss ->
  exists smin, lit s0 = Fin smin /\ sfr_ok smin ss /\ 0 < s0 /\ Rabs (smin - s0) <= 1.001 * u * s0.
Proof.
  intros B F. pose proof (u_le u H) as Hu. simpl (10 ^ 6) in Hu. assert (S0 : 0 < s0). { apply Rlt_le_trans with (1 / 10 ^ 20); [apply Rdiv_lt_0_compat; [lra|apply pow_lt; lra]|lra]. }
  destruct (rnd_range _ G s0) as (smin & E). { rewrite Rabs_right by lra. apply Rle_trans with (10 ^ 19); [lra|apply Rle_pow; [lra|lia]]. }
  pose proof (re_any _ _ H _ _ E) as A. rewrite (Rabs_right s0) in A by lra. pose proof (re_tiny2 _ _ H) as T2.
  assert (T3 : / 2 ^ 90 <= 0.001 * s0).
  { apply Rle_trans with (0.001 * (1 / 10 ^ 20)); [|lra]. apply Rle_trans with (/ 10 ^ 24); [|simpl; lra]. apply Rinv_le; [apply pow_lt; lra|]. 
    replace (2 ^ 90) with ((2 ^ 10) ^ 9) by (rewrite <- pow_mult; reflexivity). replace (10 ^ 24) with ((10 ^ 3) ^ 8) by (rewrite <- pow_mult; reflexivity).
    apply Rle_trans with ((2 ^ 10) ^ 8); [apply pow_incr; simpl; lra|apply Rle_pow; [simpl; lra|lia]]. }
  assert (T4 : u * / 2 ^ 90 <= u * (0.001 * s0)) by (apply Rmult_le_compat_l; lra).
  assert (A' : Rabs (smin - s0) <= 1.001 * u * s0) by lra.
  assert (US : u * s0 <= 1 / 1000 * s0) by (apply Rmult_le_compat_r; lra).
  exists smin. split; [exact E|]. split; [|auto]. pose proof (Rabs_le_inv _ _ A') as A2. split; [lra|]. split; [eapply (rnd_idem _ G); eauto|]. split; auto.
  change (10 ^ 20) with (10 * 10 ^ 19). lra.
Qed.

(** age weights *)
Lemma age_public ts sfrs ages t sfr_min K : rounding_history K ts sfrs sfr_min -> rounding_ages ages -> rnd t = Fin t -> ent ts 0 <= t <= 1000 ->
  half_in_bins ts sfrs sfr_min t ages -> INR (length ages) * (mass_amp K ts t (length ages) * u) <= 1/100 ->
  exists w, calc_age_weights_from_sfh_table (fins ts) (fins sfrs) (fins ages) (Fin t) (lit sfr_min) = Ok (fins w) /\ length w = length ages
    /\ (forall i, (i < length ages)%nat -> rnd (ent w i) = Fin (ent w i))
    /\ (forall i, (i < length ages)%nat -> Rabs (ent w i - ent (bin_masses ts sfrs sfr_min t ages) i / total_mass ts sfrs sfr_min t ages) <= 40 * mass_amp K ts t (length ages) * u).
Proof.
  intros (TO & LL & LN & FS & B & SK) (LA & RA & ND) Rt Bt HF HA. destruct (floor_lit sfr_min sfrs B FS) as (smin & E & SO & S0 & A). rewrite E.
  destruct (age_weights_err u H HE ts sfrs ages t smin sfr_min K) as (w & Ew & Lw & Vw); auto. exists w. split; auto. split; auto. split; intros i Hi; apply (Vw i Hi).
Qed.

(** mass at the time of observation *)
Lemma mass_public ts sfrs t sfr_min K n : rounding_history K ts sfrs sfr_min -> rnd t = Fin t -> ent ts 0 <= t <= 1000 ->
  mass_amp K ts t n * u <= 1/100 ->
  exists M, mstar_at_t_obs (fins ts) (fins sfrs) (Fin t) (lit sfr_min) = Fin M /\ rnd M = Fin M
    /\ Rabs (M - mass_formed_by ts (floored sfr_min sfrs) t) <= 4 * mass_amp K ts t n * u * mass_formed_by ts (floored sfr_min sfrs) t.
Proof.
  intros (TO & LL & LN & FS & B & SK) Rt Bt HA. destruct (floor_lit sfr_min sfrs B FS) as (smin & E & SO & S0 & A). rewrite E. pose proof (u_le u H) as Hu.
  assert (T0 : 0.003 <= ent ts 0) by apply TO. unfold mstar_at_t_obs.
  destruct (nlog10_near u H t) as (q & Eq & Nq); [lra|apply log10_range; lra|]. rewrite Eq.
  apply (mass_at_err u H HE ts sfrs smin sfr_min K t t q 0 t n); auto; try lra.
  - replace (t - t) with 0 by lra. rewrite Rabs_R0. lra.
  - apply Rmult_le_pos; lra.
Qed.
Lemma mass_le_public ts sfrs t sfr_min K : rounding_history K ts sfrs sfr_min -> 0 < mass_formed_by ts (floored sfr_min sfrs) t <= 10 ^ 34.
Proof.
  intros (TO & LL & LN & FS & B & SK). destruct (floor_lit sfr_min sfrs B FS) as (smin & E & SO & S0 & A). split; [apply pow10_pos|].
  apply (mass_le_34 u H ts sfrs smin); auto. now apply times_increasing.
Qed.

(** metallicity weights of a single galaxy *)
Lemma met_public x h a : rnd h = Fin h -> 1/1000 <= h <= 1 -> Rabs x <= 5 -> rounding_lgmets a ->
  INR (length a) * ((130 + 8 * INR (length a)) * u / h) <= 1/25 ->
  exists w, calc_lgmet_weights_from_lognormal_mdf (Fin x) (Fin h) (fins a) = Ok (fins w) /\ length w = length a
    /\ (forall i, (i < length a)%nat -> rnd (ent w i) = Fin (ent w i))
    /\ (forall i, (i < length a)%nat -> Rabs (ent w i - ent (met_weights x h (met_edges a)) i) <= 10 * ((130 + 8 * INR (length a)) * u / h)).
Proof.
  intros Rh Bh Bx (La & RA & ND) HN. pose proof (met_weights_err u H x x h a 0) as MW. cbv zeta in MW. rewrite Rplus_0_r in MW. destruct MW as (w & Ew & Lw & Vw); auto; try lra.
  - replace (x - x) with 0 by lra. rewrite Rabs_R0. lra.
  - exists w. split.
    + unfold calc_lgmet_weights_from_lognormal_mdf, calc_lgmet_weights_from_lognormal_mdf_k, check_templates, check. rewrite fins_length. destruct (Nat.leb_spec 3 (length a)); [|lia]. now rewrite Ew.
    + split; auto. split; intros i Hi; apply (Vw i Hi).
Qed.

(** metallicity of the gas at birth *)
Lemma lgmet_err ts ms K t e : times_ok ts -> rounding_lgmet_table K ts ms -> rnd t = Fin t -> ent ts 0 <= t <= 1000 -> -4 <= e <= 4 ->
  exists s, interp (get_lgt_birth (Fin t) (Fin e)) (map nlog10 (fins ts)) (fins ms) = Fin s
    /\ Rabs (s - lgmet_at_birth ts ms t e) <= lgmet_amp K ts t * u.
Proof.
  intros TO (LL & K0 & VM & SB) Rt Bt Be. pose proof (u_le u H) as Hu. destruct (times_range _ TO) as [I R].
  destruct (time_table_err u H ts TO) as (T & ET & LT & VT & GT). rewrite ET.
  assert (NT : ts <> []) by apply TO. assert (T0 : 0.003 <= ent ts 0) by apply TO. assert (L0 : (0 < length ts)%nat) by (destruct ts; [congruence|simpl; lia]).
  destruct (lgt_birth_err u H t e e) as (b' & q & Eq & Rq & Bb & Db); auto; [lra|replace (e - e) with 0 by lra; rewrite Rabs_R0; lra|lra|]. rewrite Eq.
  assert (TAB : table_ok T ms 5).
  { split; [intros ->; simpl in LT; lia|]. split; [lia|]. rewrite LT. split; [|split].
    - intros i Hi. destruct (VT i Hi) as (_ & A & B & _). split; auto. lra.
    - exact GT.
    - intros i Hi. destruct (VM i Hi) as (A & B). split; auto. apply Rabs_le. lra. }
  pose proof (table_increasing _ _ _ TAB) as IT.
  destruct (interp_err u H HE T ms q 5 TAB) as (s & Es & Bs); [simpl; lra|apply Rq|]. exists s. split; auto.
  unfold lgmet_at_birth. set (b := birth_time t e) in *. assert (Pb : 0 < b) by apply birth_time_pos. set (X := map log10 ts).
  assert (LX : length X = length ts) by (unfold X; now rewrite map_length).
  assert (XE : forall i, (i < length ts)%nat -> ent X i = log10 (ent ts i)) by (intros; unfold X; now apply ent_map).
  assert (IX : increasing X) by (unfold X; apply log10_increasing; auto; intros t' Ht; apply In_ent in Ht; destruct Ht as (i & Hi & <-); specialize (R i Hi); lra).
  assert (NX : X <> []) by (intros E; rewrite E in LX; simpl in LX; lia). assert (NT' : T <> []) by (intros E; rewrite E in LT; simpl in LT; lia).
  set (c := ent ts 0) in *.
  set (q2 := Rmax q (ent T 0)).
  assert (P1 : pwlin (combine T ms) q = pwlin (combine T ms) q2).
  { unfold q2, Rmax. destruct (Rle_dec q (ent T 0)); auto. rewrite !pwlin_left; auto; try lia; lra. }
  set (z := log10 (Rmax b c)).
  assert (P2 : pwlin (combine X ms) (log10 b) = pwlin (combine X ms) z).
  { unfold z, Rmax. destruct (Rle_dec b c); auto. rewrite !pwlin_left; auto; try lia; rewrite XE by auto; fold c; [lra|apply log10_le; lra]. }
  set (z' := log10 (Rmax b' c)).
  destruct (VT 0%nat L0) as (V0 & V1 & V2 & V3). fold c in V0, V3.
  assert (QZ : Rabs (q2 - z') <= 4.1 * u).
  { unfold q2, z'. replace (log10 (Rmax b' c)) with (Rmax (log10 b') (log10 c)); [apply Rmax_err; [apply Rq|exact V3]|].
    unfold Rmax at 2. destruct (Rle_dec b' c) as [Q|Q]; [rewrite Rmax_right; auto|rewrite Rmax_left; auto]; apply log10_le; lra. }
  set (beta := 625 * u * t) in *.
  assert (ZZ : Rabs (z' - z) <= beta / (2 * c)).
  { unfold z, z'. eapply Rle_trans; [apply (log10_lip c); [lra|apply Rmax_r|apply Rmax_r]|]. unfold Rdiv. apply Rmult_le_compat_r; [apply Rlt_le, Rinv_0_lt_compat; lra|].
    apply Rmax_err; auto. unfold Rminus. rewrite Rplus_opp_r, Rabs_R0. apply Rle_trans with (Rabs (b' - b)); auto. apply Rabs_pos. }
  assert (QQ : Rabs (q2 - z) <= 4.1 * u + beta / (2 * c)).
  { replace (q2 - z) with ((q2 - z') + (z' - z)) by lra. eapply Rle_trans; [apply Rabs_triang|]. lra. }
  assert (SB' : slope_bound K X ms).
  { intros i Hi. rewrite LX in Hi. rewrite !XE by lia. apply SB. auto. }
  assert (FIN : Rabs (pwlin (combine T ms) q2 - pwlin (combine X ms) z) <= 0 + K * (4.1 * u + (4.1 * u + beta / (2 * c)))).
  { apply (pwlin_stable X ms T ms K (4.1 * u) 0 (4.1 * u + beta / (2 * c)) z q2); auto; try lia.
    - intros i Hi. rewrite LX in Hi. rewrite XE by auto. apply VT; auto.
    - intros i Hi. replace (ent ms i - ent ms i) with 0 by lra. rewrite Rabs_R0. lra. }
  rewrite P2. rewrite P1 in Bs.
  replace (s - pwlin (combine X ms) z) with ((s - pwlin (combine T ms) q2) + (pwlin (combine T ms) q2 - pwlin (combine X ms) z)) by lra.
  eapply Rle_trans; [apply Rabs_triang|].
  set (tau := t / c). assert (Tau : 1 <= tau) by (unfold tau; apply Rmult_le_reg_r with c; [lra|]; unfold Rdiv; rewrite Rmult_assoc, Rinv_l; lra).
  assert (Ebt : beta / (2 * c) = 312.5 * (u * tau)) by (unfold beta, tau; replace 312.5 with (625 / 2) by lra; field; lra).
  rewrite Ebt in FIN. assert (Kt : K * u <= K * (u * tau)). { apply Rmult_le_compat_l; auto. rewrite <- (Rmult_1_r u) at 1. apply Rmult_le_compat_l; lra. }
  unfold lgmet_amp. fold c. fold tau. replace ((100 + 321 * K * tau) * u) with (100 * u + 321 * (K * (u * tau))) by ring. assert (0 <= K * u) by (apply Rmult_le_pos; lra). lra.
Qed.
End F.
