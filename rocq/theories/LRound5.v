(** * Age weights in rounded arithmetic against the exact ones *)
From Coq Require Import Reals List Arith Lra Lia ZArith Bool.
From Coquelicot Require Import Rcomplements.
From Flocq Require Import Core.Raux.
From Verif Require Import Num Arr MUtils MSed Float Spec SpecFloat RList LBcast LUtils LAge LFloat LFloat2 LFloat3 LFloat4 LFloat5 LFloat10 LFloat11 LFloat13 LRound1 LRound2 LRound3 LRound4 LRoundF.
Import ListNotations.
Open Scope R_scope.

Lemma age_edge_range a i : (3 <= length a)%nat -> (forall j, (j < length a)%nat -> -4 <= ent a j <= 4) -> (i <= length a)%nat -> -8 <= age_edge a i <= 8.
Proof.
  intros L B Hi. unfold age_edge, node_width. set (n := length a) in *.
  destruct (Nat.eqb_spec i n) as [->|Hn].
  - destruct (Nat.eqb_spec (n - 1) 0); [lia|]. rewrite Nat.eqb_refl.
    pose proof (B (n - 1)%nat ltac:(lia)). pose proof (B (n - 1 - 1)%nat ltac:(lia)). pose proof (B (n - 1 - 2)%nat ltac:(lia)). lra.
  - destruct (Nat.eqb_spec i 0) as [->|H0]; [|destruct (Nat.eqb_spec i (n - 1)) as [->|H1]].
    + pose proof (B 0%nat ltac:(lia)). pose proof (B 1%nat ltac:(lia)). lra.
    + pose proof (B (n - 1)%nat ltac:(lia)). pose proof (B (n - 1 - 1)%nat ltac:(lia)). pose proof (B (n - 1 - 2)%nat ltac:(lia)). lra.
    + pose proof (B i ltac:(lia)). pose proof (B (i + 1)%nat ltac:(lia)). pose proof (B (i - 1)%nat ltac:(lia)). lra.
Qed.

Section F.
Context {AR : Arith} (u : R) (H : rel_err AR u) (HE : interp_eps <= / 2 ^ 40).
Let G := re_good _ _ H.

Lemma edges_err ages : (3 <= length ages)%nat -> (forall j, (j < length ages)%nat -> -4 <= ent ages j <= 4) ->
  exists e, get_lg_age_bin_edges_k (fins ages) = fins e /\ length e = S (length ages)
    /\ forall i, (i <= length ages)%nat -> Rabs (ent e i - age_edge ages i) <= 102 * u.
Proof.
  intros L B. pose proof (u_le u H) as Hu.
  assert (E : forall i, (i <= length ages)%nat -> length (get_lg_age_bin_edges_k (fins ages)) = S (length ages)
     /\ approx (17 * u) (at_ (get_lg_age_bin_edges_k (fins ages)) i) (age_edge ages i) 6).
  { intros i Hi. apply (edges_approx (17 * u)); auto; [simpl (10 ^ 6) in Hu; lra|]. apply (abs_err16 u H). }
  pose proof (proj1 (E 0%nat ltac:(lia))) as LE.
  destruct (cases_fins (get_lg_age_bin_edges_k (fins ages))) as (e & Ee & Le & Ve).
  { intros v Hv. destruct (In_nth _ _ NaN Hv) as (i & Hi & <-). destruct (proj2 (E i ltac:(lia))) as (y & Y & _). exists y. exact Y. }
  exists e. split; auto. split; [lia|]. intros i Hi. destruct (proj2 (E i Hi)) as (y & Y & A). rewrite Ve in Y by lia. injection Y as ->. lra.
Qed.

Definition mass_amp0 (K : R) (ts : list R) (t_obs : R) (n : nat) : R :=
  2 * INR (length ts) + 2 * INR n + 730 + 321 * K * (t_obs / ent ts 0).

Lemma logmass_range ts ss smin x : times_ok ts -> length ts = length ss -> (length ts <= 2 ^ 17)%nat -> sfr_ok smin ss ->
  -8 <= pwlin (combine (map log10 ts) (map log10 (cumulative_mass ts (floored smin ss)))) x <= 33.
Proof.
  intros TO L LN SO. destruct (logsm_err u H ts ss smin TO L LN SO) as (l & El & Ll & Bl). destruct (times_range _ TO) as [I R].
  apply pwlin_range.
  - apply log10_increasing; auto. intros t Ht. apply In_nth with (d := 0) in Ht. destruct Ht as (i & Hi & <-). specialize (R i Hi). unfold ent in R. lra.
  - now rewrite !map_length, cumulative_mass_length.
  - apply map_neq_nil. apply TO.
  - apply Forall_map. apply Forall_forall. intros m Hm. apply In_nth with (d := 0) in Hm. destruct Hm as (i & Hi & <-). rewrite cumulative_mass_length in Hi. apply (Bl i Hi).
Qed.

Lemma pow10_33 : pow10 33 = 10 ^ 33.
Proof. unfold pow10. replace 33 with (INR 33) by (simpl; lra). rewrite Rpower_pow by lra. reflexivity. Qed.
Lemma pow10_m8 : pow10 (-8) = / 10 ^ 8.
Proof. unfold pow10. replace (-8) with (- INR 8) by (simpl; lra). rewrite Rpower_Ropp, Rpower_pow by lra. reflexivity. Qed.

(** mass formed by (approximately known) time [b'] *)
Lemma mass_at_err0 ts ss smin K b b' q beta t n : times_ok ts -> length ts = length ss -> (length ts <= 2 ^ 17)%nat -> sfr_ok smin ss ->
  slope_ok K ts (floored smin ss) -> ent ts 0 <= t -> 0 < b -> 1/1024 <= b' <= 1000 -> near_log u b' q ->
  Rabs (b' - b) <= beta -> beta <= 625 * u * t -> mass_amp0 K ts t n * u <= 1/100 ->
  exists p, npow10 (interp (Fin q) (map nlog10 (fins ts)) (calc_logsm_table_from_sfh_table (fins ts) (fins ss) (Fin smin))) = Fin p
    /\ rnd p = Fin p /\ Rabs (p - mass_formed_by ts (floored smin ss) b) <= 4 * mass_amp0 K ts t n * u * mass_formed_by ts (floored smin ss) b.
Proof.
  intros TO LL LN SO SK Ht Pb Bb Eq Eb Hb HA. pose proof (u_le u H) as Hu. destruct (times_range _ TO) as [I R].
  destruct (time_table_err u H ts TO) as (T & ET & _). destruct (logsm_err u H ts ss smin TO LL LN SO) as (L & EL & _).
  destruct (logmass_err u H HE ts ss smin K T L b b' q beta) as (s & Es & As); auto.
  rewrite ET, EL, Es. unfold mass_formed_by. set (y := pwlin _ _) in *.
  assert (By : -8 <= y <= 33) by (apply logmass_range; auto).
  assert (T0 : 0.003 <= ent ts 0) by apply TO. destruct SK as [K0 _].
  set (tau := t / ent ts 0). assert (Tau : 1 <= tau) by (unfold tau; apply Rmult_le_reg_r with (ent ts 0); [lra|]; unfold Rdiv; rewrite Rmult_assoc, Rinv_l; lra).
  assert (KT : K <= K * tau) by (rewrite <- (Rmult_1_r K) at 1; apply Rmult_le_compat_l; lra).
  assert (Bb2 : beta / (2 * ent ts 0) <= 312.5 * u * tau).
  { unfold tau. apply Rmult_le_reg_r with (2 * ent ts 0); [lra|]. unfold Rdiv at 1. rewrite Rmult_assoc, Rinv_l by lra. replace (312.5 * u * (t / ent ts 0) * (2 * ent ts 0)) with (625 * u * t) by (replace 312.5 with (625 / 2) by lra; field; lra). lra. }
  assert (Kb : K * (beta / (2 * ent ts 0)) <= 312.5 * (K * tau) * u).
  { replace (312.5 * (K * tau) * u) with (K * (312.5 * u * tau)) by lra. apply Rmult_le_compat_l; auto. }
  set (kt := K * tau) in *. unfold mass_amp0 in *. replace (321 * K * (t / ent ts 0)) with (321 * kt) in * by (unfold kt, tau; ring).
  set (N := INR (length ts)) in *. assert (N0 : 0 <= N) by apply pos_INR. pose proof (pos_INR n) as M0. set (m := INR n) in *.
  set (A := 2 * N + 2 * m + 730 + 321 * kt) in *.
  assert (D : Rabs (s - y) <= (A - 4) * u).
  { eapply Rle_trans; [exact As|]. apply Rle_trans with ((1.2 * N + 726 + 8.2 * K + 312.5 * kt) * u); [lra|]. apply Rmult_le_compat_r; [lra|]. unfold A. lra. }
  assert (D1 : (A - 4) * u <= / 100) by lra.
  pose proof (pow10_close s y _ D D1) as PC. assert (P0 : 0 < pow10 y) by apply pow10_pos. set (P := pow10 y) in *.
  assert (PL : / 10 ^ 8 <= P) by (rewrite <- pow10_m8; apply pow10_le; lra).
  assert (PU : P <= 10 ^ 33) by (rewrite <- pow10_33; apply pow10_le; lra).
  assert (AP : 0 <= (A - 4) * u * P).
  { assert (0 <= (A - 4)) by (unfold A; assert (0 <= kt) by (unfold kt; apply Rmult_le_pos; lra); lra). apply Rmult_le_pos; [apply Rmult_le_pos; lra|lra]. }
  assert (A1 : (A - 4) * u * P <= / 100 * P) by (apply Rmult_le_compat_r; lra).
  assert (V : 0 < pow10 s <= 2 * P) by (split; [apply pow10_pos|apply Rabs_le_inv in PC; lra]).
  destruct (npow10_any u H s) as (p & Ep & Rp & _ & RA).
  { apply Rle_trans with (2 * 10 ^ 33); [lra|]. apply Rle_trans with (10 * 10 ^ 33); [apply Rmult_le_compat_r; [apply pow_le|]; lra|].
    rewrite tech_pow_Rmult. apply Rle_pow; [lra|lia]. }
  exists p. split; auto. split; auto.
  pose proof (tiny_u u H) as [_ Ty].
  assert (Ty2 : (u * / 2 ^ 102) <= u * P).
  { eapply Rle_trans; [exact Ty|]. apply Rmult_le_compat_l; [lra|]. eapply Rle_trans; [|exact PL]. apply Rinv_le; [apply pow_lt; lra|]. apply Rle_pow; [lra|lia]. }
  assert (u * pow10 s <= u * (2 * P)) by (apply Rmult_le_compat_l; lra).
  replace (p - P) with ((p - pow10 s) + (pow10 s - P)) by lra. eapply Rle_trans; [apply Rabs_triang|].
  assert (UP : 0 <= u * P) by (apply Rmult_le_pos; lra).
  replace (4 * A * u * P) with (4 * ((A - 4) * u * P) + 16 * (u * P)) by ring. lra.
Qed.

Lemma floored_cum_pos ts ss s0 i : length ts = length ss -> increasing (0.001 :: ts) -> 0 < s0 -> (i < length ts)%nat -> 0 < ent (cumulative_mass ts (floored s0 ss)) i.
Proof.
  intros L I S0 Hi. destruct (cumulative_mass_increasing ts (floored s0 ss)) as [_ Q]; auto.
  - unfold floored. now rewrite map_length.
  - unfold floored. apply Forall_map, Forall_forall. intros x _. apply Rlt_le_trans with s0; [auto|apply Rmax_l].
  - rewrite Forall_forall in Q. apply Q, ent_In. now rewrite cumulative_mass_length.
Qed.
Lemma mass_le_34 ts ss smin s0 b : times_ok ts -> length ts = length ss -> (length ts <= 2 ^ 17)%nat -> sfr_ok smin ss -> increasing (0.001 :: ts) ->
  0 < s0 -> Rabs (smin - s0) <= 1.001 * u * s0 -> mass_formed_by ts (floored s0 ss) b <= 10 ^ 34.
Proof.
  intros TO LL LN SO I1 S0 FL. pose proof (u_le u H) as Hu. simpl (10 ^ 6) in Hu.
  assert (U1 : 0 <= 1.001 * u <= 1/100) by lra.
  pose proof (mass_floor ts ss smin s0 (1.001 * u) b LL I1 S0 U1 FL (proj1 TO) (fun i Hi => floored_cum_pos ts ss s0 i LL I1 S0 Hi)) as MF.
  assert (Q : mass_formed_by ts (floored smin ss) b <= 10 ^ 33) by (unfold mass_formed_by; rewrite <- pow10_33; apply pow10_le; apply logmass_range; auto).
  assert (P0 : 0 < mass_formed_by ts (floored s0 ss) b) by apply pow10_pos. apply Rabs_le_inv in MF. change (10 ^ 34) with (10 * 10 ^ 33). nra.
Qed.
Lemma mass_ge ts ss smin s0 b : times_ok ts -> length ts = length ss -> (length ts <= 2 ^ 17)%nat -> sfr_ok smin ss -> increasing (0.001 :: ts) ->
  0 < s0 -> Rabs (smin - s0) <= 1.001 * u * s0 -> / 10 ^ 20 <= mass_formed_by ts (floored s0 ss) b.
Proof.
  intros TO LL LN SO I1 S0 FL. pose proof (u_le u H) as Hu. simpl (10 ^ 6) in Hu.
  assert (U1 : 0 <= 1.001 * u <= 1/100) by lra.
  pose proof (mass_floor ts ss smin s0 (1.001 * u) b LL I1 S0 U1 FL (proj1 TO) (fun i Hi => floored_cum_pos ts ss s0 i LL I1 S0 Hi)) as MF.
  assert (Q : / 10 ^ 8 <= mass_formed_by ts (floored smin ss) b).
  { unfold mass_formed_by. replace (/ 10 ^ 8) with (pow10 (-8)); [apply pow10_le; apply logmass_range; auto|]. unfold pow10. replace (-8) with (- INR 8) by (simpl; lra). rewrite Rpower_Ropp, Rpower_pow by lra. reflexivity. }
  assert (P0 : 0 < mass_formed_by ts (floored s0 ss) b) by apply pow10_pos. apply Rabs_le_inv in MF.
  assert (/ 10 ^ 20 <= / 10 ^ 8 / 10) by (simpl; lra). nra.
Qed.
Lemma mass_at_err ts ss smin s0 K b b' q beta t n : times_ok ts -> length ts = length ss -> (length ts <= 2 ^ 17)%nat -> sfr_ok smin ss ->
  0 < s0 -> Rabs (smin - s0) <= 1.001 * u * s0 ->
  slope_ok K ts (floored s0 ss) -> ent ts 0 <= t -> 0 < b -> 1/1024 <= b' <= 1000 -> near_log u b' q ->
  Rabs (b' - b) <= beta -> beta <= 625 * u * t -> mass_amp K ts t n * u <= 1/100 ->
  exists p, npow10 (interp (Fin q) (map nlog10 (fins ts)) (calc_logsm_table_from_sfh_table (fins ts) (fins ss) (Fin smin))) = Fin p
    /\ rnd p = Fin p /\ Rabs (p - mass_formed_by ts (floored s0 ss) b) <= 4 * mass_amp K ts t n * u * mass_formed_by ts (floored s0 ss) b.
Proof.
  intros TO LL LN SO S0 FL SK Ht Pb Bb Eq Eb Hb HA. pose proof (u_le u H) as Hu. destruct (times_range _ TO) as [I R].
  assert (U20 : 1.001 * u <= / 2 ^ 20) by (pose proof (re_u _ _ H) as Q; simpl in Q; simpl; lra).
  assert (I1 : increasing (0.001 :: ts)). { apply increasing_cons. split; auto. intros y Hy. apply In_nth with (d := 0) in Hy. destruct Hy as (i & Hi & <-). specialize (R i Hi). unfold ent in R. lra. }
  assert (CP : forall i, (i < length ts)%nat -> 0 < ent (cumulative_mass ts (floored s0 ss)) i).
  { intros i Hi. apply floored_cum_pos; auto. }
  assert (U1 : 0 <= 1.001 * u <= 1/100) by (simpl in U20; lra).
  assert (SK' : slope_ok (K + 1) ts (floored smin ss)) by (apply (slope_floor ts ss smin s0 (1.001 * u)); auto; lra).
  pose proof (mass_floor ts ss smin s0 (1.001 * u) b LL I1 S0 U1 FL (proj1 TO) CP) as MF.
  assert (EA : mass_amp K ts t n = mass_amp0 (K + 1) ts t n + 10) by (unfold mass_amp, mass_amp0; lra).
  destruct (mass_at_err0 ts ss smin (K + 1) b b' q beta t n) as (p & Ep & Rp & Bp); auto. { rewrite EA in HA. lra. }
  exists p. split; auto. split; auto. rewrite EA in *.
  assert (P0 : 0 < mass_formed_by ts (floored s0 ss) b) by apply pow10_pos. set (P := mass_formed_by ts (floored s0 ss) b) in *. set (Q := mass_formed_by ts (floored smin ss) b) in *.
  set (A := mass_amp0 (K + 1) ts t n) in *.
  assert (A0 : 0 <= A).
  { unfold A, mass_amp0. destruct SK as [K0 _]. assert (T0 : 0.003 <= ent ts 0) by apply TO. pose proof (pos_INR (length ts)). pose proof (pos_INR n). assert (0 <= (K + 1) * (t / ent ts 0)).
    { apply Rmult_le_pos; [lra|]. apply Rmult_le_pos; [lra|]. apply Rlt_le, Rinv_0_lt_compat. lra. } replace (321 * (K + 1) * (t / ent ts 0)) with (321 * ((K + 1) * (t / ent ts 0))) by ring. lra. }
  assert (AU : 0 <= A * u <= 1/100) by (split; [apply Rmult_le_pos; lra|lra]).
  apply Rabs_le_inv in MF. assert (QB : Q <= (1 + 2 * u) * P) by (assert (0 <= u * P) by (apply Rmult_le_pos; lra); lra).
  assert (D : 4 * A * u * Q <= 4 * A * u * ((1 + 2 * u) * P)) by (apply Rmult_le_compat_l; lra).
  replace (p - P) with ((p - Q) + (Q - P)) by lra. eapply Rle_trans; [apply Rabs_triang|].
  assert (UP : 0 <= u * P) by (apply Rmult_le_pos; lra).
  assert (W : Rabs (Q - P) <= 2 * (u * P)) by (apply Rabs_le; lra).
  assert (V : (A * u) * (u * P) <= 1/100 * (u * P)) by (apply Rmult_le_compat_r; lra).
  replace (4 * A * u * ((1 + 2 * u) * P)) with (4 * A * u * P + 8 * ((A * u) * (u * P))) in D by ring.
  replace (4 * (A + 10) * u * P) with (4 * A * u * P + 40 * (u * P)) by ring. lra.
Qed.

Lemma age_weights_err ts ss ages t smin s0 K : times_ok ts -> length ts = length ss -> (length ts <= 2 ^ 17)%nat -> sfr_ok smin ss -> 0 < s0 -> Rabs (smin - s0) <= 1.001 * u * s0 ->
  slope_ok K ts (floored s0 ss) -> rnd t = Fin t -> ent ts 0 <= t <= 1000 ->
  (3 <= length ages <= 2 ^ 18)%nat -> (forall i, (i < length ages)%nat -> -4 <= ent ages i <= 4) -> nondecreasing (age_edges ages) ->
  edge_mass ts ss s0 t (age_edge ages (length ages)) <= edge_mass ts ss s0 t (age_edge ages 0) / 2 ->
  INR (length ages) * (mass_amp K ts t (length ages) * u) <= 1/100 ->
  exists w, calc_age_weights_from_sfh_table (fins ts) (fins ss) (fins ages) (Fin t) (Fin smin) = Ok (fins w) /\ length w = length ages
    /\ forall i, (i < length ages)%nat -> rnd (ent w i) = Fin (ent w i)
       /\ Rabs (ent w i - ent (bin_masses ts ss s0 t ages) i / total_mass ts ss s0 t ages) <= 40 * mass_amp K ts t (length ages) * u.
Proof.
  intros TO LL LN SO S0 FL SK Rt Bt LA RA ND HF HA. pose proof (u_le u H) as Hu. destruct (times_range _ TO) as [I R]. set (n := length ages) in *.
  set (A := mass_amp K ts t n) in *.
  assert (T0 : 0.003 <= ent ts 0) by apply TO. destruct SK as [K0 SK1]. pose proof (conj K0 SK1) as SK.
  assert (Hn3 : 3 <= INR n). { replace 3 with (INR 3) by (simpl; lra). apply le_INR. lia. }
  assert (A0 : 730 + 2 * INR n <= A).
  { unfold A, mass_amp. pose proof (pos_INR (length ts)). assert (0 <= (K + 1) * (t / ent ts 0)). { apply Rmult_le_pos; [lra|]. apply Rmult_le_pos; [lra|]. apply Rlt_le, Rinv_0_lt_compat. lra. } replace (321 * (K + 1) * (t / ent ts 0)) with (321 * ((K + 1) * (t / ent ts 0))) by ring. lra. }
  assert (AU : 0 <= A * u) by (apply Rmult_le_pos; lra).
  assert (AU2 : 3 * (A * u) <= 1/100) by (eapply Rle_trans; [|exact HA]; apply Rmult_le_compat_r; auto).
  destruct (edges_err ages) as (e & Ee & Le & Ve); [lia|auto|].
  assert (Q : forall i, (i <= n)%nat -> exists p, npow10 (interp (get_lgt_birth (Fin t) (Fin (ent e i))) (map nlog10 (fins ts)) (calc_logsm_table_from_sfh_table (fins ts) (fins ss) (Fin smin))) = Fin p
     /\ rnd p = Fin p /\ Rabs (p - edge_mass ts ss s0 t (age_edge ages i)) <= 4 * A * u * edge_mass ts ss s0 t (age_edge ages i)).
  { intros i Hi. destruct (lgt_birth_err u H t (age_edge ages i) (ent e i)) as (b & q & Eq & Rq & Bb & Db); auto; [lra|apply age_edge_range; auto; lia|].
    rewrite Eq. unfold edge_mass. apply (mass_at_err ts ss smin s0 K _ b q (625 * u * t) t n); auto; try lra. apply birth_time_pos. fold A. lra. }
  set (f := fun v => npow10 (interp (get_lgt_birth (Fin t) v) (map nlog10 (fins ts)) (calc_logsm_table_from_sfh_table (fins ts) (fins ss) (Fin smin)))).
  destruct (cases_fins (map f (fins e))) as (p & Ep & Lp & Vp).
  { intros v Hv. apply in_map_iff in Hv. destruct Hv as (v0 & <- & Hv). apply in_map_iff in Hv. destruct Hv as (x & <- & Hx). apply In_nth with (d := 0) in Hx. destruct Hx as (i & Hi & <-).
    destruct (Q i ltac:(lia)) as (p & Ep & _). exists p. exact Ep. }
  rewrite map_length, fins_length in Lp, Vp.
  assert (Q' : forall i, (i <= n)%nat -> rnd (ent p i) = Fin (ent p i) /\ Rabs (ent p i - edge_mass ts ss s0 t (age_edge ages i)) <= 4 * A * u * edge_mass ts ss s0 t (age_edge ages i)).
  { intros i Hi. destruct (Q i Hi) as (pi & Epi & Hp). specialize (Vp i ltac:(lia)). rewrite at_map, at_fins in Vp by (rewrite ?fins_length; lia). unfold f in Vp. rewrite Epi in Vp. injection Vp as <-. exact Hp. }
  assert (I1 : increasing (0.001 :: ts)). { apply increasing_cons. split; auto. intros y Hy. apply In_nth with (d := 0) in Hy. destruct Hy as (i & Hi & <-). specialize (R i Hi). unfold ent in R. lra. }
    set (P := fun i => edge_mass ts ss s0 t (age_edge ages i)) in *.
  assert (PM : forall i, (i < n)%nat -> P (S i) <= P i). { intros i Hi. apply edge_mass_anti; auto. apply age_edge_le; auto. }
  assert (PP : forall i, 0 < P i) by (intros; apply pow10_pos).
  pose proof (mono_le P n PM) as ML.
  assert (P34 : P 0%nat <= 10 ^ 34).
  { apply (mass_le_34 ts ss smin s0); auto. }
  assert (P20 : / 10 ^ 20 <= P 0%nat) by (apply (mass_ge ts ss smin s0); auto).
  destruct (normalise_err u H n P p (4 * A * u)) as (x & Ex & Lx & Vx); auto.
  - lia.
  - lia.
  - intros i Hi. destruct (Q' i Hi) as [Q1 Q2]. split; auto. eapply Rle_trans; [exact Q2|]. apply Rmult_le_compat_l; [lra|]. apply ML. lia.
  - apply Rlt_le, PP.
  - assert (2 * INR n * u <= A * u) by (apply Rmult_le_compat_r; lra). lra.
  - assert (730 * u <= A * u) by (apply Rmult_le_compat_r; lra). lra.
  - replace (INR n * (4 * A * u)) with (4 * (INR n * (A * u))) by ring. lra.
  - lra.
  - exists x. split.
    + unfold calc_age_weights_from_sfh_table, check_sfh_tables, check_templates, check. rewrite fits_same by (now rewrite !fins_length).
      rewrite !fins_length. destruct (Nat.eqb_spec (length ts) 0) as [Z|_]. { destruct ts; [exfalso; apply (proj1 TO); reflexivity|simpl in Z; lia]. }
      destruct (Nat.leb_spec 3 (length ages)) as [_|]; [|lia].
      cbn [negb]. f_equal. unfold calc_age_weights_from_sfh_table_k, calc_age_weights_from_logsm_table_k. cbn [snd]. rewrite Ee.
      rewrite <- Ex. rewrite <- Ep. unfold f. rewrite !map_map. reflexivity.
    + split; auto. intros i Hi. destruct (Vx i Hi) as [V1 V2]. split; auto.
      unfold bin_masses. rewrite ent_map_seq by (fold n; lia). cbn [Nat.add]. unfold total_mass. fold n.
      eapply Rle_trans; [exact V2|]. lra.
Qed.
End F.
