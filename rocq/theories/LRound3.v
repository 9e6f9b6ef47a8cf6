(** * The log-mass table in rounded arithmetic against the exact one *)
From Coq Require Import Reals List Arith Lra Lia ZArith Bool.
From Coquelicot Require Import Rcomplements.
From Flocq Require Import Core.Raux.
From Verif Require Import Num Arr MUtils MSed Float Spec SpecFloat RList LBcast LUtils LAge LFloat LFloat2 LFloat3 LFloat4 LFloat5 LFloat10 LFloat11 LFloat13 LRound1 LRound2.
Import ListNotations.
Open Scope R_scope.

Lemma cases_fins (l : list num) : (forall v, In v l -> exists x, v = Fin x) -> exists r, l = fins r /\ length r = length l /\ forall i, (i < length l)%nat -> at_ l i = Fin (ent r i).
Proof.
  induction l as [|v l IH]; intros F. { exists []. repeat split; auto. simpl. intros. lia. }
  destruct (F v (or_introl eq_refl)) as (x & ->). destruct IH as (r & -> & L & E); [intros; apply F; now right|].
  exists (x :: r). split; auto. split; [simpl; lia|]. intros [|i] Hi; [reflexivity|]. rewrite ent_cons_S, <- E by (simpl in Hi; lia). reflexivity.
Qed.
Lemma at_map (f : num -> num) l i : (i < length l)%nat -> at_ (map f l) i = f (at_ l i).
Proof. intros. unfold at_. apply nth_map'. auto. Qed.

Section F.
Context {AR : Arith} (u : R) (H : rel_err AR u) (HE : interp_eps <= / 2 ^ 40).
Let G := re_good _ _ H.

Lemma log10_range x : 1/1024 <= x <= 1000 -> -4 <= log10 x <= 4.
Proof.
  intros B. split; [apply Rle_trans with (log10 (1/1024)); [apply log10_1024|apply log10_le; lra]|].
  apply Rle_trans with (log10 1000); [apply log10_le; lra|]. pose proof log10_1000. lra.
Qed.
Lemma log10_range2 x : 1/1000 <= x <= 1000 -> -3 <= log10 x <= 3.
Proof.
  intros B. pose proof log10_1000 as L. split; [|apply Rle_trans with (log10 1000); [apply log10_le; lra|lra]].
  apply Rle_trans with (log10 (/ 1000)); [|apply log10_le; lra]. unfold log10 in *. rewrite ln_Rinv by lra. unfold Rdiv in *. lra.
Qed.
Lemma log10_ratio a b : 0 < a -> 1.00001 * a <= b -> 4 * / 2 ^ 20 <= log10 b - log10 a.
Proof.
  intros A B. assert (P : 0 < b) by lra. pose proof ln10_le. pose proof ln10_ge. unfold log10. replace (ln b / ln 10 - ln a / ln 10) with ((ln b - ln a) / ln 10) by (field; lra).
  assert (E : 0.0000099 <= ln b - ln a).
  { rewrite <- ln_div by lra. assert (Q : 0 < a / b) by (apply Rdiv_lt_0_compat; lra). pose proof (ln_le_sub1 (a / b) Q) as W. rewrite ln_div in W by lra. rewrite ln_div by lra.
    assert (a / b <= 1 - 0.0000099); [|lra]. apply Rmult_le_reg_r with b; auto. unfold Rdiv. rewrite Rmult_assoc, Rinv_l by lra. lra. }
  apply Rle_trans with (0.0000099 / (5/2)); [simpl; lra|]. apply Rle_trans with (0.0000099 / ln 10).
  - unfold Rdiv at 1 3. apply Rmult_le_compat_l; [lra|]. apply Rinv_le_contravar; lra.
  - unfold Rdiv. apply Rmult_le_compat_r; [apply Rlt_le, Rinv_0_lt_compat; lra|lra].
Qed.
Lemma times_range ts : times_ok ts -> increasing ts /\ forall i, (i < length ts)%nat -> 0.003 <= ent ts i <= 1000.
Proof.
  intros (N & T0 & R & GR).
  assert (P : forall i, (i < length ts)%nat -> 0.003 <= ent ts i).
  { induction i as [|i IH]; intros Hi; auto. specialize (IH ltac:(lia)). specialize (GR i Hi). lra. }
  split; [|intros i Hi; split; [auto|apply R; auto]]. apply increasing_step. intros i Hi. specialize (GR i Hi). specialize (P i ltac:(lia)). lra.
Qed.
Lemma time_table_err ts : times_ok ts -> exists T, map nlog10 (fins ts) = fins T /\ length T = length ts
  /\ (forall i, (i < length ts)%nat -> elem (LOG10 (ent ts i)) = Fin (ent T i) /\ rnd (ent T i) = Fin (ent T i) /\ -4 <= ent T i <= 4 /\ Rabs (ent T i - log10 (ent ts i)) <= 4.1 * u)
  /\ (forall i, (S i < length ts)%nat -> / 2 ^ 20 <= ent T (S i) - ent T i).
Proof.
  intros TO. destruct (times_range _ TO) as [I R]. destruct TO as (N & T0 & _ & GR). pose proof (u_le u H) as Hu.
  assert (Q : forall i, (i < length ts)%nat -> exists y, nlog10 (Fin (ent ts i)) = Fin y /\ elem (LOG10 (ent ts i)) = Fin y /\ rnd y = Fin y /\ -4 <= y <= 4 /\ Rabs (y - log10 (ent ts i)) <= 4.1 * u).
  { intros i Hi. specialize (R i Hi). unfold nlog10. rewrite Rlt_bool_true by lra. pose proof (log10_range2 (ent ts i) ltac:(lra)) as B.
    destruct (elem_err_B u H (LOG10 (ent ts i)) 4) as (y & E & A & Ry); [cbn; lra|cbn [elem_value]; fold (log10 (ent ts i)); apply Rabs_le; lra|simpl; lra|]. cbn [elem_value] in A. fold (log10 (ent ts i)) in A. exists y. pose proof A as A'. apply Rabs_le_inv in A'. simpl in Hu. repeat split; auto; lra. }
  destruct (cases_fins (map nlog10 (fins ts))) as (T & ET & LT & AT).
  { intros v Hv. apply in_map_iff in Hv. destruct Hv as (w & <- & Hw). apply in_map_iff in Hw. destruct Hw as (x & <- & Hx). apply In_ent in Hx. destruct Hx as (i & Hi & <-). destruct (Q i Hi) as (y & E & _). eauto. }
  rewrite map_length, fins_length in LT, AT. exists T. split; auto. split; auto.
  assert (V : forall i, (i < length ts)%nat -> elem (LOG10 (ent ts i)) = Fin (ent T i) /\ rnd (ent T i) = Fin (ent T i) /\ -4 <= ent T i <= 4 /\ Rabs (ent T i - log10 (ent ts i)) <= 4.1 * u).
  { intros i Hi. specialize (AT i Hi). rewrite at_map in AT by (now rewrite fins_length). rewrite at_fins in AT by auto. destruct (Q i Hi) as (y & E & B). rewrite E in AT. injection AT as ->. exact B. }
  split; auto. intros i Hi. destruct (V i ltac:(lia)) as (_ & _ & _ & A). destruct (V (S i) Hi) as (_ & _ & _ & B). apply Rabs_le_inv in A, B.
  pose proof (R i ltac:(lia)). pose proof (log10_ratio (ent ts i) (ent ts (S i)) ltac:(lra) (GR i Hi)) as L. simpl in *. lra.
Qed.

Lemma floored_machine smin ss : sfr_ok smin ss -> Forall (fun s => rnd s = Fin s /\ 0 <= s <= 10 ^ 20) (floored smin ss).
Proof.
  intros (P & R & B & F). unfold floored. apply Forall_map. eapply Forall_impl; [|exact F]. intros x [Rx Bx]. unfold Rmax. destruct (Rle_dec smin x); repeat split; auto; lra.
Qed.
Lemma floor_map smin ss : map (fun s => nwhere (s <? Fin smin)%num (Fin smin) s) (fins ss) = fins (floored smin ss).
Proof. unfold floored, fins. rewrite !map_map. apply map_ext. intros x. unfold nwhere, nltb. destruct (Rlt_bool_spec x smin); f_equal; [rewrite Rmax_left|rewrite Rmax_right]; lra. Qed.
Lemma log10_pow k : log10 (10 ^ k) = INR k.
Proof. rewrite <- Rpower_pow by lra. apply log10_pow10. Qed.
Lemma logsm_err ts ss smin : times_ok ts -> length ts = length ss -> (length ts <= 2 ^ 17)%nat -> sfr_ok smin ss ->
  let M := cumulative_mass ts (floored smin ss) in
  exists L, calc_logsm_table_from_sfh_table (fins ts) (fins ss) (Fin smin) = fins L /\ length L = length ts
   /\ forall i, (i < length ts)%nat -> rnd (ent L i) = Fin (ent L i) /\ Rabs (ent L i) <= 34 /\ -8 <= log10 (ent M i) <= 33 /\ 0 < ent M i
        /\ Rabs (ent L i - log10 (ent M i)) <= (1.2 * INR (length ts) + 46) * u.
Proof.
  intros TO L LN SO M. destruct (times_range _ TO) as [I R]. pose proof TO as (N & T0 & RT & GR). pose proof (u_le u H) as Hu.
  assert (LN1 : (1 <= length ts)%nat) by (destruct ts; [congruence|simpl; lia]).
  destruct (mass_err H ts (floored smin ss)) as (m & Em & Lm & Bm); auto.
  { now rewrite floored_length. }
  { apply Forall_ent. intros i Hi. apply RT. auto. }
  { now apply floored_machine. }
  fold M in Bm.
  assert (NU : (INR (length ts) + 10) * u <= / 16).
  { replace (INR (length ts) + 10) with (INR (length ts + 10)) by (rewrite plus_INR; simpl; lra). apply n_u; [apply (re_u _ _ H)|]. assert (N16 : (16 <= 2 ^ 17)%nat) by (apply (Nat.pow_le_mono_r 2 4 17); lia). change (2 ^ 18)%nat with (2 * 2 ^ 17)%nat. lia. }
  set (nn := INR (length ts)) in *. assert (Pn : 0 <= nn) by apply pos_INR.
  assert (EC : cumulative_mstar_formed_k (fins ts) (fins (floored smin ss)) = fins m).
  { now apply cum_ok. }
  assert (Q : forall i, (i < length ts)%nat -> exists y, nlog10 (Fin (ent m i)) = Fin y /\ rnd y = Fin y /\ Rabs y <= 34 /\ -8 <= log10 (ent M i) <= 33 /\ 0 < ent M i /\ Rabs (y - log10 (ent M i)) <= (1.2 * nn + 46) * u).
  { intros i Hi. destruct (Bm i Hi) as [E B]. assert (P8 : 0 < / 10 ^ 8) by (apply Rinv_0_lt_compat, pow_lt; lra). assert (Mp : 0 < ent M i) by lra.
    assert (LB : -8 <= log10 (ent M i) <= 33).
    { split.
      - apply Rle_trans with (log10 (/ 10 ^ 8)); [|apply log10_le; lra]. unfold log10. rewrite ln_Rinv by (apply pow_lt; lra). assert (E8 : log10 (10 ^ 8) = 8) by (rewrite log10_pow; simpl; lra). unfold log10 in E8. unfold Rdiv in *. lra.
      - apply Rle_trans with (log10 (10 ^ 33)); [apply log10_le; [lra|]; change (10 ^ 33) with (10 * 10 ^ 32); assert (0 < 10 ^ 32) by (apply pow_lt; lra); lra|]. rewrite log10_pow. simpl. lra. }
    set (w := ent M i) in *. assert (IN : INR i <= nn) by (apply le_INR; lia). pose proof (pos_INR i).
    assert (E' : Rabs (ent m i - w) <= 2 * ((nn + 10) * u) * w).
    { eapply Rle_trans; [exact E|]. apply Rmult_le_compat_r; [lra|]. rewrite Rmult_assoc. apply Rmult_le_compat_l; [lra|]. apply Rmult_le_compat_r; lra. }
    set (dl := (nn + 10) * u) in *. assert (0 <= dl) by (apply Rmult_le_pos; lra). assert (E'' : Rabs (ent m i - w) <= 1/8 * w) by (eapply Rle_trans; [exact E'|]; apply Rmult_le_compat_r; lra). apply Rabs_le_inv in E''.
    pose proof (log10_lip (7/8 * w) (ent m i) w ltac:(lra) ltac:(lra) ltac:(lra)) as LL.
    assert (LL' : Rabs (log10 (ent m i) - log10 w) <= 1.15 * dl).
    { eapply Rle_trans; [exact LL|]. apply Rle_trans with (2 * dl * w / (2 * (7/8 * w))); [unfold Rdiv; apply Rmult_le_compat_r; [apply Rlt_le, Rinv_0_lt_compat; lra|exact E']|].
      replace (2 * dl * w / (2 * (7 / 8 * w))) with (8/7 * dl) by (field; lra). lra. }
    apply Rabs_le_inv in LL'. unfold nlog10. rewrite Rlt_bool_true by lra.
    destruct (elem_err_B u H (LOG10 (ent m i)) 33.2) as (y & Ey & A & Ry); [cbn; lra|cbn [elem_value]; fold (log10 (ent m i)); apply Rabs_le; lra|simpl; lra|]. cbn [elem_value] in A. fold (log10 (ent m i)) in A. apply Rabs_le_inv in A.
    exists y. repeat split; auto; try lra; apply Rabs_le; simpl in Hu; unfold dl in *; lra. }
  destruct (cases_fins (map nlog10 (fins m))) as (S & ES & LS & AS).
  { intros v Hv. apply in_map_iff in Hv. destruct Hv as (w & <- & Hw). apply in_map_iff in Hw. destruct Hw as (x & <- & Hx). apply In_ent in Hx. destruct Hx as (i & Hi & <-). destruct (Q i ltac:(lia)) as (y & E & _). eauto. }
  rewrite map_length, fins_length, Lm in LS, AS. exists S. split; [unfold calc_logsm_table_from_sfh_table; now rewrite floor_map, EC|]. split; auto.
  intros i Hi. specialize (AS i Hi). rewrite at_map in AS by (rewrite fins_length; lia). rewrite at_fins in AS by lia. destruct (Q i Hi) as (y & E & B). rewrite E in AS. injection AS as ->. exact B.
Qed.

(** mass formed by a time known approximately *)
Lemma logmass_err ts ss smin K T L b b' q beta : times_ok ts -> length ts = length ss -> (length ts <= 2 ^ 17)%nat -> sfr_ok smin ss ->
  slope_ok K ts (floored smin ss) -> map nlog10 (fins ts) = fins T -> calc_logsm_table_from_sfh_table (fins ts) (fins ss) (Fin smin) = fins L ->
  0 < b -> 1/1024 <= b' <= 1000 -> near_log u b' q -> Rabs (b' - b) <= beta ->
  exists s, interp (Fin q) (fins T) (fins L) = Fin s
   /\ Rabs (s - pwlin (combine (map log10 ts) (map log10 (cumulative_mass ts (floored smin ss)))) (log10 b))
      <= (1.2 * INR (length ts) + 726 + 8.2 * K) * u + K * (beta / (2 * ent ts 0)).
Proof.
  intros TO LL LN SO SK ET EL Pb Bb Eq Ebeta. pose proof (u_le u H) as Hu. destruct (times_range _ TO) as [I R].
  destruct (time_table_err ts TO) as (T' & ET' & LT & VT & GT). rewrite ET in ET'. apply fins_inj in ET'. subst T'.
  destruct (logsm_err ts ss smin TO LL LN SO) as (L' & EL' & LS & VS). rewrite EL in EL'. apply fins_inj in EL'. subst L'.
  set (M := cumulative_mass ts (floored smin ss)) in *. set (nn := INR (length ts)) in *.
  assert (NT : ts <> []) by apply TO. assert (T0 : 0.003 <= ent ts 0) by apply TO. assert (L0 : (0 < length ts)%nat) by (destruct ts; [congruence|simpl; lia]).
  assert (LM : length M = length ts) by apply cumulative_mass_length.
  assert (TAB : table_ok T L 34).
  { split; [intros ->; simpl in LT; lia|]. split; [lia|]. rewrite LT. split; [|split].
    - intros i Hi. destruct (VT i Hi) as (_ & A & B & _). split; auto. lra.
    - exact GT.
    - intros i Hi. destruct (VS i Hi) as (A & B & _). auto. }
  pose proof (table_increasing _ _ _ TAB) as IT.
  destruct (interp_err u H HE T L q 34 TAB) as (s & Es & Bs); [simpl; lra|apply Eq|]. exists s. split; auto.
  set (X := map log10 ts). set (Y := map log10 M).
  assert (LX : length X = length ts) by (unfold X; now rewrite map_length). assert (LY : length Y = length ts) by (unfold Y; now rewrite map_length).
  assert (XE : forall i, (i < length ts)%nat -> ent X i = log10 (ent ts i)) by (intros; unfold X; now apply ent_map).
  assert (YE : forall i, (i < length ts)%nat -> ent Y i = log10 (ent M i)) by (intros; unfold Y; apply ent_map; lia).
  assert (IX : increasing X) by (unfold X; apply log10_increasing; auto; intros t Ht; apply In_ent in Ht; destruct Ht as (i & Hi & <-); specialize (R i Hi); lra).
  assert (NX : X <> []) by (intros E; rewrite E in LX; simpl in LX; lia). assert (NT' : T <> []) by (intros E; rewrite E in LT; simpl in LT; lia).
  set (c := ent ts 0) in *.
  (* the argument, clamped to the table *)
  set (q2 := Rmax q (ent T 0)).
  assert (P1 : pwlin (combine T L) q = pwlin (combine T L) q2).
  { unfold q2, Rmax. destruct (Rle_dec q (ent T 0)); auto. rewrite !pwlin_left; auto; try lia; lra. }
  set (z := log10 (Rmax b c)).
  assert (P2 : pwlin (combine X Y) (log10 b) = pwlin (combine X Y) z).
  { unfold z, Rmax. destruct (Rle_dec b c); auto. rewrite !pwlin_left; auto; try lia; rewrite XE by auto; fold c; [lra|apply log10_le; lra]. }
  set (z' := log10 (Rmax b' c)).
  destruct (VT 0%nat L0) as (V0 & V1 & V2 & V3). fold c in V0, V3.
  assert (QZ : Rabs (q2 - z') <= 4.1 * u).
  { unfold q2, z'. replace (log10 (Rmax b' c)) with (Rmax (log10 b') (log10 c)); [apply Rmax_err; [apply Eq|exact V3]|].
    unfold Rmax at 2. destruct (Rle_dec b' c) as [Q|Q]; [rewrite Rmax_right; auto|rewrite Rmax_left; auto]; apply log10_le; lra. }
  assert (ZZ : Rabs (z' - z) <= beta / (2 * c)).
  { unfold z, z'. eapply Rle_trans; [apply (log10_lip c); [lra|apply Rmax_r|apply Rmax_r]|]. unfold Rdiv. apply Rmult_le_compat_r; [apply Rlt_le, Rinv_0_lt_compat; lra|].
    apply Rmax_err; auto. unfold Rminus. rewrite Rplus_opp_r, Rabs_R0. apply Rle_trans with (Rabs (b' - b)); auto. apply Rabs_pos. }
  assert (QQ : Rabs (q2 - z) <= 4.1 * u + beta / (2 * c)).
  { replace (q2 - z) with ((q2 - z') + (z' - z)) by lra. eapply Rle_trans; [apply Rabs_triang|]. lra. }
  destruct SK as [K0 SK].
  assert (SB : slope_bound K X Y).
  { intros i Hi. rewrite LX in Hi. rewrite !XE, !YE by lia. specialize (SK i Hi). fold M in SK. rewrite Rabs_right; auto.
    assert (log10 (ent M i) <= log10 (ent M (S i))); [|lra].
    destruct (cumulative_mass_increasing ts (floored smin ss)) as [IM _].
    - now rewrite floored_length.
    - apply increasing_cons. split; auto. intros t Ht. apply In_ent in Ht. destruct Ht as (j & Hj & <-). specialize (R j Hj). lra.
    - apply floored_pos. apply SO.
    - destruct (VS i ltac:(lia)) as (_ & _ & _ & P & _). apply log10_le; auto. apply Rlt_le, IM. fold M. lia. }
  pose proof (pwlin_stable X Y T L K (4.1 * u) ((1.2 * nn + 46) * u) (4.1 * u + beta / (2 * c)) z q2) as ST.
  assert (FIN : Rabs (pwlin (combine T L) q2 - pwlin (combine X Y) z) <= (1.2 * nn + 46) * u + K * (4.1 * u + (4.1 * u + beta / (2 * c)))).
  { apply ST; auto; try lia.
    - intros i Hi. rewrite LX in Hi. rewrite XE by auto. apply VT; auto.
    - intros i Hi. rewrite LX in Hi. rewrite YE by auto. apply VS; auto. }
  rewrite P2. rewrite P1 in Bs.
  replace (s - pwlin (combine X Y) z) with ((s - pwlin (combine T L) q2) + (pwlin (combine T L) q2 - pwlin (combine X Y) z)) by lra.
  eapply Rle_trans; [apply Rabs_triang|]. lra.
Qed.
End F.
