(** * Property C146: tabulated star formation histories converge to continuous ones.
    Exact real arithmetic; the vocabulary is in SpecConv.v. *)
From Coq Require Import Reals List Arith Lra Lia.
From Coquelicot Require Import Coquelicot.
From Verif Require Import Num MUtils MSed Spec SpecConv RList LUtils LAge LMet LJoint LConv1 LConv4 Demo Demo2.
Import ListNotations.
Open Scope R_scope.

(** C146 *)
@@C146_age_weights_error = LConv4.C146_weights_lemma
@@C146_age_weights_converge = LConv4.C146_limit_lemma
@@C146_sed_error = LConv4.C146_sed_lemma

(** an oscillating history *)
Definition wavy (t : R) : R := 2 + sin t.
Lemma wavy_smooth : smooth_history 1 3 wavy.
Proof.
  split.
  - intros t. unfold wavy. pose proof (SIN_bound t). lra.
  - intros s t. unfold wavy. replace (2 + sin s - (2 + sin t)) with (sin s - sin t) by ring.
    destruct (MVT_gen sin t s cos) as (c & _ & E).
    + intros x _. auto_derive; auto. ring.
    + intros x _. apply continuity_sin.
    + rewrite E, Rabs_mult. apply Rmult_le_compat_r; [apply Rabs_pos|]. pose proof (COS_bound c). now apply Rabs_le.
Qed.
(** a table of [n] steps up to 14 Gyr *)
Definition fine (n : nat) : list R := map (fun i => 0.001 + INR (S i) * (13.999 / INR n)) (seq 0 n).
Lemma fine_ent n i : (i < n)%nat -> ent (fine n) i = 0.001 + INR (S i) * (13.999 / INR n).
Proof. intros H. unfold fine, ent. rewrite nth_map' with (d := 0%nat) by (now rewrite seq_length). now rewrite seq_nth. Qed.
Lemma fine_resolves n : (1 <= n)%nat -> resolves (13.999 / INR n) demo_tobs 14 (fine n).
Proof.
  intros Hn. assert (N0 : 0 < INR n) by (apply lt_0_INR; lia). assert (S0 : 0 < 13.999 / INR n) by (apply Rdiv_lt_0_compat; lra).
  assert (LF : length (fine n) = n) by (unfold fine; now rewrite map_length, seq_length).
  assert (G : forall i, (i < n)%nat -> gap (0.001 :: fine n) i = 13.999 / INR n).
  { intros [|i] Hi; unfold gap; rewrite !ent_cons_S, ?ent_0, !fine_ent by lia; [simpl; lra|]. rewrite !(S_INR (S i)). lra. }
  split; [|split; [|split]].
  - destruct n; [lia|]. discriminate.
  - apply increasing_step. intros i Hi. simpl length in Hi. rewrite LF in Hi. specialize (G i ltac:(lia)). unfold gap in G. lra.
  - rewrite LF, fine_ent by lia. replace (S (n - 1)) with n by lia. unfold demo_tobs.
    replace (INR n * (13.999 / INR n)) with 13.999 by (field; lra). lra.
  - intros i Hi. rewrite LF in Hi. rewrite G by auto. lra.
Qed.
Lemma wavy_mass : 9 <= mass_in_range wavy demo_tobs demo_ages.
Proof.
  unfold mass_in_range. rewrite demo_e0, demo_e3.
  assert (B1 : 12 <= birth_time demo_tobs (-3/2)).
  { unfold birth_time, demo_tobs. pose proof (pow10_lt (-3/2) 0 ltac:(lra)) as P. rewrite pow10_0 in P. eapply Rle_trans; [|apply Rmax_r]. lra. }
  assert (B2 : birth_time demo_tobs (3/2) <= 3).
  { unfold birth_time, demo_tobs. pose proof (pow10_lt 1 (3/2) ltac:(lra)) as P. rewrite pow10_1 in P. apply Rmax_lub; lra. }
  set (a := birth_time demo_tobs (3/2)) in *. set (b := birth_time demo_tobs (-3/2)) in *.
  pose proof (RInt_le (fun _ => 1) wavy a b ltac:(lra) ltac:(apply ex_RInt_const)
    ltac:(eapply lip_ex; apply wavy_smooth) ltac:(intros x _; unfold wavy; pose proof (SIN_bound x); lra)) as L.
  rewrite RInt_const in L. change (scal (b - a) 1) with ((b - a) * 1) in L. lra.
Qed.
Example C146_nonvacuous :
  (exists w, calc_age_weights_from_sfh_table (fins (fine 1000)) (fins (map wavy (fine 1000))) (fins demo_ages) (Fin demo_tobs) (Fin demo_min) = Ok (fins w)
     /\ Rabs (ent w 1 - mass_in_bin wavy demo_tobs demo_ages 1 / mass_in_range wavy demo_tobs demo_ages) <= 1 / 10)
  /\ (exists h, 0 < h /\ (exists n, resolves (13.999 / INR n) demo_tobs 14 (fine n) /\ 13.999 / INR n <= h)
      /\ forall ts, resolves h demo_tobs 14 ts -> exists w,
      calc_age_weights_from_sfh_table (fins ts) (fins (map wavy ts)) (fins demo_ages) (Fin demo_tobs) (Fin demo_min) = Ok (fins w)
      /\ length w = length demo_ages
      /\ forall j, (j < length demo_ages)%nat -> Rabs (ent w j - mass_in_bin wavy demo_tobs demo_ages j / mass_in_range wavy demo_tobs demo_ages) <= 1 / 10 ^ 6)
  /\ (exists r sed q, calc_rest_sed_sfh_table_lognormal_mdf (fins (fine 1000)) (fins (map wavy (fine 1000))) (Fin (-2)) (Fin (1/5)) (fins demo_lgmet) (fins demo_ages) (fins3 demo_flux)
       (Fin demo_tobs) (Fin demo_min) = Ok r /\ rest_sed r = fins sed
     /\ Rabs (ent sed 0 - synthesis wavy demo_tobs (length demo_lgmet) demo_ages q demo_flux 0)
        <= 10 ^ 9 * 9 * table_error 1 3 (13.999 / INR 1000) 0 14 * (1 + 4 * INR (length demo_ages) * (RInt wavy 0.001 demo_tobs / mass_in_range wavy demo_tobs demo_ages))).
Proof.
  pose proof wavy_mass as WM.
  assert (I1 : INR 1000 = 1000) by (rewrite INR_IZR_INZ; f_equal).
  assert (Fl : forall t, demo_min <= wavy t) by (intros t; unfold wavy, demo_min; pose proof (SIN_bound t); lra).
  assert (TE : table_error 1 3 (13.999 / INR 1000) 0 14 <= 17 / 100) by (rewrite I1; unfold table_error; lra).
  pose proof demo_min_pos as MP.
  split; [|split].
  - destruct (C146_age_weights_error 1 3 wavy (13.999 / INR 1000) 0 14 (fine 1000) demo_ages demo_tobs demo_min) as (w & E & L & W);
      [apply wavy_smooth|lra|unfold demo_min in *; lra|lra|intros t; specialize (Fl t); lra|apply fine_resolves; lia|auto with demo|auto with demo|lra|].
    exists w. split; [exact E|]. eapply Rle_trans; [apply W; simpl; lia|].
    apply (Rmult_le_reg_r (mass_in_range wavy demo_tobs demo_ages)); [lra|]. unfold Rdiv at 1. rewrite Rmult_assoc, Rinv_l by lra. lra.
  - destruct (C146_age_weights_converge 1 3 wavy 14 demo_ages demo_tobs demo_min (1 / 10 ^ 6)) as (h & Hh & W);
      [apply wavy_smooth|lra|lra|exact Fl|lra|auto with demo|auto with demo|lra|lra|].
    exists h. split; [exact Hh|]. split; [|exact W].
    destruct (nfloor_ex (13.999 / h)) as (n & _ & N2); [left; apply Rdiv_lt_0_compat; lra|].
    exists (S n). split; [apply fine_resolves; lia|]. rewrite S_INR. pose proof (pos_INR n).
    apply (Rmult_le_reg_r ((INR n + 1) / h)); [apply Rdiv_lt_0_compat; lra|]. 
    replace (13.999 / (INR n + 1) * ((INR n + 1) / h)) with (13.999 / h) by (field; lra).
    replace (h * ((INR n + 1) / h)) with (INR n + 1) by (field; lra). lra.
  - destruct (C146_sed_error 1 3 wavy (13.999 / INR 1000) 0 14 (fine 1000) (-2) (1/5) demo_lgmet demo_ages 2 demo_flux 9 demo_tobs demo_min) as (r & sed & q & _ & _ & E & R & _ & W);
      [apply wavy_smooth|lra|unfold demo_min in *; lra|lra|intros t; specialize (Fl t); unfold demo_min in *; lra|apply fine_resolves; lia|auto with demo|auto with demo
      |unfold demo_tobs; lra|lra|auto with demo|auto with demo|auto with demo| |lra|lra|].
    + intros i j k Hi Hj Hk. destruct (demo_flux_range i j k Hi Hj Hk). apply Rabs_le. lra.
    + exists r, sed, q. split; [exact E|]. split; [exact R|]. apply W. lia.
Qed.
