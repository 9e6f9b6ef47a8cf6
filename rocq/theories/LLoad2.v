(** * Data loaders, continued: random curves *)
From Coq Require Import Reals List Arith String Ascii ZArith Lra Lia Bool.
From Flocq Require Import Core.Raux.
From Verif Require Import Num Arr MUtils MLoaders Spec SpecLoad RList LUtils LBurst LPhot LLoad.
Import ListNotations.
Open Scope R_scope.

Definition gauss (c s x : R) : R := exp ((ln (2 * PI * (s * s)) + (x - c) * (x - c) / (s * s)) / -2).
Lemma norm_pdf_fin x c s : 0 < s -> norm_pdf (Fin x) (Fin c) (Fin s) = Fin (gauss c s x).
Proof.
  intros Hs. assert (0 < s * s) by nra. pose proof PI_RGT_0. assert (0 < 2 * PI * (s * s)) by nra.
  unfold norm_pdf, gauss, lit. cbn [rnd exact]. rewrite !nsub_fin, !nmul_fin, (ndiv_fin _ (s * s)) by lra.
  unfold nln. rewrite Rlt_bool_true by auto. cbn [rnd elem elem_value exact]. rewrite nadd_fin, ndiv_fin by lra. reflexivity.
Qed.
Lemma C86_lemma : forall draw lo hi scale, 0 < scale ->
  (forall c, c <= lo \/ hi <= c ->
     load_random_transmission_curve (Fin draw) (Some (Fin c)) (Fin lo) (Fin hi) (Fin scale) = Raise AssertionError)
  /\ (forall c, lo < c < hi -> exists wave trans,
       load_random_transmission_curve (Fin draw) (Some (Fin c)) (Fin lo) (Fin hi) (Fin scale)
         = Ok {| tc_wave := D1 (fins wave); tc_transmission := fins trans |}
       /\ List.length wave = 200%nat /\ List.length trans = 200%nat
       /\ (forall i, (i < 200)%nat -> ent wave i = lo + INR i / 199 * (hi - lo))
       /\ (forall i, (i < 200)%nat -> 0 < ent trans i <= 1)
       /\ (exists i, (i < 200)%nat /\ ent trans i = 1)
       /\ (forall i j, (i < 200)%nat -> (j < 200)%nat ->
             ent trans i = ent trans j * exp (((ent wave j - c) ^ 2 - (ent wave i - c) ^ 2) / (2 * scale ^ 2))))
  /\ (0 <= draw < 1 -> lo + 4 * scale <= hi ->
       load_random_transmission_curve (Fin draw) None (Fin lo) (Fin hi) (Fin scale)
       = load_random_transmission_curve (Fin draw)
           (Some (Fin (lo + 2 * scale + draw * (hi - lo - 4 * scale)))) (Fin lo) (Fin hi) (Fin scale)).
Proof.
  intros draw lo hi s Hs.
  assert (Hc : forall c, c <= lo \/ hi <= c -> (nltb (Fin lo) (Fin c) && nltb (Fin c) (Fin hi))%bool = false).
  { intros c H. cbn. destruct H; [rewrite Rlt_bool_false by lra|rewrite andb_comm, Rlt_bool_false by lra]; reflexivity. }
  assert (Hc' : forall c, lo < c < hi -> (nltb (Fin lo) (Fin c) && nltb (Fin c) (Fin hi))%bool = true).
  { intros c H. cbn. now rewrite !Rlt_bool_true by lra. }
  split; [|split].
  - intros c H. unfold load_random_transmission_curve, check. now rewrite Hc.
  - intros c H. unfold load_random_transmission_curve, check. rewrite Hc' by auto. cbn [bind].
    rewrite np_linspace_fins by lia. set (w := lin lo hi 200).
    assert (Lw : List.length w = 200%nat) by (unfold w, lin; now rewrite map_length, seq_length).
    assert (P : forall x, 0 < gauss c s x) by (intros; apply exp_pos).
    assert (E1 : map (fun x => norm_pdf x (Fin c) (Fin s)) (fins w) = fins (map (gauss c s) w)).
    { unfold fins. rewrite !map_map. apply map_ext. intros. now apply norm_pdf_fin. }
    rewrite E1. destruct (vmax_gen (map (gauss c s) w)) as (m & Em & Im & Mm).
    { intros K. apply (f_equal (@List.length R)) in K. rewrite map_length, Lw in K. discriminate. }
    rewrite Em. assert (Pm : 0 < m) by (apply in_map_iff in Im; destruct Im as (y & <- & _); apply P).
    exists w, (map (fun x => gauss c s x / m) w).
    assert (Et : forall i, (i < 200)%nat -> ent (map (fun x => gauss c s x / m) w) i = gauss c s (ent w i) / m).
    { intros i Hi. unfold ent. rewrite (nth_map_gen _ _ _ 0) by lia. reflexivity. }
    split; [|split; [|split; [|split; [|split; [|split]]]]].
    + f_equal. f_equal. unfold fins. rewrite !map_map. apply map_ext. intros. rewrite ndiv_fin by lra. reflexivity.
    + auto.
    + now rewrite map_length.
    + intros i Hi. unfold w, lin, ent. rewrite (nth_map_gen _ _ _ 0%nat) by (now rewrite seq_length).
      rewrite seq_nth by auto. cbn [Nat.sub Nat.add]. do 2 f_equal. rewrite (INR_IZR_INZ 199). reflexivity.
    + intros i Hi. rewrite Et by auto. pose proof (P (ent w i)). split; [apply Rdiv_lt_0_compat; auto|].
      apply (Rmult_le_reg_r m); auto. unfold Rdiv. rewrite Rmult_assoc, Rinv_l, Rmult_1_r, Rmult_1_l by lra.
      apply Mm. apply in_map. apply nth_In. lia.
    + apply in_map_iff in Im. destruct Im as (y & Ey & Iy). apply (In_nth _ _ 0) in Iy. destruct Iy as (i & Hi & <-).
      exists i. split; [lia|]. rewrite Et by lia. unfold ent. rewrite Ey. field. lra.
    + intros i j Hi Hj. rewrite !Et by auto. set (a := ent w i). set (b := ent w j).
      unfold gauss. replace ((ln (2 * PI * (s * s)) + (a - c) * (a - c) / (s * s)) / -2)
        with ((ln (2 * PI * (s * s)) + (b - c) * (b - c) / (s * s)) / -2 + ((b - c) ^ 2 - (a - c) ^ 2) / (2 * s ^ 2)) by (field; lra).
      rewrite exp_plus. field. lra.
  - intros Hd Hl. unfold load_random_transmission_curve at 1. cbn zeta.
    rewrite !nmul_fin, nadd_fin, nsub_fin, nsub_fin, nmul_fin, nadd_fin.
    assert (G : nmax (Fin (lo + s * 2)) (Fin (draw * (hi - s * 2 - (lo + s * 2)) + (lo + s * 2)))
      = Fin (lo + 2 * s + draw * (hi - lo - 4 * s))).
    { assert (0 <= draw * (hi - lo - 4 * s)) by (apply Rmult_le_pos; lra).
      unfold nmax. cbn [nisnan orb nltb]. destruct (Rlt_bool_spec (lo + s * 2) (draw * (hi - s * 2 - (lo + s * 2)) + (lo + s * 2))); f_equal; lra. }
    rewrite G. unfold load_random_transmission_curve, check. rewrite Hc'; [reflexivity|].
    assert (0 <= draw * (hi - lo - 4 * s)) by (apply Rmult_le_pos; lra).
    assert (draw * (hi - lo - 4 * s) <= 1 * (hi - lo - 4 * s)) by (apply Rmult_le_compat_r; lra).
    lra.
Qed.
(** a range narrower than two scales: the drawn centre is outside the range, and not refused *)
Lemma C86_narrow_lemma : forall draw lo hi scale, 0 < scale -> 0 <= draw < 1 -> lo < hi -> hi < lo + 2 * scale -> exists wave trans,
  load_random_transmission_curve (Fin draw) None (Fin lo) (Fin hi) (Fin scale)
    = Ok {| tc_wave := D1 (fins wave); tc_transmission := fins trans |}
  /\ List.length wave = 200%nat /\ List.length trans = 200%nat
  /\ ent wave 199 = hi /\ ent trans 199 = 1 /\ (forall i, (i < 199)%nat -> ent trans i < ent trans (S i)).
Proof.
  intros draw lo hi s Hs Hd Hl H2. unfold load_random_transmission_curve. cbn zeta.
  rewrite !nmul_fin, nadd_fin, nsub_fin, nsub_fin, nmul_fin, nadd_fin.
  assert (G : nmax (Fin (lo + s * 2)) (Fin (draw * (hi - s * 2 - (lo + s * 2)) + (lo + s * 2))) = Fin (lo + s * 2)).
  { assert (0 <= draw * (lo + s * 2 - (hi - s * 2))) by (apply Rmult_le_pos; lra).
    unfold nmax. cbn [nisnan orb nltb]. rewrite Rlt_bool_false by lra. reflexivity. }
  rewrite G. clear G. cbn [bind]. set (c := lo + s * 2).
  rewrite np_linspace_fins by lia. set (w := lin lo hi 200).
  assert (Lw : List.length w = 200%nat) by (unfold w, lin; now rewrite map_length, seq_length).
  assert (P : forall x, 0 < gauss c s x) by (intros; apply exp_pos).
  assert (E1 : map (fun x => norm_pdf x (Fin c) (Fin s)) (fins w) = fins (map (gauss c s) w)).
  { unfold fins. rewrite !map_map. apply map_ext. intros. now apply norm_pdf_fin. }
  rewrite E1. destruct (vmax_gen (map (gauss c s) w)) as (m & Em & Im & Mm).
  { intros K. apply (f_equal (@List.length R)) in K. rewrite map_length, Lw in K. discriminate. }
  rewrite Em. assert (Pm : 0 < m) by (apply in_map_iff in Im; destruct Im as (y & <- & _); apply P).
  exists w, (map (fun x => gauss c s x / m) w).
  assert (Et : forall i, (i < 200)%nat -> ent (map (fun x => gauss c s x / m) w) i = gauss c s (ent w i) / m).
  { intros i Hi. unfold ent. rewrite (nth_map_gen _ _ _ 0) by lia. reflexivity. }
  assert (Ew : forall i, (i < 200)%nat -> ent w i = lo + INR i / 199 * (hi - lo)).
  { intros i Hi. unfold w, lin, ent. rewrite (nth_map_gen _ _ _ 0%nat) by (now rewrite seq_length).
    rewrite seq_nth by auto. cbn [Nat.sub Nat.add]. do 2 f_equal. rewrite (INR_IZR_INZ 199). reflexivity. }
  assert (E199 : ent w 199 = hi) by (rewrite Ew by lia; rewrite (INR_IZR_INZ 199); cbn [Z.of_nat Pos.of_succ_nat Pos.succ]; field).
  assert (Wle : forall i, (i < 200)%nat -> ent w i <= hi).
  { intros i Hi. rewrite <- E199. rewrite !Ew by lia. apply Rplus_le_compat_l, Rmult_le_compat_r; [lra|].
    apply Rmult_le_compat_r; [lra|]. apply le_INR. lia. }
  assert (GL : forall a b, a < b <= hi -> gauss c s a < gauss c s b).
  { intros a b Hab. apply exp_increasing. assert (0 < s * s) by nra.
    enough ((b - c) * (b - c) / (s * s) < (a - c) * (a - c) / (s * s)) by lra.
    apply Rmult_lt_compat_r; [now apply Rinv_0_lt_compat|]. unfold c. nra. }
  assert (GLE : forall a b, a <= b <= hi -> gauss c s a <= gauss c s b).
  { intros a b [[A|A] B]; [apply Rlt_le, GL; lra|rewrite A; lra]. }
  split; [|split; [|split; [|split; [|split]]]]; auto.
  - f_equal. f_equal. unfold fins. rewrite !map_map. apply map_ext. intros. rewrite ndiv_fin by lra. reflexivity.
  - rewrite Et, E199 by lia. replace (gauss c s hi) with m; [field; lra|]. apply Rle_antisym.
    + apply in_map_iff in Im. destruct Im as (y & <- & Iy). apply (In_nth _ _ 0) in Iy. destruct Iy as (i & Hi & <-).
      apply GLE. split; [|lra]. apply Wle. lia.
    + apply Mm. rewrite <- E199. apply in_map, nth_In. lia.
  - intros i Hi. rewrite !Et by lia. apply Rmult_lt_compat_r; [now apply Rinv_0_lt_compat|]. apply GL. split; [|apply Wle; lia].
    rewrite !Ew by lia. rewrite S_INR. lra.
Qed.
