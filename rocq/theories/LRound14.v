(** * Interpolation and trapezoid integrals in rounded arithmetic, for data of any scale *)
From Coq Require Import Reals List Arith Lra Lia ZArith Bool.
From Coquelicot Require Import Rcomplements.
From Flocq Require Import Core.Raux.
From Verif Require Import Num Arr MUtils Float Spec SpecFloat RList LUtils LKern2 LFloat LFloat2 LFloat3 LFloat4 LFloat5 LFloat10 LRound1 LRound2 LRound3 LRound4.
Import ListNotations.
Open Scope R_scope.

(** the trapezoid rule as a sum over the cells *)
Definition cell (xs ys : list R) (i : nat) : R := (ent xs (S i) - ent xs i) * (ent ys i + ent ys (S i)) / 2.
Lemma trapezoid_cells xs : forall ys, length xs = length ys -> trapezoid xs ys = Rsum (map (cell xs ys) (seq 0 (length xs - 1))).
Proof.
  induction xs as [|x xs IH]; intros ys L; [reflexivity|]. destruct ys as [|y ys]; [discriminate|].
  destruct xs as [|x1 xs], ys as [|y1 ys]; try discriminate; [reflexivity|].
  change (trapezoid (x :: x1 :: xs) (y :: y1 :: ys)) with ((x1 - x) * (y + y1) / 2 + trapezoid (x1 :: xs) (y1 :: ys)).
  rewrite IH by (simpl in *; lia). replace (length (x :: x1 :: xs) - 1)%nat with (S (length (x1 :: xs) - 1)) by (simpl; lia).
  cbn [seq map Rsum]. f_equal. rewrite <- seq_shift, map_map. f_equal.
Qed.
Lemma trapezoid_ext xs ys zs : length xs = length ys -> length xs = length zs -> (forall i, (i < length xs)%nat -> ent ys i = ent zs i) -> trapezoid xs ys = trapezoid xs zs.
Proof. intros L L' E. f_equal. apply nth_ext with 0 0; [lia|]. intros i Hi. apply E. lia. Qed.

Section F.
Context {AR : Arith} (u : R) (H : rel_err AR u) (HE : interp_eps <= / 2 ^ 40).
Notation G := (re_good _ _ H).

Lemma tiny_20 B : / 10 ^ 20 <= B -> (u * / 2 ^ 102) <= / 10 ^ 6 * (u * B).
Proof.
  intros HB. pose proof (tiny_u u H) as [_ T]. pose proof (u_le u H) as U. eapply Rle_trans; [exact T|]. replace (/ 10 ^ 27) with (/ 10 ^ 7 * / 10 ^ 20) by (rewrite <- Rinv_mult, <- pow_add; reflexivity).
  replace (u * (/ 10 ^ 7 * / 10 ^ 20)) with (/ 10 ^ 7 * (u * / 10 ^ 20)) by ring.
  assert (P20 : 0 < / 10 ^ 20) by (apply Rinv_0_lt_compat, pow_lt; lra).
  apply Rmult_le_compat; [simpl; lra|apply Rmult_le_pos; lra|simpl; lra|apply Rmult_le_compat_l; lra].
Qed.
Lemma rnd_err_S x B : Rabs x <= B -> / 10 ^ 20 <= B <= 10 ^ 35 -> exists y, rnd x = Fin y /\ Rabs (y - x) <= 1.001 * (u * B) /\ rnd y = Fin y.
Proof.
  intros X HB. destruct (rnd_range _ G x) as (y & E).
  { eapply Rle_trans; [apply X|]. eapply Rle_trans; [apply HB|]. apply Rle_pow; [lra|lia]. }
  exists y. split; auto. split; [|eapply (rnd_idem _ G); eauto]. pose proof (re_any _ _ H _ _ E) as A. pose proof (tiny_20 B (proj1 HB)) as T. pose proof (u_le u H) as U.
  assert (u * Rabs x <= u * B) by (apply Rmult_le_compat_l; lra). assert (0 <= u * B) by (apply Rmult_le_pos; [lra|]; eapply Rle_trans; [apply Rabs_pos|exact X]). simpl (10 ^ 6) in *. lra.
Qed.
Lemma e20_small : 0 < / 10 ^ 20 /\ / 10 ^ 20 <= / 10 ^ 6 /\ 10 ^ 30 * 3 <= 10 ^ 35 /\ 10 ^ 10 <= 10 ^ 35.
Proof. repeat split; [apply Rinv_0_lt_compat, pow_lt; lra|apply Rinv_le; [apply pow_lt; lra|apply Rle_pow; [lra|lia]]|simpl; lra|apply Rle_pow; [lra|lia]]. Qed.

Lemma seg_err_S T S i x B : rnd (ent T i) = Fin (ent T i) -> rnd (ent T (i - 1)) = Fin (ent T (i - 1)) -> rnd x = Fin x ->
  rnd (ent S i) = Fin (ent S i) -> rnd (ent S (i - 1)) = Fin (ent S (i - 1)) ->
  / 2 ^ 20 <= ent T i - ent T (i - 1) <= 10 ^ 10 -> ent T (i - 1) <= x <= ent T i -> / 10 ^ 20 <= B <= 10 ^ 30 -> Rabs (ent S i) <= B -> Rabs (ent S (i - 1)) <= B ->
  exists s, seg T S i x = Fin s /\ rnd s = Fin s /\ Rabs (s - (ent S (i - 1) + (x - ent T (i - 1)) / (ent T i - ent T (i - 1)) * (ent S i - ent S (i - 1)))) <= 20 * (u * B).
Proof.
  intros R1 R0 Rx S1 S0 GT HX HB B1 B0. pose proof (u_le u H) as Hu. pose proof (tiny_u1 u H) as Ht. destruct e20_small as (E1 & E2 & E3 & E4).
  assert (T20 : 2 * / 2 ^ 40 <= / 2 ^ 20 /\ 0 < / 2 ^ 40) by (simpl; lra).
  unfold seg. set (a := ent T (i - 1)) in *. set (b := ent T i) in *. set (c := ent S (i - 1)) in *. set (d := ent S i) in *.
  assert (P20 : 0 < / 2 ^ 20) by lra.
  assert (NEG : forall z, rnd z = Fin z -> rnd (- z) = Fin (- z)).
  { intros z Hz. rewrite (rnd_opp _ G z), Hz. reflexivity. }
  assert (XA : 0 <= x + - a <= 10 ^ 10) by lra.
  assert (E10 : / 10 ^ 20 <= 10 ^ 10 <= 10 ^ 35) by (split; [apply Rle_trans with (/ 10 ^ 6); [exact E2|simpl; lra]|exact E4]).
  destruct (rnd_err_S (b + - a) (10 ^ 10)) as (dx & Edx & _ & Rdx); [apply Rabs_le; lra|exact E10|].
  assert (SF : safe_sum b (- a)).
  { apply safe_total. rewrite Rabs_right by lra. apply Rle_trans with (/ 2 ^ 20); [apply half_pow_le; lia|lra]. }
  pose proof (re_add _ _ H b (- a) dx R1 (NEG _ R0) Edx SF) as Adx. rewrite Edx. set (W := b - a) in *. replace (b + - a) with W in * by (unfold W; lra).
  rewrite (Rabs_right W) in Adx by lra. apply Rabs_le_inv in Adx.
  assert (UW : 0 <= u * W <= 0.001 * W) by (split; [apply Rmult_le_pos; lra|apply Rmult_le_compat_r; [lra|]; simpl in Hu; lra]).
  assert (DX : 0.999 * W <= dx <= 1.001 * W) by lra. assert (Pdx : / 2 ^ 40 < dx) by lra.
  cbn [nabs]. rewrite (Rabs_right dx) by lra.
  destruct (nleb (Fin dx) (Fin interp_eps)) eqn:QE; [apply nle_fin in QE; lra|].
  destruct (rnd_err_S (x + - a) (10 ^ 10)) as (dl & Edl & _ & Rdl); [rewrite Rabs_right by lra; lra|exact E10|].
  pose proof (re_any _ _ H _ _ Edl) as Adl. rewrite Edl. set (V := x - a) in *. replace (x + - a) with V in * by (unfold V; lra).
  assert (HV : 0 <= V <= W) by (unfold V, W; lra). rewrite (Rabs_right V) in Adl by lra. apply Rabs_le_inv in Adl.
  assert (TW : u * / 2 ^ 102 <= 0.01 * (u * W)).
  { eapply Rle_trans; [apply (tiny_u u H)|]. replace (0.01 * (u * W)) with (u * (0.01 * W)) by ring. apply Rmult_le_compat_l; [lra|]. apply Rle_trans with (0.01 * / 2 ^ 20); [simpl; lra|lra]. }
  set (r := V / W). assert (EV : V = r * W) by (unfold r; field; lra). assert (Hr : 0 <= r <= 1) by (unfold r; split; [apply Rdiv_le_0_compat'; lra|apply Rdiv_le_1'; lra]).
  cbn [ndiv]. rewrite Req_bool_false by lra.
  assert (Q0 : Rabs (dl / dx - r) <= 2.1 * u).
  { replace (dl / dx - r) with ((dl - r * dx) / dx) by (field; lra). unfold Rdiv. rewrite Rabs_mult, (Rabs_right (/ dx)) by (apply Rle_ge, Rlt_le, Rinv_0_lt_compat; lra).
    apply Rmult_le_reg_r with dx; [lra|]. rewrite Rmult_assoc, Rinv_l, Rmult_1_r by lra.
    assert (Rabs (dl - r * dx) <= 2.01 * u * W).
    { rewrite EV in Adl. assert (r * (u * W) <= 1 * (u * W)) by (apply Rmult_le_compat_r; lra). assert (0 <= r * (u * W)) by (apply Rmult_le_pos; lra).
      assert (r * (- (u * W)) <= r * (dx - W) <= r * (u * W)) by (split; apply Rmult_le_compat_l; lra). apply Rabs_le. lra. }
    eapply Rle_trans; [eassumption|]. assert (2.1 * u * (0.999 * W) <= 2.1 * u * dx) by (apply Rmult_le_compat_l; lra). lra. }
  apply Rabs_le_inv in Q0. simpl (/ (4 * 10 ^ 6)) in Hu. destruct (rnd_err_B u H (dl / dx) 1.01) as (q & Eq & Aq & _); [apply Rabs_le; lra|simpl; lra|]. rewrite Eq. apply Rabs_le_inv in Aq.
  assert (Hq : - (3.2 * u) <= q - r <= 3.2 * u) by lra.
  apply Rabs_le_inv in B0, B1. assert (HB0 : 0 < B) by lra.
  destruct (rnd_err_S (d + - c) (2 * B)) as (df & Edf & Adf & _); [apply Rabs_le; lra|lra|].
  replace (d + - c) with (d - c) in * by lra. assert (Rabs (d - c) <= 2 * B) as HD by (apply Rabs_le; lra).
  assert (Adf' : Rabs (df - (d - c)) <= 1.001 * u * (2 * B)) by lra. apply Rabs_le_inv in Adf'. apply Rabs_le_inv in HD.
  rewrite Edf. cbn [nmul].
  assert (UB : 0 < u * B) by (apply Rmult_lt_0_compat; lra).
  assert (UB7 : u * B <= / (4 * 10 ^ 6) * B) by (apply Rmult_le_compat_r; simpl; lra). simpl (10 ^ 6) in UB7.
  assert (PD : Rabs (q * df - r * (d - c)) <= 9 * (u * B)).
  { replace (q * df - r * (d - c)) with ((q - r) * df + r * (df - (d - c))) by ring. eapply Rle_trans; [apply Rabs_triang|]. rewrite !Rabs_mult.
    assert (A1 : Rabs (q - r) * Rabs df <= (3.2 * u) * (2.1 * B)) by (apply Rmult_le_compat; try apply Rabs_pos; apply Rabs_le; lra).
    assert (A2 : Rabs r * Rabs (df - (d - c)) <= 1 * (1.001 * u * (2 * B))) by (apply Rmult_le_compat; try apply Rabs_pos; apply Rabs_le; lra). lra. }
  apply Rabs_le_inv in PD.
  assert (RD : - (2 * B) <= r * (d - c) <= 2 * B).
  { assert (r * (- (2 * B)) <= r * (d - c) <= r * (2 * B)) by (split; apply Rmult_le_compat_l; lra). assert (0 <= r * B) by (apply Rmult_le_pos; lra). assert (r * B <= 1 * B) by (apply Rmult_le_compat_r; lra). lra. }
  destruct (rnd_err_S (q * df) (2.001 * B)) as (p & Ep & Ap & Rp); [apply Rabs_le; lra|lra|]. rewrite Ep. apply Rabs_le_inv in Ap. cbn [nadd].
  assert (CV : - B <= c + r * (d - c) <= B).
  { assert (r * (- B) <= r * d <= r * B) by (split; apply Rmult_le_compat_l; lra). assert ((1 - r) * (- B) <= (1 - r) * c <= (1 - r) * B) by (split; apply Rmult_le_compat_l; lra). lra. }
  destruct (rnd_err_S (c + p) (1.001 * B)) as (s & Es & As & Rs); [apply Rabs_le; lra|lra|]. rewrite Es. apply Rabs_le_inv in As.
  exists s. split; auto. split; auto. fold W V r. replace (ent S i - ent S (i - 1)) with (d - c) by reflexivity. apply Rabs_le. lra.
Qed.

(** tables of machine numbers *)
Definition spectrum_ok (T S : list R) (B : R) : Prop :=
  T <> [] /\ length T = length S /\ (forall i, (i < length T)%nat -> rnd (ent T i) = Fin (ent T i) /\ 0 <= ent T i <= 10 ^ 10)
  /\ (forall i, (Datatypes.S i < length T)%nat -> / 2 ^ 20 <= ent T (Datatypes.S i) - ent T i)
  /\ (forall i, (i < length T)%nat -> rnd (ent S i) = Fin (ent S i) /\ 0 <= ent S i <= B).
Lemma spectrum_increasing T S B : spectrum_ok T S B -> increasing T.
Proof.
  intros (_ & _ & _ & GT & _). apply increasing_step. intros i Hi. specialize (GT i Hi). assert (0 < / 2 ^ 20) by (apply Rinv_0_lt_compat, pow_lt; lra). lra.
Qed.
Lemma interp_lr_in x T S : T <> [] -> ent T 0 <= x <= ent T (length T - 1) -> interp_lr (Fin 0) (Fin 0) (Fin x) (fins T) (fins S) = interp (Fin x) (fins T) (fins S).
Proof.
  intros N [A B]. assert (length T <> 0%nat) by (destruct T; [congruence|discriminate]). unfold interp, interp_lr, nwhere. rewrite first_fins, last_fins by auto. unfold nltb, ngtb.
  rewrite Rlt_bool_false by auto. unfold nltb. rewrite Rlt_bool_false by auto. reflexivity.
Qed.
End F.
