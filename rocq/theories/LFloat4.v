(** * Age weights in rounded arithmetic *)
From Coq Require Import Reals List Arith Lra Lia ZArith Bool.
From Flocq Require Import Core.Raux.
From Verif Require Import Num Arr MUtils MSed Float Spec RList LUtils LFloat LFloat2 LFloat3.
Import ListNotations.
Open Scope R_scope.

Section Good.
Context {AR : Arith} (u : R) (u_val : 0 < u <= 1 / 131072)
  (rnd_abs_err : forall x, Rabs x <= 16 -> exists y, rnd x = Fin y /\ Rabs (y - x) <= u).

(** [v] is finite and within [e] times [u] of [x] *)
Definition approx (v : num) (x e : R) : Prop := exists y, v = Fin y /\ Rabs (y - x) <= e * u.
Lemma approx_fin x : approx (Fin x) x 0.
Proof. exists x. split; auto. replace (x - x) with 0 by lra. rewrite Rabs_R0. lra. Qed.
Lemma approx_rnd z x e : Rabs (z - x) <= e * u -> Rabs x <= 15 -> e <= 1000 -> approx (rnd z) x (e + 1).
Proof.
  intros E B L. destruct (rnd_abs_err z) as (y & -> & H).
  { assert (e * u <= 1) by nra. replace z with ((z - x) + x) by lra. eapply Rle_trans; [apply Rabs_triang|lra]. }
  exists y. split; auto. replace (y - x) with ((y - z) + (z - x)) by lra. eapply Rle_trans; [apply Rabs_triang|]. lra.
Qed.
Lemma approx_add a x e b y f : approx a x e -> approx b y f -> Rabs (x + y) <= 15 -> e + f <= 1000 -> approx (nadd a b) (x + y) (e + f + 1).
Proof.
  intros (p & -> & P) (q & -> & Q) B L. cbn [nadd]. apply approx_rnd; auto.
  replace (p + q - (x + y)) with ((p - x) + (q - y)) by lra. eapply Rle_trans; [apply Rabs_triang|]. lra.
Qed.
Lemma approx_opp a x e : approx a x e -> approx (nopp a) (- x) e.
Proof. intros (p & -> & P). exists (- p). split; auto. replace (- p - - x) with (- (p - x)) by lra. now rewrite Rabs_Ropp. Qed.
Lemma approx_sub a x e b y f : approx a x e -> approx b y f -> Rabs (x - y) <= 15 -> e + f <= 1000 -> approx (nsub a b) (x - y) (e + f + 1).
Proof. intros A B C L. unfold nsub. apply (approx_add a x e (nopp b) (- y) f); auto. now apply approx_opp. Qed.
Lemma approx_half a x e : approx a x e -> Rabs (x / 2) <= 15 -> 0 <= e <= 1000 -> approx (ndiv a (Fin 2)) (x / 2) (e / 2 + 1).
Proof.
  intros (p & -> & P) B L. cbn [ndiv]. rewrite Req_bool_false by lra. apply approx_rnd; auto; [|lra].
  replace (p / 2 - x / 2) with ((p - x) / 2) by lra. unfold Rdiv at 1. rewrite Rabs_mult, (Rabs_right (/ 2)) by lra. lra.
Qed.
Lemma approx_mulhalf a x e : approx a x e -> Rabs (x / 2) <= 15 -> 0 <= e <= 1000 -> approx (nmul (Fin (1/2)) a) (x / 2) (e / 2 + 1).
Proof.
  intros (p & -> & P) B L. cbn [nmul]. apply approx_rnd; auto; [|lra].
  replace (1 / 2 * p - x / 2) with ((p - x) / 2) by lra. unfold Rdiv at 1. rewrite Rabs_mult, (Rabs_right (/ 2)) by lra. lra.
Qed.
Lemma approx_weaken a x e y f : approx a x e -> x = y -> e <= f -> approx a y f.
Proof. intros (p & -> & P) -> L. exists p. split; auto. apply Rle_trans with (e * u); auto. apply Rmult_le_compat_r; lra. Qed.

Ltac bnd := apply Rabs_le; lra.

Lemma edges_approx a i : (3 <= length a)%nat -> (forall j, (j < length a)%nat -> -4 <= ent a j <= 4) -> (i <= length a)%nat ->
  length (get_lg_age_bin_edges_k (fins a)) = S (length a)
  /\ approx (at_ (get_lg_age_bin_edges_k (fins a)) i) (age_edge a i) 6.
Proof.
  intros L B Hi. assert (Na : a <> []) by (intros ->; simpl in L; lia). set (n := length a) in *.
  set (tm := tmids (fins a)).
  assert (Ltm : length tm = (n - 1)%nat) by (unfold tm, tmids; rewrite map2_length, tl_length, fins_length; lia).
  assert (Atm : forall j, (j < n - 1)%nat -> approx (at_ tm j) ((ent a j + ent a (S j)) / 2) (3/2)).
  { intros j Hj. unfold tm, tmids, at_. rewrite (map2_nth _ _ _ _ NaN NaN) by (rewrite ?tl_length, ?fins_length; lia).
    rewrite tl_nth. fold (at_ (fins a) j). fold (at_ (fins a) (S j)). rewrite !at_fins by lia.
    pose proof (B j ltac:(lia)). pose proof (B (S j) ltac:(lia)).
    eapply approx_weaken; [apply approx_mulhalf; [apply approx_add; [apply approx_fin|apply approx_fin| |]| |]|..]; try lra; try bnd. }
  set (dm := diff tm).
  assert (Ldm : length dm = (n - 2)%nat) by (unfold dm, diff; rewrite map2_length, tl_length; lia).
  assert (Adm : forall j, (j < n - 2)%nat -> approx (at_ dm j) ((ent a (S (S j)) - ent a j) / 2) 4).
  { intros j Hj. unfold dm, diff, at_. rewrite (map2_nth _ _ _ _ NaN NaN) by (rewrite ?tl_length; lia). rewrite tl_nth.
    pose proof (B j ltac:(lia)). pose proof (B (S j) ltac:(lia)). pose proof (B (S (S j)) ltac:(lia)).
    eapply approx_weaken; [apply approx_sub; [apply (Atm (S j)); lia|apply (Atm j); lia| |]|..]; try lra; try bnd. }
  set (dl := get_dt_array_k (fins a)).
  set (th := (last_ (fins a) + last_ dm / Fin 2)%num).
  assert (Edl : exists h, dl = h :: dm ++ [(th - last_ tm)%num]) by (eexists; reflexivity).
  destruct Edl as (h & Edl).
  assert (Ldl : length dl = n) by (rewrite Edl; simpl; rewrite app_length; simpl; lia).
  assert (Adl : forall j, (1 <= j < n - 1)%nat -> approx (at_ dl j) ((ent a (j + 1) - ent a (j - 1)) / 2) 4).
  { intros [|j] Hj; [lia|]. rewrite Edl. unfold at_. cbn [nth]. rewrite app_nth1 by lia.
    eapply approx_weaken; [apply (Adm j); lia| |lra]. repeat (f_equal; try lia). }
  assert (Ath : approx th (ent a (n - 1) + (ent a (n - 1) - ent a (n - 3)) / 4) 4).
  { unfold th. unfold last_ at 2. rewrite Ldm. rewrite last_fins by exact Na. fold n.
    pose proof (B (n - 1)%nat ltac:(lia)). pose proof (B (n - 3)%nat ltac:(lia)).
    assert (Q : S (S (n - 2 - 1)) = (n - 1)%nat) by lia. assert (Q' : (n - 2 - 1 = n - 3)%nat) by lia.
    pose proof (Adm (n - 2 - 1)%nat ltac:(lia)) as A1. rewrite Q, Q' in A1. rewrite Q'.
    eapply approx_weaken; [apply approx_add; [apply approx_fin|apply approx_half; [exact A1| |]| |]|..]; try lra; try bnd. }
  assert (Alast : approx (at_ dl (n - 1)) (node_width a (n - 1)) (13/2)).
  { rewrite Edl. unfold at_. destruct (n - 1)%nat as [|m] eqn:Em; [lia|]. cbn [nth]. rewrite app_nth2 by lia. replace (m - length dm)%nat with 0%nat by lia. cbn [nth].
    unfold last_. rewrite Ltm. unfold node_width. fold n.
    rewrite Em. change (S m =? 0)%nat with false. cbv iota. rewrite Nat.eqb_refl.
    assert (Q : (n = m + 2)%nat) by lia. replace (S m - 1)%nat with m by lia. replace (S m - 2)%nat with (m - 1)%nat by lia.
    pose proof (B m ltac:(lia)). pose proof (B (S m) ltac:(lia)). pose proof (B (m - 1)%nat ltac:(lia)).
    pose proof (Atm m ltac:(lia)) as A1. replace (n - 3)%nat with (m - 1)%nat in Ath by lia.
    eapply approx_weaken; [apply approx_sub; [exact Ath|exact A1| |]|..]; try lra; try bnd. }
  assert (E : get_lg_age_bin_edges_k (fins a) =
    (at_ (fins a) 0 - (at_ (fins a) 1 - at_ (fins a) 0) / Fin 2)%num
    :: tl (map2 (fun m d => (m - d / Fin 2)%num) (fins a) dl) ++ [(last_ (fins a) + last_ dl / Fin 2)%num]) by reflexivity.
  rewrite E. clear E.
  assert (Lm : length (tl (map2 (fun m d => (m - d / Fin 2)%num) (fins a) dl)) = (n - 1)%nat) by (rewrite tl_length, map2_length, fins_length, Ldl; lia).
  split. { cbn [length]. rewrite app_length, Lm. simpl. lia. }
  pose proof (B 0%nat ltac:(lia)) as B0. pose proof (B 1%nat ltac:(lia)) as B1.
  unfold age_edge. fold n. destruct i as [|i].
  - destruct (Nat.eqb_spec 0 n); [lia|]. unfold at_ at 1. cbn [nth]. rewrite !at_fins by lia. unfold node_width. cbn [Nat.eqb].
    eapply approx_weaken; [apply approx_sub; [apply approx_fin|apply approx_half; [apply approx_sub; [apply approx_fin|apply approx_fin| |]| |]| |]|..]; try lra; try bnd.
  - unfold at_ at 1. cbn [nth]. destruct (Nat.eqb_spec (S i) n) as [D|D].
    + rewrite app_nth2 by lia. replace (i - length (tl (map2 (fun m d => (m - d / Fin 2)%num) (fins a) dl)))%nat with 0%nat by lia. cbn [nth].
      unfold last_ at 2. rewrite Ldl. rewrite last_fins by exact Na. fold n.
      assert (BW : -15 <= node_width a (n - 1) <= 15).
      { unfold node_width. fold n. destruct (Nat.eqb_spec (n - 1) 0); [lia|]. rewrite Nat.eqb_refl.
        pose proof (B (n - 1)%nat ltac:(lia)). pose proof (B (n - 1 - 1)%nat ltac:(lia)). pose proof (B (n - 1 - 2)%nat ltac:(lia)). lra. }
      pose proof (B (n - 1)%nat ltac:(lia)).
      assert (-7 <= node_width a (n - 1) <= 7).
      { unfold node_width. fold n. destruct (Nat.eqb_spec (n - 1) 0); [lia|]. rewrite Nat.eqb_refl.
        pose proof (B (n - 1)%nat ltac:(lia)). pose proof (B (n - 1 - 1)%nat ltac:(lia)). pose proof (B (n - 1 - 2)%nat ltac:(lia)). lra. }
      eapply approx_weaken; [apply approx_add; [apply approx_fin|apply approx_half; [exact Alast| |]| |]|..]; try lra; try bnd.
    + rewrite app_nth1 by lia. rewrite tl_nth. rewrite (map2_nth _ _ _ _ NaN NaN) by (rewrite ?fins_length; lia).
      fold (at_ (fins a) (S i)). fold (at_ dl (S i)). rewrite at_fins by lia.
      pose proof (B (S i) ltac:(lia)) as BS.
      assert (AW : approx (at_ dl (S i)) (node_width a (S i)) (13/2) /\ -7 <= node_width a (S i) <= 7).
      { destruct (Nat.eq_dec (S i) (n - 1)) as [Q|Q].
        - rewrite Q. split; [exact Alast|]. unfold node_width. fold n. destruct (Nat.eqb_spec (n - 1) 0); [lia|]. rewrite Nat.eqb_refl.
          pose proof (B (n - 1)%nat ltac:(lia)). pose proof (B (n - 1 - 1)%nat ltac:(lia)). pose proof (B (n - 1 - 2)%nat ltac:(lia)). lra.
        - unfold node_width. fold n. change (S i =? 0)%nat with false. cbv iota. destruct (Nat.eqb_spec (S i) (n - 1)); [lia|].
          pose proof (B (S i + 1)%nat ltac:(lia)). pose proof (B (S i - 1)%nat ltac:(lia)). split; [|lra].
          eapply approx_weaken; [apply (Adl (S i)); lia|reflexivity|lra]. }
      destruct AW as [AW BW].
      eapply approx_weaken; [apply approx_sub; [apply approx_fin|apply approx_half; [exact AW| |]| |]|..]; try lra; try bnd.
Qed.
End Good.
