(** * Gradients of interpolation at moving positions *)
From Coq Require Import Reals List Arith Lra Lia ZArith Bool.
From Coquelicot Require Import Coquelicot.
From Flocq Require Import Core.Raux.
From Verif Require Import Num Arr MUtils MSed MCosmo MPhot MGrad MTrace MTrace2 MTrace3 MTrace4 Spec Spec2 SpecGrad RList LUtils LBcast LKern LImf LCosmo LAge LPhot LDiff LGrad LGrad2 LGrad3 LGrad4 LGrad5 LGrad6 LGrad7 LGrad8 LGrad9 LGrad11.
Import ListNotations.
Open Scope R_scope.
Local Notation Ts l v := (List.Forall (fun e => T e v) l).

Section Ev.
Context {AR : Arith}.
Lemma pick_from_eval idx p v : forall l k, (k <= idx (eval p v) < k + length l)%nat -> eval (pick_from k idx p l) v = eval (entry l (idx (eval p v) - k)) v.
Proof.
  induction l as [|a l IH]; intros k H; [cbn [length] in H; lia|]. destruct l as [|b l].
  - cbn [length] in H. replace (idx (eval p v) - k)%nat with 0%nat by lia. reflexivity.
  - change (pick_from k idx p (a :: b :: l)) with (Where (fun v => idx v =? k)%nat p a (pick_from (S k) idx p (b :: l))). cbn [eval]. unfold nwhere.
    destruct (Nat.eqb_spec (idx (eval p v)) k) as [Q|Q].
    + rewrite Q, Nat.sub_diag. reflexivity.
    + rewrite IH by (cbn [length] in *; lia). replace (idx (eval p v) - k)%nat with (S (idx (eval p v) - S k)) by lia. reflexivity.
Qed.
Lemma pick_eval idx p l v : (idx (eval p v) < length l)%nat -> eval (pick idx p l) v = at_ (map (fun e => eval e v) l) (idx (eval p v)).
Proof. intros H. unfold pick. rewrite pick_from_eval by lia. rewrite Nat.sub_0_r. apply entry_eval. Qed.
Lemma interp_moving_eval l r idx lo hi p x xp fp v : xp <> [] -> length xp = length fp ->
  idx (eval p v) = clip_index (searchsorted_right (map (fun e => eval e v) xp) (eval x v)) (length xp) ->
  lo (eval p v) = nltb (eval x v) (first (map (fun e => eval e v) xp)) -> hi (eval p v) = ngtb (eval x v) (last_ (map (fun e => eval e v) xp)) ->
  eval (interp_moving l r idx lo hi p x xp fp) v = interp_lr (eval l v) (eval r v) (eval x v) (map (fun e => eval e v) xp) (map (fun e => eval e v) fp).
Proof.
  intros N L I Lo Hi. assert (Ln : (1 <= length xp)%nat) by (destruct xp; [contradiction|cbn [length]; lia]).
  assert (Hx : (idx (eval p v) < length xp)%nat) by (rewrite I; unfold clip_index; lia).
  unfold interp_moving, interp_lr, interp_core. cbn [eval]. rewrite Lo, Hi.
  rewrite (pick_eval idx p fp), (pick_eval idx p xp), (pick_eval (fun v => idx v - 1)%nat p fp), (pick_eval (fun v => idx v - 1)%nat p xp) by lia.
  rewrite map_length. cbv beta. rewrite I. reflexivity.
Qed.
End Ev.

#[local] Existing Instance exact.
Lemma T_cmp a b v : T a v -> T b v -> eval a (Fin v) <> eval b (Fin v) ->
  locally v (fun y => exists p q, eval a (Fin y) = Fin p /\ eval b (Fin y) = Fin q /\ p < q)
  \/ locally v (fun y => exists p q, eval a (Fin y) = Fin p /\ eval b (Fin y) = Fin q /\ q < p).
Proof.
  intros (f & d & _ & E & D) (g & d' & _ & E' & D') N.
  assert (C : is_derive (fun y => f y - g y) v (d - d')) by (apply (is_derive_minus f g); auto).
  rewrite (ev_at _ _ _ E), (ev_at _ _ _ E') in N. destruct (Rtotal_order (f v) (g v)) as [Q|[Q|Q]]; [left| rewrite Q in N; contradiction|right].
  - assert (Q' : f v - g v < 0) by lra. pose proof (der_cont _ _ _ C _ (loc_lt _ _ Q')) as L. pose proof (filter_and _ _ E (filter_and _ _ E' L)) as F.
    revert F. apply filter_imp. intros y (A & B & H). cbv beta in H. exists (f y), (g y). repeat split; auto; lra.
  - assert (Q' : 0 < f v - g v) by lra. pose proof (der_cont _ _ _ C _ (loc_gt _ _ Q')) as L. pose proof (filter_and _ _ E (filter_and _ _ E' L)) as F.
    revert F. apply filter_imp. intros y (A & B & H). cbv beta in H. exists (f y), (g y). repeat split; auto; lra.
Qed.
Ltac cmp_tac := intros (p & q & A & B & L) (p' & q' & A' & B' & L'); rewrite A, B, A', B'; unfold ngtb; rewrite ?nltb_fin, ?nleb_fin;
  repeat match goal with
  | |- context [Rlt_bool ?a ?b] => destruct (Rlt_bool_spec a b)
  | |- context [Rle_bool ?a ?b] => destruct (Rle_bool_spec a b) end; (reflexivity || lra).
Lemma T_cmp_le a b v : T a v -> T b v -> eval a (Fin v) <> eval b (Fin v) -> locally v (fun y => nleb (eval a (Fin y)) (eval b (Fin y)) = nleb (eval a (Fin v)) (eval b (Fin v))).
Proof.
  intros Ta Tb N. destruct (T_cmp a b v Ta Tb N) as [L|L]; pose proof (locally_singleton _ _ L) as S; revert L; apply filter_imp; intros y Y; revert Y S; cmp_tac.
Qed.
Lemma T_cmp_lt a b v : T a v -> T b v -> eval a (Fin v) <> eval b (Fin v) -> locally v (fun y => nltb (eval a (Fin y)) (eval b (Fin y)) = nltb (eval a (Fin v)) (eval b (Fin v))).
Proof.
  intros Ta Tb N. destruct (T_cmp a b v Ta Tb N) as [L|L]; pose proof (locally_singleton _ _ L) as S; revert L; apply filter_imp; intros y Y; revert Y S; cmp_tac.
Qed.
Lemma T_cmp_gt a b v : T a v -> T b v -> eval a (Fin v) <> eval b (Fin v) -> locally v (fun y => ngtb (eval a (Fin y)) (eval b (Fin y)) = ngtb (eval a (Fin v)) (eval b (Fin v))).
Proof.
  intros Ta Tb N. destruct (T_cmp a b v Ta Tb N) as [L|L]; pose proof (locally_singleton _ _ L) as S; revert L; apply filter_imp; intros y Y; revert Y S; cmp_tac.
Qed.
Lemma T_searchsorted x v : T x v -> forall xp, Ts xp v -> List.Forall (fun a => eval a (Fin v) <> eval x (Fin v)) xp ->
  locally v (fun y => searchsorted_right (map (fun e => eval e (Fin y)) xp) (eval x (Fin y)) = searchsorted_right (map (fun e => eval e (Fin v)) xp) (eval x (Fin v))).
Proof.
  intros X. induction xp as [|a xp IH]; intros F N; [apply filter_forall; reflexivity|]. inversion F as [|? ? Fa Fx]; subst. inversion N as [|? ? Na Nx]; subst.
  pose proof (filter_and _ _ (T_cmp_le a x v Fa X Na) (IH Fx Nx)) as L. revert L. apply filter_imp. intros y (A & B). unfold searchsorted_right in *. cbn [map filter]. rewrite A.
  destruct (nleb (eval a (Fin v)) (eval x (Fin v))); cbn [length]; rewrite B; reflexivity.
Qed.
Lemma T_pick idx p v k : locally v (fun y => idx (eval p (Fin y)) = k) -> forall l j, Ts l v -> l <> [] -> T (pick_from j idx p l) v.
Proof.
  intros K. induction l as [|a l IH]; intros j F N; [contradiction|]. inversion F as [|? ? Fa Fl]; subst. destruct l as [|b l]; [exact Fa|].
  change (pick_from j idx p (a :: b :: l)) with (Where (fun v => idx v =? j)%nat p a (pick_from (S j) idx p (b :: l))).
  apply (T_where _ _ _ _ _ (k =? j)%nat); [|exact Fa|apply IH; [exact Fl|discriminate]]. revert K. apply filter_imp. intros y ->. reflexivity.
Qed.
Lemma eps0 : interp_eps = 0. Proof. reflexivity. Qed.
Lemma T_interp_moving l r idx lo hi p x xp fp v xs : 
  (forall y, idx (eval p (Fin y)) = clip_index (searchsorted_right (map (fun e => eval e (Fin y)) xp) (eval x (Fin y))) (length xp)) ->
  (forall y, lo (eval p (Fin y)) = nltb (eval x (Fin y)) (first (map (fun e => eval e (Fin y)) xp))) ->
  (forall y, hi (eval p (Fin y)) = ngtb (eval x (Fin y)) (last_ (map (fun e => eval e (Fin y)) xp))) ->
  T l v -> T r v -> T x v -> Ts xp v -> Ts fp v -> length xp = length fp -> (2 <= length xp)%nat ->
  map (fun e => eval e (Fin v)) xp = fins xs -> increasing xs -> List.Forall (fun a => eval a (Fin v) <> eval x (Fin v)) xp ->
  T (interp_moving l r idx lo hi p x xp fp) v.
Proof.
  intros HI HL HH Tl Tr Tx Txp Tfp L Ln E Inc N.
  set (k := clip_index (searchsorted_right (map (fun e => eval e (Fin v)) xp) (eval x (Fin v))) (length xp)).
  assert (K : locally v (fun y => idx (eval p (Fin y)) = k)).
  { pose proof (T_searchsorted x v Tx xp Txp N) as S. revert S. apply filter_imp. intros y S. rewrite HI, S. reflexivity. }
  assert (K' : locally v (fun y => (idx (eval p (Fin y)) - 1)%nat = (k - 1)%nat)) by (revert K; apply filter_imp; intros y ->; reflexivity).
  assert (Nx : xp <> []) by (destruct xp; [cbn [length] in Ln; lia|discriminate]).
  assert (Nf : fp <> []) by (destruct fp; [cbn [length] in L; lia|discriminate]).
  assert (Hk : (1 <= k < length xp)%nat) by (unfold k, clip_index; lia).
  assert (P1 : T (pick idx p xp) v) by (eapply T_pick; eauto). assert (P2 : T (pick idx p fp) v) by (eapply T_pick; eauto).
  assert (P3 : T (pick (fun w => idx w - 1)%nat p xp) v) by (eapply (T_pick (fun w => idx w - 1)%nat); eauto). assert (P4 : T (pick (fun w => idx w - 1)%nat p fp) v) by (eapply (T_pick (fun w => idx w - 1)%nat); eauto).
  unfold interp_moving. cbv zeta.
  assert (Hin : forall i, (i < length xp)%nat -> In (entry xp i) xp) by (intros i Hi; now apply nth_In).
  assert (first_T : forall y, first (map (fun e => eval e (Fin y)) xp) = eval (entry xp 0) (Fin y)) by (intros y; symmetry; apply entry_eval).
  assert (last_T : forall y, last_ (map (fun e => eval e (Fin y)) xp) = eval (entry xp (length xp - 1)) (Fin y)) by (intros y; unfold last_; rewrite map_length; symmetry; apply entry_eval).
  pose proof N as N'. rewrite List.Forall_forall in N'.
  apply T_where with (k := hi (eval p (Fin v))).
  { assert (Q : eval x (Fin v) <> eval (entry xp (length xp - 1)) (Fin v)) by (apply not_eq_sym, N', Hin; lia).
    pose proof (T_cmp_gt _ _ _ Tx (T_entry xp (length xp - 1) v Txp ltac:(lia)) Q) as C. revert C. apply filter_imp. intros y C. rewrite !HH, !last_T. exact C. }
  { exact Tr. }
  apply T_where with (k := lo (eval p (Fin v))).
  { assert (Q : eval x (Fin v) <> eval (entry xp 0) (Fin v)) by (apply not_eq_sym, N', Hin; lia).
    pose proof (T_cmp_lt _ _ _ Tx (T_entry xp 0 v Txp ltac:(lia)) Q) as C. revert C. apply filter_imp. intros y C. rewrite !HL, !first_T. exact C. }
  { exact Tl. }
  assert (V : eval (Sub (pick idx p xp) (pick (fun w => idx w - 1)%nat p xp)) (Fin v) = Fin (ent xs k - ent xs (k - 1))).
  { assert (Lx : length xs = length xp) by (rewrite <- (fins_length xs), <- E; apply map_length).
    cbn [eval]. pose proof (locally_singleton _ _ K) as K1. cbv beta in K1.
    rewrite (pick_eval idx p xp), (pick_eval (fun w => idx w - 1)%nat p xp) by lia. rewrite K1, E, !at_fins by lia. apply nsub_fin. }
  assert (G : 0 < ent xs k - ent xs (k - 1)).
  { assert (Lx : length xs = length xp) by (rewrite <- (fins_length xs), <- E; apply map_length). pose proof (Inc (k - 1)%nat k ltac:(lia)). lra. }
  assert (V0 : eval (Sub (pick idx p xp) (pick (fun w => idx w - 1)%nat p xp)) (Fin v) <> Fin 0) by (rewrite V; apply neq_fin; lra).
  assert (TD : T (Sub (pick idx p xp) (pick (fun w => idx w - 1)%nat p xp)) v) by ts.
  destruct (T_side (fun v => nleb (nabs v) (Fin interp_eps)) _ v 0 TD V0) as [b B].
  { intros a c Ha Hc. unfold nabs. rewrite !nleb_fin, eps0. rewrite !Rle_bool_false; auto; unfold Rabs; destruct Rcase_abs; lra. }
  { intros a c Ha Hc. unfold nabs. rewrite !nleb_fin, eps0. rewrite !Rle_bool_false; auto; unfold Rabs; destruct Rcase_abs; lra. }
  apply T_where with (k := b); auto. ts. apply T_div; ts.
  - change (eval (Where ?c ?q ?s ?t) (Fin v)) with (nwhere (c (eval q (Fin v))) (eval s (Fin v)) (eval t (Fin v))). rewrite V. unfold nwhere.
    destruct (nleb _ _); [cbn [eval]; apply neq_fin; lra|]. apply neq_fin. lra.
  - apply T_where with (k := b); auto. ts.
Qed.
