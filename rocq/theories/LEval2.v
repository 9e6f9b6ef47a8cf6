(** * Metallicity weights outside [0, 1] *)
From Coq Require Import Reals List Arith Lra Lia ZArith Bool.
From Flocq Require Import Core.Raux.
From Verif Require Import Num Arr MUtils MSed Float Spec RList LFloat LEval.
Import ListNotations.
Open Scope R_scope.

Ltac vmr := match goal with |- ?l = ?r => let v := eval vm_compute in l in first [unify v r | unify r v]; vm_cast_no_check (@eq_refl _ v) end.
Ltac ev F :=
  lazymatch goal with
  | |- dn (nadd _ _) _ => eapply (dn_add F); [ev F|ev F|vmr|vmr]
  | |- dn (nsub _ _) _ => eapply (dn_sub F); [ev F|ev F|vmr|vmr]
  | |- dn (nmul _ _) _ => eapply (dn_mul F); [ev F|ev F|vmr|vmr]
  | |- dn (ndiv _ _) _ => eapply (dn_div F); [ev F|ev F|vmr|vmr|vmr]
  | |- dn (Fin (IZR ?z)) _ => apply (dn_fin (IZR z) (z, 1%positive)); unfold rat; cbn [fst snd]; lra
  | |- dn (Fin (IZR ?z / IZR (Zpos ?d))) _ => apply (dn_fin _ (z, d)); unfold rat; cbn [fst snd]; lra
  | |- dn (Fin (- (IZR ?z / IZR (Zpos ?d)))) _ => apply (dn_fin _ ((- z)%Z, d)); unfold rat; cbn [fst snd Z.opp]; lra
  | |- dn _ _ => eassumption
  end.

Definition poly (AR : Arith) (z : num) : num := (Fin (-5) * z ^i 7 / Fin 69984 + Fin 7 * z ^i 5 / Fin 2592
               - Fin 35 * z ^i 3 / Fin 864 + Fin 35 * z / Fin 96 + Fin (1/2)%R)%num.
Lemma kern_lo (F : fmt) x m h q : dn (ndiv (AR := far F) (nsub (AR := far F) x m) h) q -> qlt q ((-3)%Z, 1%positive) = true -> tw_cuml_kern (AR := far F) x m h = Fin 0.
Proof.
  intros D L. unfold tw_cuml_kern. cbv zeta. rewrite D. unfold nwhere, ngtb.
  rewrite (dn_ltb (Fin 3) (Fin (rat q)) (3%Z, 1%positive) q), (dn_ltb (Fin (rat q)) (Fin (-3)) q ((-3)%Z, 1%positive)); try (unfold dn, rat; cbn [fst snd]; f_equal; lra).
  rewrite L. replace (qlt (3%Z, 1%positive) q) with false; auto.
  symmetry. unfold qlt in *. cbn [fst snd] in *. apply Z.ltb_lt in L. apply Z.ltb_ge. lia.
Qed.
Lemma kern_hi (F : fmt) x m h q : dn (ndiv (AR := far F) (nsub (AR := far F) x m) h) q -> qlt (3%Z, 1%positive) q = true -> tw_cuml_kern (AR := far F) x m h = Fin 1.
Proof.
  intros D L. unfold tw_cuml_kern. cbv zeta. rewrite D. unfold nwhere, ngtb.
  rewrite (dn_ltb (Fin 3) (Fin (rat q)) (3%Z, 1%positive) q); try (unfold dn, rat; cbn [fst snd]; f_equal; lra).
  now rewrite L.
Qed.
Lemma kern_mid (F : fmt) x m h q s : dn (ndiv (AR := far F) (nsub (AR := far F) x m) h) q -> qlt (3%Z, 1%positive) q = false -> qlt q ((-3)%Z, 1%positive) = false ->
  dn (poly (far F) (Fin (rat q))) s -> dn (tw_cuml_kern (AR := far F) x m h) s.
Proof.
  intros D L1 L2 P. unfold tw_cuml_kern. cbv zeta. rewrite D. unfold nwhere, ngtb.
  rewrite (dn_ltb (Fin 3) (Fin (rat q)) (3%Z, 1%positive) q), (dn_ltb (Fin (rat q)) (Fin (-3)) q ((-3)%Z, 1%positive)); try (unfold dn, rat; cbn [fst snd]; f_equal; lra).
  rewrite L1, L2. exact P.
Qed.
Ltac kmid F := eapply (kern_mid F); [ev F|vmr|vmr|]; match goal with |- dn (poly _ (Fin (rat ?q))) _ =>
  let H := fresh in assert (H : dn (Fin (rat q)) q) by reflexivity; unfold poly, ipow; cbn [ipow_acc]; ev F end.

Notation lgs := [-2; -1; 0]%R.
Lemma dn_eq v q x : dn v q -> rat q = x -> v = Fin x. Proof. intros -> <-. reflexivity. Qed.
Ltac dn_solve F := eapply dn_eq; [ev F|unfold rat; cbn [fst snd]; lra].

Section Edges.
  Variable F : fmt.
  Hypothesis FF : F = f32 \/ F = f64.
  Lemma lgs_edges : get_bin_edges_k (AR := far F) (fins lgs) (Fin (-10)) (Fin 10) = fins [-10; -(3/2); -(1/2); 10].
  Proof.
    unfold get_bin_edges_k, get_dt_array_k, tmids, Arr.diff, fins. destruct FF as [-> | ->]; cbn [map tl map2 app last_ first last hd at_ nth List.last length Nat.sub].
    - f_equal. f_equal; [dn_solve f32|]. f_equal. dn_solve f32.
    - f_equal. f_equal; [dn_solve f64|]. f_equal. dn_solve f64.
  Qed.
End Edges.

Ltac kval F := first [eapply (kern_lo F); [ev F|vmr] | eapply (kern_hi F); [ev F|vmr]].
Lemma qeq_neq q : (fst q =? 0)%Z = false -> Req_bool (rat q) 0 = false.
Proof. intros Z. apply Req_bool_false. apply Z.eqb_neq in Z. unfold rat, Rdiv. apply Rmult_integral_contrapositive. split; [now apply not_0_IZR|]. apply Rinv_neq_0_compat, not_0_IZR. lia. Qed.

(** weights from the four kernel values *)
Lemma weights_from F x h k0 k1 k2 k3 w0 w1 w2 s h0 h1 h2 :
  (F = f32 \/ F = f64) ->
  tw_cuml_kern (AR := far F) (Fin x) (Fin (-10)) (Fin h) = k0 -> tw_cuml_kern (AR := far F) (Fin x) (Fin (-(3/2))) (Fin h) = k1 ->
  tw_cuml_kern (AR := far F) (Fin x) (Fin (-(1/2))) (Fin h) = k2 -> tw_cuml_kern (AR := far F) (Fin x) (Fin 10) (Fin h) = k3 ->
  dn (nsub (AR := far F) k0 k1) h0 -> dn (nsub (AR := far F) k1 k2) h1 -> dn (nsub (AR := far F) k2 k3) h2 ->
  dn (nadd (AR := far F) (nadd (AR := far F) (Fin (rat h0)) (Fin (rat h1))) (Fin (rat h2))) s ->
  (fst s =? 0)%Z = false ->
  dn (ndiv (AR := far F) (Fin (rat h0)) (Fin (rat s))) w0 -> dn (ndiv (AR := far F) (Fin (rat h1)) (Fin (rat s))) w1 -> dn (ndiv (AR := far F) (Fin (rat h2)) (Fin (rat s))) w2 ->
  (fst w2 =? 0)%Z = false ->
  calc_lgmet_weights_from_lognormal_mdf (AR := far F) (Fin x) (Fin h) (fins lgs) = Ok (fins [rat w0; rat w1; rat w2]).
Proof.
  intros FF K0 K1 K2 K3 H0 H1 H2 S Sn W0 W1 W2 N. unfold calc_lgmet_weights_from_lognormal_mdf, check_templates. cbn [length fins map check Nat.leb].
  unfold check. cbn [Nat.leb]. f_equal. change (map Fin lgs) with (fins lgs). unfold calc_lgmet_weights_from_lognormal_mdf_k, LGMET_LO, LGMET_HI. rewrite lgs_edges by exact FF.
  unfold get_lgmet_weights_singlegal, triweighted_histogram, triweighted_histogram_kernel, fins. cbn [map tl map2]. cbv zeta.
  rewrite K0, K1, K2, K3, H0, H1, H2. cbn [vsum]. rewrite (f_red F). cbn [left_to_right fold_left]. rewrite S.
  assert (Z : neqb (Fin (rat s)) (Fin 0) = false) by (apply qeq_neq; exact Sn). rewrite Z. cbn [nwhere map]. unfold nwhere. rewrite W0, W1, W2.
  assert (Zf : forallb (fun w : num => neqb w (Fin 0)) [Fin (rat w0); Fin (rat w1); Fin (rat w2)] = false).
  { cbn [forallb]. replace (neqb (Fin (rat w2)) (Fin 0)) with false by (symmetry; apply qeq_neq; exact N). now rewrite !andb_false_r. }
  unfold fill_empty_weights_singlepoint. cbv zeta. rewrite Zf. reflexivity.
Qed.

Ltac hyp_dn F := match goal with |- context [Fin (rat ?q)] => idtac end; repeat match goal with |- context [Fin (rat ?q)] => lazymatch goal with H : dn (Fin (rat q)) q |- _ => fail | _ => assert (dn (Fin (rat q)) q) by reflexivity end end.
Ltac evr F := lazymatch goal with
  | |- dn (nadd _ _) _ => eapply (dn_add F); [evr F|evr F|vmr|vmr]
  | |- dn (nsub _ _) _ => eapply (dn_sub F); [evr F|evr F|vmr|vmr]
  | |- dn (ndiv _ _) _ => eapply (dn_div F); [evr F|evr F|vmr|vmr|vmr]
  | |- dn (Fin (rat ?q)) _ => exact (eq_refl (Fin (rat q)))
  | |- dn (Fin (IZR ?z)) _ => apply (dn_fin (IZR z) (z, 1%positive)); unfold rat; cbn [fst snd]; lra
  end.
Lemma bad32 : exists w, calc_lgmet_weights_from_lognormal_mdf (AR := binary32) (Fin (-(114673/131072))) (Fin (1/8)) (fins lgs) = Ok (fins w) /\ ent w 2 < 0 /\ 1 < ent w 1 /\ length w = 3%nat.
Proof.
  eexists. split.
  - change binary32 with (far f32). eapply weights_from.
    + now left.
    + kval f32. + kval f32. + kmid f32. + kval f32.
    + evr f32. + evr f32. + evr f32. + evr f32. + vmr. + evr f32. + evr f32. + evr f32. + vmr.
  - unfold ent, rat. cbn [nth fst snd length]. repeat split; lra.
Qed.
Lemma bad64 : exists w, calc_lgmet_weights_from_lognormal_mdf (AR := binary64) (Fin (-(917483/1048576))) (Fin (1/8)) (fins lgs) = Ok (fins w) /\ ent w 2 < 0 /\ 1 < ent w 1 /\ length w = 3%nat.
Proof.
  eexists. split.
  - change binary64 with (far f64). eapply weights_from.
    + now right.
    + kval f64. + kval f64. + kmid f64. + kval f64.
    + evr f64. + evr f64. + evr f64. + evr f64. + vmr. + evr f64. + evr f64. + evr f64. + vmr.
  - unfold ent, rat. cbn [nth fst snd length]. repeat split; lra.
Qed.
