(** * Correctness of the reverse-mode derivative, primitive by primitive (exact arithmetic) *)
From Coq Require Import Reals List Arith Lra Lia ZArith Bool.
From Coquelicot Require Import Coquelicot.
From Flocq Require Import Core.Raux.
From Verif Require Import Num Arr MUtils MGrad MTrace Spec RList LUtils LKern LImf.
Import ListNotations.
Open Scope R_scope.
#[local] Existing Instance exact.

(** the cotangent is multiplied by [d] on the way back *)
Definition bk (e : trace) (x d : R) : Prop :=
  (forall c, back e (Fin x) (Fin c) = Fin (c * d)) /\ (depends e = false -> d = 0).
Definition ev (e : trace) (f : R -> R) (x : R) : Prop := locally x (fun y => eval e (Fin y) = Fin (f y)).
Definition tr (e : trace) (f : R -> R) (x d : R) : Prop := bk e x d /\ ev e f x /\ is_derive f x d.

Lemma ev_all e f x : (forall y, eval e (Fin y) = Fin (f y)) -> ev e f x.
Proof. intros E. unfold ev. now apply filter_forall. Qed.
Lemma ev_at e f x : ev e f x -> eval e (Fin x) = Fin (f x).
Proof. intros E. now apply locally_singleton in E. Qed.
Lemma ev_imp a f e g x : ev a f x -> (forall y, eval a (Fin y) = Fin (f y) -> eval e (Fin y) = Fin (g y)) -> ev e g x.
Proof. unfold ev. intros E I. revert E. apply filter_imp. exact I. Qed.
Lemma both_bk a b x d d' ca cb : bk a x d -> bk b x d' ->
  both (depends a) (depends b) (back a (Fin x) (Fin ca)) (back b (Fin x) (Fin cb)) = Fin (ca * d + cb * d').
Proof.
  intros [A A0] [B B0]. rewrite A, B. destruct (depends a), (depends b); cbn [both].
  - now rewrite nadd_fin.
  - rewrite B0 by auto. f_equal. ring.
  - rewrite A0 by auto. f_equal. ring.
  - rewrite A0, B0 by auto. f_equal. ring.
Qed.
Lemma loc2 (P Q W : R -> Prop) x : locally x P -> locally x Q -> (forall y, P y -> Q y -> W y) -> locally x W.
Proof. intros HP HQ HW. apply (filter_imp (fun y => P y /\ Q y)); [intuition|now apply filter_and]. Qed.
Lemma der_cont (f : R -> R) x d : is_derive f x d -> continuous f x.
Proof. intros D. apply (ex_derive_continuous f x). now exists d. Qed.
Lemma cont_near (f : R -> R) x (P : R -> Prop) : continuous f x -> open P -> P (f x) -> locally x (fun y => P (f y)).
Proof. intros C O HP. apply C. now apply O. Qed.

Lemma tr_arg x : tr Arg (fun y => y) x 1.
Proof.
  split; [split; [intros c; cbn; f_equal; ring|discriminate]|]. split; [apply ev_all; reflexivity|]. apply (is_derive_id x).
Qed.
Lemma tr_cst c x : tr (Cst (Fin c)) (fun _ => c) x 0.
Proof.
  split; [split; [intros k; cbn; f_equal; ring|auto]|]. split; [apply ev_all; reflexivity|]. apply (is_derive_const c x).
Qed.
Lemma tr_d e f x d d' : tr e f x d -> d = d' -> tr e f x d'. Proof. now intros H <-. Qed.
Lemma tr_neg a f x d : tr a f x d -> tr (Neg a) (fun y => - f y) x (- d).
Proof.
  intros ([A A0] & E & D). split; [|split].
  - split; [intros c; cbn [back nopp]; rewrite A; f_equal; ring|cbn; intros Q; rewrite (A0 Q); ring].
  - apply (ev_imp _ _ _ _ _ E). intros y Ey. cbn [eval]. now rewrite Ey.
  - now apply (is_derive_opp f x d).
Qed.
Section Two.
Variables (a b : trace) (f g : R -> R) (x d d' : R).
Hypothesis (A : tr a f x d) (B : tr b g x d').
Lemma orb_d : depends a || depends b = false -> d = 0 /\ d' = 0.
Proof. intros Q. apply orb_false_elim in Q as [Qa Qb]. destruct A as ([_ A0] & _), B as ([_ B0] & _). auto. Qed.
Lemma tr_add : tr (Add a b) (fun y => f y + g y) x (d + d').
Proof.
  split; [|split].
  - split; [intros c; cbn [back]; rewrite (both_bk _ _ _ d d') by (apply A || apply B); f_equal; ring|].
    cbn [depends]. intros Q. destruct (orb_d Q). lra.
  - destruct A as (_ & EA & _), B as (_ & EB & _). apply (loc2 _ _ _ x EA EB). intros y E1 E2. cbn [eval]. now rewrite E1, E2, nadd_fin.
  - apply (is_derive_plus f g x d d'); [apply A|apply B].
Qed.
Lemma tr_sub : tr (Sub a b) (fun y => f y - g y) x (d - d').
Proof.
  split; [|split].
  - split; [intros c; cbn [back nopp]; rewrite (both_bk _ _ _ d d') by (apply A || apply B); f_equal; ring|].
    cbn [depends]. intros Q. destruct (orb_d Q). lra.
  - destruct A as (_ & EA & _), B as (_ & EB & _). apply (loc2 _ _ _ x EA EB). intros y E1 E2. cbn [eval]. rewrite E1, E2, nsub_fin. reflexivity.
  - apply (is_derive_minus f g x d d'); [apply A|apply B].
Qed.
Lemma tr_mul : tr (Mul a b) (fun y => f y * g y) x (d * g x + f x * d').
Proof.
  destruct A as (KA & EA & DA), B as (KB & EB & DB). split; [|split].
  - split; [intros c; cbn [back]; rewrite (ev_at _ _ _ EA), (ev_at _ _ _ EB), !nmul_fin, (both_bk _ _ _ d d') by auto; f_equal; ring|].
    cbn [depends]. intros Q. destruct (orb_d Q) as [-> ->]. ring.
  - apply (loc2 _ _ _ x EA EB). intros y E1 E2. cbn [eval]. rewrite E1, E2, nmul_fin. reflexivity.
  - apply (is_derive_mult f g x d d' DA DB). intros; apply Rmult_comm.
Qed.
Lemma tr_div : g x <> 0 -> tr (Div a b) (fun y => f y / g y) x ((d * g x - f x * d') / (g x) ^ 2).
Proof.
  intros G. destruct A as (KA & EA & DA), B as (KB & EB & DB). split; [|split].
  - split; [intros c; cbn [back]; rewrite (ev_at _ _ _ EA), (ev_at _ _ _ EB); cbn [nopp]; rewrite !nmul_fin, !ndiv_fin, !nmul_fin by (auto; now apply Rmult_integral_contrapositive_currified); rewrite (both_bk _ _ _ d d') by auto; f_equal; field; auto|].
    cbn [depends]. intros Q. destruct (orb_d Q) as [-> ->]. field. auto.
  - assert (N : locally x (fun y => g y <> 0)) by (apply (cont_near g x (fun z => z <> 0)); [eapply der_cont; exact DB|apply open_neq|auto]).
    apply (loc2 _ _ _ x (loc2 _ _ _ x EA EB (fun y p q => conj p q)) N). intros y [E1 E2] Ny. cbn [eval]. rewrite E1, E2, ndiv_fin by auto. reflexivity.
  - apply is_derive_div; auto.
Qed.
End Two.
(** a unary primitive with value [v] and local derivative [v'] *)
Lemma tr_comp (e' : trace) a f x d (v : R -> R) (v' : R) : tr a f x d -> is_derive v (f x) v' ->
  (forall c, back e' (Fin x) (Fin c) = back a (Fin x) (Fin (c * v'))) -> depends e' = depends a ->
  locally x (fun y => eval a (Fin y) = Fin (f y) -> eval e' (Fin y) = Fin (v (f y))) -> tr e' (fun y => v (f y)) x (d * v').
Proof.
  intros ([A A0] & E & D) V HB HD HE. split; [|split].
  - split; [intros c; rewrite HB, A; f_equal; ring|rewrite HD; intros Q; rewrite A0 by auto; ring].
  - apply (loc2 _ _ _ x E HE). auto.
  - apply (is_derive_comp v f x v' d V D).
Qed.
Lemma tr_ipow a f x d p : (1 < Pos.to_nat p)%nat -> tr a f x d -> tr (IPow a p) (fun y => f y ^ Pos.to_nat p) x (d * (INR (Pos.to_nat p) * f x ^ Nat.pred (Pos.to_nat p))).
Proof.
  intros P A. apply (tr_comp _ a f x d (fun z => z ^ Pos.to_nat p)); auto.
  - replace (INR (Pos.to_nat p) * f x ^ Nat.pred (Pos.to_nat p)) with (INR (Pos.to_nat p) * 1 * f x ^ Nat.pred (Pos.to_nat p)) by ring. apply (is_derive_pow (fun z => z) (Pos.to_nat p) (f x) 1). apply (is_derive_id (f x)).
  - intros c. cbn [back]. destruct A as (_ & E & _). rewrite (ev_at _ _ _ E), ipow_fin, !nmul_fin. do 4 f_equal; [now rewrite INR_IZR_INZ, positive_nat_Z|f_equal; lia].
  - apply filter_forall. intros y E. cbn [eval]. now rewrite E, ipow_fin.
Qed.
Lemma tr_exp a f x d : tr a f x d -> tr (Exp a) (fun y => exp (f y)) x (d * exp (f x)).
Proof.
  intros A. apply (tr_comp _ a f x d exp); auto.
  - apply is_derive_exp.
  - intros c. cbn [back]. destruct A as (_ & E & _). now rewrite (ev_at _ _ _ E), nexp_fin, nmul_fin.
  - apply filter_forall. intros y E. cbn [eval]. now rewrite E, nexp_fin.
Qed.
Lemma ln10_pos : 0 < ln 10. Proof. rewrite <- ln_1. apply ln_increasing; lra. Qed.
Lemma nln10 : nln (Fin 10) = Fin (ln 10). Proof. unfold nln. rewrite Rlt_bool_true by lra. reflexivity. Qed.
Lemma tr_log10 a f x d : 0 < f x -> tr a f x d -> tr (Log10 a) (fun y => log10 (f y)) x (d * (/ ln 10 / f x)).
Proof.
  intros P A. pose proof ln10_pos. apply (tr_comp _ a f x d log10); auto.
  - unfold log10. auto_derive; auto. field. split; lra.
  - intros c. cbn [back]. destruct A as (_ & E & _). rewrite (ev_at _ _ _ E), nln10, !ndiv_fin by lra. do 2 f_equal. field. split; lra.
  - destruct A as (_ & _ & D). assert (N : locally x (fun y => 0 < f y)) by (apply (cont_near f x (fun z => 0 < z)); [eapply der_cont; exact D|apply open_gt|auto]).
    revert N. apply filter_imp. intros y Py E. cbn [eval]. now rewrite E, nlog10_fin.
Qed.
Lemma tr_pow10 a f x d : tr a f x d -> tr (Pow10 a) (fun y => pow10 (f y)) x (d * (ln 10 * pow10 (f x))).
Proof.
  intros A. apply (tr_comp _ a f x d pow10); auto.
  - unfold pow10, Rpower. auto_derive; auto. ring.
  - intros c. cbn [back]. destruct A as (_ & E & _). now rewrite (ev_at _ _ _ E), nln10, npow10_fin, !nmul_fin.
  - apply filter_forall. intros y E. cbn [eval]. now rewrite E, npow10_fin.
Qed.
Lemma tr_logistic a f x d : tr a f x d -> tr (Logistic a) (fun y => logistic (f y)) x (d * (logistic (f x) * (1 - logistic (f x)))).
Proof.
  intros A. apply (tr_comp _ a f x d logistic); auto.
  - apply logistic_derive.
  - intros c. cbn [back]. destruct A as (_ & E & _). rewrite (ev_at _ _ _ E), nlogistic_fin, nsub_fin, !nmul_fin. do 2 f_equal. ring.
  - apply filter_forall. intros y E. cbn [eval]. now rewrite E, nlogistic_fin.
Qed.
Lemma tr_ln a f x d : 0 < f x -> tr a f x d -> tr (Ln a) (fun y => ln (f y)) x (d * / f x).
Proof.
  intros P A. apply (tr_comp _ a f x d ln); auto.
  - now apply is_derive_ln.
  - intros c. cbn [back]. destruct A as (_ & E & _). rewrite (ev_at _ _ _ E), !ndiv_fin by lra. reflexivity.
  - destruct A as (_ & _ & D). assert (N : locally x (fun y => 0 < f y)) by (apply (cont_near f x (fun z => 0 < z)); [eapply der_cont; exact D|apply open_gt|auto]).
    revert N. apply filter_imp. intros y Py E. cbn [eval]. now rewrite E, nln_fin.
Qed.
Lemma tr_sqrt a f x d : 0 < f x -> tr a f x d -> tr (Sqrt a) (fun y => sqrt (f y)) x (d * (1 / 2 / sqrt (f x))).
Proof.
  intros P A. pose proof (sqrt_lt_R0 _ P) as S. apply (tr_comp _ a f x d sqrt); auto.
  - auto_derive; auto. field. lra.
  - intros c. cbn [back]. destruct A as (_ & E & _). rewrite (ev_at _ _ _ E), nsqrt_fin, ndiv_fin, nmul_fin by lra. reflexivity.
  - destruct A as (_ & _ & D). assert (N : locally x (fun y => 0 < f y)) by (apply (cont_near f x (fun z => 0 < z)); [eapply der_cont; exact D|apply open_gt|auto]).
    revert N. apply filter_imp. intros y Py E. cbn [eval]. rewrite E, nsqrt_fin by lra. reflexivity.
Qed.
Lemma tr_pow a b f g x d d' : 0 < f x -> tr a f x d -> tr b g x d' ->
  tr (Pow a b) (fun y => Rpower (f y) (g y)) x (d * (g x * Rpower (f x) (g x - 1)) + d' * (ln (f x) * Rpower (f x) (g x))).
Proof.
  intros P A B. pose proof (orb_d _ _ _ _ _ _ _ A B) as OD. destruct A as (KA & EA & DA), B as (KB & EB & DB). split; [|split].
  - split.
    + intros c. cbn [back]. rewrite (ev_at _ _ _ EA), (ev_at _ _ _ EB), !neqb_fin, (Req_bool_false (f x)) by lra. cbn [nwhere]. rewrite nln_fin, npow_fin by auto.
      destruct (Req_EM_T (g x) 0) as [G|G].
      * rewrite Req_bool_true by auto. cbn [nwhere]. rewrite !nmul_fin, (both_bk _ _ _ d d') by auto. f_equal. rewrite G. ring.
      * rewrite Req_bool_false by auto. cbn [nwhere]. rewrite nsub_fin, npow_fin, !nmul_fin, (both_bk _ _ _ d d') by auto. f_equal. ring.
    + cbn [depends]. intros Q. destruct (OD Q) as [-> ->]. ring.
  - assert (N : locally x (fun y => 0 < f y)) by (apply (cont_near f x (fun z => 0 < z)); [eapply der_cont; exact DA|apply open_gt|auto]).
    apply (loc2 _ _ _ x (loc2 _ _ _ x EA EB (fun y p q => conj p q)) N). intros y [E1 E2] Ny. cbn [eval]. now rewrite E1, E2, npow_fin.
  - pose proof (is_derive_comp ln f x (/ f x) d (is_derive_ln _ P) DA) as DL. unfold Rpower.
    pose proof (is_derive_mult g (fun y => ln (f y)) x d' _ DB DL (fun p q => Rmult_comm p q)) as DM.
    pose proof (is_derive_comp exp _ x _ _ (is_derive_exp _) DM) as DE. cbv beta in DE.
    match type of DE with is_derive _ _ ?v => replace (d * (g x * exp ((g x - 1) * ln (f x))) + d' * (ln (f x) * exp (g x * ln (f x)))) with v; [exact DE|] end.
    unfold scal, plus, mult; simpl. unfold mult; simpl. replace ((g x - 1) * ln (f x)) with (g x * ln (f x) - ln (f x)) by ring. unfold Rminus. rewrite exp_plus, exp_Ropp, exp_ln by auto. field. lra.
Qed.
(** [jnp.sum] *)
Lemma tr_sum l x : List.Forall (fun a => exists f d, tr a f x d) l -> exists f d, tr (Sum l) f x d.
Proof.
  intros H. enough (S : exists (fs : R -> list R) d, locally x (fun y => map (fun a => eval a (Fin y)) l = fins (fs y)) /\ is_derive (fun y => Rsum (fs y)) x d /\ bk (Sum l) x d).
  { destruct S as (fs & d & E & D & K). exists (fun y => Rsum (fs y)), d. split; auto. split; auto. unfold ev. revert E. apply filter_imp. intros y E. cbn [eval]. now rewrite E, vsum_fins. }
  induction H as [|a l (f & d & A) H IH].
  - exists (fun _ => []), 0. split; [apply filter_forall; reflexivity|]. split; [apply (is_derive_const 0 x)|]. split; auto. intros c. cbn. f_equal. ring.
  - destruct IH as (fs & d' & E & D & K). destruct A as (KA & EA & DA). exists (fun y => f y :: fs y), (d + d'). split; [|split].
    + apply (loc2 _ _ _ x EA E). intros y E1 E2. cbn [map]. rewrite E1, E2. reflexivity.
    + cbn [Rsum]. apply (is_derive_plus f (fun y => Rsum (fs y)) x d d' DA D).
    + split.
      * intros c. pose proof (both_bk a (Sum l) x d d' c c KA K) as Q. cbn [back depends existsb] in Q |- *. rewrite Q. f_equal. ring.
      * cbn [depends existsb]. intros Q. apply orb_false_elim in Q as [Qa Qb]. destruct KA as [_ Z], K as [_ Z']. rewrite (Z Qa), (Z' Qb). ring.
Qed.
(** [jnp.where]: the branch not taken only has to send the cotangent 0 back as 0 *)
Lemma bk_where c p a b x d d' (k : bool) : c (eval p (Fin x)) = k -> bk a x d -> bk b x d' -> bk (Where c p a b) x (if k then d else d').
Proof.
  intros C A B. split.
  - intros t. cbn [back]. rewrite C. destruct k; cbn [nwhere]; rewrite (both_bk _ _ _ d d') by auto; f_equal; ring.
  - cbn [depends]. intros Q. apply orb_false_elim in Q as [Qa Qb]. destruct k; [now apply A|now apply B].
Qed.
Lemma tr_where c p a b f g x d d' (k : bool) : locally x (fun y => c (eval p (Fin y)) = k) -> tr a f x d -> tr b g x d' ->
  tr (Where c p a b) (if k then f else g) x (if k then d else d').
Proof.
  intros C A B. split; [apply bk_where; [now apply locally_singleton in C|apply A|apply B]|]. destruct A as (_ & EA & DA), B as (_ & EB & DB). split; [|now destruct k].
  apply (loc2 _ _ _ x C (loc2 _ _ _ x EA EB (fun y p q => conj p q))). intros y Cy [Ea Eb]. cbn [eval]. rewrite Cy. now destruct k.
Qed.
(** the function may be replaced by an equal one *)
Lemma tr_ext e f g x d : (forall y, f y = g y) -> tr e f x d -> tr e g x d.
Proof.
  intros Q (K & E & D). split; auto. split.
  - apply (ev_imp _ _ _ _ _ E). intros y ->. now rewrite Q.
  - apply (is_derive_ext f); auto.
Qed.

Lemma grad_tr e f x d : tr e f x d -> grad e (Fin x) = Fin d /\ ev e f x /\ is_derive f x d.
Proof.
  intros ([K K0] & E & D). split; auto. unfold grad. destruct (depends e) eqn:Q; [rewrite K; f_equal; ring|rewrite K0; auto].
Qed.

(** ** the triweight kernel: also at the joints z = -3 and z = 3 *)
Lemma tw_poly_tr z f x d : tr z f x d -> tr (tw_poly_trace z) (fun y => tw_poly (f y)) x (tw_dens (f x) * d).
Proof.
  intros Z. eapply tr_d; [eapply tr_ext; [|unfold tw_poly_trace; repeat (eapply tr_add || eapply tr_sub || eapply tr_mul || eapply tr_div || eapply tr_cst || exact Z || (eapply tr_ipow; [lia|]))]|].
  all: try (cbv beta; lra).
  - intros y. cbv beta. unfold tw_poly. change (Pos.to_nat 7) with 7%nat. change (Pos.to_nat 5) with 5%nat. change (Pos.to_nat 3) with 3%nat. field.
  - cbv beta. unfold tw_dens. change (Pos.to_nat 7) with 7%nat. change (Pos.to_nat 5) with 5%nat. change (Pos.to_nat 3) with 3%nat. simpl INR. simpl Nat.pred. field.
Qed.
Lemma tw_of_eval z v r : eval z v = Fin r -> eval (tw_of z) v = Fin (triweight_cdf r).
Proof.
  intros E. pose proof (tw_kern_fin r 0 1 ltac:(lra)) as K. replace ((r - 0) / 1) with r in K by field. rewrite <- K. unfold tw_of, tw_poly_trace, tw_cuml_kern. cbn [eval]. rewrite E. rewrite nsub_fin, ndiv_fin by lra. replace ((r - 0) / 1) with r by field. reflexivity.
Qed.
Lemma tw_of_tr z f x d : tr z f x d -> tr (tw_of z) (fun y => triweight_cdf (f y)) x (tw_density (f x) * d).
Proof.
  intros Z. pose proof (tw_poly_tr z f x d Z) as (KP & _). pose proof (tr_cst 1 x) as (K1 & _). pose proof (tr_cst 0 x) as (K0 & _). destruct Z as (_ & EZ & DZ). pose proof (ev_at _ _ _ EZ) as E.
  assert (D3 : tw_dens 3 = 0) by (unfold tw_dens; field). assert (Dm3 : tw_dens (-3) = 0) by (unfold tw_dens; field).
  split; [|split].
  - pose proof (bk_where (fun v => (v <? Fin (-3))%num) z _ _ x _ _ _ eq_refl K0 KP) as W. pose proof (bk_where (fun v => (v >? Fin 3)%num) z _ _ x _ _ _ eq_refl K1 W) as V. clear W.
    rewrite E in V. unfold tw_of. match type of V with bk _ _ ?d' => replace (tw_density (f x) * d) with d'; [exact V|] end. clear V.
    unfold ngtb, nltb, tw_density. destruct (Rlt_bool_spec 3 (f x)), (Rlt_bool_spec (f x) (-3)), (Rlt_dec (-3) (f x)), (Rlt_dec (f x) 3); try lra.
    + replace (f x) with 3 by lra. rewrite D3. ring.
    + replace (f x) with (-3) by lra. rewrite Dm3. ring.
  - apply (ev_imp _ _ _ _ _ EZ). intros y Ey. now apply tw_of_eval.
  - rewrite Rmult_comm. apply (is_derive_comp triweight_cdf f x (tw_density (f x)) d (tw_derive (f x)) DZ).
Qed.
