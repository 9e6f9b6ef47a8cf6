(** * Closure of [right_gradient] under the primitives *)
From Coq Require Import Reals List Arith Lra Lia ZArith Bool.
From Coquelicot Require Import Coquelicot.
From Flocq Require Import Core.Raux.
From Verif Require Import Num Arr MUtils MGrad MTrace Spec Spec2 SpecGrad RList LUtils LKern LImf LDiff LGrad.
Import ListNotations.
Open Scope R_scope.
#[local] Existing Instance exact.

Definition T (e : trace) (x : R) : Prop := exists f d, tr e f x d.
Lemma T_right e x : T e x <-> right_gradient e x.
Proof.
  split.
  - intros (f & d & H). exists f, d. pose proof (grad_tr _ _ _ _ H) as (G & E & D). split; [apply near_locally; exact E|]. split; auto. split; auto. apply H.
  - intros (f & d & (e0 & P & N) & D & G & B). exists f, d. split; [|split; auto].
    + split; auto. intros Q. unfold grad in G. rewrite Q in G. injection G as <-. reflexivity.
    + exists (mkposreal e0 P). intros y Hy. apply N. unfold ball in Hy; simpl in Hy. unfold AbsRing_ball, abs, minus, plus, opp in Hy; simpl in Hy. exact Hy.
Qed.
Lemma T_arg x : T Arg x. Proof. do 2 eexists. apply tr_arg. Qed.
Lemma T_cst c x : T (Cst (Fin c)) x. Proof. do 2 eexists. apply tr_cst. Qed.
Lemma T_neg a x : T a x -> T (Neg a) x. Proof. intros (f & d & A). do 2 eexists. apply tr_neg. exact A. Qed.
Lemma T_add a b x : T a x -> T b x -> T (Add a b) x. Proof. intros (f & d & A) (g & d' & B). do 2 eexists. eapply tr_add; eauto. Qed.
Lemma T_sub a b x : T a x -> T b x -> T (Sub a b) x. Proof. intros (f & d & A) (g & d' & B). do 2 eexists. eapply tr_sub; eauto. Qed.
Lemma T_mul a b x : T a x -> T b x -> T (Mul a b) x. Proof. intros (f & d & A) (g & d' & B). do 2 eexists. eapply tr_mul; eauto. Qed.
Lemma T_val a x : T a x -> exists v, eval a (Fin x) = Fin v.
Proof. intros (f & d & _ & E & _). exists (f x). now apply ev_at. Qed.
Lemma T_div a b x : eval b (Fin x) <> Fin 0 -> T a x -> T b x -> T (Div a b) x.
Proof. intros N (f & d & A) (g & d' & B). do 2 eexists. eapply tr_div; eauto. intros Z. apply N. destruct B as (_ & E & _). rewrite (ev_at _ _ _ E). now f_equal. Qed.
Lemma T_ipow a p x : (1 < Pos.to_nat p)%nat -> T a x -> T (IPow a p) x. Proof. intros P (f & d & A). do 2 eexists. apply tr_ipow; eauto. Qed.
Lemma T_exp a x : T a x -> T (Exp a) x. Proof. intros (f & d & A). do 2 eexists. apply tr_exp. exact A. Qed.
Lemma T_pow10 a x : T a x -> T (Pow10 a) x. Proof. intros (f & d & A). do 2 eexists. apply tr_pow10. exact A. Qed.
Lemma T_logistic a x : T a x -> T (Logistic a) x. Proof. intros (f & d & A). do 2 eexists. apply tr_logistic. exact A. Qed.
Lemma T_pos a f x d v : tr a f x d -> eval a (Fin x) = Fin v -> 0 < v -> 0 < f x.
Proof. intros (_ & E & _) V P. rewrite (ev_at _ _ _ E) in V. injection V as ->. auto. Qed.
Lemma T_ln a x v : eval a (Fin x) = Fin v -> 0 < v -> T a x -> T (Ln a) x. Proof. intros V P (f & d & A). do 2 eexists. apply tr_ln; eauto using T_pos. Qed.
Lemma T_log10 a x v : eval a (Fin x) = Fin v -> 0 < v -> T a x -> T (Log10 a) x. Proof. intros V P (f & d & A). do 2 eexists. apply tr_log10; eauto using T_pos. Qed.
Lemma T_sqrt a x v : eval a (Fin x) = Fin v -> 0 < v -> T a x -> T (Sqrt a) x. Proof. intros V P (f & d & A). do 2 eexists. apply tr_sqrt; eauto using T_pos. Qed.
Lemma T_pow a b x v : eval a (Fin x) = Fin v -> 0 < v -> T a x -> T b x -> T (Pow a b) x. Proof. intros V P (f & d & A) (g & d' & B). do 2 eexists. apply tr_pow; eauto using T_pos. Qed.
Lemma T_sum l x : List.Forall (fun a => T a x) l -> T (Sum l) x. Proof. apply tr_sum. Qed.
Lemma T_where c p a b x (k : bool) : locally x (fun y => c (eval p (Fin y)) = k) -> T a x -> T b x -> T (Where c p a b) x.
Proof. intros C (f & d & A) (g & d' & B). do 2 eexists. eapply tr_where; eauto. Qed.
Lemma T_where_cst c v a b x : T a x -> T b x -> T (Where c (Cst v) a b) x.
Proof. apply (T_where _ _ _ _ _ (c v)). apply filter_forall. reflexivity. Qed.
Lemma T_off p x k (P : R -> Prop) : T p x -> eval p (Fin x) <> Fin k -> (forall v, v <> k -> locally v P) -> locally x (fun y => exists v, eval p (Fin y) = Fin v /\ P v).
Proof.
  intros (f & d & _ & E & D) N H. assert (N' : f x <> k) by (intros Z; apply N; rewrite (ev_at _ _ _ E); now f_equal).
  pose proof (der_cont _ _ _ D _ (H _ N')) as F. apply (loc2 _ _ _ x E F). intros y Ey Py. eauto.
Qed.
Lemma loc_lt v k : v < k -> locally v (fun w => w < k). Proof. intros H. now apply (open_lt k). Qed.
Lemma loc_gt v k : k < v -> locally v (fun w => k < w). Proof. intros H. now apply (open_gt k). Qed.
Lemma T_side (c : num -> bool) p x k : T p x -> eval p (Fin x) <> Fin k ->
  (forall v w, v < k -> w < k -> c (Fin v) = c (Fin w)) -> (forall v w, k < v -> k < w -> c (Fin v) = c (Fin w)) ->
  exists b, locally x (fun y => c (eval p (Fin y)) = b).
Proof.
  intros HT N L U. destruct HT as (f & d & _ & E & D). assert (N' : f x <> k) by (intros Z; apply N; rewrite (ev_at _ _ _ E); now f_equal).
  exists (c (Fin (f x))). destruct (Rtotal_order (f x) k) as [Q|[Q|Q]]; [|contradiction|].
  - apply (loc2 _ _ _ x E (der_cont _ _ _ D _ (loc_lt _ _ Q))). intros y -> Py. now apply L.
  - apply (loc2 _ _ _ x E (der_cont _ _ _ D _ (loc_gt _ _ Q))). intros y -> Py. now apply U.
Qed.
Ltac side_tac := intros v w Hv Hw; unfold ngtb; rewrite ?nltb_fin, ?nleb_fin, ?neqb_fin;
  repeat match goal with
  | |- context [Rlt_bool ?a ?b] => destruct (Rlt_bool_spec a b)
  | |- context [Rle_bool ?a ?b] => destruct (Rle_bool_spec a b)
  | |- context [Req_bool ?a ?b] => destruct (Req_bool_spec a b) end; (reflexivity || lra).
Lemma T_where_lt p a b x k : eval p (Fin x) <> Fin k -> T p x -> T a x -> T b x -> T (Where (fun v => v <? Fin k)%num p a b) x.
Proof. intros N P A B. destruct (T_side (fun v => v <? Fin k)%num p x k P N) as [c C]; [side_tac|side_tac|]. eapply T_where; eauto. Qed.
Lemma T_where_gt p a b x k : eval p (Fin x) <> Fin k -> T p x -> T a x -> T b x -> T (Where (fun v => v >? Fin k)%num p a b) x.
Proof. intros N P A B. destruct (T_side (fun v => v >? Fin k)%num p x k P N) as [c C]; [side_tac|side_tac|]. eapply T_where; eauto. Qed.
Lemma T_where_le p a b x k : eval p (Fin x) <> Fin k -> T p x -> T a x -> T b x -> T (Where (fun v => v <=? Fin k)%num p a b) x.
Proof. intros N P A B. destruct (T_side (fun v => v <=? Fin k)%num p x k P N) as [c C]; [side_tac|side_tac|]. eapply T_where; eauto. Qed.
Lemma T_where_eq p a b x k : eval p (Fin x) <> Fin k -> T p x -> T a x -> T b x -> T (Where (fun v => v =? Fin k)%num p a b) x.
Proof. intros N P A B. destruct (T_side (fun v => v =? Fin k)%num p x k P N) as [c C]; [side_tac|side_tac|]. eapply T_where; eauto. Qed.
(** a threshold on the wavelength: no matter when the wavelength is a constant *)
Lemma T_where_gt' p a b x k : (forall c, p <> Cst c) /\ eval p (Fin x) <> Fin k \/ (exists c, p = Cst c) -> T p x -> T a x -> T b x -> T (Where (fun v => v >? Fin k)%num p a b) x.
Proof. intros [[_ N]|[c ->]]; [now apply T_where_gt|]. intros _. apply T_where_cst. Qed.

(** the triweight kernels *)
Lemma T_tw_of z x : T z x -> T (tw_of z) x. Proof. intros (f & d & A). do 2 eexists. apply tw_of_tr. exact A. Qed.
Lemma T_tw a m h x : eval h (Fin x) <> Fin 0 -> T a x -> T m x -> T h x -> T (tw_trace a m h) x.
Proof. intros N A M H. apply T_tw_of, T_div; auto. now apply T_sub. Qed.
