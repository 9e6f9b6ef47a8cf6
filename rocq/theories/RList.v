(** * Facts about lists of reals, and the bridge from the model on finite numbers in
      exact arithmetic to real lists *)
From Coq Require Import Reals List Arith Lra Lia Bool.
From Flocq Require Import Core.Raux.
From Verif Require Import Num Arr Spec.
Import ListNotations.
Open Scope R_scope.

#[global] Existing Instance exact.

(** ** Generic lists *)
Lemma map2_length {A B C} (f : A -> B -> C) l1 l2 :
  length (map2 f l1 l2) = Nat.min (length l1) (length l2).
Proof. revert l2; induction l1; destruct l2; simpl; auto. Qed.

Lemma map2_nth {A B C} (f : A -> B -> C) l1 l2 i d1 d2 d :
  (i < length l1)%nat -> (i < length l2)%nat ->
  nth i (map2 f l1 l2) d = f (nth i l1 d1) (nth i l2 d2).
Proof.
  revert l2 i; induction l1; destruct l2; simpl; intros i H1 H2; try lia.
  destruct i; auto. apply IHl1; lia.
Qed.

Lemma map2_map {A B C A' B'} (f : A -> B -> C) (g : A' -> A) (h : B' -> B) l1 l2 :
  map2 f (map g l1) (map h l2) = map2 (fun x y => f (g x) (h y)) l1 l2.
Proof. revert l2; induction l1; destruct l2; simpl; auto. now rewrite IHl1. Qed.

Lemma map_map2 {A B C D} (f : A -> B -> C) (g : C -> D) l1 l2 :
  map g (map2 f l1 l2) = map2 (fun x y => g (f x y)) l1 l2.
Proof. revert l2; induction l1; destruct l2; simpl; auto. now rewrite IHl1. Qed.

Lemma map2_ext {A B C} (f g : A -> B -> C) l1 l2 :
  (forall x y, f x y = g x y) -> map2 f l1 l2 = map2 g l1 l2.
Proof. intros H; revert l2; induction l1; destruct l2; simpl; auto. now rewrite H, IHl1. Qed.

Lemma map2_ext_in {A B C} (f g : A -> B -> C) l1 l2 :
  (forall x y, In x l1 -> In y l2 -> f x y = g x y) -> map2 f l1 l2 = map2 g l1 l2.
Proof.
  revert l2; induction l1; destruct l2; simpl; intros H; auto.
  rewrite H by auto. f_equal. apply IHl1. auto.
Qed.

Lemma map2_combine {A B C} (f : A -> B -> C) l1 l2 :
  map2 f l1 l2 = map (fun p => f (fst p) (snd p)) (combine l1 l2).
Proof. revert l2; induction l1; destruct l2; simpl; auto. now rewrite IHl1. Qed.

Lemma nth_map' {A B} (f : A -> B) l i d d' :
  (i < length l)%nat -> nth i (map f l) d' = f (nth i l d).
Proof.
  revert i; induction l; simpl; intros i H; [lia|]. destruct i; auto. apply IHl; lia.
Qed.

Lemma tl_length {A} (l : list A) : length (tl l) = (length l - 1)%nat.
Proof. destruct l; simpl; lia. Qed.
Lemma tl_nth {A} (l : list A) i d : nth i (tl l) d = nth (S i) l d.
Proof. destruct l; simpl; auto. destruct i; auto. Qed.

Lemma list_eq_nth {A} (l1 l2 : list A) d :
  length l1 = length l2 -> (forall i, (i < length l1)%nat -> nth i l1 d = nth i l2 d) ->
  l1 = l2.
Proof. intros. eapply nth_ext; eauto. Qed.

Lemma same_len_true {A B} (a : list A) (b : list B) :
  same_len a b = true <-> length a = length b.
Proof. unfold same_len. apply Nat.eqb_eq. Qed.

(** ** Sums *)
Lemma Rsum_app l1 l2 : Rsum (l1 ++ l2) = Rsum l1 + Rsum l2.
Proof. induction l1; simpl; lra. Qed.
Lemma Rsum_map_mult {A} c (f : A -> R) l : Rsum (map (fun x => c * f x) l) = c * Rsum (map f l).
Proof. induction l; simpl; [lra|]. rewrite IHl. lra. Qed.
Lemma Rsum_scal c l : Rsum (map (Rmult c) l) = c * Rsum l.
Proof. induction l; simpl; lra. Qed.
Lemma Rsum_scal_r c l : Rsum (map (fun x => x * c) l) = Rsum l * c.
Proof. induction l; simpl; lra. Qed.
Lemma Rsum_div c l : Rsum (map (fun x => x / c) l) = Rsum l / c.
Proof. unfold Rdiv. apply Rsum_scal_r. Qed.
Lemma Rsum_opp l : Rsum (map Ropp l) = - Rsum l.
Proof. induction l; simpl; lra. Qed.
Lemma Rsum_map_plus {A} (f g : A -> R) l :
  Rsum (map (fun x => f x + g x) l) = Rsum (map f l) + Rsum (map g l).
Proof. induction l; simpl; lra. Qed.
Lemma Rsum_map2_plus f g (l1 l2 : list R) :
  Rsum (map2 (fun x y => f x y + g x y) l1 l2) = Rsum (map2 f l1 l2) + Rsum (map2 g l1 l2).
Proof. revert l2; induction l1; destruct l2; simpl; try lra. rewrite IHl1. lra. Qed.
Lemma Rsum_repeat x n : Rsum (repeat x n) = INR n * x.
Proof. induction n; [simpl; lra|]. rewrite S_INR. simpl. rewrite IHn. lra. Qed.
Lemma Rsum_map_const {A} c (l : list A) : Rsum (map (fun _ => c) l) = INR (length l) * c.
Proof. induction l; [simpl; lra|]. cbn [map Rsum length]. rewrite S_INR, IHl. lra. Qed.
Lemma Rsum_nonneg l : Forall (fun x => 0 <= x) l -> 0 <= Rsum l.
Proof. induction 1; simpl; lra. Qed.
Lemma Rsum_pos l : Forall (fun x => 0 < x) l -> l <> [] -> 0 < Rsum l.
Proof.
  intros H; destruct H; [congruence|]. intros _. simpl.
  assert (0 <= Rsum l). { apply Rsum_nonneg. eapply Forall_impl; [|eauto]. simpl; intros; lra. }
  lra.
Qed.
Lemma Rsum_nonneg_zero l : Forall (fun x => 0 <= x) l -> Rsum l = 0 -> Forall (fun x => x = 0) l.
Proof.
  induction 1; constructor; simpl in *.
  - pose proof (Rsum_nonneg _ H0). lra.
  - apply IHForall. pose proof (Rsum_nonneg _ H0). lra.
Qed.
Lemma Rsum_In_le l x : Forall (fun x => 0 <= x) l -> In x l -> x <= Rsum l.
Proof.
  induction 1; simpl; [tauto|]. pose proof (Rsum_nonneg _ H0).
  intros [->|Hi]; [lra|]. specialize (IHForall Hi). lra.
Qed.
Lemma Rsum_le l1 l2 : Forall2 Rle l1 l2 -> Rsum l1 <= Rsum l2.
Proof. induction 1; simpl; lra. Qed.
Lemma Rsum_map_le {A} (f g : A -> R) l :
  (forall x, In x l -> f x <= g x) -> Rsum (map f l) <= Rsum (map g l).
Proof.
  induction l; simpl; intros H; [lra|].
  assert (f a <= g a) by (apply H; auto). assert (Rsum (map f l) <= Rsum (map g l)) by (apply IHl; auto).
  lra.
Qed.
Lemma Rsum_map_ext {A} (f g : A -> R) l :
  (forall x, In x l -> f x = g x) -> Rsum (map f l) = Rsum (map g l).
Proof. intros H. f_equal. apply map_ext_in. auto. Qed.
Lemma Rsum_concat m : Rsum (concat m) = Rsum2 m.
Proof. unfold Rsum2. induction m; simpl; [reflexivity|]. rewrite Rsum_app, IHm. reflexivity. Qed.

(** ** Entries *)
Lemma ent_cons_S x l i : ent (x :: l) (S i) = ent l i.
Proof. reflexivity. Qed.
Lemma ent_map (f : R -> R) l i : (i < length l)%nat -> ent (map f l) i = f (ent l i).
Proof. intros. unfold ent. now apply nth_map'. Qed.
Lemma ent_map_seq (f : nat -> R) a n i : (i < n)%nat -> ent (map f (seq a n)) i = f (a + i)%nat.
Proof.
  intros. unfold ent. rewrite nth_map' with (d := O) by now rewrite seq_length.
  now rewrite seq_nth.
Qed.
Lemma ent_app_l l1 l2 i : (i < length l1)%nat -> ent (l1 ++ l2) i = ent l1 i.
Proof. intros. unfold ent. now apply app_nth1. Qed.
Lemma ent_app_r l1 l2 i : (length l1 <= i)%nat -> ent (l1 ++ l2) i = ent l2 (i - length l1).
Proof. intros. unfold ent. now apply app_nth2. Qed.
Lemma ent_In l i : (i < length l)%nat -> In (ent l i) l.
Proof. intros. unfold ent. now apply nth_In. Qed.
Lemma In_ent l x : In x l -> exists i, (i < length l)%nat /\ ent l i = x.
Proof. intros H. destruct (In_nth _ _ 0 H) as [i [? ?]]. eauto. Qed.
Lemma ent_map2 (f : R -> R -> R) l1 l2 i :
  (i < length l1)%nat -> (i < length l2)%nat -> ent (map2 f l1 l2) i = f (ent l1 i) (ent l2 i).
Proof. intros. unfold ent. now apply map2_nth. Qed.
Lemma Forall_ent (P : R -> Prop) l :
  Forall P l <-> (forall i, (i < length l)%nat -> P (ent l i)).
Proof.
  split.
  - intros H i Hi. rewrite Forall_forall in H. apply H. now apply ent_In.
  - intros H. apply Forall_forall. intros x Hx. destruct (In_ent _ _ Hx) as [i [Hi <-]]. auto.
Qed.
Lemma list_eq_ent l1 l2 :
  length l1 = length l2 -> (forall i, (i < length l1)%nat -> ent l1 i = ent l2 i) -> l1 = l2.
Proof. intros. eapply list_eq_nth with (d := 0); eauto. Qed.
Lemma ent_firstn l n i : (i < n)%nat -> ent (firstn n l) i = ent l i.
Proof.
  revert l i; induction n; intros l i H; [lia|]. destruct l; [now destruct i|].
  destruct i; [reflexivity|]. simpl firstn. rewrite !ent_cons_S. apply IHn. lia.
Qed.

(** ** Increasing lists *)
Lemma increasing_cons x l :
  increasing (x :: l) <-> (forall y, In y l -> x < y) /\ increasing l.
Proof.
  split.
  - intros H. split.
    + intros y Hy. destruct (In_ent _ _ Hy) as [i [Hi <-]].
      specialize (H O (S i)). simpl in H. apply H. lia.
    + intros i j Hij. specialize (H (S i) (S j)). apply H. simpl. lia.
  - intros [H1 H2] i j Hij. simpl in Hij. destruct i; destruct j; try lia.
    + rewrite ent_cons_S. apply H1. apply ent_In. lia.
    + rewrite !ent_cons_S. apply H2. lia.
Qed.
Lemma increasing_tl x l : increasing (x :: l) -> increasing l.
Proof. intros H. now apply increasing_cons in H. Qed.
Lemma increasing_nil : increasing [].
Proof. intros i j H. simpl in H. lia. Qed.
Lemma increasing_single x : increasing [x].
Proof. intros i j H. simpl in H. lia. Qed.
Lemma increasing_map (f : R -> R) l :
  increasing l -> (forall x y, In x l -> In y l -> x < y -> f x < f y) -> increasing (map f l).
Proof.
  intros H Hf i j Hij. rewrite map_length in Hij. rewrite !ent_map by lia.
  apply Hf; try (apply ent_In; lia). now apply H.
Qed.
Lemma increasing_nondecreasing l : increasing l -> nondecreasing l.
Proof. intros H i j Hij. apply Rlt_le. now apply H. Qed.
Lemma increasing_step l :
  (forall i, (S i < length l)%nat -> ent l i < ent l (S i)) -> increasing l.
Proof.
  intros H i j Hij. destruct Hij as [Hij Hj]. induction Hij.
  - apply H. lia.
  - eapply Rlt_trans; [apply IHHij; lia|]. apply H. lia.
Qed.
Lemma nondecreasing_step l :
  (forall i, (S i < length l)%nat -> ent l i <= ent l (S i)) -> nondecreasing l.
Proof.
  intros H i j Hij. destruct Hij as [Hij Hj]. induction Hij.
  - apply H. lia.
  - eapply Rle_trans; [apply IHHij; lia|]. apply H. lia.
Qed.
Lemma nondecreasing_le l i j :
  nondecreasing l -> (i <= j < length l)%nat -> ent l i <= ent l j.
Proof.
  intros H Hij. destruct (Nat.eq_dec i j) as [->|]; [lra|]. apply H. lia.
Qed.
Lemma increasing_le l i j :
  increasing l -> (i <= j < length l)%nat -> ent l i <= ent l j.
Proof. intros H. apply nondecreasing_le. now apply increasing_nondecreasing. Qed.

(** ** log10, pow10 *)
Lemma ln10_pos : 0 < ln 10.
Proof. rewrite <- ln_1. apply ln_increasing; lra. Qed.
Lemma log10_lt x y : 0 < x -> x < y -> log10 x < log10 y.
Proof.
  intros. unfold log10. pose proof ln10_pos.
  apply Rmult_lt_compat_r; [now apply Rinv_0_lt_compat|]. now apply ln_increasing.
Qed.
Lemma log10_le x y : 0 < x -> x <= y -> log10 x <= log10 y.
Proof. intros H [H1| ->]; [|lra]. left. now apply log10_lt. Qed.
Lemma log10_inj x y : 0 < x -> 0 < y -> log10 x = log10 y -> x = y.
Proof.
  intros Hx Hy H. destruct (Rtotal_order x y) as [Hl|[|Hl]]; auto;
    apply log10_lt in Hl; auto; lra.
Qed.
Lemma log10_lt_inv x y : 0 < x -> 0 < y -> log10 x < log10 y -> x < y.
Proof.
  intros Hx Hy H. destruct (Rlt_or_le x y); auto. apply log10_le in H0; auto. lra.
Qed.
Lemma pow10_pos x : 0 < pow10 x.
Proof. unfold pow10, Rpower. apply exp_pos. Qed.
Lemma pow10_log10 x : 0 < x -> pow10 (log10 x) = x.
Proof.
  intros. unfold pow10, log10, Rpower. pose proof ln10_pos.
  replace (ln x / ln 10 * ln 10) with (ln x) by (field; lra). now apply exp_ln.
Qed.
Lemma log10_pow10 x : log10 (pow10 x) = x.
Proof. unfold pow10, log10, Rpower. rewrite ln_exp. pose proof ln10_pos. field. lra. Qed.
Lemma pow10_lt x y : x < y -> pow10 x < pow10 y.
Proof. intros. unfold pow10. apply Rpower_lt; lra. Qed.
Lemma pow10_le x y : x <= y -> pow10 x <= pow10 y.
Proof. intros [H| ->]; [|lra]. left. now apply pow10_lt. Qed.
Lemma pow10_lt_inv x y : pow10 x < pow10 y -> x < y.
Proof. intros H. destruct (Rlt_or_le x y); auto. apply pow10_le in H0. lra. Qed.
Lemma pow10_inj x y : pow10 x = pow10 y -> x = y.
Proof. intros H. rewrite <- (log10_pow10 x), <- (log10_pow10 y). now rewrite H. Qed.
Lemma pow10_plus x y : pow10 (x + y) = pow10 x * pow10 y.
Proof. unfold pow10. apply Rpower_plus. Qed.
Lemma pow10_0 : pow10 0 = 1.
Proof. unfold pow10. apply Rpower_O. lra. Qed.
Lemma log10_mult x y : 0 < x -> 0 < y -> log10 (x * y) = log10 x + log10 y.
Proof. intros. unfold log10. rewrite ln_mult by auto. field. pose proof ln10_pos; lra. Qed.
Lemma log10_1 : log10 1 = 0.
Proof. unfold log10. rewrite ln_1. field. pose proof ln10_pos; lra. Qed.

(** ** The model on finite numbers, in exact arithmetic *)
Lemma nadd_fin x y : nadd (Fin x) (Fin y) = Fin (x + y).
Proof. reflexivity. Qed.
Lemma nopp_fin x : nopp (Fin x) = Fin (- x).
Proof. reflexivity. Qed.
Lemma nsub_fin x y : nsub (Fin x) (Fin y) = Fin (x - y).
Proof. reflexivity. Qed.
Lemma nmul_fin x y : nmul (Fin x) (Fin y) = Fin (x * y).
Proof. reflexivity. Qed.
Lemma nabs_fin x : nabs (Fin x) = Fin (Rabs x).
Proof. reflexivity. Qed.
Lemma lit_fin x : lit x = Fin x.
Proof. reflexivity. Qed.
Lemma ndiv_fin x y : y <> 0 -> ndiv (Fin x) (Fin y) = Fin (x / y).
Proof. intros. simpl. rewrite Req_bool_false; auto. Qed.
Lemma ndiv_0_0 : ndiv (Fin 0) (Fin 0) = NaN.
Proof. simpl. rewrite Req_bool_true by auto. rewrite Rlt_bool_false by lra. reflexivity. Qed.
Lemma nexp_fin x : nexp (Fin x) = Fin (exp x).
Proof. reflexivity. Qed.
Lemma nln_fin x : 0 < x -> nln (Fin x) = Fin (ln x).
Proof. intros. simpl. now rewrite Rlt_bool_true. Qed.
Lemma nlog10_fin x : 0 < x -> nlog10 (Fin x) = Fin (log10 x).
Proof. intros. simpl. now rewrite Rlt_bool_true. Qed.
Lemma nlog10_0 : nlog10 (Fin 0) = NInf.
Proof. simpl. rewrite Rlt_bool_false, Req_bool_true; auto; lra. Qed.
Lemma nsqrt_fin x : 0 <= x -> nsqrt (Fin x) = Fin (sqrt x).
Proof. intros. simpl. now rewrite Rlt_bool_false. Qed.
Lemma npow_fin x y : 0 < x -> npow (Fin x) (Fin y) = Fin (Rpower x y).
Proof.
  intros. simpl. destruct (Req_bool_spec y 0) as [->|].
  - now rewrite Rpower_O.
  - now rewrite Rlt_bool_true.
Qed.
Lemma npow10_fin x : npow10 (Fin x) = Fin (pow10 x).
Proof. apply npow_fin. lra. Qed.
Lemma nltb_fin x y : nltb (Fin x) (Fin y) = Rlt_bool x y.
Proof. reflexivity. Qed.
Lemma nleb_fin x y : nleb (Fin x) (Fin y) = Rle_bool x y.
Proof.
  unfold nleb. rewrite nltb_fin.
  destruct (Rlt_bool_spec y x); destruct (Rle_bool_spec x y); auto; lra.
Qed.
Lemma neqb_fin x y : neqb (Fin x) (Fin y) = Req_bool x y.
Proof. reflexivity. Qed.
Lemma nlogistic_fin x : nlogistic (Fin x) = Fin (logistic x).
Proof.
  unfold nlogistic. rewrite nopp_fin, nexp_fin, nadd_fin, ndiv_fin; [reflexivity|].
  pose proof (exp_pos (- x)). lra.
Qed.

(** integer powers *)
Lemma ipow_acc_fin p : forall a x,
  ipow_acc (Some (Fin a)) (Fin x) p = Fin (a * x ^ Pos.to_nat p).
Proof.
  induction p; intros a x; cbn [ipow_acc].
  - rewrite !nmul_fin, IHp. f_equal. rewrite Pos2Nat.inj_xI. simpl.
    rewrite Nat.add_0_r, pow_add, Rpow_mult_distr. ring.
  - rewrite !nmul_fin, IHp. f_equal. rewrite Pos2Nat.inj_xO. simpl.
    rewrite Nat.add_0_r, pow_add, Rpow_mult_distr. ring.
  - rewrite nmul_fin. f_equal. change (Pos.to_nat 1) with 1%nat. ring.
Qed.
Lemma ipow_acc_fin_none p : forall x,
  ipow_acc None (Fin x) p = Fin (x ^ Pos.to_nat p).
Proof.
  induction p; intros x; cbn [ipow_acc].
  - rewrite nmul_fin, ipow_acc_fin. f_equal. rewrite Pos2Nat.inj_xI. simpl.
    rewrite Nat.add_0_r, pow_add, Rpow_mult_distr. ring.
  - rewrite nmul_fin, IHp. f_equal. rewrite Pos2Nat.inj_xO. simpl.
    rewrite Nat.add_0_r, pow_add, Rpow_mult_distr. ring.
  - change (Pos.to_nat 1) with 1%nat. f_equal. ring.
Qed.
Lemma ipow_fin p x : ipow (Fin x) p = Fin (x ^ Pos.to_nat p).
Proof. apply ipow_acc_fin_none. Qed.

(** lists *)
Lemma fins_length l : length (fins l) = length l.
Proof. apply map_length. Qed.
Lemma fins_inj l1 l2 : fins l1 = fins l2 -> l1 = l2.
Proof.
  revert l2; induction l1; destruct l2; simpl; intros H; try congruence.
  injection H. intros. f_equal; auto.
Qed.
Lemma fins_app l1 l2 : fins (l1 ++ l2) = fins l1 ++ fins l2.
Proof. apply map_app. Qed.
Lemma fins_tl l : fins (tl l) = tl (fins l).
Proof. destruct l; auto. Qed.
Lemma fins_cons x l : fins (x :: l) = Fin x :: fins l.
Proof. reflexivity. Qed.
Lemma map_fins (f : num -> num) (g : R -> R) l :
  (forall x, In x l -> f (Fin x) = Fin (g x)) -> map f (fins l) = fins (map g l).
Proof.
  intros H. unfold fins. rewrite !map_map. apply map_ext_in. auto.
Qed.
Lemma map2_fins (f : num -> num -> num) (g : R -> R -> R) l1 l2 :
  (forall x y, In x l1 -> In y l2 -> f (Fin x) (Fin y) = Fin (g x y)) ->
  map2 f (fins l1) (fins l2) = fins (map2 g l1 l2).
Proof.
  intros H. unfold fins. rewrite map2_map, map_map2. apply map2_ext_in. auto.
Qed.
Lemma map2_fins' (f : num -> num -> num) (g : R -> R -> R) l1 l2 :
  (forall x y, f (Fin x) (Fin y) = Fin (g x y)) ->
  map2 f (fins l1) (fins l2) = fins (map2 g l1 l2).
Proof. intros. apply map2_fins. auto. Qed.
Lemma at_fins l i : (i < length l)%nat -> at_ (fins l) i = Fin (ent l i).
Proof. intros. unfold at_, fins, ent. now apply nth_map'. Qed.
Lemma first_fins l : l <> [] -> first (fins l) = Fin (ent l 0).
Proof. intros. apply at_fins. destruct l; simpl; [congruence|lia]. Qed.
Lemma last_fins l : l <> [] -> last_ (fins l) = Fin (ent l (length l - 1)).
Proof.
  intros. unfold last_. rewrite fins_length. apply at_fins.
  destruct l; simpl; [congruence|lia].
Qed.
Lemma fold_nadd_fins l a : fold_left nadd (fins l) (Fin a) = Fin (a + Rsum l).
Proof.
  revert a; induction l; intros b; simpl; [f_equal; lra|]. rewrite IHl. f_equal. lra.
Qed.
Lemma vsum_fins l : vsum (fins l) = Fin (Rsum l).
Proof. destruct l as [|x l]; [reflexivity|]. cbn [fins map vsum reduce exact left_to_right Rsum]. apply fold_nadd_fins. Qed.

Definition Rdiff (l : list R) : list R := map2 (fun a b => b - a) l (tl l).
Lemma diff_fins l : diff (fins l) = fins (Rdiff l).
Proof. unfold diff, Rdiff. rewrite <- fins_tl. apply map2_fins'. reflexivity. Qed.
Lemma Rdiff_length l : length (Rdiff l) = (length l - 1)%nat.
Proof. unfold Rdiff. rewrite map2_length, tl_length. lia. Qed.
Lemma Rdiff_ent l i : (S i < length l)%nat -> ent (Rdiff l) i = ent l (S i) - ent l i.
Proof.
  intros. unfold Rdiff. rewrite ent_map2 by (rewrite ?tl_length; lia).
  unfold ent. now rewrite tl_nth.
Qed.
Lemma Rdiff_sum x l : Rsum (Rdiff (x :: l)) = ent (x :: l) (length l) - x.
Proof.
  revert x; induction l as [|y l IH]; intros x.
  - cbn. unfold ent. simpl. lra.
  - change (Rdiff (x :: y :: l)) with ((y - x) :: Rdiff (y :: l)).
    cbn [Rsum]. rewrite IH. unfold ent. simpl. lra.
Qed.

(** ** trapezoid rule *)
Lemma trapz_fins xs ys :
  length xs = length ys -> trapz_k (fins xs) (fins ys) = Fin (trapezoid xs ys).
Proof.
  intros H. unfold trapz_k. rewrite diff_fins, <- fins_tl.
  rewrite (map2_fins' nadd Rplus) by reflexivity.
  rewrite (map2_fins' nmul Rmult) by reflexivity.
  rewrite vsum_fins, nmul_fin. f_equal.
  revert ys H; induction xs as [|x0 xs IH]; intros [|y0 ys] H; simpl in H; try discriminate.
  - simpl. lra.
  - destruct xs as [|x1 xs]; destruct ys as [|y1 ys]; simpl in H; try discriminate.
    + simpl. lra.
    + specialize (IH (y1 :: ys)). 
      change (Rdiff (x0 :: x1 :: xs)) with ((x1 - x0) :: Rdiff (x1 :: xs)).
      cbn [tl map2 Rsum trapezoid] in *. rewrite <- IH by (simpl; congruence). lra.
Qed.

(** ** interpolation *)
Lemma count_le_fins l x :
  searchsorted_right (fins l) (Fin x) = length (filter (fun e => Rle_bool e x) l).
Proof.
  unfold searchsorted_right. induction l; simpl; auto.
  change (negb (Rlt_bool x a)) with (Rle_bool a x) at 1 || idtac.
  assert (E : (negb (Rlt_bool x a)) = Rle_bool a x).
  { destruct (Rlt_bool_spec x a); destruct (Rle_bool_spec a x); auto; lra. }
  rewrite E. destruct (Rle_bool a x); simpl; congruence.
Qed.

Lemma filter_none_gt l x : (forall y, In y l -> x < y) -> filter (fun e => Rle_bool e x) l = [].
Proof.
  induction l; simpl; intros H; auto. rewrite Rle_bool_false by (apply H; auto).
  apply IHl. auto.
Qed.

Definition interp_index (l : list R) (x : R) : nat :=
  clip_index (length (filter (fun e => Rle_bool e x) l)) (length l).

(** the real-valued content of [interp_core] *)
Definition interp_R (xs ys : list R) (x : R) : R :=
  let i := interp_index xs x in
  ent ys (i - 1) + (x - ent xs (i - 1)) / (ent xs i - ent xs (i - 1)) * (ent ys i - ent ys (i - 1)).

Lemma interp_index_range l x : (2 <= length l)%nat ->
  (1 <= interp_index l x <= length l - 1)%nat.
Proof. intros. unfold interp_index, clip_index. lia. Qed.

Lemma interp_core_fins xs ys x :
  increasing xs -> length xs = length ys -> (2 <= length xs)%nat ->
  interp_core (Fin x) (fins xs) (fins ys) = Fin (interp_R xs ys x).
Proof.
  intros Hi Hl H2. unfold interp_core. rewrite count_le_fins, fins_length.
  fold (interp_index xs x). pose proof (interp_index_range xs x H2) as Hr.
  unfold interp_R. set (i := interp_index xs x) in *.
  rewrite !at_fins by lia. rewrite !nsub_fin, nabs_fin, nleb_fin.
  assert (ent xs (i - 1) < ent xs i) by (apply Hi; lia).
  rewrite Rle_bool_false; [|simpl; rewrite Rabs_pos_eq; lra]. unfold nwhere.
  rewrite ndiv_fin by lra. reflexivity.
Qed.

Lemma interp_R_pwlin xs : forall ys x,
  increasing xs -> length xs = length ys -> (2 <= length xs)%nat ->
  ent xs 0 <= x <= ent xs (length xs - 1) ->
  interp_R xs ys x = pwlin (combine xs ys) x.
Proof.
  induction xs as [|x0 xs IH]; intros ys x Hi Hl H2 Hx; [simpl in H2; lia|].
  destruct xs as [|x1 xs]; [simpl in H2; lia|].
  destruct ys as [|y0 [|y1 ys]]; try discriminate.
  apply increasing_cons in Hi as [H0 Hi]. assert (x0 < x1) by (apply H0; simpl; auto).
  simpl in Hx. unfold ent at 1 in Hx. simpl in Hx.
  cbn [combine pwlin].
  destruct (Rle_dec x x0).
  - assert (x = x0) by lra. subst x.
    assert (E : interp_index (x0 :: x1 :: xs) x0 = 1%nat).
    { unfold interp_index. simpl filter. rewrite Rle_bool_true by lra.
      rewrite (Rle_bool_false x1) by lra.
      rewrite filter_none_gt.
      - unfold clip_index. simpl. lia.
      - intros y Hy. apply H0. simpl. auto. }
    unfold interp_R. rewrite E. simpl. unfold ent. simpl. unfold Rdiv. ring.
  - destruct (Rlt_dec x x1).
    + assert (E : interp_index (x0 :: x1 :: xs) x = 1%nat).
      { unfold interp_index. simpl filter. rewrite Rle_bool_true by lra.
        rewrite (Rle_bool_false x1) by lra.
        rewrite filter_none_gt.
        - unfold clip_index. simpl. lia.
        - intros y Hy. apply Rlt_trans with x1; auto.
          apply increasing_cons in Hi as [Hi _]. auto. }
      unfold interp_R. rewrite E. simpl. unfold ent. simpl. reflexivity.
    + destruct xs as [|x2 xs].
      * unfold ent in Hx. simpl in Hx. assert (x = x1) by lra. subst x.
        assert (E : interp_index [x0; x1] x1 = 1%nat) by (unfold interp_index, clip_index; simpl; lia).
        destruct ys; [|discriminate].
        unfold interp_R. rewrite E. simpl. unfold ent. simpl. field. lra.
      * assert (E : interp_index (x0 :: x1 :: x2 :: xs) x = S (interp_index (x1 :: x2 :: xs) x)).
        { unfold interp_index. simpl filter. rewrite Rle_bool_true by lra.
          rewrite (Rle_bool_true x1) by lra.
          unfold clip_index. cbn [length]. lia. }
        pose proof (interp_index_range (x1 :: x2 :: xs) x ltac:(simpl; lia)).
        transitivity (interp_R (x1 :: x2 :: xs) (y1 :: ys) x).
        { unfold interp_R. rewrite E. set (j := interp_index (x1 :: x2 :: xs) x) in *.
          rewrite Nat.sub_succ, Nat.sub_0_r.
          destruct j as [|j]; [lia|]. rewrite Nat.sub_succ, Nat.sub_0_r. reflexivity. }
        rewrite IH; auto; simpl; try lia.
        split; [unfold ent; simpl; lra|].
        unfold ent in *. simpl in *. lra.
Qed.

Lemma pwlin_left xs ys x :
  length xs = length ys -> xs <> [] -> increasing xs -> x <= ent xs 0 ->
  pwlin (combine xs ys) x = ent ys 0.
Proof.
  intros Hl Hn Hi Hx. destruct xs as [|x0 xs]; [congruence|]. destruct ys as [|y0 ys]; [discriminate|].
  destruct xs as [|x1 xs]; [reflexivity|]. destruct ys as [|y1 ys]; [discriminate|].
  cbn [combine pwlin]. unfold ent in Hx. simpl in Hx.
  destruct (Rle_dec x x0); [reflexivity|]. lra.
Qed.
Lemma pwlin_right xs : forall ys x,
  length xs = length ys -> xs <> [] -> increasing xs -> ent xs (length xs - 1) <= x ->
  pwlin (combine xs ys) x = ent ys (length ys - 1).
Proof.
  induction xs as [|x0 xs IH]; intros ys x Hl Hn Hi Hx; [congruence|].
  destruct ys as [|y0 ys]; [discriminate|].
  destruct xs as [|x1 xs]; destruct ys as [|y1 ys]; try discriminate; [reflexivity|].
  assert (x1 <= x).
  { eapply Rle_trans; [|apply Hx].
    change x1 with (ent (x0 :: x1 :: xs) 1). apply increasing_le; auto. simpl. lia. }
  apply increasing_cons in Hi as [H0 Hi]. assert (x0 < x1) by (apply H0; simpl; auto).
  cbn [combine pwlin]. destruct (Rle_dec x x0); [lra|]. destruct (Rlt_dec x x1); [lra|].
  transitivity (ent (y1 :: ys) (length (y1 :: ys) - 1)).
  - apply (IH (y1 :: ys)); auto; try congruence.
    unfold ent in *. simpl in *. rewrite Nat.sub_0_r. auto.
  - unfold ent. simpl. now rewrite Nat.sub_0_r.
Qed.

Lemma interp_lr_fins l r xs ys x :
  increasing xs -> length xs = length ys -> xs <> [] ->
  interp_lr (Fin l) (Fin r) (Fin x) (fins xs) (fins ys) =
  Fin (if Rlt_dec x (ent xs 0) then l
       else if Rlt_dec (ent xs (length xs - 1)) x then r
       else pwlin (combine xs ys) x).
Proof.
  intros Hi Hl Hn. unfold interp_lr.
  rewrite first_fins, last_fins by auto. unfold ngtb. rewrite !nltb_fin.
  assert (Hxs : (1 <= length xs)%nat) by (destruct xs; simpl; [congruence|lia]).
  pose proof (increasing_le xs 0 (length xs - 1) Hi ltac:(lia)) as H01.
  destruct (Nat.eq_dec (length xs) 1) as [H1|H1].
  - destruct xs as [|x0 [|]]; try discriminate. destruct ys as [|y0 [|]]; try discriminate.
    cbn [length Nat.sub] in *. unfold ent in *. simpl nth in *.
    destruct (Rlt_dec x x0); destruct (Rlt_dec x0 x); try lra.
    + rewrite (Rlt_bool_true x x0), (Rlt_bool_false x0 x) by lra. reflexivity.
    + rewrite (Rlt_bool_true x0 x), (Rlt_bool_false x x0) by lra. reflexivity.
    + rewrite (Rlt_bool_false x0 x), (Rlt_bool_false x x0) by lra.
      unfold interp_core. rewrite count_le_fins. simpl filter. rewrite Rle_bool_true by lra.
      cbn [length clip_index Nat.min Nat.max Nat.sub].
      simpl. rewrite Rplus_opp_r. rewrite Rabs_R0.
      rewrite Rlt_bool_false by lra. reflexivity.
  - rewrite interp_core_fins by (auto; lia).
    destruct (Rlt_dec x (ent xs 0)).
    + rewrite (Rlt_bool_true x) by lra. rewrite Rlt_bool_false by lra. reflexivity.
    + rewrite (Rlt_bool_false x) by lra.
      destruct (Rlt_dec (ent xs (length xs - 1)) x).
      * rewrite Rlt_bool_true by lra. reflexivity.
      * rewrite Rlt_bool_false by lra. unfold nwhere. f_equal.
        apply interp_R_pwlin; auto; try lia. lra.
Qed.

Lemma interp_fins xs ys x :
  increasing xs -> length xs = length ys -> xs <> [] ->
  interp (Fin x) (fins xs) (fins ys) = Fin (pwlin (combine xs ys) x).
Proof.
  intros Hi Hl Hn. unfold interp.
  assert (Hny : ys <> []) by (destruct xs, ys; simpl in *; congruence).
  rewrite (first_fins ys), (last_fins ys) by auto.
  rewrite interp_lr_fins by auto. f_equal.
  destruct (Rlt_dec x (ent xs 0)).
  - symmetry. apply pwlin_left; auto. lra.
  - destruct (Rlt_dec (ent xs (length xs - 1)) x); auto.
    symmetry. apply pwlin_right; auto. lra.
Qed.

(** properties of the piecewise-linear function *)
Lemma pwlin_node xs : forall ys i,
  increasing xs -> length xs = length ys -> (i < length xs)%nat ->
  pwlin (combine xs ys) (ent xs i) = ent ys i.
Proof.
  induction xs as [|x0 xs IH]; intros ys i Hi Hl H; [simpl in H; lia|].
  destruct ys as [|y0 ys]; [discriminate|].
  destruct xs as [|x1 xs]; destruct ys as [|y1 ys]; try discriminate.
  - simpl in H. assert (i = O) by lia. subst. reflexivity.
  - destruct i as [|i].
    + apply pwlin_left; auto; try congruence. lra.
    + pose proof Hi as Hi'. apply increasing_cons in Hi as [H0 Hi].
      rewrite !ent_cons_S.
      assert (x1 <= ent (x1 :: xs) i).
      { change x1 with (ent (x1 :: xs) 0) at 1. apply increasing_le; auto. simpl in *. lia. }
      assert (x0 < x1) by (apply H0; simpl; auto).
      cbn [combine pwlin].
      destruct (Rle_dec (ent (x1 :: xs) i) x0); [lra|].
      destruct (Rlt_dec (ent (x1 :: xs) i) x1); [lra|].
      apply (IH (y1 :: ys)); auto. simpl in *. lia.
Qed.

Lemma Rdiv_le_0_compat' a b : 0 <= a -> 0 < b -> 0 <= a / b.
Proof.
  intros. unfold Rdiv. apply Rmult_le_pos; auto. left. now apply Rinv_0_lt_compat.
Qed.
Lemma Rdiv_le_1' a b : 0 < b -> a <= b -> a / b <= 1.
Proof.
  intros. apply Rmult_le_reg_r with b; auto. unfold Rdiv. rewrite Rmult_assoc, Rinv_l; lra.
Qed.
Lemma Rseg_bound a b t : 0 <= t <= 1 -> a <= b -> a <= a + t * (b - a) <= b.
Proof. intros. split; nra. Qed.

Lemma pwlin_mono xs : forall ys x y,
  increasing xs -> length xs = length ys -> nondecreasing ys -> x <= y ->
  pwlin (combine xs ys) x <= pwlin (combine xs ys) y.
Proof.
  induction xs as [|x0 xs IH]; intros ys x y Hi Hl Hy Hxy; [simpl; lra|].
  destruct ys as [|y0 ys]; [discriminate|].
  destruct xs as [|x1 xs]; destruct ys as [|y1 ys]; try discriminate; [simpl; lra|].
  pose proof Hi as Hi'. apply increasing_cons in Hi as [H0 Hi].
  assert (x0 < x1) by (apply H0; simpl; auto).
  assert (Hy01 : y0 <= y1) by (apply (Hy 0%nat 1%nat); simpl; lia).
  assert (Hy' : nondecreasing (y1 :: ys)).
  { intros i j Hij. apply (Hy (S i) (S j)). simpl in *. lia. }
  assert (Hl' : length (x1 :: xs) = length (y1 :: ys)) by (simpl in *; congruence).
  assert (Hlow : forall z, x1 <= z -> y1 <= pwlin (combine (x1 :: xs) (y1 :: ys)) z).
  { intros z Hz.
    assert (E : pwlin (combine (x1 :: xs) (y1 :: ys)) x1 = y1)
      by (apply pwlin_left; auto; [congruence|unfold ent; simpl; lra]).
    rewrite <- E at 1.
    apply IH; auto. }
  cbn [combine pwlin] in *.
  destruct (Rle_dec x x0); destruct (Rle_dec y x0); try lra.
  - destruct (Rlt_dec y x1).
    + assert (0 <= (y - x0) / (x1 - x0) <= 1).
      { split. apply Rdiv_le_0_compat'; lra. apply Rdiv_le_1'; lra. }
      pose proof (Rseg_bound y0 y1 _ H1 Hy01). lra.
    + specialize (Hlow y ltac:(lra)). lra.
  - destruct (Rlt_dec x x1); destruct (Rlt_dec y x1); try lra.
    + assert ((x - x0) / (x1 - x0) <= (y - x0) / (x1 - x0)).
      { apply Rmult_le_compat_r; [|lra]. left. apply Rinv_0_lt_compat. lra. }
      nra.
    + assert (0 <= (x - x0) / (x1 - x0) <= 1).
      { split. apply Rdiv_le_0_compat'; lra. apply Rdiv_le_1'; lra. }
      pose proof (Rseg_bound y0 y1 _ H1 Hy01). specialize (Hlow y ltac:(lra)). lra.
    + apply (IH (y1 :: ys)); auto.
Qed.

(** strictly increasing between the first and the last node *)
Lemma pwlin_strict xs : forall ys x y,
  increasing xs -> length xs = length ys -> increasing ys -> (2 <= length xs)%nat ->
  x < y -> ent xs 0 < y -> x < ent xs (length xs - 1) ->
  pwlin (combine xs ys) x < pwlin (combine xs ys) y.
Proof.
  induction xs as [|x0 xs IH]; intros ys x y Hi Hl Hy H2 Hxy Hly Hrx; [simpl in H2; lia|].
  destruct ys as [|y0 ys]; [discriminate|].
  destruct xs as [|x1 xs]; [simpl in H2; lia|]. destruct ys as [|y1 ys]; try discriminate.
  pose proof Hi as Hi'. apply increasing_cons in Hi as [H0 Hi].
  pose proof Hy as Hyy. apply increasing_cons in Hy as [Hy0 Hy].
  assert (x0 < x1) by (apply H0; simpl; auto).
  assert (Hy01 : y0 < y1) by (apply Hy0; simpl; auto).
  assert (Hl' : length (x1 :: xs) = length (y1 :: ys)) by (simpl in *; congruence).
  assert (Hlow : forall z, x1 <= z -> y1 <= pwlin (combine (x1 :: xs) (y1 :: ys)) z).
  { intros z Hz.
    assert (E : pwlin (combine (x1 :: xs) (y1 :: ys)) x1 = y1)
      by (apply pwlin_left; auto; [congruence|unfold ent; simpl; lra]).
    rewrite <- E at 1.
    apply pwlin_mono; auto. now apply increasing_nondecreasing. }
  unfold ent in Hly. simpl in Hly.
  cbn [combine pwlin] in *.
  destruct (Rle_dec x x0); destruct (Rle_dec y x0); try lra.
  - destruct (Rlt_dec y x1).
    + assert (0 < (y - x0) / (x1 - x0)) by (apply Rdiv_lt_0_compat; lra). nra.
    + specialize (Hlow y ltac:(lra)). lra.
  - destruct (Rlt_dec x x1); destruct (Rlt_dec y x1); try lra.
    + assert ((x - x0) / (x1 - x0) < (y - x0) / (x1 - x0)).
      { apply Rmult_lt_compat_r; [|lra]. apply Rinv_0_lt_compat. lra. }
      nra.
    + assert ((x - x0) / (x1 - x0) < 1).
      { apply Rmult_lt_reg_r with (x1 - x0); [lra|]. field_simplify; lra. }
      specialize (Hlow y ltac:(lra)). nra.
    + destruct xs as [|x2 xs].
      * unfold ent in Hrx. simpl in Hrx. lra.
      * apply (IH (y1 :: ys)); auto; unfold ent in *; simpl in *; try lia; lra.
Qed.

Lemma pwlin_range xs ys x :
  increasing xs -> length xs = length ys -> xs <> [] ->
  forall lo hi, Forall (fun y => lo <= y <= hi) ys -> lo <= pwlin (combine xs ys) x <= hi.
Proof.
  revert ys. induction xs as [|x0 xs IH]; intros ys Hi Hl Hn lo hi Hb; [congruence|].
  destruct ys as [|y0 ys]; [discriminate|]. inversion Hb; subst.
  destruct xs as [|x1 xs]; destruct ys as [|y1 ys]; try discriminate; [simpl; auto|].
  inversion H2; subst.
  pose proof Hi as Hi'. apply increasing_cons in Hi as [H0 Hi].
  assert (x0 < x1) by (apply H0; simpl; auto).
  cbn [combine pwlin] in *. destruct (Rle_dec x x0); auto.
  destruct (Rlt_dec x x1).
  - assert (0 <= (x - x0) / (x1 - x0) <= 1).
    { split. apply Rdiv_le_0_compat'; lra. apply Rdiv_le_1'; lra. }
    nra.
  - apply (IH (y1 :: ys)); auto. congruence.
Qed.
