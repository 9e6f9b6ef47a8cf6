(** * Stability of the log-log interpolated mass history under relative changes of the
    mass table *)
From Coq Require Import Reals List Arith Lra Lia.
From Coquelicot Require Import Coquelicot.
From Verif Require Import Num Spec RList LUtils LAge LRound1.
Import ListNotations.
Open Scope R_scope.

Lemma ln_scale_le L r : 1 <= L -> 1 <= r -> ln (1 + L * (r - 1)) <= L * ln r.
Proof.
  intros HL Hr. destruct (Req_dec r 1) as [->|N].
  { rewrite Rminus_diag_eq, Rmult_0_r, Rplus_0_r, ln_1 by auto. lra. }
  set (f t := L * ln t - ln (1 + L * (t - 1))).
  destruct (MVT_cor2 f (fun t => L * / t - L / (1 + L * (t - 1))) 1 r) as (c & E & Hc); [lra| |].
  - intros t Ht. apply is_derive_Reals. unfold f.
    assert (0 < 1 + L * (t - 1)) by nra. auto_derive; [repeat split; lra|]. unfold Rdiv. rewrite ?Rmult_1_l, ?Rmult_1_r. reflexivity.
  - unfold f in E. replace (1 + L * (1 - 1)) with 1 in E by ring. rewrite ln_1 in E.
    assert (0 < 1 + L * (c - 1)) by nra.
    assert (L / (1 + L * (c - 1)) <= L * / c).
    { unfold Rdiv. apply Rmult_le_compat_l; [lra|]. apply Rinv_le_contravar; nra. }
    assert (0 <= (L * / c - L / (1 + L * (c - 1))) * (r - 1)) by (apply Rmult_le_pos; lra). lra.
Qed.

(** the increment of [r^t] between two exponents, when [r - 1] grows by at most [L] *)
Lemma power_increment L r r' a b : 1 <= L -> 1 <= r -> 1 <= r' -> r' - 1 <= L * (r - 1) -> 0 <= a <= b -> b <= 1 ->
  Rpower r' b - Rpower r' a <= L ^ 2 * (Rpower r b - Rpower r a).
Proof.
  intros HL Hr Hr' H Hab Hb. destruct (Req_dec a b) as [->|N]; [lra|].
  set (f t := L ^ 2 * Rpower r t - Rpower r' t).
  destruct (MVT_cor2 f (fun t => L ^ 2 * (ln r * Rpower r t) - ln r' * Rpower r' t) a b) as (c & E & Hc); [lra| |].
  - intros t Ht. apply is_derive_Reals. unfold f, Rpower. auto_derive; [auto|]. ring.
  - unfold f in E.
    assert (L1 : ln r' <= L * ln r).
    { eapply Rle_trans; [|apply ln_scale_le; auto]. apply Rcomplements.ln_le; lra. }
    assert (P : Rpower r' c <= L * Rpower r c).
    { apply Rle_trans with (Rpower (L * r) c).
      - apply Rle_Rpower_l; [lra|]. split; [lra|nra].
      - rewrite <- Rpower_mult_distr by lra. apply Rmult_le_compat_r; [apply Rlt_le, exp_pos|].
        rewrite <- (Rpower_1 L) at 2 by lra. destruct (Req_dec L 1) as [->|]; [unfold Rpower; rewrite ln_1, !Rmult_0_r; lra|].
        apply Rle_Rpower; lra. }
    assert (0 <= ln r') by (rewrite <- ln_1; apply Rcomplements.ln_le; lra).
    assert (0 < Rpower r' c) by apply exp_pos.
    assert (ln r' * Rpower r' c <= (L * ln r) * (L * Rpower r c)) by (apply Rmult_le_compat; lra).
    assert (0 <= (L ^ 2 * (ln r * Rpower r c) - ln r' * Rpower r' c) * (b - a)) by (apply Rmult_le_pos; [simpl in *; lra|lra]).
    lra.
Qed.

Definition geo (a b th : R) : R := pow10 (log10 a + th * (log10 b - log10 a)).
Lemma geo_eq a b th : 0 < a -> 0 < b -> geo a b th = a * Rpower (b / a) th.
Proof.
  intros Ha Hb. unfold geo. rewrite pow10_plus, pow10_log10 by auto. f_equal. unfold pow10, Rpower, log10. f_equal.
  rewrite ln_div by auto. field. pose proof ln10_pos. lra.
Qed.
Lemma geo_increment a b a' b' c L th1 th2 : 0 < a <= b -> 0 < a' <= b' -> 0 < c -> 1 <= L -> 0 <= th1 <= th2 -> th2 <= 1 ->
  c * a <= a' * L -> a' <= c * L * a -> b' - a' <= c * L * (b - a) ->
  geo a' b' th2 - geo a' b' th1 <= c * L ^ 5 * (geo a b th2 - geo a b th1).
Proof.
  intros [Ha Hab] [Ha' Hab'] Hc HL Ht1 Ht2 H1 H2 H3. rewrite !geo_eq by lra.
  assert (R1 : 1 <= b / a) by (apply Rmult_le_reg_r with a; [lra|]; unfold Rdiv; rewrite Rmult_assoc, Rinv_l; lra).
  assert (R2 : 1 <= b' / a') by (apply Rmult_le_reg_r with a'; [lra|]; unfold Rdiv; rewrite Rmult_assoc, Rinv_l; lra).
  assert (D : b' / a' - 1 <= L ^ 2 * (b / a - 1)).
  { apply Rmult_le_reg_r with (a' * a); [nra|]. replace ((b' / a' - 1) * (a' * a)) with ((b' - a') * a) by (field; lra).
    replace (L ^ 2 * (b / a - 1) * (a' * a)) with (L * (b - a) * (a' * L)) by (field; lra).
    apply Rle_trans with (c * L * (b - a) * a); [apply Rmult_le_compat_r; lra|].
    replace (c * L * (b - a) * a) with (L * (b - a) * (c * a)) by ring. apply Rmult_le_compat_l; [apply Rmult_le_pos; lra|lra]. }
  pose proof (power_increment (L ^ 2) (b / a) (b' / a') th1 th2 ltac:(nra) R1 R2 D Ht1 Ht2) as P.
  assert (M : Rpower (b / a) th1 <= Rpower (b / a) th2).
  { destruct (Req_dec (b / a) 1) as [E|E]; [rewrite E; unfold Rpower; rewrite ln_1, !Rmult_0_r; lra|]. apply Rle_Rpower; lra. }
  rewrite <- !Rmult_minus_distr_l. apply Rle_trans with (a' * ((L ^ 2) ^ 2 * (Rpower (b / a) th2 - Rpower (b / a) th1))).
  - apply Rmult_le_compat_l; lra.
  - set (q := Rpower (b / a) th2 - Rpower (b / a) th1) in *. assert (0 <= q) by (unfold q; lra). clearbody q.
    replace (c * L ^ 5 * (a * q)) with (c * L * a * ((L ^ 2) ^ 2 * q)) by ring. apply Rmult_le_compat_r; auto.
    apply Rmult_le_pos; [apply pow_le, pow_le; lra|auto].
Qed.

Definition hist (xs ms : list R) (x : R) : R := pow10 (pwlin (combine xs (map log10 ms)) x).
(** [ms'] follows [c] times [ms] up to a factor [L], in its first entry and in every increment *)
Definition follows (c L : R) (ms ms' : list R) : Prop :=
  length ms = length ms' /\ c * ent ms 0 <= ent ms' 0 * L /\ ent ms' 0 <= c * L * ent ms 0
  /\ forall i, (S i < length ms)%nat ->
     c * (ent ms (S i) - ent ms i) <= (ent ms' (S i) - ent ms' i) * L
     /\ ent ms' (S i) - ent ms' i <= c * L * (ent ms (S i) - ent ms i).

Lemma follows_sym c L ms ms' : 0 < c -> 0 < L -> follows c L ms ms' -> follows (/ c) L ms' ms.
Proof.
  intros Hc HL (E & A & B & St). assert (K : forall x y, c * x <= y * L -> y <= c * L * x -> / c * y <= x * L /\ x <= / c * L * y).
  { intros x y P Q. split; apply Rmult_le_reg_l with c; auto.
    - rewrite <- Rmult_assoc, Rinv_r by lra. lra.
    - replace (c * (/ c * L * y)) with (y * L) by (field; lra). lra. }
  split; [auto|]. destruct (K _ _ A B) as [A' B']. split; [auto|]. split; [auto|].
  intros i Hi. rewrite <- E in Hi. destruct (St i Hi) as [P Q]. now apply K.
Qed.
Lemma follows_tail c L x y ms x' y' ms' : 0 < c -> 0 < L ->
  follows c L (x :: y :: ms) (x' :: y' :: ms') -> follows c L (y :: ms) (y' :: ms').
Proof.
  intros Hc HL (E & A & B & St). destruct (St 0%nat ltac:(simpl; lia)) as [P Q]. unfold ent in A, B, P, Q. cbn [nth] in A, B, P, Q.
  split; [simpl in E |- *; lia|]. unfold ent at 1 2 3 4. cbn [nth]. split; [lra|]. split; [lra|].
  intros i Hi. apply (St (S i)). simpl in Hi |- *. lia.
Qed.
Lemma hist_increment xs : forall ms ms' c L x y, increasing xs -> length xs = length ms -> 0 < c -> 1 <= L ->
  increasing ms -> increasing ms' -> List.Forall (fun m => 0 < m) ms -> List.Forall (fun m => 0 < m) ms' -> follows c L ms ms' -> x <= y ->
  hist xs ms' y - hist xs ms' x <= c * L ^ 5 * (hist xs ms y - hist xs ms x).
Proof.
  induction xs as [|x0 xs IH]; intros ms ms' c L x y Hi Hl Hc HL Im Im' Pm Pm' F Hxy.
  - unfold hist. cbn [combine pwlin]. lra.
  - pose proof F as (El & _). destruct ms as [|a ms]; [discriminate|]. destruct ms' as [|a' ms']; [discriminate|].
    destruct xs as [|x1 xs].
    { destruct ms; [|discriminate]. destruct ms'; [|discriminate]. unfold hist. cbn [map combine pwlin]. lra. }
    destruct ms as [|b ms]; [discriminate|]. destruct ms' as [|b' ms']; [discriminate|].
    pose proof (increasing_cons x0 (x1 :: xs)) as Ic. apply Ic in Hi. destruct Hi as [H0 Hi]. assert (X : x0 < x1) by (apply H0; simpl; auto).
    apply increasing_cons in Im. destruct Im as [Hab Im]. assert (AB : a < b) by (apply Hab; simpl; auto).
    apply increasing_cons in Im'. destruct Im' as [Hab' Im']. assert (AB' : a' < b') by (apply Hab'; simpl; auto).
    assert (Pa : 0 < a /\ 0 < b) by (inversion Pm as [|? ? ? Pm2]; inversion Pm2; auto).
    assert (Pa' : 0 < a' /\ 0 < b') by (inversion Pm' as [|? ? ? Pm2]; inversion Pm2; auto).
    assert (Ft : follows c L (b :: ms) (b' :: ms')) by (eapply follows_tail; [| |exact F]; lra).
    assert (IHt : forall x y, x <= y -> hist (x1 :: xs) (b' :: ms') y - hist (x1 :: xs) (b' :: ms') x
                  <= c * L ^ 5 * (hist (x1 :: xs) (b :: ms) y - hist (x1 :: xs) (b :: ms) x)).
    { intros u v Huv. apply IH; try assumption; [simpl in Hl |- *; lia|inversion Pm; assumption|inversion Pm'; assumption]. }
    clear IH. destruct F as (_ & A & B & St). destruct (St 0%nat ltac:(simpl; lia)) as [_ Q]. unfold ent in A, B, Q. cbn [nth] in A, B, Q.
    (* value of the history in the first segment *)
    set (th u := (u - x0) / (x1 - x0)).
    assert (V : forall m n ms u, 0 < m -> 0 < n -> hist (x0 :: x1 :: xs) (m :: n :: ms) u
              = if Rle_dec u x0 then geo m n 0 else if Rlt_dec u x1 then geo m n (th u) else hist (x1 :: xs) (n :: ms) u).
    { intros m n l u Hm Hn. unfold hist at 1. cbn [map]. rewrite pwlin_cons2. destruct (Rle_dec u x0).
      - unfold geo. rewrite Rmult_0_l, Rplus_0_r. reflexivity.
      - destruct (Rlt_dec u x1); reflexivity. }
    assert (E1 : forall m n ms, 0 < m -> 0 < n -> hist (x1 :: xs) (n :: ms) x1 = geo m n 1).
    { intros m n l Hm Hn. unfold hist. cbn [map combine].
      assert (E : pwlin ((x1, log10 n) :: combine xs (map log10 l)) x1 = log10 n).
      { destruct (combine xs (map log10 l)) as [|[u v] r]; cbn [pwlin]; [reflexivity|]. destruct (Rle_dec x1 x1); [reflexivity|lra]. }
      rewrite E. unfold geo. f_equal. lra. }
    assert (TH : forall u, x0 <= u <= x1 -> 0 <= th u <= 1).
    { intros u Hu. unfold th. split; [apply Rmult_le_pos; [lra|apply Rlt_le, Rinv_0_lt_compat; lra]|]. apply Rmult_le_reg_r with (x1 - x0); [lra|]. unfold Rdiv. rewrite Rmult_assoc, Rinv_l; lra. }
    assert (TM : forall u v, u <= v -> th u <= th v).
    { intros u v Huv. unfold th, Rdiv. apply Rmult_le_compat_r; [apply Rlt_le, Rinv_0_lt_compat; lra|lra]. }
    assert (GI : forall t1 t2, 0 <= t1 <= t2 -> t2 <= 1 -> geo a' b' t2 - geo a' b' t1 <= c * L ^ 5 * (geo a b t2 - geo a b t1)).
    { intros. apply geo_increment; lra. }
    rewrite !V by lra. destruct (Rle_dec y x0) as [Y0|Y0]; destruct (Rle_dec x x0) as [X0|X0]; try lra.
    + destruct (Rlt_dec y x1) as [Y1|Y1].
      * specialize (TH y ltac:(lra)). apply GI; lra.
      * specialize (IHt x1 y ltac:(lra)). rewrite (E1 a' b' ms'), (E1 a b ms) in IHt by lra. specialize (GI 0 1 ltac:(lra) ltac:(lra)). lra.
    + destruct (Rlt_dec y x1) as [Y1|Y1]; destruct (Rlt_dec x x1) as [X1|X1]; try lra.
      * pose proof (TH x ltac:(lra)). pose proof (TH y ltac:(lra)). apply GI; [split; [lra|now apply TM]|lra].
      * specialize (IHt x1 y ltac:(lra)). rewrite (E1 a' b' ms'), (E1 a b ms) in IHt by lra. pose proof (TH x ltac:(lra)).
        specialize (GI (th x) 1 ltac:(lra) ltac:(lra)). lra.
      * apply IHt. lra.
Qed.
