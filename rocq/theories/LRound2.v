(** * Interpolation in rounded arithmetic against exact interpolation *)
From Coq Require Import Reals List Arith Lra Lia ZArith Bool.
From Flocq Require Import Core.Raux.
From Verif Require Import Num Arr MUtils MSed Float Spec SpecFloat RList LUtils LFloat LFloat2 LFloat3 LFloat4 LFloat5 LFloat10 LRound1.
Import ListNotations.
Open Scope R_scope.

Section F.
Context {AR : Arith} (u : R) (H : rel_err AR u) (HE : interp_eps <= / 2 ^ 40).
Notation G := (re_good _ _ H).

Lemma u_le : 0 < u <= / (4 * 10 ^ 6).
Proof. pose proof (re_u _ _ H). simpl in *. lra. Qed.
Lemma tiny_u : 0 < (u * / 2 ^ 102) <= u * / 10 ^ 27.
Proof.
  pose proof u_le. split; [apply Rmult_lt_0_compat; [lra|apply Rinv_0_lt_compat, pow_lt; lra]|]. eapply Rle_trans; [apply (re_tiny2 _ _ H)|]. apply Rmult_le_compat_l; [lra|]. apply Rinv_le; [apply pow_lt; lra|].
  replace (10 ^ 27) with ((10 ^ 3) ^ 9) by (rewrite <- pow_mult; reflexivity). replace (2 ^ 90) with ((2 ^ 10) ^ 9) by (rewrite <- pow_mult; reflexivity).
  apply pow_incr. simpl. lra.
Qed.
Lemma tiny_u1 : (u * / 2 ^ 102) <= u * / 10 ^ 6.
Proof.
  pose proof u_le. eapply Rle_trans; [apply tiny_u|]. apply Rmult_le_compat_l; [lra|]. apply Rinv_le; [apply pow_lt; lra|]. apply Rle_pow; [lra|lia].
Qed.
(** rounding a real of moderate size *)
Lemma rnd_err_B x B : Rabs x <= B -> 1 <= B <= 10 ^ 35 -> exists y, rnd x = Fin y /\ Rabs (y - x) <= 1.001 * B * u /\ rnd y = Fin y.
Proof.
  intros X HB. destruct (rnd_range _ G x) as (y & E).
  { eapply Rle_trans; [apply X|]. eapply Rle_trans; [apply HB|]. apply Rle_pow; [lra|lia]. }
  exists y. split; auto. split; [|eapply (rnd_idem _ G); eauto]. pose proof (re_any _ _ H _ _ E) as A. pose proof tiny_u1. pose proof u_le.
  assert (u * Rabs x <= u * B) by (apply Rmult_le_compat_l; lra). assert (u * 1 <= u * B) by (apply Rmult_le_compat_l; lra). simpl (10 ^ 6) in *. lra.
Qed.
(** results of the mathematical library *)
Lemma elem_any f z : in_domain f -> elem f = Fin z -> Rabs (z - elem_value f) <= u * Rabs (elem_value f) + (u * / 2 ^ 102) /\ rnd z = Fin z.
Proof. intros D E. destruct (re_lib _ _ H f D) as (_ & F & _). destruct (F z E). auto. Qed.
Lemma elem_err_B f B : in_domain f -> Rabs (elem_value f) <= B -> 1 <= B <= 10 ^ 35 -> exists y, elem f = Fin y /\ Rabs (y - elem_value f) <= 1.001 * B * u /\ rnd y = Fin y.
Proof.
  intros D X HB. destruct (elem_fin G f D) as (y & E & R & _).
  { eapply Rle_trans; [apply X|]. eapply Rle_trans; [apply HB|]. apply Rle_pow; [lra|lia]. }
  exists y. split; auto. split; auto. destruct (elem_any f y D E) as [A _]. pose proof tiny_u1. pose proof u_le. set (x := elem_value f) in *.
  assert (u * Rabs x <= u * B) by (apply Rmult_le_compat_l; lra). assert (u * 1 <= u * B) by (apply Rmult_le_compat_l; lra). simpl (10 ^ 6) in *. lra.
Qed.
Lemma npow10_any e : pow10 e <= 10 ^ 38 -> exists p, npow10 (Fin e) = Fin p /\ rnd p = Fin p /\ 0 <= p /\ Rabs (p - pow10 e) <= u * pow10 e + (u * / 2 ^ 102).
Proof.
  intros B. destruct (npow10_fin G e B) as (p & E & P & R & _). exists p. split; auto. split; auto. split; auto. pose proof u_le. pose proof tiny_u. pose proof (pow10_pos e) as P0.
  assert (0 < u * pow10 e) by (apply Rmult_lt_0_compat; lra).
  revert E. unfold npow10, npow. destruct (Req_bool_spec e 0) as [->|Z].
  - intros [= <-]. rewrite pow10_0 in *. replace (1 - 1) with 0 by lra. rewrite Rabs_R0. lra.
  - rewrite Rlt_bool_true by lra. intros E. apply elem_any in E; [|cbn; lra]. destruct E as [E _]. cbn [elem_value] in E. fold (pow10 e) in E. rewrite (Rabs_right (pow10 e)) in E by lra. exact E.
Qed.
(** a logarithm returned by the library *)
Definition near_log (b q : R) : Prop := rnd q = Fin q /\ Rabs (q - log10 b) <= 4.1 * u.
Lemma nlog10_near b : 0 < b -> -4 <= log10 b <= 4 -> exists q, nlog10 (Fin b) = Fin q /\ near_log b q.
Proof.
  intros P B. unfold nlog10. rewrite Rlt_bool_true by lra. pose proof u_le. destruct (elem_err_B (LOG10 b) 4) as (q & E & A & R); [exact P|cbn [elem_value]; fold (log10 b); apply Rabs_le; lra|simpl; lra|].
  exists q. split; auto. split; auto. cbn [elem_value] in A. fold (log10 b) in A. lra.
Qed.
Lemma abs_err16 x : Rabs x <= 16 -> exists y, rnd x = Fin y /\ Rabs (y - x) <= 17 * u.
Proof. intros X. destruct (rnd_err_B x 16 X) as (y & E & B & _); [simpl; lra|]. exists y. split; auto. pose proof u_le. lra. Qed.

Lemma seg_err T S i x B : rnd (ent T i) = Fin (ent T i) -> rnd (ent T (i - 1)) = Fin (ent T (i - 1)) -> rnd x = Fin x ->
  rnd (ent S i) = Fin (ent S i) -> rnd (ent S (i - 1)) = Fin (ent S (i - 1)) ->
  / 2 ^ 20 <= ent T i - ent T (i - 1) <= 1000 -> ent T (i - 1) <= x <= ent T i -> 1 <= B <= 10 ^ 6 -> Rabs (ent S i) <= B -> Rabs (ent S (i - 1)) <= B ->
  exists s, seg T S i x = Fin s /\ rnd s = Fin s /\ Rabs (s - (ent S (i - 1) + (x - ent T (i - 1)) / (ent T i - ent T (i - 1)) * (ent S i - ent S (i - 1)))) <= 20 * B * u.
Proof.
  intros R1 R0 Rx S1 S0 GT HX HB B1 B0. pose proof u_le as Hu. pose proof tiny_u1 as Ht.
  assert (T20 : 2 * / 2 ^ 40 <= / 2 ^ 20 /\ 0 < / 2 ^ 40) by (simpl; lra).
  unfold seg. set (a := ent T (i - 1)) in *. set (b := ent T i) in *. set (c := ent S (i - 1)) in *. set (d := ent S i) in *.
  assert (P20 : 0 < / 2 ^ 20) by lra.
  assert (NEG : forall z, rnd z = Fin z -> rnd (- z) = Fin (- z)).
  { intros z Hz. rewrite (rnd_opp _ G z), Hz. reflexivity. }
  assert (XA : 0 <= x + - a <= 1000) by lra.
  destruct (rnd_err_B (b + - a) 1000) as (dx & Edx & _ & Rdx); [apply Rabs_le; lra|simpl; lra|].
  assert (SF : safe_sum b (- a)).
  { apply safe_total. rewrite Rabs_right by lra. apply Rle_trans with (/ 2 ^ 20); [apply half_pow_le; lia|lra]. }
  pose proof (re_add _ _ H b (- a) dx R1 (NEG _ R0) Edx SF) as Adx. rewrite Edx. set (W := b - a) in *. replace (b + - a) with W in * by (unfold W; lra).
  rewrite (Rabs_right W) in Adx by lra. apply Rabs_le_inv in Adx.
  assert (UW : 0 <= u * W <= 0.001 * W) by (split; [apply Rmult_le_pos; lra|apply Rmult_le_compat_r; [lra|]; simpl in Hu; lra]).
  assert (DX : 0.999 * W <= dx <= 1.001 * W) by lra. assert (Pdx : / 2 ^ 40 < dx) by lra.
  cbn [nabs]. rewrite (Rabs_right dx) by lra.
  destruct (nleb (Fin dx) (Fin interp_eps)) eqn:QE; [apply nle_fin in QE; lra|].
  destruct (rnd_err_B (x + - a) 1000) as (dl & Edl & _ & Rdl); [rewrite Rabs_right by lra; lra|simpl; lra|].
  pose proof (re_any _ _ H _ _ Edl) as Adl. rewrite Edl. set (V := x - a) in *. replace (x + - a) with V in * by (unfold V; lra).
  assert (HV : 0 <= V <= W) by (unfold V, W; lra). rewrite (Rabs_right V) in Adl by lra. apply Rabs_le_inv in Adl.
  assert (TW : u * / 2 ^ 102 <= 0.01 * (u * W)).
  { eapply Rle_trans; [apply tiny_u|]. replace (0.01 * (u * W)) with (u * (0.01 * W)) by ring. apply Rmult_le_compat_l; [lra|]. apply Rle_trans with (0.01 * / 2 ^ 20); [simpl; lra|lra]. }
  set (r := V / W). assert (EV : V = r * W) by (unfold r; field; lra). assert (Hr : 0 <= r <= 1) by (unfold r; split; [apply Rdiv_le_0_compat'; lra|apply Rdiv_le_1'; lra]).
  cbn [ndiv]. rewrite Req_bool_false by lra.
  assert (Q0 : Rabs (dl / dx - r) <= 2.1 * u).
  { replace (dl / dx - r) with ((dl - r * dx) / dx) by (field; lra). unfold Rdiv. rewrite Rabs_mult, (Rabs_right (/ dx)) by (apply Rle_ge, Rlt_le, Rinv_0_lt_compat; lra).
    apply Rmult_le_reg_r with dx; [lra|]. rewrite Rmult_assoc, Rinv_l, Rmult_1_r by lra.
    assert (Rabs (dl - r * dx) <= 2.01 * u * W).
    { rewrite EV in Adl. assert (r * (u * W) <= 1 * (u * W)) by (apply Rmult_le_compat_r; lra). assert (0 <= r * (u * W)) by (apply Rmult_le_pos; lra).
      assert (r * (- (u * W)) <= r * (dx - W) <= r * (u * W)) by (split; apply Rmult_le_compat_l; lra). apply Rabs_le. lra. }
    eapply Rle_trans; [eassumption|]. assert (2.1 * u * (0.999 * W) <= 2.1 * u * dx) by (apply Rmult_le_compat_l; lra). lra. }
  apply Rabs_le_inv in Q0. destruct (rnd_err_B (dl / dx) 1.01) as (q & Eq & Aq & _); [apply Rabs_le; lra|simpl; lra|]. rewrite Eq. apply Rabs_le_inv in Aq.
  assert (Hq : - (3.2 * u) <= q - r <= 3.2 * u) by lra.
  apply Rabs_le_inv in B0, B1.
  destruct (rnd_err_B (d + - c) (2 * B)) as (df & Edf & Adf & _); [apply Rabs_le; lra|simpl; lra|].
  replace (d + - c) with (d - c) in * by lra. assert (Rabs (d - c) <= 2 * B) as HD by (apply Rabs_le; lra).
  assert (Adf' : Rabs (df - (d - c)) <= 1.001 * u * (2 * B)) by lra. apply Rabs_le_inv in Adf'. apply Rabs_le_inv in HD.
  rewrite Edf. cbn [nmul].
  assert (UB : 0 < u * B <= 1) by (split; [apply Rmult_lt_0_compat; lra|apply Rle_trans with (/ (4 * 10 ^ 6) * 10 ^ 6); [apply Rmult_le_compat; lra|simpl; lra]]).
  assert (UB1 : u * 1 <= u * B) by (apply Rmult_le_compat_l; lra).
  assert (PD : Rabs (q * df - r * (d - c)) <= 9 * (u * B)).
  { replace (q * df - r * (d - c)) with ((q - r) * df + r * (df - (d - c))) by ring. eapply Rle_trans; [apply Rabs_triang|]. rewrite !Rabs_mult.
    assert (A1 : Rabs (q - r) * Rabs df <= (3.2 * u) * (2.1 * B)) by (apply Rmult_le_compat; try apply Rabs_pos; apply Rabs_le; [lra|]; assert (u * (2 * B) <= / (4 * 10 ^ 6) * (2 * B)) by (apply Rmult_le_compat_r; lra); simpl (10 ^ 6) in *; lra).
    assert (A2 : Rabs r * Rabs (df - (d - c)) <= 1 * (1.001 * u * (2 * B))) by (apply Rmult_le_compat; try apply Rabs_pos; apply Rabs_le; lra). lra. }
  apply Rabs_le_inv in PD. assert (UB7 : u * B <= / (4 * 10 ^ 6) * B) by (apply Rmult_le_compat_r; lra). simpl (10 ^ 6) in UB7.
  assert (RD : - (2 * B) <= r * (d - c) <= 2 * B).
  { assert (r * (- (2 * B)) <= r * (d - c) <= r * (2 * B)) by (split; apply Rmult_le_compat_l; lra). assert (0 <= r * B) by (apply Rmult_le_pos; lra). assert (r * B <= 1 * B) by (apply Rmult_le_compat_r; lra). lra. }
  destruct (rnd_err_B (q * df) (2.001 * B)) as (p & Ep & Ap & Rp); [apply Rabs_le; lra|simpl; lra|]. rewrite Ep. apply Rabs_le_inv in Ap. cbn [nadd].
  assert (CV : - B <= c + r * (d - c) <= B).
  { assert (r * (- B) <= r * d <= r * B) by (split; apply Rmult_le_compat_l; lra). assert ((1 - r) * (- B) <= (1 - r) * c <= (1 - r) * B) by (split; apply Rmult_le_compat_l; lra). lra. }
  destruct (rnd_err_B (c + p) (1.001 * B)) as (s & Es & As & Rs); [apply Rabs_le; lra|simpl; lra|]. rewrite Es. apply Rabs_le_inv in As.
  exists s. split; auto. split; auto. fold W V r. replace (ent S i - ent S (i - 1)) with (d - c) by reflexivity. apply Rabs_le. lra.
Qed.


Definition table_ok (T S : list R) (B : R) : Prop :=
  T <> [] /\ length S = length T /\ (forall i, (i < length T)%nat -> rnd (ent T i) = Fin (ent T i) /\ -100 <= ent T i <= 100)
  /\ (forall i, (Datatypes.S i < length T)%nat -> / 2 ^ 20 <= ent T (Datatypes.S i) - ent T i)
  /\ (forall i, (i < length T)%nat -> rnd (ent S i) = Fin (ent S i) /\ Rabs (ent S i) <= B).
Lemma table_increasing T S B : table_ok T S B -> increasing T.
Proof.
  intros (_ & _ & _ & GT & _). apply increasing_step. intros i Hi. specialize (GT i Hi). assert (0 < / 2 ^ 20) by (apply Rinv_0_lt_compat, pow_lt; lra). lra.
Qed.
Lemma interp_err T S x B : table_ok T S B -> 1 <= B <= 10 ^ 6 -> rnd x = Fin x ->
  exists s, interp (Fin x) (fins T) (fins S) = Fin s /\ Rabs (s - pwlin (combine T S) x) <= 20 * B * u.
Proof.
  intros TO HB Rx. pose proof (table_increasing _ _ _ TO) as I. destruct TO as (NT & LS & RT & GT & RS). pose proof u_le as Hu.
  assert (Z : forall v, Rabs (v - v) <= 20 * B * u). { intros v. unfold Rminus. rewrite Rplus_opp_r, Rabs_R0. apply Rmult_le_pos; lra. }
  destruct (le_lt_dec 2 (length T)) as [L2|L2].
  - destruct (interp_seg T S x L2 LS (increasing_nondecreasing _ I)) as (i & Hi & A & B' & C).
    destruct (Rlt_le_dec x (ent T 0)) as [X|X].
    { destruct (A X) as [_ ->]. eexists. split; [reflexivity|]. rewrite pwlin_left by (auto; lra). apply Z. }
    destruct (Rlt_le_dec (ent T (length T - 1)) x) as [X'|X'].
    { destruct (B' X') as [_ ->]. eexists. split; [reflexivity|]. rewrite pwlin_right by (auto; lra). rewrite LS. apply Z. }
    destruct (C (conj X X')) as (D & _ & ->).
    destruct (RT i ltac:(lia)) as [R1 B1]. destruct (RT (i - 1)%nat ltac:(lia)) as [R0 B0]. destruct (RS i ltac:(lia)) as [S1 D1]. destruct (RS (i - 1)%nat ltac:(lia)) as [S0 D0].
    specialize (GT (i - 1)%nat ltac:(lia)). replace (Datatypes.S (i - 1)) with i in GT by lia.
    destruct (seg_err T S i x B) as (s & Es & _ & Bs); auto; try lra. exists s. split; auto.
    rewrite (pwlin_at T S x (i - 1)) by (auto; try lia; replace (Datatypes.S (i - 1)) with i by lia; auto). replace (Datatypes.S (i - 1)) with i by lia. exact Bs.
  - destruct T as [|t [|]]; simpl in L2; try lia; try congruence. destruct S as [|s [|]]; simpl in LS; try lia.
    exists s. split; [|cbn [combine pwlin]; apply Z]. unfold interp, interp_lr, interp_core, first, last_, at_, nwhere, clip_index. cbn [fins map length].
    rewrite Nat.min_0_r. cbn [nth Nat.sub]. unfold nsub. cbn [nopp nadd]. replace (t + - t) with 0 by lra. rewrite (rnd0 G). cbn [nabs]. rewrite Rabs_R0.
    assert (W : nle (Fin 0) (Fin interp_eps)) by (apply nle_fin; apply (eps_nonneg _ G)). unfold nle in W. rewrite W.
    destruct (_ >? _)%num; auto. destruct (_ <? _)%num; auto.
Qed.

(** ** birth times *)
Lemma Rmax_err a b c d e : Rabs (a - c) <= e -> Rabs (b - d) <= e -> Rabs (Rmax a b - Rmax c d) <= e.
Proof. intros A B. apply Rabs_le_inv in A, B. apply Rabs_le. unfold Rmax. destruct (Rle_dec a b), (Rle_dec c d); lra. Qed.
Lemma lgt_birth_err t e e' : rnd t = Fin t -> 0.003 <= t <= 1000 -> Rabs (e' - e) <= 102 * u -> -8 <= e <= 8 ->
  exists b q, get_lgt_birth (Fin t) (Fin e') = Fin q /\ near_log b q /\ 1/1024 <= b <= 1000 /\ Rabs (b - birth_time t e) <= 625 * u * t.
Proof.
  intros Rt Bt Ee Be. pose proof u_le as Hu. pose proof tiny_u1 as Ht. destruct (tbm G) as (m & Em & Bm).
  assert (Am : Rabs (m - 0.001) <= u * t).
  { assert (E : rnd 0.001 = Fin m) by exact Em. pose proof (re_any _ _ H _ _ E) as A. rewrite (Rabs_right 0.001) in A by lra. eapply Rle_trans; [exact A|].
    assert (u * 0.003 <= u * t) by (apply Rmult_le_compat_l; lra). simpl (10 ^ 6) in Ht. lra. }
  set (a := pow10 e). assert (Pa : 0 < a) by apply pow10_pos.
  assert (La : / 10 ^ 8 <= a).
  { apply Rle_trans with (pow10 (-8)); [|apply pow10_le; lra]. unfold pow10. replace (-8) with (- (8)) by lra. rewrite Rpower_Ropp. replace 8 with (INR 8) by (simpl; lra). rewrite Rpower_pow by lra. lra. }
  assert (Ua : a <= 10 ^ 8) by (apply pow10_le_pow; simpl; lra).
  assert (D : 102 * u <= / 100) by (simpl in Hu; lra).
  pose proof (pow10_close e' e (102 * u) Ee D) as C. fold a in C. apply Rabs_le_inv in C.
  assert (UA : 0 < u * a <= / 10 ^ 5 * a) by (split; [apply Rmult_lt_0_compat; lra|apply Rmult_le_compat_r; [lra|]; simpl in *; lra]). simpl (10 ^ 5) in UA.
  unfold get_lgt_birth. rewrite Em.
  destruct (npow10_any e') as (a' & Ea' & Ra' & _ & A). { apply Rle_trans with (10 ^ 9); [simpl (10 ^ 8) in Ua; simpl; lra|apply Rle_pow; [lra|lia]]. }
  assert (Aa : Rabs (a' - a) <= 310 * u * a).
  { apply Rabs_le_inv in A.
    assert (u * pow10 e' <= u * (1.01 * a)) by (apply Rmult_le_compat_l; lra).
    assert ((u * / 2 ^ 102) <= u * a).
    { eapply Rle_trans; [apply tiny_u|]. apply Rmult_le_compat_l; [lra|]. eapply Rle_trans; [|exact La]. apply Rinv_le; [apply pow_lt; lra|apply Rle_pow; [lra|lia]]. }
    apply Rabs_le. lra. }
  apply Rabs_le_inv in Aa. rewrite Ea'.
  unfold nsub. cbn [nopp nadd].
  destruct (rnd_range _ G (t + - a')) as (s & Es). { apply Rle_trans with (10 ^ 9); [|apply Rle_pow; [lra|lia]]. apply Rabs_le. simpl (10 ^ 8) in Ua. simpl. lra. }
  assert (As : Rabs (s - (t + - a')) <= u * Rabs (t + - a')). { apply (re_add _ _ H); auto; [rewrite (rnd_opp _ G), Ra'; reflexivity|]. apply safe_big_l. rewrite Rabs_right by lra. simpl. lra. }
  rewrite Es. unfold nwhere. cbn [nltb]. set (b := if Rlt_bool s m then m else s).
  assert (EB : (if Rlt_bool s m then Fin m else Fin s) = Fin b) by (unfold b; destruct (Rlt_bool s m); reflexivity). rewrite EB.
  assert (MB : b = Rmax m s) by (unfold b; destruct (Rlt_bool_spec s m); unfold Rmax; destruct (Rle_dec m s); lra).
  assert (ut : 0 < u * t) by (apply Rmult_lt_0_compat; lra).
  assert (ST : s <= t).
  { assert (nle (rnd (t + - a')) (rnd t)) as Q by (apply (rnd_mono _ G); nra). rewrite Es, Rt in Q. now apply nle_fin in Q. }
  assert (BB : 1/1024 <= b <= 1000). { rewrite MB. pose proof (Rmax_l m s). split; [lra|]. apply Rmax_lub; lra. }
  assert (BE : Rabs (b - birth_time t e) <= 625 * u * t).
  { rewrite MB. unfold birth_time. fold a. destruct (Rle_dec a (2 * t)) as [Q|Q].
    - apply Rmax_err; [lra|]. assert (u * a <= 2 * (u * t)) by (replace (2 * (u * t)) with (u * (2 * t)) by ring; apply Rmult_le_compat_l; lra).
      assert (Rabs (t + - a') <= 2.2 * t) by (apply Rabs_le; assert (u * t <= / (4 * 10 ^ 6) * t) by (apply Rmult_le_compat_r; lra); simpl (10 ^ 6) in *; lra).
      assert (u * Rabs (t + - a') <= u * (2.2 * t)) by (apply Rmult_le_compat_l; lra). apply Rabs_le_inv in As. apply Rabs_le. lra.
    - assert (t + - a' <= 0) by lra. assert (S0 : s <= 0). { assert (nle (rnd (t + - a')) (rnd 0)) as Q' by (apply (rnd_mono _ G); lra). rewrite Es, (rnd0 G) in Q'. now apply nle_fin in Q'. }
      rewrite (Rmax_left m s) by lra. rewrite (Rmax_left 0.001 (t - a)) by lra. lra. }
  exists b. assert (-4 <= log10 b <= 4).
  { split; [apply Rle_trans with (log10 (1/1024)); [apply log10_1024|apply log10_le; lra]|]. apply Rle_trans with (log10 1000); [apply log10_le; lra|]. pose proof log10_1000. lra. }
  destruct (nlog10_near b) as (q & Eq & Nq); [lra|auto|]. exists q. auto.
Qed.
End F.
