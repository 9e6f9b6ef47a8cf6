(** * Differentiability of the age weights and of the SED *)
From Coq Require Import Reals List Arith Lra Lia Bool.
From Coquelicot Require Import Coquelicot.
From Flocq Require Import Core.Raux.
From Verif Require Import Num Arr MUtils MSed Spec Spec2 RList LUtils LCalc LAge LKern LMet LJoint LDiff.
Import ListNotations.
Open Scope R_scope.

(** ** interpolation *)
(** near [s] the curve [x] stays on the same side of [c] *)
Definition same_side (x : R -> R) (s c : R) : Prop :=
  locally s (fun r => (x r <= c <-> x s <= c) /\ (x r < c <-> x s < c)).
Lemma same_side_const (x : R -> R) s c : (forall r, x r = x s) -> same_side x s c.
Proof. intros H. unfold same_side. apply filter_forall. intros r. rewrite H. tauto. Qed.
Lemma same_side_off (x : R -> R) s c : ex_derive x s -> x s <> c -> same_side x s c.
Proof.
  intros X H. unfold same_side. destruct (Rlt_dec (x s) c).
  - eapply filter_imp; [|apply (locally_lt x (fun _ => c) s X (ex_derive_const0 _ _)); auto]. simpl. intros; split; split; lra.
  - eapply filter_imp; [|apply (locally_lt (fun _ => c) x s (ex_derive_const0 _ _) X); lra]. simpl. intros; split; split; lra.
Qed.
Fixpoint pwlinE (xs : list R) (y : nat -> R) (x : R) : R :=
  match xs with
  | [] => 0
  | x0 :: r => match r with
    | [] => y O
    | x1 :: _ => if Rle_dec x x0 then y O
                 else if Rlt_dec x x1 then y O + (x - x0) / (x1 - x0) * (y 1%nat - y O)
                 else pwlinE r (fun i => y (S i)) x
    end
  end.
Lemma pwlinE_eq xs : forall ys x, length ys = length xs -> pwlin (combine xs ys) x = pwlinE xs (ent ys) x.
Proof.
  induction xs as [|x0 xs IH]; intros [|y0 ys] x H; try discriminate; auto.
  destruct xs as [|x1 xs], ys as [|y1 ys]; try discriminate; auto.
  cbn [combine pwlin pwlinE]. cbn [combine] in IH. destruct (Rle_dec x x0); auto. destruct (Rlt_dec x x1); auto.
  specialize (IH (y1 :: ys) x ltac:(simpl in *; lia)). cbn [combine] in IH. exact IH.
Qed.
Lemma pwlinE_smooth xs : forall (y : nat -> R -> R) (x : R -> R) s, (forall i, ex_derive (y i) s) ->
  (forall c, In c xs -> same_side x s c) -> ex_derive x s ->
  ex_derive (fun r => pwlinE xs (fun i => y i r) (x r)) s.
Proof.
  induction xs as [|x0 xs IH]; intros y x s Y H X; [exact (ex_derive_const0 0 s)|].
  destruct xs as [|x1 xs]; [exact (Y O)|].
  pose proof (H x0 ltac:(simpl; auto)) as H0. pose proof (H x1 ltac:(simpl; auto)) as H1.
  destruct (Rle_dec (x s) x0) as [A|A].
  { apply (ex_derive_near (y O)); [|apply Y]. eapply filter_imp; [|exact H0]. cbv beta. intros r [E _].
    cbn [pwlinE]. destruct (Rle_dec (x r) x0); tauto. }
  destruct (Rlt_dec (x s) x1) as [B|B].
  { apply (ex_derive_near (fun r => y O r + (x r - x0) / (x1 - x0) * (y 1%nat r - y O r))).
    - eapply filter_imp; [|apply filter_and; [exact H0|exact H1]]. cbv beta. intros r [[E _] [_ F]].
      cbn [pwlinE]. destruct (Rle_dec (x r) x0); [tauto|]. destruct (Rlt_dec (x r) x1); tauto.
    - apply ex_derive_plus'; auto. apply ex_derive_mult'; [|apply ex_derive_minus'; auto].
      unfold Rdiv. apply ex_derive_mult'; [|apply ex_derive_const0]. apply ex_derive_minus'; auto. apply ex_derive_const0. }
  apply (ex_derive_near (fun r => pwlinE (x1 :: xs) (fun i => y (S i) r) (x r))).
  - eapply filter_imp; [|apply filter_and; [exact H0|exact H1]]. cbv beta. intros r [[E _] [_ F]].
    cbn [pwlinE]. destruct (Rle_dec (x r) x0); [tauto|]. destruct (Rlt_dec (x r) x1); tauto.
  - apply (IH (fun i => y (S i))); auto. intros c Hc. apply H. simpl; auto.
Qed.
Lemma pwlin_smooth xs (ys : R -> list R) (x : R -> R) s : smooth_at ys s -> (forall r, length (ys r) = length xs) ->
  (forall c, In c xs -> same_side x s c) -> ex_derive x s ->
  ex_derive (fun r => pwlin (combine xs (ys r)) (x r)) s.
Proof.
  intros [_ Y] L H X. apply (ex_derive_eq (fun r => pwlinE xs (fun i => ent (ys r) i) (x r))).
  - intros r. rewrite pwlinE_eq by apply L. reflexivity.
  - now apply (pwlinE_smooth xs (fun i r => ent (ys r) i)).
Qed.

(** ** trapezoid *)
Fixpoint trapE (xs : list R) (y : nat -> R) : R :=
  match xs with
  | x0 :: ((x1 :: _) as xr) => (x1 - x0) * (y O + y 1%nat) / 2 + trapE xr (fun i => y (S i))
  | _ => 0
  end.
Lemma trapE_eq xs : forall ys, length ys = length xs -> trapezoid xs ys = trapE xs (ent ys).
Proof.
  induction xs as [|x0 xs IH]; intros [|y0 ys] H; try discriminate; auto.
  destruct xs as [|x1 xs], ys as [|y1 ys]; try discriminate; auto.
  rewrite trapezoid_cons2. cbn [trapE]. rewrite (IH (y1 :: ys)) by (simpl in *; lia). reflexivity.
Qed.
Lemma trapE_smooth xs : forall (y : nat -> R -> R) s, (forall i, ex_derive (y i) s) ->
  ex_derive (fun r => trapE xs (fun i => y i r)) s.
Proof.
  induction xs as [|x0 xs IH]; intros y s Y; [exact (ex_derive_const0 0 s)|].
  destruct xs as [|x1 xs]; [exact (ex_derive_const0 0 s)|].
  cbn [trapE]. apply ex_derive_plus'; [|apply (IH (fun i => y (S i))); auto].
  unfold Rdiv. apply ex_derive_mult'; [|apply ex_derive_const0]. apply ex_derive_mult'; [apply ex_derive_const0|].
  apply ex_derive_plus'; auto.
Qed.
Lemma trapezoid_smooth xs (ys : R -> list R) s : smooth_at ys s -> (forall r, length (ys r) = length xs) ->
  ex_derive (fun r => trapezoid xs (ys r)) s.
Proof.
  intros [_ Y] L. apply (ex_derive_eq (fun r => trapE xs (fun i => ent (ys r) i))).
  - intros r. now rewrite trapE_eq by apply L.
  - now apply (trapE_smooth xs (fun i r => ent (ys r) i)).
Qed.

(** ** smooth vectors: operations *)
Lemma smooth_map_seq (f : nat -> R -> R) n s : (forall i, (i < n)%nat -> ex_derive (f i) s) ->
  smooth_at (fun r => map (fun i => f i r) (seq 0 n)) s.
Proof.
  intros H. apply (smooth_intro _ n); [intros; now rewrite map_length, seq_length|]. intros i Hi.
  apply (ex_derive_eq (f i)); [|now apply H]. intros r. now rewrite ent_map_seq.
Qed.
Lemma smooth_map (g : R -> R) (T : R -> list R) s : smooth_at T s ->
  (forall i, (i < length (T s))%nat -> ex_derive (fun r => g (ent (T r) i)) s) -> smooth_at (fun r => map g (T r)) s.
Proof.
  intros S H. pose proof (smooth_len T s _ S eq_refl) as L.
  apply (smooth_intro _ (length (T s))); [intros; now rewrite map_length|]. intros i Hi.
  apply (ex_derive_eq (fun r => g (ent (T r) i))); [|now apply H]. intros r. rewrite ent_map; auto. now rewrite L.
Qed.
Lemma smooth_cons (T : R -> list R) c s : smooth_at T s -> smooth_at (fun r => c :: T r) s.
Proof.
  intros [[n L] D]. split; [exists (S n); intros; simpl; auto|]. intros [|i]; [exact (ex_derive_const0 c s)|]. apply (D i).
Qed.
Lemma smooth_firstn (T : R -> list R) k s : smooth_at T s -> smooth_at (fun r => firstn k (T r)) s.
Proof.
  intros S. pose proof (smooth_len T s _ S eq_refl) as L. destruct S as [_ D].
  apply (smooth_intro _ (Nat.min k (length (T s)))); [intros; now rewrite firstn_length, L|]. intros i Hi.
  apply (ex_derive_eq (fun r => ent (T r) i)); auto. intros r. rewrite ent_firstn; auto. lia.
Qed.
Lemma Rmax_derive (c : R) (f : R -> R) s : ex_derive f s -> f s <> c -> ex_derive (fun r => Rmax c (f r)) s.
Proof.
  intros F H. destruct (Rlt_dec (f s) c).
  - apply (ex_derive_near (fun _ => c)); [|apply ex_derive_const0].
    eapply filter_imp; [|apply (locally_lt f (fun _ => c) s F (ex_derive_const0 _ _)); auto]. simpl. intros. rewrite Rmax_left; lra.
  - apply (ex_derive_near f); auto.
    eapply filter_imp; [|apply (locally_lt (fun _ => c) f s (ex_derive_const0 _ _) F); lra]. simpl. intros. rewrite Rmax_right; lra.
Qed.
Lemma floored_smooth c (F : R -> list R) s : smooth_at F s -> avoids c (F s) -> smooth_at (fun r => floored c (F r)) s.
Proof.
  intros S A. unfold floored. apply smooth_map; auto. intros i Hi. destruct S as [_ D].
  apply Rmax_derive; auto. unfold avoids in A. rewrite Forall_forall in A. apply A. now apply ent_In.
Qed.

(** ** mass formed *)
Lemma cumulative_smooth ts (F : R -> list R) s : smooth_at F s -> length (F s) = length ts ->
  smooth_at (fun r => cumulative_mass ts (F r)) s.
Proof.
  intros S L. pose proof (smooth_len F s _ S L) as LL. unfold cumulative_mass. apply smooth_map_seq. intros i Hi.
  apply ex_derive_mult'; [apply ex_derive_const0|].
  apply (trapezoid_smooth _ (fun r => 1 / 10 ^ 14 :: firstn (Datatypes.S i) (F r))).
  - apply smooth_cons, smooth_firstn, S.
  - intros r. cbn [length]. rewrite !firstn_length, LL. reflexivity.
Qed.
Lemma cumulative_pos ts ss i : length ts = length ss -> increasing (0.001 :: ts) -> List.Forall (fun x => 0 < x) ss ->
  (i < length ts)%nat -> 0 < ent (cumulative_mass ts ss) i.
Proof.
  intros L I P H. destruct (cumulative_mass_increasing ts ss) as [_ Q]; auto.
  rewrite Forall_forall in Q. apply Q, ent_In. now rewrite cumulative_mass_length.
Qed.
Lemma mass_smooth ts (F : R -> list R) (b : R -> R) s :
  smooth_at F s -> length ts = length (F s) -> increasing (0.001 :: ts) -> List.Forall (fun x => 0 < x) (F s) ->
  0 < b s -> ex_derive b s -> ((forall r, b r = b s) \/ ~ In (b s) ts) ->
  ex_derive (fun r => mass_formed_by ts (F r) (b r)) s.
Proof.
  intros S L I P Pb B H. unfold mass_formed_by. apply ex_derive_pow10.
  assert (CS : smooth_at (fun r => cumulative_mass ts (F r)) s) by (apply cumulative_smooth; auto).
  apply (pwlin_smooth (map log10 ts) (fun r => map log10 (cumulative_mass ts (F r))) (fun r => log10 (b r))).
  - apply smooth_map; auto. intros i Hi. rewrite cumulative_mass_length in Hi. destruct CS as [_ CD].
    apply ex_derive_log10; [apply CD|]. now apply cumulative_pos.
  - intros r. now rewrite !map_length, cumulative_mass_length.
  - intros c Hc. apply in_map_iff in Hc as [t [<- Ht]].
    assert (LB : ex_derive (fun r => log10 (b r)) s) by now apply ex_derive_log10.
    destruct H as [H|H].
    + apply same_side_const. intros r. now rewrite H.
    + apply same_side_off; auto. intros E. apply H. apply log10_inj in E; auto; [now rewrite E|]. now apply (times_pos ts I).
  - now apply ex_derive_log10.
Qed.
(** the observation time is fixed, or moves away from the grid *)
Lemma birth_smooth (t : R -> R) s e ts : increasing (0.001 :: ts) -> ex_derive t s ->
  ((forall r, t r = t s) \/ (t s - pow10 e <> 0.001 /\ ~ In (t s - pow10 e) ts)) ->
  ex_derive (fun r => birth_time (t r) e) s
  /\ ((forall r, birth_time (t r) e = birth_time (t s) e) \/ ~ In (birth_time (t s) e) ts).
Proof.
  intros I T H. unfold birth_time. destruct H as [H|[H1 H2]].
  - split; [|left; intros r; now rewrite H]. apply (ex_derive_eq (fun _ => Rmax 0.001 (t s - pow10 e))); [|apply ex_derive_const0].
    intros r. now rewrite (H r).
  - split.
    + apply Rmax_derive; auto. apply ex_derive_minus'; auto. apply ex_derive_const0.
    + right. unfold Rmax. destruct (Rle_dec _ _); auto. intros A. apply In_ent in A as [i [Hi E]].
      assert (B : ent (0.001 :: ts) 0 < ent (0.001 :: ts) (S i)) by (apply I; simpl; lia).
      rewrite ent_cons_S, E in B. unfold ent in B; simpl in B. lra.
Qed.

(** ** age weights *)
Definition age_w ts ss smin t_obs ages : list R :=
  map (fun d => d / total_mass ts ss smin t_obs ages) (bin_masses ts ss smin t_obs ages).
Lemma edge_mass_smooth ts (F : R -> list R) smin (t : R -> R) e s :
  smooth_at F s -> length ts = length (F s) -> increasing (0.001 :: ts) -> 0 < smin -> avoids smin (F s) ->
  ex_derive t s -> ((forall r, t r = t s) \/ (t s - pow10 e <> 0.001 /\ ~ In (t s - pow10 e) ts)) ->
  ex_derive (fun r => edge_mass ts (F r) smin (t r) e) s.
Proof.
  intros S L I P A T H. unfold edge_mass. destruct (birth_smooth t s e ts I T H) as [B C].
  apply (mass_smooth ts (fun r => floored smin (F r)) (fun r => birth_time (t r) e)); auto.
  - now apply floored_smooth.
  - now rewrite floored_length.
  - now apply floored_pos.
  - apply birth_time_pos.
Qed.
Lemma age_edge_in a i : (i <= length a)%nat -> In (age_edge a i) (age_edges a).
Proof. intros H. unfold age_edges. apply in_map. apply in_seq. lia. Qed.
Lemma age_w_smooth ts (F : R -> list R) smin (t : R -> R) ages s :
  smooth_at F s -> length ts = length (F s) -> increasing (0.001 :: ts) -> 0 < smin -> avoids smin (F s) ->
  ex_derive t s -> ((forall r, t r = t s) \/ born_off_grid ts (t s) (age_edges ages)) ->
  total_mass ts (F s) smin (t s) ages <> 0 ->
  smooth_at (fun r => age_w ts (F r) smin (t r) ages) s.
Proof.
  intros S L I P A T H N.
  assert (E : forall i, (i <= length ages)%nat -> ex_derive (fun r => edge_mass ts (F r) smin (t r) (age_edge ages i)) s).
  { intros i Hi. apply edge_mass_smooth; auto. destruct H as [H|H]; auto. right. unfold born_off_grid in H.
    rewrite Forall_forall in H. apply H. now apply age_edge_in. }
  apply (smooth_intro _ (length ages)); [intros r; unfold age_w; now rewrite map_length, bin_masses_length|]. intros i Hi.
  apply (ex_derive_eq (fun r => (edge_mass ts (F r) smin (t r) (age_edge ages i) - edge_mass ts (F r) smin (t r) (age_edge ages (Datatypes.S i)))
    / total_mass ts (F r) smin (t r) ages)).
  { intros r. unfold age_w. rewrite ent_map by (rewrite bin_masses_length; lia). unfold bin_masses. now rewrite ent_map_seq by lia. }
  apply ex_derive_div'; auto; [apply ex_derive_minus'; apply E; lia|].
  unfold total_mass. apply ex_derive_minus'; apply E; lia.
Qed.
