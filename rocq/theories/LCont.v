(** * Continuity of the outputs along curves of inputs *)
From Coq Require Import Reals List Arith Lra Lia Bool.
From Coquelicot Require Import Coquelicot.
From Flocq Require Import Core.Raux.
From Verif Require Import Num Arr MUtils MSed Spec Spec2 RList LUtils LCalc LAge LKern LMet LJoint LDiff LDiff2 LDiff3 LDiff4.
Import ListNotations.
Open Scope R_scope.

Lemma cp_const0 (c s : R) : continuity_pt (fun _ : R => c) s.
Proof. apply continuity_pt_const. intros x y. reflexivity. Qed.
Lemma cp_plus' (f g : R -> R) s : continuity_pt f s -> continuity_pt g s -> continuity_pt (fun r => f r + g r) s.
Proof. intros A B. exact (continuity_pt_plus f g s A B). Qed.
Lemma cp_minus' (f g : R -> R) s : continuity_pt f s -> continuity_pt g s -> continuity_pt (fun r => f r - g r) s.
Proof. intros A B. exact (continuity_pt_minus f g s A B). Qed.
Lemma cp_mult' (f g : R -> R) s : continuity_pt f s -> continuity_pt g s -> continuity_pt (fun r => f r * g r) s.
Proof. intros A B. exact (continuity_pt_mult f g s A B). Qed.
Lemma cp_div' (f g : R -> R) s : continuity_pt f s -> continuity_pt g s -> g s <> 0 -> continuity_pt (fun r => f r / g r) s.
Proof. intros A B H. exact (continuity_pt_div f g s A B H). Qed.
Lemma cp_comp' (f g : R -> R) s : continuity_pt f (g s) -> continuity_pt g s -> continuity_pt (fun r => f (g r)) s.
Proof. intros A B. exact (continuity_pt_comp g f s B A). Qed.
Lemma cp_near (f g : R -> R) s : locally s (fun r => f r = g r) -> continuity_pt f s -> continuity_pt g s.
Proof.
  intros H C. apply (continuity_pt_ext_loc f g s); auto.
Qed.
Lemma cp_eq (f g : R -> R) s : (forall r, f r = g r) -> continuity_pt f s -> continuity_pt g s.
Proof. intros H. apply cp_near. now apply filter_forall. Qed.
Lemma cp_of_derive (f : R -> R) s : ex_derive f s -> continuity_pt f s.
Proof. intros H. apply continuity_pt_filterlim. now apply (ex_derive_continuous f). Qed.
Lemma clocally_lt (f g : R -> R) s : continuity_pt f s -> continuity_pt g s -> f s < g s -> locally s (fun r => f r < g r).
Proof.
  intros F G H. pose proof (cp_minus' g f s G F) as C. rewrite continuity_pt_locally in C.
  assert (P : 0 < g s - f s) by lra. specialize (C (mkposreal _ P)). eapply filter_imp; [|exact C].
  cbv beta. intros r Hr. simpl in Hr. apply Rabs_def2 in Hr. lra.
Qed.
Lemma clocally_neq (f g : R -> R) s : continuity_pt f s -> continuity_pt g s -> f s <> g s -> locally s (fun r => f r <> g r).
Proof.
  intros F G H. destruct (Rlt_dec (f s) (g s)).
  - eapply filter_imp; [|apply (clocally_lt f g s F G); auto]. simpl; intros; lra.
  - eapply filter_imp; [|apply (clocally_lt g f s G F); lra]. simpl; intros; lra.
Qed.
Lemma cp_Rsum {A} (f : A -> R -> R) l s : (forall i, In i l -> continuity_pt (f i) s) ->
  continuity_pt (fun r => Rsum (map (fun i => f i r) l)) s.
Proof.
  induction l as [|a l IH]; intros H; [exact (cp_const0 0 s)|].
  simpl. apply cp_plus'; [apply H; simpl; auto|]. apply IH. intros. apply H. simpl; auto.
Qed.
Lemma cp_log10 (f : R -> R) s : continuity_pt f s -> 0 < f s -> continuity_pt (fun r => log10 (f r)) s.
Proof.
  intros F P. apply (cp_comp' log10); auto. apply cp_of_derive, (ex_derive_log10 (fun r => r)); auto. apply ex_derive_id.
Qed.
Lemma cp_pow10 (f : R -> R) s : continuity_pt f s -> continuity_pt (fun r => pow10 (f r)) s.
Proof.
  intros F. apply (cp_comp' pow10); auto. apply cp_of_derive, (ex_derive_pow10 (fun r => r)). apply ex_derive_id.
Qed.
Lemma cp_tw (f : R -> R) s : continuity_pt f s -> continuity_pt (fun r => triweight_cdf (f r)) s.
Proof. intros F. apply (cp_comp' triweight_cdf); auto. apply cp_of_derive. eexists. apply tw_derive. Qed.
Lemma cp_max (c : R) (f : R -> R) s : continuity_pt f s -> continuity_pt (fun r => Rmax c (f r)) s.
Proof.
  intros F. rewrite continuity_pt_locally in *. intros e. eapply filter_imp; [|exact (F e)]. cbv beta. intros r Hr.
  eapply Rle_lt_trans; [|exact Hr]. unfold Rmax. destruct (Rle_dec c (f r)), (Rle_dec c (f s)); split_Rabs; lra.
Qed.

(** steady vectors *)
Lemma steady_sum (T : R -> list R) s : steady_at T s -> continuity_pt (fun r => Rsum (T r)) s.
Proof.
  intros [[n L] D]. apply (cp_eq (fun r => Rsum (map (fun i => ent (T r) i) (seq 0 n)))).
  - intros r. rewrite (Rsum_ent (T r)), L. reflexivity.
  - apply (cp_Rsum (fun i r => ent (T r) i)). intros; apply D.
Qed.
Lemma steady_intro (T : R -> list R) n s : (forall r, length (T r) = n) ->
  (forall i, (i < n)%nat -> continuity_pt (fun r => ent (T r) i) s) -> steady_at T s.
Proof.
  intros L D. split; [now exists n|]. intros i. destruct (Nat.lt_ge_cases i n); [now apply D|].
  apply (cp_eq (fun _ => 0)); [|apply cp_const0]. intros r. rewrite ent_out; auto. now rewrite L.
Qed.
Lemma steady_len (T : R -> list R) s n : steady_at T s -> length (T s) = n -> forall r, length (T r) = n.
Proof. intros [[m L] _] E r. rewrite L in *. auto. Qed.
Lemma steady_near (T U : R -> list R) n s : (forall r, length (U r) = n) -> steady_at T s ->
  locally s (fun r => T r = U r) -> steady_at U s.
Proof.
  intros L [_ D] E. split; [now exists n|]. intros i. apply (cp_near (fun r => ent (T r) i)); auto.
  eapply filter_imp; [|exact E]. simpl. now intros r ->.
Qed.

(** ** metallicity weights *)
Lemma tw_hist_steady (x h : R -> R) edges s : continuity_pt x s -> continuity_pt h s -> 0 < h s ->
  steady_at (fun r => tw_hist (x r) (h r) edges) s.
Proof.
  intros X H P. apply (steady_intro _ (length edges - 1)); [intros; apply tw_hist_length|]. intros i Hi.
  apply (cp_eq (fun r => triweight_cdf ((x r - ent edges i) / h r) - triweight_cdf ((x r - ent edges (S i)) / h r))).
  { intros r. rewrite tw_hist_ent by lia. reflexivity. }
  apply cp_minus'; apply cp_tw; (apply cp_div'; auto; [|lra]);
    apply cp_minus'; auto; apply cp_const0.
Qed.
Lemma steady_constl l s : steady_at (fun _ => l) s.
Proof. split; [now exists (length l)|]. intros. apply cp_const0. Qed.
Lemma met_weights_steady (x h : R -> R) edges s : continuity_pt x s -> continuity_pt h s -> 0 < h s ->
  (3 <= length edges)%nat -> increasing edges -> steady_at (fun r => met_weights (x r) (h r) edges) s.
Proof.
  intros X H P Hl Hi. pose proof (increasing_nondecreasing _ Hi) as Hnd.
  assert (Hn : edges <> []) by (apply nil_neq_len; lia).
  assert (Hfl : ent edges 0 < ent edges (length edges - 1)) by (apply Hi; lia).
  pose proof (tw_hist_steady x h edges s X H P) as TS.
  assert (SS : continuity_pt (fun r => hist_sum (x r) (h r) edges) s) by (apply steady_sum, TS).
  destruct (Req_EM_T (hist_sum (x s) (h s) edges) 0) as [E|E].
  - pose proof (clocally_lt (fun _ => 0) h s (cp_const0 _ _) H P) as Q.
    assert (D : x s <= ent edges 0 - 3 * h s \/ ent edges (length edges - 1) + 3 * h s <= x s).
    { unfold hist_sum in E. rewrite tw_hist_sum in E by auto.
      destruct (Rle_lt_dec (x s) (ent edges 0 - 3 * h s)); [auto|]. right.
      destruct (Rle_lt_dec (ent edges (length edges - 1) + 3 * h s) (x s)); [auto|].
      exfalso. assert (triweight_cdf ((x s - ent edges (length edges - 1)) / h s) < triweight_cdf ((x s - ent edges 0) / h s)).
      { apply tw_strict; [apply div_lt_mono; lra|apply lt_div_iff; lra|apply div_lt_iff; lra]. }
      lra. }
    destruct D as [D|D].
    + apply (steady_near (fun _ => unit_vec (length edges - 1) 0) _ (length edges - 1)); [intros; apply met_weights_len|apply steady_constl|].
      assert (ent edges 0 < ent edges 1) by (apply Hi; lia).
      eapply filter_imp; [|apply filter_and; [exact Q|apply (clocally_lt x (fun r => ent edges 1 - 3 * h r) s X)]].
      * simpl. intros r [Hp Hr]. symmetry. apply unit_lo_hist; auto; lia.
      * apply cp_minus'; [apply cp_const0|]. apply cp_mult'; auto. apply cp_const0.
      * lra.
    + apply (steady_near (fun _ => unit_vec (length edges - 1) (length edges - 2)) _ (length edges - 1)); [intros; apply met_weights_len|apply steady_constl|].
      assert (ent edges (length edges - 2) < ent edges (length edges - 1)) by (apply Hi; lia).
      eapply filter_imp; [|apply filter_and; [exact Q|apply (clocally_lt (fun r => ent edges (length edges - 2) + 3 * h r) x s)]].
      * simpl. intros r [Hp Hr]. symmetry. apply unit_hi_hist; auto; lia.
      * apply cp_plus'; [apply cp_const0|]. apply cp_mult'; auto. apply cp_const0.
      * auto.
      * lra.
  - apply (steady_near (fun r => map (fun w => w / hist_sum (x r) (h r) edges) (tw_hist (x r) (h r) edges)) _ (length edges - 1)).
    + intros; apply met_weights_len.
    + apply (steady_intro _ (length edges - 1)); [intros; now rewrite map_length, tw_hist_length|]. intros i Hi2.
      apply (cp_eq (fun r => ent (tw_hist (x r) (h r) edges) i / hist_sum (x r) (h r) edges)).
      * intros r. rewrite ent_map by (rewrite tw_hist_length; lia). reflexivity.
      * apply cp_div'; auto. apply TS.
    + eapply filter_imp; [|apply (clocally_neq (fun r => hist_sum (x r) (h r) edges) (fun _ => 0) s SS (cp_const0 _ _) E)].
      simpl. intros r Hr. unfold met_weights. destruct (Req_EM_T _ _); [contradiction|reflexivity].
Qed.
(** ** interpolation: continuous everywhere, nodes included *)
Definition clamp (u : R) : R := 1 - Rmax 0 (1 - Rmax 0 u).
Lemma clamp_lo u : u <= 0 -> clamp u = 0.
Proof. intros. unfold clamp. rewrite (Rmax_left 0 u), Rmax_right by lra. lra. Qed.
Lemma clamp_mid u : 0 <= u <= 1 -> clamp u = u.
Proof. intros. unfold clamp. rewrite (Rmax_right 0 u), Rmax_right by lra. lra. Qed.
Lemma clamp_hi u : 1 <= u -> clamp u = 1.
Proof. intros. unfold clamp. rewrite (Rmax_right 0 u), Rmax_left by lra. lra. Qed.
Lemma pwlinE_lo x1 xs y x : x <= x1 -> pwlinE (x1 :: xs) y x = y O.
Proof. intros H. destruct xs; cbn [pwlinE]; auto. destruct (Rle_dec x x1); [reflexivity|lra]. Qed.
Lemma pwlinE_clamp x0 x1 xs y x : x0 < x1 ->
  pwlinE (x0 :: x1 :: xs) y x = y O + clamp ((x - x0) / (x1 - x0)) * (y 1%nat - y O) + (pwlinE (x1 :: xs) (fun i => y (S i)) x - y 1%nat).
Proof.
  intros H. destruct (Rle_dec x x0) as [A|A].
  { rewrite (pwlinE_lo x1 xs) by lra. rewrite pwlinE_lo by auto. rewrite clamp_lo; [lra|].
    apply Rmult_le_reg_r with (x1 - x0); [lra|]. unfold Rdiv. rewrite Rmult_assoc, Rinv_l by lra. lra. }
  destruct (Rlt_dec x x1) as [B|B].
  { rewrite (pwlinE_lo x1 xs) by lra. rewrite clamp_mid.
    - cbn [pwlinE]. destruct (Rle_dec x x0); [lra|]. destruct (Rlt_dec x x1); [lra|lra].
    - split; apply Rmult_le_reg_r with (x1 - x0); try lra; unfold Rdiv; rewrite Rmult_assoc, Rinv_l by lra; lra. }
  rewrite clamp_hi.
  - cbn [pwlinE]. destruct (Rle_dec x x0); [lra|]. destruct (Rlt_dec x x1); [lra|]. lra.
  - apply Rmult_le_reg_r with (x1 - x0); [lra|]. unfold Rdiv. rewrite Rmult_assoc, Rinv_l by lra. lra.
Qed.
Lemma pwlinE_steady xs : forall (y : nat -> R -> R) (x : R -> R) s, increasing xs -> (forall i, continuity_pt (y i) s) ->
  continuity_pt x s -> continuity_pt (fun r => pwlinE xs (fun i => y i r) (x r)) s.
Proof.
  induction xs as [|x0 xs IH]; intros y x s I Y X; [exact (cp_const0 0 s)|].
  destruct xs as [|x1 xs]; [exact (Y O)|].
  assert (L : x0 < x1) by (apply (I 0%nat 1%nat); simpl; lia).
  apply (cp_eq (fun r => y O r + clamp ((x r - x0) / (x1 - x0)) * (y 1%nat r - y O r)
                         + (pwlinE (x1 :: xs) (fun i => y (S i) r) (x r) - y 1%nat r))).
  { intros r. symmetry. now apply (pwlinE_clamp x0 x1 xs (fun i => y i r)). }
  apply cp_plus'; [apply cp_plus'; [apply Y|apply cp_mult'; [|apply cp_minus'; apply Y]]|].
  - unfold clamp. apply cp_minus'; [apply cp_const0|]. apply cp_max. apply cp_minus'; [apply cp_const0|]. apply cp_max.
    unfold Rdiv. apply cp_mult'; [|apply cp_const0]. apply cp_minus'; auto. apply cp_const0.
  - apply cp_minus'; [|apply Y]. apply (IH (fun i => y (S i))); auto. now apply increasing_tl in I.
Qed.
Lemma pwlin_steady xs (ys : R -> list R) (x : R -> R) s : increasing xs -> steady_at ys s -> (forall r, length (ys r) = length xs) ->
  continuity_pt x s -> continuity_pt (fun r => pwlin (combine xs (ys r)) (x r)) s.
Proof.
  intros I [_ Y] L X. apply (cp_eq (fun r => pwlinE xs (fun i => ent (ys r) i) (x r))).
  - intros r. rewrite pwlinE_eq by apply L. reflexivity.
  - now apply (pwlinE_steady xs (fun i r => ent (ys r) i)).
Qed.

(** ** trapezoid *)
Lemma trapE_steady xs : forall (y : nat -> R -> R) s, (forall i, continuity_pt (y i) s) ->
  continuity_pt (fun r => trapE xs (fun i => y i r)) s.
Proof.
  induction xs as [|x0 xs IH]; intros y s Y; [exact (cp_const0 0 s)|].
  destruct xs as [|x1 xs]; [exact (cp_const0 0 s)|].
  cbn [trapE]. apply cp_plus'; [|apply (IH (fun i => y (S i))); auto].
  unfold Rdiv. apply cp_mult'; [|apply cp_const0]. apply cp_mult'; [apply cp_const0|].
  apply cp_plus'; auto.
Qed.
Lemma trapezoid_steady xs (ys : R -> list R) s : steady_at ys s -> (forall r, length (ys r) = length xs) ->
  continuity_pt (fun r => trapezoid xs (ys r)) s.
Proof.
  intros [_ Y] L. apply (cp_eq (fun r => trapE xs (fun i => ent (ys r) i))).
  - intros r. now rewrite trapE_eq by apply L.
  - now apply (trapE_steady xs (fun i r => ent (ys r) i)).
Qed.

(** ** steady vectors: operations *)
Lemma steady_map_seq (f : nat -> R -> R) n s : (forall i, (i < n)%nat -> continuity_pt (f i) s) ->
  steady_at (fun r => map (fun i => f i r) (seq 0 n)) s.
Proof.
  intros H. apply (steady_intro _ n); [intros; now rewrite map_length, seq_length|]. intros i Hi.
  apply (cp_eq (f i)); [|now apply H]. intros r. now rewrite ent_map_seq.
Qed.
Lemma steady_map (g : R -> R) (T : R -> list R) s : steady_at T s ->
  (forall i, (i < length (T s))%nat -> continuity_pt (fun r => g (ent (T r) i)) s) -> steady_at (fun r => map g (T r)) s.
Proof.
  intros S H. pose proof (steady_len T s _ S eq_refl) as L.
  apply (steady_intro _ (length (T s))); [intros; now rewrite map_length|]. intros i Hi.
  apply (cp_eq (fun r => g (ent (T r) i))); [|now apply H]. intros r. rewrite ent_map; auto. now rewrite L.
Qed.
Lemma steady_cons (T : R -> list R) c s : steady_at T s -> steady_at (fun r => c :: T r) s.
Proof.
  intros [[n L] D]. split; [exists (S n); intros; simpl; auto|]. intros [|i]; [exact (cp_const0 c s)|]. apply (D i).
Qed.
Lemma steady_firstn (T : R -> list R) k s : steady_at T s -> steady_at (fun r => firstn k (T r)) s.
Proof.
  intros S. pose proof (steady_len T s _ S eq_refl) as L. destruct S as [_ D].
  apply (steady_intro _ (Nat.min k (length (T s)))); [intros; now rewrite firstn_length, L|]. intros i Hi.
  apply (cp_eq (fun r => ent (T r) i)); auto. intros r. rewrite ent_firstn; auto. lia.
Qed.

(** ** mass formed *)
Lemma cumulative_steady ts (F : R -> list R) s : steady_at F s -> length (F s) = length ts ->
  steady_at (fun r => cumulative_mass ts (F r)) s.
Proof.
  intros S L. pose proof (steady_len F s _ S L) as LL. unfold cumulative_mass. apply steady_map_seq. intros i Hi.
  apply cp_mult'; [apply cp_const0|].
  apply (trapezoid_steady _ (fun r => 1 / 10 ^ 14 :: firstn (Datatypes.S i) (F r))).
  - apply steady_cons, steady_firstn, S.
  - intros r. cbn [length]. rewrite !firstn_length, LL. reflexivity.
Qed.

Lemma floored_steady c (F : R -> list R) s : steady_at F s -> steady_at (fun r => floored c (F r)) s.
Proof. intros S. unfold floored. apply steady_map; auto. intros i Hi. apply cp_max. apply S. Qed.
Lemma log_times_increasing ts : increasing (0.001 :: ts) -> increasing (map log10 ts).
Proof.
  intros I i j H. rewrite map_length in H. rewrite !ent_map by lia. apply log10_lt.
  - apply (times_pos ts I). apply ent_In. lia.
  - specialize (I (S i) (S j)). rewrite !ent_cons_S in I. apply I. simpl. lia.
Qed.
Lemma mass_steady ts (F : R -> list R) (b : R -> R) s :
  steady_at F s -> length ts = length (F s) -> increasing (0.001 :: ts) -> List.Forall (fun x => 0 < x) (F s) ->
  0 < b s -> continuity_pt b s -> continuity_pt (fun r => mass_formed_by ts (F r) (b r)) s.
Proof.
  intros S L I P Pb B. unfold mass_formed_by. apply cp_pow10.
  assert (CS : steady_at (fun r => cumulative_mass ts (F r)) s) by (apply cumulative_steady; auto).
  apply (pwlin_steady (map log10 ts) (fun r => map log10 (cumulative_mass ts (F r))) (fun r => log10 (b r))).
  - now apply log_times_increasing.
  - apply steady_map; auto. intros i Hi. rewrite cumulative_mass_length in Hi. destruct CS as [_ CD].
    apply cp_log10; [apply CD|]. now apply cumulative_pos.
  - intros r. now rewrite !map_length, cumulative_mass_length.
  - now apply cp_log10.
Qed.
Lemma birth_steady (t : R -> R) s e : continuity_pt t s -> continuity_pt (fun r => birth_time (t r) e) s.
Proof. intros T. unfold birth_time. apply cp_max. apply cp_minus'; auto. apply cp_const0. Qed.
Lemma edge_mass_steady ts (F : R -> list R) smin (t : R -> R) e s :
  steady_at F s -> length ts = length (F s) -> increasing (0.001 :: ts) -> 0 < smin ->
  continuity_pt t s -> continuity_pt (fun r => edge_mass ts (F r) smin (t r) e) s.
Proof.
  intros S L I P T. unfold edge_mass.
  apply (mass_steady ts (fun r => floored smin (F r)) (fun r => birth_time (t r) e)); auto.
  - now apply floored_steady.
  - now rewrite floored_length.
  - now apply floored_pos.
  - apply birth_time_pos.
  - now apply birth_steady.
Qed.
Lemma age_w_steady ts (F : R -> list R) smin (t : R -> R) ages s :
  steady_at F s -> length ts = length (F s) -> increasing (0.001 :: ts) -> 0 < smin -> continuity_pt t s ->
  total_mass ts (F s) smin (t s) ages <> 0 -> steady_at (fun r => age_w ts (F r) smin (t r) ages) s.
Proof.
  intros S L I P T N.
  assert (E : forall i, (i <= length ages)%nat -> continuity_pt (fun r => edge_mass ts (F r) smin (t r) (age_edge ages i)) s).
  { intros i Hi. apply edge_mass_steady; auto. }
  apply (steady_intro _ (length ages)); [intros r; unfold age_w; now rewrite map_length, bin_masses_length|]. intros i Hi.
  apply (cp_eq (fun r => (edge_mass ts (F r) smin (t r) (age_edge ages i) - edge_mass ts (F r) smin (t r) (age_edge ages (Datatypes.S i)))
    / total_mass ts (F r) smin (t r) ages)).
  { intros r. unfold age_w. rewrite ent_map by (rewrite bin_masses_length; lia). unfold bin_masses. now rewrite ent_map_seq by lia. }
  apply cp_div'; auto; [apply cp_minus'; apply E; lia|].
  unfold total_mass. apply cp_minus'; apply E; lia.
Qed.
Lemma total_near_c ts (F : R -> list R) smin (t : R -> R) ages s :
  steady_at F s -> length ts = length (F s) -> increasing (0.001 :: ts) -> 0 < smin ->
  continuity_pt t s -> total_mass ts (F s) smin (t s) ages <> 0 ->
  near s (fun r => total_mass ts (F r) smin (t r) ages <> 0).
Proof.
  intros S L I P T N. apply near_locally.
  apply (clocally_neq (fun r => total_mass ts (F r) smin (t r) ages) (fun _ => 0)); auto using cp_const0.
  unfold total_mass. apply cp_minus'; apply edge_mass_steady; auto.
Qed.
Lemma C124_met_lemma : forall (lgmet scatter : R -> R) ssp_lgmet s,
  continuity_pt lgmet s -> continuity_pt scatter s -> 0 < scatter s ->
  (3 <= length ssp_lgmet)%nat -> increasing (met_edges ssp_lgmet) ->
  exists w : R -> list R,
    near s (fun r => calc_lgmet_weights_from_lognormal_mdf (Fin (lgmet r)) (Fin (scatter r)) (fins ssp_lgmet)
                     = Ok (fins (w r)))
    /\ steady_at w s.
Proof.
  intros x h a s X H P Ha Hi. exists (fun r => met_weights (x r) (h r) (met_edges a)). split.
  - apply near_locally. eapply filter_imp; [|exact (clocally_lt (fun _ => 0) h s (cp_const0 _ _) H P)].
    simpl. intros r Hr. apply lognormal_fins; auto. now apply increasing_nondecreasing.
  - apply met_weights_steady; auto. rewrite met_edges_length. lia.
Qed.
Lemma C124_age_lemma : forall ts (sfrs : R -> list R) (t_obs : R -> R) ages sfr_min s,
  steady_at sfrs s -> continuity_pt t_obs s ->
  length ts = length (sfrs s) -> ts <> [] -> increasing (0.001 :: ts) -> 0 < sfr_min -> (3 <= length ages)%nat ->
  (let formed lg_age := mass_formed_by ts (floored sfr_min (sfrs s)) (birth_time (t_obs s) lg_age) in
   formed (age_edge ages 0) <> formed (age_edge ages (length ages))) ->
  exists w : R -> list R,
    near s (fun r => calc_age_weights_from_sfh_table (fins ts) (fins (sfrs r)) (fins ages) (Fin (t_obs r)) (Fin sfr_min)
                     = Ok (fins (w r)))
    /\ steady_at w s.
Proof.
  intros ts F t ages smin s S T L N I P Ha Hf. cbv zeta in Hf.
  assert (Z : total_mass ts (F s) smin (t s) ages <> 0) by (unfold total_mass, edge_mass; lra).
  exists (fun r => age_w ts (F r) smin (t r) ages). split.
  - eapply near_imp; [|apply (total_near_c ts F smin t ages s); eauto]. cbv beta. intros r Hr.
    apply age_w_ok; auto. now rewrite (steady_len F s _ S (eq_sym L)).
  - now apply age_w_steady.
Qed.
Lemma steady2_intro (T : R -> list (list R)) n k s : (forall r, is_matrix n k (T r)) ->
  (forall i j, (i < n)%nat -> (j < k)%nat -> continuity_pt (fun r => ent2 (T r) i j) s) -> steady2_at T s.
Proof.
  intros L D. split; [now exists n, k|]. intros i j.
  destruct (Nat.lt_ge_cases i n) as [Hi|Hi]; [destruct (Nat.lt_ge_cases j k) as [Hj|Hj]; [now apply D|]|].
  - apply (cp_eq (fun _ => 0)); [|apply cp_const0]. intros r. unfold ent2. rewrite ent_out; auto.
    destruct (L r) as [L1 L2]. rewrite Forall_forall in L2. rewrite L2; auto. apply nth_In. lia.
  - apply (cp_eq (fun _ => 0)); [|apply cp_const0]. intros r. unfold ent2. rewrite ent_out; auto.
    destruct (L r) as [L1 L2]. rewrite nth_overflow by lia. simpl; lia.
Qed.
Lemma outer_steady (a b : R -> list R) s : steady_at a s -> steady_at b s -> steady2_at (fun r => outer (a r) (b r)) s.
Proof.
  intros A B. pose proof (steady_len a s _ A eq_refl) as La. pose proof (steady_len b s _ B eq_refl) as Lb.
  apply (steady2_intro _ (length (a s)) (length (b s))).
  - intros r. rewrite <- (La r), <- (Lb r). apply outer_shape.
  - intros i j Hi Hj. apply (cp_eq (fun r => ent (a r) i * ent (b r) j)).
    + intros r. rewrite outer_ent; auto; [now rewrite La|now rewrite Lb].
    + apply cp_mult'; [apply A|apply B].
Qed.
Lemma mix_steady n m (W : R -> list (list R)) (f : R -> list (list (list R))) k s :
  steady2_at W s -> steady3_at f s -> continuity_pt (fun r => template_mix n m (W r) (f r) k) s.
Proof.
  intros [_ DW] [_ DF]. unfold template_mix.
  apply (cp_Rsum (fun i r => Rsum (map (fun j => ent2 (W r) i j * ent3 (f r) i j k) (seq 0 m)))). intros i _.
  apply (cp_Rsum (fun j r => ent2 (W r) i j * ent3 (f r) i j k)). intros j _. apply cp_mult'; auto.
Qed.
Lemma cube_near_c (f : R -> list (list (list R))) n k w s : (0 < n)%nat -> (0 < k)%nat -> steady3_at f s -> is_cube n k w (f s) -> forall r, is_cube n k w (f r).
Proof.
  intros Hn Hk [[n' [k' [w' L]]] _] C r. pose proof (L s) as [A1 A2]. destruct C as [B1 B2]. rewrite A1 in B1. subst n'.
  destruct (f s) as [|p q] eqn:E; [simpl in A1; lia|].
  assert (P : is_matrix k' w' p) by (inversion A2; auto). assert (Q : is_matrix k w p) by (inversion B2; auto).
  destruct P as [P1 P2], Q as [Q1 Q2]. destruct p as [|v p]; [simpl in Q1; lia|].
  assert (V1 : length v = w') by (inversion P2; auto). assert (V2 : length v = w) by (inversion Q2; auto).
  rewrite <- Q1, <- V2, P1, V1. apply L.
Qed.
Lemma C124_sed_lemma : forall ts (sfrs : R -> list R) (lgmet scatter t_obs : R -> R) (flux : R -> list (list (list R)))
    ssp_lgmet ages n_wave sfr_min s,
  steady_at sfrs s -> continuity_pt lgmet s -> continuity_pt scatter s -> continuity_pt t_obs s -> steady3_at flux s ->
  good_grids ts (sfrs s) (scatter s) ssp_lgmet ages (t_obs s) -> increasing (met_edges ssp_lgmet) ->
  0 < t_obs s -> 0 < sfr_min -> is_cube (length ssp_lgmet) (length ages) n_wave (flux s) ->
  exists (sed mw aw : R -> list R) (W : R -> list (list R)),
    near s (fun r =>
      calc_rest_sed_sfh_table_lognormal_mdf (fins ts) (fins (sfrs r)) (Fin (lgmet r)) (Fin (scatter r))
        (fins ssp_lgmet) (fins ages) (fins3 (flux r)) (Fin (t_obs r)) (Fin sfr_min)
      = Ok {| rest_sed := fins (sed r); rs_weights := map fins (W r);
              rs_lgmet_weights := fins (mw r); rs_age_weights := fins (aw r) |})
    /\ steady_at sed s /\ steady2_at W s /\ steady_at mw s /\ steady_at aw s.
Proof.
  intros ts F x h t f lgmets ages w smin s S X H T Fl G Hme Ht Hs Hc.
  destruct G as (Hl & Hn & Hi & Ha & He & Hh & Hlm & Hmn & Hf). cbv zeta in Hf.
  assert (Z : total_mass ts (F s) (1 / 10 ^ 14) (t s) ages <> 0) by (unfold total_mass, edge_mass; lra).
  pose proof (steady_len F s _ S (eq_sym Hl)) as LF.
  set (mw := fun r => met_weights (x r) (h r) (met_edges lgmets)).
  set (aw := fun r => age_w ts (F r) (1 / 10 ^ 14) (t r) ages).
  assert (Smw : steady_at mw s). { apply met_weights_steady; auto. rewrite met_edges_length. lia. }
  assert (Saw : steady_at aw s). { apply age_w_steady; auto using sfr_min_pos. }
  assert (SW : steady2_at (fun r => outer (mw r) (aw r)) s) by now apply outer_steady.
  exists (fun r => map (fun k => template_mix (length lgmets) (length ages) (outer (mw r) (aw r)) (f r) k
                   * mass_formed_by ts (floored smin (F r)) (t r)) (seq 0 w)), mw, aw, (fun r => outer (mw r) (aw r)).
  split; [|split; [|split; [exact SW|split; [exact Smw|exact Saw]]]].
  - pose proof (total_near_c ts F (1 / 10 ^ 14) t ages s S Hl Hi sfr_min_pos T Z) as N1.
    pose proof (near_locally _ _ (clocally_lt (fun _ => 0) h s (cp_const0 _ _) H Hh)) as N2.
    pose proof (near_locally _ _ (clocally_lt (fun _ => 0) t s (cp_const0 _ _) T Ht)) as N3.
    eapply near_imp; [|exact (near_and _ _ _ N1 (near_and _ _ _ N2 N3))]. cbv beta. intros r (R1 & R2 & R3).
    apply (sed_lognormal_explicit ts (F r) (x r) (h r) lgmets ages (f r) w (t r) smin); auto.
    + unfold total_mass, edge_mass in R1. repeat (split; [now auto|]). cbv zeta. lra.
    + apply (cube_near_c f _ _ w s); auto; lia.
  - apply steady_map_seq. intros k Hk. apply cp_mult'; [now apply mix_steady|].
    apply (mass_steady ts (fun r => floored smin (F r)) t); auto.
    + now apply floored_steady.
    + now rewrite floored_length.
    + now apply floored_pos.
Qed.
Lemma lgmet_birth_steady ts (M : R -> list R) (t : R -> R) a s :
  steady_at M s -> length ts = length (M s) -> increasing (0.001 :: ts) -> continuity_pt t s ->
  continuity_pt (fun r => lgmet_at_birth ts (M r) (t r) a) s.
Proof.
  intros S L I T. pose proof (steady_len M s _ S (eq_sym L)) as LM. unfold lgmet_at_birth.
  apply (pwlin_steady (map log10 ts) M (fun r => log10 (birth_time (t r) a))); auto.
  - now apply log_times_increasing.
  - intros r. now rewrite map_length.
  - apply cp_log10; [now apply birth_steady|apply birth_time_pos].
Qed.
Lemma C124_sed_met_lemma : forall ts (sfrs lgmet_table : R -> list R) (scatter t_obs : R -> R)
    (flux : R -> list (list (list R))) ssp_lgmet ages n_wave sfr_min s,
  steady_at sfrs s -> steady_at lgmet_table s -> continuity_pt scatter s -> continuity_pt t_obs s -> steady3_at flux s ->
  good_grids ts (sfrs s) (scatter s) ssp_lgmet ages (t_obs s) -> length ts = length (lgmet_table s) ->
  increasing (met_edges ssp_lgmet) ->
  0 < t_obs s -> 0 < sfr_min -> is_cube (length ssp_lgmet) (length ages) n_wave (flux s) ->
  exists (sed aw : R -> list R) (W M : R -> list (list R)),
    near s (fun r =>
      calc_rest_sed_sfh_table_met_table (fins ts) (fins (sfrs r)) (fins (lgmet_table r)) (Fin (scatter r))
        (fins ssp_lgmet) (fins ages) (fins3 (flux r)) (Fin (t_obs r)) (Fin sfr_min)
      = Ok {| rest_sed := fins (sed r); rs_weights := map fins (W r);
              rs_lgmet_weights := map fins (M r); rs_age_weights := fins (aw r) |})
    /\ steady_at sed s /\ steady2_at W s /\ steady2_at M s /\ steady_at aw s.
Proof.
  intros ts F ms h t f lgmets ages w smin s S X H T Fl G Lm Hme Ht Hs Hc.
  destruct G as (Hl & Hn & Hi & Ha & He & Hh & Hlm & Hmn & Hf). cbv zeta in Hf.
  assert (Z : total_mass ts (F s) (1 / 10 ^ 14) (t s) ages <> 0) by (unfold total_mass, edge_mass; lra).
  pose proof (steady_len F s _ S (eq_sym Hl)) as LF. pose proof (steady_len ms s _ X (eq_sym Lm)) as LM.
  set (aw := fun r => age_w ts (F r) (1 / 10 ^ 14) (t r) ages).
  set (W := fun r => met_joint ts (ms r) (h r) lgmets ages (t r) (aw r)).
  set (M := fun r => met_matrix ts (ms r) (h r) lgmets ages (t r)).
  assert (Saw : steady_at aw s). { apply age_w_steady; auto using sfr_min_pos. }
  assert (Smw : forall j, (j < length ages)%nat ->
    steady_at (fun r => met_weights (lgmet_at_birth ts (ms r) (t r) (ent ages j)) (h r) (met_edges lgmets)) s).
  { intros j Hj. apply (met_weights_steady (fun r => lgmet_at_birth ts (ms r) (t r) (ent ages j)) h); auto.
    - now apply lgmet_birth_steady.
    - rewrite met_edges_length. lia. }
  assert (SW : steady2_at W s).
  { apply (steady2_intro _ (length lgmets) (length ages)); [intros; apply met_joint_shape|]. intros i j H1 H2.
    apply (cp_eq (fun r => ent (met_weights (lgmet_at_birth ts (ms r) (t r) (ent ages j)) (h r) (met_edges lgmets)) i * ent (aw r) j)).
    - intros r. unfold W. now rewrite met_joint_ent.
    - apply cp_mult'; [|apply Saw]. destruct (Smw j H2) as [_ D]. apply (D i). }
  assert (SM : steady2_at M s).
  { apply (steady2_intro _ (length lgmets) (length ages)); [intros; apply met_matrix_shape|]. intros i j H1 H2.
    apply (cp_eq (fun r => ent (met_weights (lgmet_at_birth ts (ms r) (t r) (ent ages j)) (h r) (met_edges lgmets)) i / INR (length ages))).
    - intros r. unfold M. now rewrite met_matrix_ent.
    - unfold Rdiv. apply cp_mult'; [|apply cp_const0]. destruct (Smw j H2) as [_ D]. apply (D i). }
  exists (fun r => map (fun k => template_mix (length lgmets) (length ages) (W r) (f r) k
                   * mass_formed_by ts (floored smin (F r)) (t r)) (seq 0 w)), aw, W, M.
  split; [|split; [|split; [exact SW|split; [exact SM|exact Saw]]]].
  - pose proof (total_near_c ts F (1 / 10 ^ 14) t ages s S Hl Hi sfr_min_pos T Z) as N1.
    pose proof (near_locally _ _ (clocally_lt (fun _ => 0) h s (cp_const0 _ _) H Hh)) as N2.
    pose proof (near_locally _ _ (clocally_lt (fun _ => 0) t s (cp_const0 _ _) T Ht)) as N3.
    eapply near_imp; [|exact (near_and _ _ _ N1 (near_and _ _ _ N2 N3))]. cbv beta. intros r (R1 & R2 & R3).
    apply (sed_met_explicit ts (F r) (ms r) (h r) lgmets ages (f r) w (t r) smin); auto.
    + unfold total_mass, edge_mass in R1. repeat (split; [now auto|]). cbv zeta. lra.
    + apply (cube_near_c f _ _ w s); auto; lia.
  - apply steady_map_seq. intros k Hk. apply cp_mult'; [now apply mix_steady|].
    apply (mass_steady ts (fun r => floored smin (F r)) t); auto.
    + now apply floored_steady.
    + now rewrite floored_length.
    + now apply floored_pos.
Qed.
