(** * Gradients of the metallicity weights and of the burst weights *)
From Coq Require Import Reals List Arith Lra Lia ZArith Bool.
From Coquelicot Require Import Coquelicot.
From Flocq Require Import Core.Raux.
From Verif Require Import Num Arr MUtils MSed MDiffburst MImf MMzr MDust MGrad MTrace Spec Spec2 SpecGrad RList LUtils LKern LImf LMet LBurst LPop LDiff LGrad LGrad2 LGrad3 LGrad4 LGrad5.
Import ListNotations.
Open Scope R_scope.

(** ** evaluation, in every arithmetic *)
Section Ev.
Context {AR : Arith}.
Lemma where_list (c : num -> bool) v : forall hs l, length hs = length l ->
  map (fun e => eval e v) (map2 (fun h w => Where c Arg (Cst h) w) hs l) = nwhere (c v) hs (map (fun e => eval e v) l).
Proof.
  induction hs as [|h hs IH]; intros [|w l] H; try discriminate; cbn [map2 map]; [now destruct (c v)|].
  rewrite IH by (simpl in H; lia). cbn [eval]. now destruct (c v).
Qed.
Lemma one_hot_len n k : length (one_hot n k) = n. Proof. unfold one_hot. now rewrite map_length, seq_length. Qed.
Lemma hist_traces_eval x sig edges v : map (fun e => eval e v) (hist_traces x sig edges) = triweighted_histogram (eval x v) (eval sig v) edges.
Proof. unfold hist_traces, triweighted_histogram. rewrite map_map2. reflexivity. Qed.
Lemma hist_traces_len x sig edges : length (hist_traces x sig edges) = (length edges - 1)%nat.
Proof. unfold hist_traces. rewrite map2_length. destruct edges; cbn [tl length]; lia. Qed.
Lemma normalized_eval l v : map (fun e => eval e v) (normalized_traces l)
  = let ws := map (fun e => eval e v) l in let s := vsum ws in let s := nwhere (s =? Fin 0)%num (Fin 1) s in map (fun w => (w / s)%num) ws.
Proof. unfold normalized_traces. rewrite !map_map. reflexivity. Qed.
Lemma normalized_len l : length (normalized_traces l) = length l. Proof. unfold normalized_traces. now rewrite map_length. Qed.
Lemma forallb_map' {A B} (f : A -> B) p l : forallb p (map f l) = forallb (fun a => p (f a)) l.
Proof. induction l; simpl; congruence. Qed.
Lemma filled_eval x edges l v : length l = (length edges - 1)%nat ->
  map (fun e => eval e v) (filled_traces x edges l) = fill_empty_weights_singlepoint (eval x v) edges (map (fun e => eval e v) l).
Proof.
  intros H. unfold filled_traces, fill_empty_weights_singlepoint. rewrite where_list.
  - rewrite where_list by (rewrite one_hot_len; auto). rewrite !forallb_map'. reflexivity.
  - rewrite map2_length, !one_hot_len. lia.
Qed.
Lemma lgmet_traces_eval x sig edges v : map (fun e => eval e v) (lgmet_weight_traces x sig edges) = get_lgmet_weights_singlegal (eval x v) (eval sig v) edges.
Proof. unfold lgmet_weight_traces. rewrite filled_eval by (rewrite normalized_len; apply hist_traces_len). rewrite normalized_eval, hist_traces_eval. reflexivity. Qed.
Lemma pureburst_eval lgyr peak mx v : map (fun e => eval e v) (pureburst_traces lgyr peak mx) = pureburst_age_weights_from_params (map (fun e => eval e v) lgyr) (eval peak v) (eval mx v).
Proof. unfold pureburst_traces, zero_safe_traces, pureburst_raw_traces, pureburst_age_weights_from_params, zero_safe_normalize. rewrite !map_map. cbn [eval]. rewrite !map_map. reflexivity. Qed.
Lemma bursty_eval fb peak mx smooth ages v : length smooth = length ages ->
  calc_bursty_age_weights {| lgfburst := eval fb v; lgyr_peak := eval peak v; lgyr_max := eval mx v |} (map (fun e => eval e v) smooth) (map (fun e => eval e v) ages)
  = Ok (map (fun e => eval e v) (bursty_traces fb peak mx smooth ages)).
Proof.
  intros H. unfold calc_bursty_age_weights, bmap2. cbn [lgfburst lgyr_peak lgyr_max].
  rewrite map_map. assert (E := pureburst_eval (map (fun x => Add x (Cst (Fin 9))) ages) peak mx v). rewrite map_map in E. cbn [eval] in E. rewrite <- E.
  assert (L : same_len (map (fun e => eval e v) (pureburst_traces (map (fun x => Add x (Cst (Fin 9))) ages) peak mx)) (map (fun e => eval e v) smooth) = true).
  { unfold same_len. rewrite !map_length. unfold pureburst_traces, zero_safe_traces, pureburst_raw_traces. rewrite !map_length. apply Nat.eqb_eq. auto. }
  rewrite L. unfold bursty_traces. rewrite map_map2, map2_map. reflexivity.
Qed.
End Ev.
#[local] Existing Instance exact.

(** ** metallicity weights *)
Lemma Forall_map2 {A B C} (P : C -> Prop) (f : A -> B -> C) : forall l l', (forall a b, In a l -> In b l' -> P (f a b)) -> List.Forall P (map2 f l l').
Proof. induction l as [|a l IH]; intros [|b l'] H; cbn [map2]; constructor; [apply H; left; auto|]. apply IH. intros. apply H; right; auto. Qed.
Lemma T_hists x sig (edges : list R) v : eval sig (Fin v) <> Fin 0 -> T x v -> T sig v -> List.Forall (fun e => T e v) (hist_traces x sig (fins edges)).
Proof.
  intros N X S. unfold hist_traces. apply Forall_map2. intros a b A B. unfold fins in A, B. assert (B' : In b (map Fin edges)) by (destruct edges; [exact B|right; exact B]).
  apply in_map_iff in A as (ra & <- & _), B' as (rb & <- & _). apply T_hist; ts.
Qed.
Lemma T_locally_nonzero e x : T e x -> eval e (Fin x) <> Fin 0 -> locally x (fun y => neqb (eval e (Fin y)) (Fin 0) = false).
Proof.
  intros (f & d & _ & E & D) N. assert (Nz : f x <> 0) by (intros Z; apply N; rewrite (ev_at _ _ _ E); now f_equal).
  assert (Q : locally x (fun y => f y <> 0)) by (apply (cont_near f x (fun z => z <> 0)); [eapply der_cont; exact D|apply open_neq|auto]).
  apply (loc2 _ _ _ x E Q). intros y -> Ny. rewrite neqb_fin. now apply Req_bool_false.
Qed.
Lemma T_filled x edges l v e0 : T x v -> List.Forall (fun e => T e v) l -> In e0 l -> eval e0 (Fin v) <> Fin 0 ->
  List.Forall (fun e => T e v) (filled_traces x edges l).
Proof.
  intros X F I N. unfold filled_traces. assert (T0 : T e0 v) by (eapply List.Forall_forall in F; eauto).
  assert (Z : locally v (fun y => forallb (fun w => (eval w (Fin y) =? Fin 0)%num) l = false)).
  { generalize (T_locally_nonzero _ _ T0 N). apply filter_imp. intros y Hy. destruct (forallb _ l) eqn:Q; auto. rewrite forallb_forall in Q. rewrite (Q _ I) in Hy. discriminate. }
  assert (OH : forall n k h, In h (one_hot n k) -> exists r, h = Fin r). { intros n k h H. unfold one_hot in H. apply in_map_iff in H as (i & <- & _). destruct (i =? k)%nat; eauto. }
  assert (G : forall (g : num -> bool) hs m, (forall h, In h hs -> exists r, h = Fin r) -> List.Forall (fun e => T e v) m ->
    List.Forall (fun e => T e v) (map2 (fun h w => Where (fun y => (forallb (fun w => (eval w y =? Fin 0)%num) l && g y)%bool) Arg (Cst h) w) hs m)).
  { intros g hs m Hh Hm. apply Forall_map2. intros h w Ih Iw. apply (T_where _ _ _ _ _ false).
    - revert Z. apply filter_imp. intros y Hy. cbn [eval]. now rewrite Hy.
    - destruct (Hh _ Ih) as [r ->]. ts.
    - eapply List.Forall_forall in Hm; eauto. }
  apply G; [intros; eapply OH; eauto|]. apply G; [intros; eapply OH; eauto|exact F].
Qed.
Lemma sum_nonzero_entry l v : List.Forall (fun e => T e v) l -> eval (Sum l) (Fin v) <> Fin 0 -> exists e, In e l /\ eval e (Fin v) <> Fin 0.
Proof.
  intros F N. destruct (Exists_dec (fun e => eval e (Fin v) <> Fin 0) l) as [Q|Q].
  - intros e. destruct (eval e (Fin v)) as [r| | |]; try (left; discriminate). destruct (Req_EM_T r 0) as [->|H]; [right; auto|left; intros Z; injection Z; auto].
  - apply Exists_exists in Q. exact Q.
  - exfalso. apply N. cbn [eval]. assert (E : map (fun a => eval a (Fin v)) l = fins (map (fun _ => 0) l)).
    { unfold fins. rewrite map_map. apply map_ext_in. intros e I. destruct (eval e (Fin v)) as [r| | |] eqn:E.
      2-4: exfalso; eapply List.Forall_forall in F; eauto; destruct (T_val _ _ F) as [r R]; congruence.
      destruct (Req_EM_T r 0) as [->|H]; auto. exfalso. apply Q. apply Exists_exists. exists e. split; auto. rewrite E. intros Z. injection Z. auto. }
    rewrite E, vsum_fins. f_equal. clear. induction l; simpl; lra.
Qed.
Lemma T_normalized l v : List.Forall (fun e => T e v) l -> eval (Sum l) (Fin v) <> Fin 0 ->
  List.Forall (fun e => T e v) (normalized_traces l) /\ exists e, In e (normalized_traces l) /\ eval e (Fin v) <> Fin 0.
Proof.
  intros F N. pose proof (T_sum _ _ F) as S. set (s := Where (fun v => (v =? Fin 0)%num) (Sum l) (Cst (Fin 1)) (Sum l)).
  assert (Ts : T s v) by (apply T_where_eq; ts). destruct (T_val _ _ S) as [r Er].
  assert (r <> 0) by (intros ->; auto). assert (Es : eval s (Fin v) = Fin r) by (unfold s; change (nwhere (eval (Sum l) (Fin v) =? Fin 0)%num (Fin 1) (eval (Sum l) (Fin v)) = Fin r); rewrite Er, neqb_fin, Req_bool_false by auto; reflexivity).
  split.
  - unfold normalized_traces. apply List.Forall_map. eapply List.Forall_impl; [|exact F]. intros e Te. apply T_div; auto. fold s. rewrite Es. now apply neq_fin.
  - destruct (sum_nonzero_entry _ _ F N) as (e & I & Ne). exists (Div e s). split; [unfold normalized_traces; fold s; now apply (in_map (fun w => Div w s))|].
    cbn [eval]. rewrite Es. eapply List.Forall_forall in F; eauto. destruct (T_val _ _ F) as [q Eq]. rewrite Eq in *. rewrite ndiv_fin by auto. apply neq_fin.
    assert (q <> 0) by (intros ->; auto). unfold Rdiv. apply Rmult_integral_contrapositive_currified; auto. now apply Rinv_neq_0_compat.
Qed.
Lemma C162_lemma : forall lgmet scatter ssp_lgmet v m s,
  right_gradient lgmet v -> right_gradient scatter v -> eval lgmet (Fin v) = Fin m -> eval scatter (Fin v) = Fin s ->
  (3 <= length ssp_lgmet)%nat -> -10 <= m <= 10 -> 0 < s ->
  (forall (AR : Arith) w, calc_lgmet_weights_from_lognormal_mdf (eval lgmet w) (eval scatter w) (fins ssp_lgmet)
     = Ok (map (fun e => eval (AR := AR) e w) (lgmet_weight_traces (AR := AR) lgmet scatter (get_bin_edges_k (fins ssp_lgmet) LGMET_LO LGMET_HI))))
  /\ right_gradients (lgmet_weight_traces lgmet scatter (get_bin_edges_k (fins ssp_lgmet) LGMET_LO LGMET_HI)) v.
Proof.
  intros lgmet scatter a v m s G S Em Es Ha Hm Hs. toT. split.
  - intros AR w. unfold calc_lgmet_weights_from_lognormal_mdf, check_templates, check. rewrite fins_length. destruct (Nat.leb_spec 3 (length a)); [|lia]. rewrite lgmet_traces_eval. reflexivity.
  - rewrite lgmet_edges_k by auto. unfold right_gradients.
    enough (F : List.Forall (fun e => T e v) (lgmet_weight_traces lgmet scatter (fins (met_edges a)))) by (eapply List.Forall_impl; [|exact F]; intros; now apply T_right).
    assert (Ns : eval scatter (Fin v) <> Fin 0) by (rewrite Es; apply neq_fin; lra).
    pose proof (T_hists lgmet scatter (met_edges a) v Ns G S) as H.
    assert (N : eval (Sum (hist_traces lgmet scatter (fins (met_edges a)))) (Fin v) <> Fin 0).
    { change (vsum (map (fun e => eval e (Fin v)) (hist_traces lgmet scatter (fins (met_edges a)))) <> Fin 0). rewrite hist_traces_eval, Em, Es, tw_hist_fins, vsum_fins by lra. apply neq_fin.
      destruct (met_edges_facts a Ha) as [H1 [H2 H3]]. pose proof (hist_sum_pos_in m s (met_edges a) Hs H1 H3) as Q. rewrite met_edges_first, met_edges_last in Q by lia. specialize (Q Hm). unfold hist_sum in Q. lra. }
    destruct (T_normalized _ _ H N) as (F & e & I & Ne). unfold lgmet_weight_traces. eapply T_filled; eauto.
Qed.

(** ** burst weights *)
Definition fv (n : num) : R := match n with Fin r => r | _ => 0 end.
Lemma C163_lemma : forall lgfb peak mx smooth ages v p m,
  right_gradient lgfb v -> right_gradient peak v -> right_gradient mx v -> right_gradients smooth v -> right_gradients ages v ->
  length smooth = length ages -> eval peak (Fin v) = Fin p -> eval mx (Fin v) = Fin m -> p < m ->
  (exists age a, In age ages /\ eval age (Fin v) = Fin a /\ Rabs (a + 9 - p) < m - p) ->
  (forall (AR : Arith) w, calc_bursty_age_weights {| lgfburst := eval lgfb w; lgyr_peak := eval peak w; lgyr_max := eval mx w |}
       (map (fun e => eval e w) smooth) (map (fun e => eval e w) ages)
     = Ok (map (fun e => eval (AR := AR) e w) (bursty_traces (AR := AR) lgfb peak mx smooth ages)))
  /\ right_gradients (bursty_traces lgfb peak mx smooth ages) v.
Proof.
  intros lgfb peak mx smooth ages v p m B P M S A L Ep Em Hpm (age & a & Ia & Ea & Ha). split; [intros; now apply bursty_eval|]. toT.
  assert (SF : List.Forall (fun e => T e v) smooth) by (eapply List.Forall_impl; [|exact S]; intros; now apply T_right).
  assert (AF : List.Forall (fun e => T e v) ages) by (eapply List.Forall_impl; [|exact A]; intros; now apply T_right).
  unfold right_gradients. enough (F : List.Forall (fun e => T e v) (bursty_traces lgfb peak mx smooth ages)) by (eapply List.Forall_impl; [|exact F]; intros; now apply T_right).
  set (lgyr := map (fun x => Add x (Cst (Fin 9))) ages). assert (LF : List.Forall (fun e => T e v) lgyr) by (apply List.Forall_map; eapply List.Forall_impl; [|exact AF]; intros; ts).
  set (lmin := Sub peak (Sub mx peak)). set (x0 := Mul (Cst (lit 0.5)) (Add lmin mx)). set (h := Div (Sub mx lmin) (Cst (Fin 6))).
  assert (Tm : T lmin v) by (unfold lmin; ts). assert (Tx : T x0 v) by (unfold x0; ts). assert (Th : T h v) by (unfold h; apply T_div; ts; apply neq_fin; lra).
  assert (Ex : eval x0 (Fin v) = Fin p) by (unfold x0, lmin; cbn [eval]; rewrite Ep, Em; change (lit 0.5) with (Fin 0.5); rewrite !nsub_fin, nadd_fin, nmul_fin; f_equal; lra).
  assert (Eh : eval h (Fin v) = Fin ((m - p) / 3)) by (unfold h, lmin; cbn [eval]; rewrite Ep, Em, !nsub_fin, ndiv_fin by lra; f_equal; lra).
  assert (Nh : eval h (Fin v) <> Fin 0) by (rewrite Eh; apply neq_fin; lra).
  assert (RF : List.Forall (fun e => T e v) (pureburst_raw_traces lgyr peak mx)) by (unfold pureburst_raw_traces; apply List.Forall_map; eapply List.Forall_impl; [|exact LF]; intros e Te; now apply T_gauss).
  assert (Tsum := T_sum _ _ RF).
  assert (Nsum : eval (Sum (pureburst_raw_traces lgyr peak mx)) (Fin v) <> Fin 0).
  { assert (EV : exists ls, map (fun e => eval e (Fin v)) lgyr = fins ls /\ In (a + 9) ls).
    { exists (map (fun e => fv (eval e (Fin v))) lgyr). split.
      - unfold fins. rewrite map_map. apply map_ext_in. intros e Ie. eapply List.Forall_forall in LF; eauto. destruct (T_val _ _ LF) as [r ->]. reflexivity.
      - apply in_map_iff. exists (Add age (Cst (Fin 9))). split; [cbn [eval]; now rewrite Ea, nadd_fin|]. unfold lgyr. now apply (in_map (fun x => Add x (Cst (Fin 9)))). }
    destruct EV as (ls & El & Il).
    change (vsum (map (fun e => eval e (Fin v)) (pureburst_raw_traces lgyr peak mx)) <> Fin 0).
    replace (map (fun e => eval e (Fin v)) (pureburst_raw_traces lgyr peak mx)) with (fins (map (burst_raw p m) ls)).
    - rewrite vsum_fins. apply neq_fin. assert (NN : List.Forall (fun r => 0 <= r) (map (burst_raw p m) ls)) by (apply List.Forall_map; apply List.Forall_forall; intros; now apply burst_raw_nonneg).
      pose proof (Rsum_ge_elt _ _ NN (in_map (burst_raw p m) _ _ Il)) as Q. assert (0 < burst_raw p m (a + 9)); [|lra].
      unfold burst_raw. apply Rdiv_lt_0_compat; [|lra]. apply tw_density_in. apply Rabs_def2 in Ha. assert (E3 : (a + 9 - p) / ((m - p) / 3) = 3 * (a + 9 - p) / (m - p)) by (field; lra). rewrite E3. split; [apply Rlt_div_r|apply Rlt_div_l]; lra.
    - unfold pureburst_raw_traces. rewrite map_map. transitivity (map (fun r => triweight_gaussian r (Fin p) (Fin ((m - p) / 3))) (fins ls)).
      + unfold fins. rewrite !map_map. apply map_ext. intros r. unfold burst_raw. rewrite triweight_gaussian_fin by lra. reflexivity.
      + rewrite <- El, map_map. apply map_ext. intros e. rewrite gauss_eval. fold lmin x0 h. now rewrite Ex, Eh. }
  set (s := Where (fun w => (w <=? Fin 0)%num) (Sum (pureburst_raw_traces lgyr peak mx)) (Cst (Fin 1)) (Sum (pureburst_raw_traces lgyr peak mx))).
  assert (Ts : T s v) by (apply T_where_le; ts). assert (Ns : eval s (Fin v) <> Fin 0).
  { unfold s. cbn [eval]. change (eval (Sum (pureburst_raw_traces lgyr peak mx)) (Fin v)) with (vsum (map (fun e => eval e (Fin v)) (pureburst_raw_traces lgyr peak mx))) in Nsum. destruct (_ <=? _)%num; cbn [nwhere]; auto. apply neq_fin. lra. }
  unfold bursty_traces. fold lgyr. apply Forall_map2. intros b w Ib Iw. rewrite List.Forall_forall in SF. specialize (SF w Iw).
  assert (Tb : T b v); [|ts]. unfold pureburst_traces, zero_safe_traces in Ib. fold s in Ib. apply in_map_iff in Ib as (r & <- & Ir). apply T_div; auto. rewrite List.Forall_forall in RF. auto.
Qed.
Lemma C163_unbounded_lemma : forall u_peak u_max u_fb v,
  right_gradient u_peak v -> right_gradient u_max v -> right_gradient u_fb v ->
  (forall (AR : Arith) w, get_params_from_u_params {| u_lgfburst := eval u_fb w; u_lgyr_peak := eval u_peak w; u_lgyr_max := eval u_max w |}
     = {| lgfburst := eval (AR := AR) (lgfburst_trace (AR := AR) u_fb) w; lgyr_peak := eval (AR := AR) (lgyr_peak_trace (AR := AR) u_peak) w;
          lgyr_max := eval (AR := AR) (lgyr_max_trace (AR := AR) (lgyr_peak_trace (AR := AR) u_peak) u_max) w |})
  /\ right_gradient (lgfburst_trace u_fb) v /\ right_gradient (lgyr_peak_trace u_peak) v
  /\ right_gradient (lgyr_max_trace (lgyr_peak_trace u_peak) u_max) v.
Proof.
  intros up um uf v P M F. split; [reflexivity|]. toT. assert (T (lgyr_peak_trace up) v) by (unfold lgyr_peak_trace; apply T_sigmoid; ts).
  split; [|split]; toT; auto; [unfold lgfburst_trace|unfold lgyr_max_trace]; apply T_sigmoid; ts.
Qed.

(** ** scatter 0: finite weights, but every gradient is NaN *)
Lemma tw_back_zero_width x m c : x <> m -> back (tw_trace Arg (Cst (Fin m)) (Cst (Fin 0))) (Fin x) (Fin c) = NaN.
Proof.
  intros N. assert (Z : ndiv (nsub (Fin x) (Fin m)) (Fin 0) = if Rlt_bool m x then PInf else NInf).
  { rewrite nsub_fin. unfold ndiv. rewrite Req_bool_true by auto. destruct (Rlt_bool_spec m x); [rewrite Rlt_bool_true by lra|rewrite Rlt_bool_false, Rlt_bool_true by lra]; reflexivity. }
  unfold tw_trace. set (z := Div (Sub Arg (Cst (Fin m))) (Cst (Fin 0))).
  assert (P : back (tw_poly_trace z) (Fin x) (Fin 0) = NaN) by (apply (poly_back_nan z _ (if Rlt_bool m x then PInf else NInf)); [exact Z|destruct (Rlt_bool m x); auto|reflexivity|reflexivity]).
  unfold tw_of. cbn [back]. replace (eval z (Fin x)) with (if Rlt_bool m x then PInf else NInf) by (symmetry; exact Z).
  change (depends (Cst (Fin 1))) with false. change (depends (Cst (Fin 0))) with false. change (depends (tw_poly_trace z)) with true. change (depends (Where (fun v : num => (v <? Fin (-3))%num) z (Cst (Fin 0)) (tw_poly_trace z))) with true. cbn [both].
  destruct (Rlt_bool m x); cbn [ngtb nltb nwhere]; exact P.
Qed.
Lemma both_nan d g : both true d NaN g = NaN. Proof. destruct d; reflexivity. Qed.
Lemma In_tl {A} (a : A) l : In a (tl l) -> In a l. Proof. destruct l; simpl; auto. Qed.
Lemma In_map2 {A B C} (f : A -> B -> C) c : forall l l', In c (map2 f l l') -> exists a b, In a l /\ In b l' /\ c = f a b.
Proof. induction l as [|a l IH]; intros [|b l'] H; cbn [map2] in H; try contradiction. destruct H as [<-|H]; [exists a, b; simpl; auto|]. destruct (IH _ H) as (a' & b' & ? & ? & ?). exists a', b'; simpl; auto. Qed.
Lemma C162_zero_scatter_lemma : forall m ssp_lgmet, (3 <= length ssp_lgmet)%nat -> ~ In m (met_edges ssp_lgmet) ->
  (exists ws, calc_lgmet_weights_from_lognormal_mdf (Fin m) (Fin 0) (fins ssp_lgmet) = Ok (fins ws))
  /\ List.Forall (fun e => grad e (Fin m) = NaN) (lgmet_weight_traces Arg (Cst (Fin 0)) (get_bin_edges_k (fins ssp_lgmet) LGMET_LO LGMET_HI)).
Proof.
  intros m a Ha Hm. rewrite lgmet_edges_k by auto. set (edges := met_edges a) in *. set (hs := hist_traces Arg (Cst (Fin 0)) (fins edges)).
  assert (HB : forall e, In e hs -> depends e = true /\ (forall c, back e (Fin m) (Fin c) = NaN) /\ exists r, eval e (Fin m) = Fin r).
  { intros e He. unfold hs, hist_traces in He. apply In_map2 in He as (lo & hi & Il & Ih & ->). apply In_tl in Ih. unfold fins in Il, Ih. apply in_map_iff in Il as (l & <- & Il), Ih as (h & <- & Ih).
    assert (m <> l) by (intros ->; auto). assert (m <> h) by (intros ->; auto). split; [reflexivity|]. split.
    - intros c. unfold hist_kernel_trace. cbn [back]. rewrite (tw_back_zero_width m l) by auto. change (depends (tw_trace Arg (Cst (Fin l)) (Cst (Fin 0)))) with true. apply both_nan.
    - destruct (C159_zero_width_lemma m l) as [E1 _]; auto. destruct (C159_zero_width_lemma m h) as [E2 _]; auto.
      change (exists r, nsub (tw_cuml_kern (Fin m) (Fin l) (Fin 0)) (tw_cuml_kern (Fin m) (Fin h) (Fin 0)) = Fin r). rewrite E1, E2, nsub_fin. eauto. }
  set (s := Where (fun v => (v =? Fin 0)%num) (Sum hs) (Cst (Fin 1)) (Sum hs)).
  assert (Es : exists r, eval s (Fin m) = Fin r /\ r <> 0).
  { assert (E : map (fun e => eval e (Fin m)) hs = fins (map (fun e => fv (eval e (Fin m))) hs)).
    { unfold fins. rewrite map_map. apply map_ext_in. intros e He. destruct (HB e He) as (_ & _ & r & ->). reflexivity. }
    change (exists r, nwhere (vsum (map (fun e => eval e (Fin m)) hs) =? Fin 0)%num (Fin 1) (vsum (map (fun e => eval e (Fin m)) hs)) = Fin r /\ r <> 0).
    rewrite E, vsum_fins, neqb_fin. destruct (Req_bool_spec (Rsum (map (fun e => fv (eval e (Fin m))) hs)) 0); cbn [nwhere]; eexists; split; eauto; lra. }
  destruct Es as (sg & Es & Ns).
  assert (NB : forall e, In e (normalized_traces hs) -> depends e = true /\ (forall c, back e (Fin m) (Fin c) = NaN) /\ exists r, eval e (Fin m) = Fin r).
  { intros e He. unfold normalized_traces in He. fold s in He. apply in_map_iff in He as (w & <- & Iw). destruct (HB w Iw) as (D & B & r & E). split; [cbn [depends]; now rewrite D|]. split.
    - intros c. cbn [back]. rewrite D, Es, ndiv_fin, B by auto. apply both_nan.
    - cbn [eval]. rewrite E, Es, ndiv_fin by auto. eauto. }
  assert (OH : forall n k h, In h (one_hot n k) -> exists r, h = Fin r). { intros n k h H. unfold one_hot in H. apply in_map_iff in H as (i & <- & _). destruct (i =? k)%nat; eauto. }
  assert (WB : forall (c : num -> bool) hot l, (forall h, In h hot -> exists r, h = Fin r) -> (forall e, In e l -> depends e = true /\ (forall c, back e (Fin m) (Fin c) = NaN) /\ exists r, eval e (Fin m) = Fin r) ->
    forall e, In e (map2 (fun h w => Where c Arg (Cst h) w) hot l) -> depends e = true /\ (forall c, back e (Fin m) (Fin c) = NaN) /\ exists r, eval e (Fin m) = Fin r).
  { intros c hot l Hh Hl e He. apply In_map2 in He as (h & w & Ih & Iw & ->). destruct (Hh h Ih) as [rh ->]. destruct (Hl w Iw) as (D & B & r & E). split; [cbn [depends]; now rewrite D|]. split.
    - intros ct. cbn [back]. rewrite D. cbn [depends both]. destruct (c _); cbn [nwhere]; apply B.
    - cbn [eval]. destruct (c _); cbn [nwhere]; eauto. }
  assert (FB : forall e, In e (lgmet_weight_traces Arg (Cst (Fin 0)) (fins edges)) -> depends e = true /\ (forall c, back e (Fin m) (Fin c) = NaN) /\ exists r, eval e (Fin m) = Fin r).
  { unfold lgmet_weight_traces, filled_traces. apply WB; [intros; eapply OH; eauto|]. apply WB; [intros; eapply OH; eauto|exact NB]. }
  split.
  - exists (map (fun e => fv (eval e (Fin m))) (lgmet_weight_traces Arg (Cst (Fin 0)) (fins edges))). rewrite lognormal_ok by auto. f_equal. fold edges.
    pose proof (lgmet_traces_eval Arg (Cst (Fin 0)) (fins edges) (Fin m)) as E. cbn [eval] in E. rewrite <- E. match goal with |- ?l = fins (map ?f ?k) => transitivity (map (fun x => Fin (f x)) k); [|unfold fins; now rewrite map_map] end. apply map_ext_in. intros e He. destruct (FB e He) as (_ & _ & r & Er). now rewrite Er.
  - apply List.Forall_forall. intros e He. destruct (FB e He) as (D & B & _). unfold grad. now rewrite D.
Qed.
