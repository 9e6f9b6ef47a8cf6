(** * Gradients with respect to the time of observation *)
From Coq Require Import Reals List Arith Lra Lia ZArith Bool.
From Coquelicot Require Import Coquelicot.
From Flocq Require Import Core.Raux.
From Verif Require Import Num Arr MUtils MSed MCosmo MPhot MGrad MTrace MTrace2 MTrace3 MTrace4 Spec Spec2 SpecGrad RList LUtils LBcast LKern LImf LMet LAge LJoint LPhot LDiff LGrad LGrad2 LGrad3 LGrad4 LGrad5 LGrad6 LGrad7 LGrad8 LGrad9 LGrad13.
Import ListNotations.
Open Scope R_scope.
Local Notation Ts l v := (List.Forall (fun e => T e v) l).
#[local] Strategy 1000 [nmul nadd nsub ndiv nlog10 npow nsqrt nexp].

Section Ev.
Context {AR : Arith}.
Lemma cst_eval (l : list num) v : map (fun e => eval e v) (map Cst l) = l.
Proof. rewrite map_map. cbn [eval]. apply map_id. Qed.
Lemma interp_x_eval x xp fp v : xp <> [] -> length xp = length fp -> eval (interp_x_trace x xp fp) v = interp (eval x v) xp (map (fun e => eval e v) fp).
Proof.
  intros N L. unfold interp_x_trace, interp. rewrite interp_moving_eval.
  - rewrite cst_eval, !entry_eval. unfold first, last_. now rewrite map_length.
  - destruct xp; [contradiction|discriminate].
  - now rewrite map_length.
  - now rewrite cst_eval, map_length.
  - now rewrite cst_eval.
  - now rewrite cst_eval.
Qed.
Lemma lgt_birth_eval t a v : eval (lgt_birth_trace t a) v = get_lgt_birth (eval t v) a.
Proof. reflexivity. Qed.
Lemma bin_mass_t_eval ts sfrs ages t smin v : ts <> [] -> length ts = length sfrs ->
  map (fun e => eval e v) (bin_mass_t_traces ts sfrs ages t smin) = map (fun e => eval e v) (bin_mass_traces ts sfrs ages (eval t v) smin).
Proof.
  intros N L. unfold bin_mass_t_traces, bin_mass_traces. cbv zeta.
  assert (E : map (fun e => eval e v) (map (fun a => Pow10 (interp_x_trace (lgt_birth_trace t a) (map nlog10 ts) (logsm_traces ts sfrs smin))) (get_lg_age_bin_edges_k ages))
    = map (fun e => eval e v) (map (fun x => Pow10 (interp_trace x (map nlog10 ts) (logsm_traces ts sfrs smin))) (map (get_lgt_birth (eval t v)) (get_lg_age_bin_edges_k ages)))).
  { rewrite !map_map. apply map_ext. intros a. cbn [eval]. rewrite interp_x_eval, interp_eval, lgt_birth_eval; auto.
    - destruct ts; [contradiction|discriminate].
    - rewrite logsm_len by auto. apply map_length. }
  revert E. generalize (map (fun a => Pow10 (interp_x_trace (lgt_birth_trace t a) (map nlog10 ts) (logsm_traces ts sfrs smin))) (get_lg_age_bin_edges_k ages)) as l.
  generalize (map (fun x => Pow10 (interp_trace x (map nlog10 ts) (logsm_traces ts sfrs smin))) (map (get_lgt_birth (eval t v)) (get_lg_age_bin_edges_k ages))) as k.
  intros k l E.
  assert (G : forall m : list trace, map (fun e => eval e v) (map Neg (map2 (fun a b => Sub b a) m (tl m))) = map nopp (map2 (fun a b => nsub b a) (map (fun e => eval e v) m) (tl (map (fun e => eval e v) m)))).
  { intros m. rewrite map_map. change (fun x => eval (Neg x) v) with (fun x => nopp (eval x v)). rewrite <- (map_map (fun e => eval e v) nopp), map_map2, <- map_tl, map2_map. reflexivity. }
  now rewrite !G, E.
Qed.
Lemma age_weight_t_eval ts sfrs ages t smin v : ts <> [] -> length ts = length sfrs ->
  map (fun e => eval e v) (age_weight_t_traces ts sfrs ages t smin) = map (fun e => eval e v) (age_weight_traces ts sfrs ages (eval t v) smin).
Proof. intros N L. unfold age_weight_t_traces, age_weight_traces. rewrite !shares_eval. cbv zeta. now rewrite bin_mass_t_eval. Qed.
Lemma mstar_t_eval ts sfrs t smin v : ts <> [] -> length ts = length sfrs -> eval (mstar_t_trace ts sfrs t smin) v = eval (mstar_trace ts sfrs (eval t v) smin) v.
Proof.
  intros N L. unfold mstar_t_trace, mstar_trace. cbn [eval]. rewrite interp_x_eval, interp_eval; [reflexivity| |].
  - destruct ts; [contradiction|discriminate].
  - rewrite logsm_len by auto. apply map_length.
Qed.
Lemma rest_sed_t_eval (ts ages lgmets : list num) t_obs smin sfrs g s flux w v : length ts = length sfrs -> ts <> [] -> (3 <= length ages)%nat -> (3 <= length lgmets)%nat ->
  trace_cube (length lgmets) (length ages) w flux ->
  let aw := age_weight_t_traces ts sfrs ages t_obs SFR_MIN in let mw := lgmet_weight_traces g s (get_bin_edges_k lgmets LGMET_LO LGMET_HI) in let jw := joint_traces mw aw in
  calc_rest_sed_sfh_table_lognormal_mdf ts (map (fun e => eval e v) sfrs) (eval g v) (eval s v) lgmets ages (ev3 v flux) (eval t_obs v) smin
  = Ok {| rest_sed := map (fun e => eval e v) (sed_traces w flux jw (mstar_t_trace ts sfrs t_obs smin));
          rs_weights := ev2 v jw; rs_lgmet_weights := map (fun e => eval e v) mw; rs_age_weights := map (fun e => eval e v) aw |}.
Proof.
  intros L N A M C aw mw jw. rewrite (rest_sed_eval ts ages lgmets (eval t_obs v) smin sfrs g s flux w v L N A M C).
  destruct (ev3_has (length lgmets) (length ages) w flux v ltac:(lia) ltac:(lia) C) as (C1 & C2 & C3).
  assert (EA : map (fun e => eval e v) aw = map (fun e => eval e v) (age_weight_traces ts sfrs ages (eval t_obs v) SFR_MIN)) by (apply age_weight_t_eval; auto).
  assert (EJ : ev2 v jw = ev2 v (joint_traces mw (age_weight_traces ts sfrs ages (eval t_obs v) SFR_MIN))) by (unfold jw; rewrite !joint_eval, EA; reflexivity).
  rewrite !sed_eval by exact C2. fold mw. rewrite EA, EJ, mstar_t_eval by auto. reflexivity.
Qed.
End Ev.

#[local] Existing Instance exact.
Lemma T_interp_x x (xp : list R) fp v y : T x v -> eval x (Fin v) = Fin y -> Ts fp v -> length xp = length fp -> (2 <= length xp)%nat -> increasing xp ->
  List.Forall (fun a => a <> y) xp -> T (interp_x_trace x (fins xp) fp) v.
Proof.
  intros Tx E Tf L Ln I N. unfold interp_x_trace. apply T_interp_moving with (xs := xp).
  - intros w. rewrite cst_eval, map_length. reflexivity.
  - intros w. now rewrite cst_eval.
  - intros w. now rewrite cst_eval.
  - apply T_entry; auto; lia.
  - apply T_entry; auto; lia.
  - exact Tx.
  - apply List.Forall_map. apply List.Forall_map. apply List.Forall_forall. intros r _. ts.
  - exact Tf.
  - rewrite map_length, fins_length. exact L.
  - rewrite map_length, fins_length. exact Ln.
  - apply cst_eval.
  - exact I.
  - apply List.Forall_map. apply List.Forall_map. eapply List.Forall_impl; [|exact N]. intros a Ha. cbn [eval]. rewrite E. now apply neq_fin.
Qed.
Lemma T_lgt_birth t a v tv : T t v -> eval t (Fin v) = Fin tv -> tv - pow10 a <> 0.001 -> T (lgt_birth_trace t (Fin a)) v.
Proof.
  intros X E N. unfold lgt_birth_trace. cbv zeta. rewrite npow10_fin. change T_BIRTH_MIN with (Fin 0.001).
  assert (S : T (Sub t (Cst (Fin (pow10 a)))) v) by ts.
  assert (ES : eval (Sub t (Cst (Fin (pow10 a)))) (Fin v) = Fin (tv - pow10 a)) by (cbn [eval]; now rewrite E, nsub_fin).
  apply T_log10 with (v := birth_time tv a).
  - change (eval (Where ?c ?q ?s ?u) (Fin v)) with (nwhere (c (eval q (Fin v))) (eval s (Fin v)) (eval u (Fin v))). rewrite ES. cbv beta. rewrite nltb_fin. unfold nwhere, birth_time, Rmax.
    destruct (Rlt_bool_spec (tv - pow10 a) 0.001), (Rle_dec 0.001 (tv - pow10 a)); cbn [eval]; f_equal; lra.
  - unfold birth_time. pose proof (Rmax_l 0.001 (tv - pow10 a)). lra.
  - apply T_where_lt; ts. rewrite ES. now apply neq_fin.
Qed.
