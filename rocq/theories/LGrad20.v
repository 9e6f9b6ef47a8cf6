(** * Lemmas for C172: gradients from redshift, cosmology and a metallicity history to the magnitude of a galaxy *)
From Coq Require Import Reals List Arith Bool Lra Lia.
From Coquelicot Require Import Coquelicot.
From Flocq Require Import Core.Raux.
From Verif Require Import Num Arr MUtils MSed MDust MCosmo MPhot MGrad MTrace MTrace2 MTrace3 MTrace4 MTrace5 Spec Spec2 SpecGrad RList LUtils
  LAge LJoint LPhot LCosmo LCosmo2 LDiff5 LGrad2 LGrad4 LGrad5 LGrad6 LGrad8 LGrad9 LGrad11 LGrad12 LGrad13 LGrad14 LGrad15 LGrad16 LGrad17 LGrad19 Demo Demo2 Demo3 Demo4.
Import ListNotations.
Open Scope R_scope.
#[local] Existing Instance exact.
#[local] Strategy 1000 [nmul nadd nsub ndiv nlog10 npow nsqrt nexp].

Lemma C172_lemma : forall ts sfrs lgmet_table scatter ssp_lgmet ages flux sfr_min ws wf tf z Om0 w0 wa h v ss ms sc tv zv Omv w0v wav hv,
  right_gradients sfrs v -> right_gradients lgmet_table v -> right_gradient scatter v -> List.Forall (List.Forall (fun s => right_gradients s v)) flux ->
  right_gradient z v -> right_gradient Om0 v -> right_gradient w0 v -> right_gradient wa v -> right_gradient h v ->
  map (fun e => eval e (Fin v)) sfrs = fins ss -> map (fun e => eval e (Fin v)) lgmet_table = fins ms -> eval scatter (Fin v) = Fin sc ->
  eval z (Fin v) = Fin zv -> eval Om0 (Fin v) = Fin Omv -> eval w0 (Fin v) = Fin w0v -> eval wa (Fin v) = Fin wav -> eval h (Fin v) = Fin hv ->
  age_at_z (Scalar (Fin zv)) (Fin Omv) (Fin w0v) (Fin wav) (Fin hv) = [Fin tv] ->
  good_grids ts ss sc ssp_lgmet ages tv -> length ts = length ms -> (2 <= length ts)%nat -> 0 < tv -> 0 < sfr_min -> List.Forall (fun m => -10 <= m <= 10) ms ->
  avoids sfr_min ss -> avoids (1 / 10 ^ 14) ss ->
  avoids tv ts -> (forall lg_age, In lg_age (age_edges ages ++ ages) -> avoids (tv - pow10 lg_age) (0.001 :: ts)) ->
  length flux = length ssp_lgmet -> List.Forall (is_matrix (length ages) (length ws)) flux ->
  increasing ws -> (2 <= length ws)%nat -> good_filter wf tf -> 0 < zv -> 0 < Omv <= 1 -> 0 < hv ->
  (forall x w, In x wf -> In w ws -> x <> w * (1 + zv)) ->
  (forall sed, calc_rest_sed_sfh_table_met_table (fins ts) (fins ss) (fins ms) (Fin sc)
        (fins ssp_lgmet) (fins ages) (map (map (map (fun e => eval e (Fin v)))) flux) (Fin tv) (Fin sfr_min) = Ok sed ->
     exists l, rest_sed sed = fins l /\ 0 < band_flux (fun x => spectrum_at ws l (x / (1 + zv))) wf tf) ->
  let mag (AR : Arith) :=
    let t_obs := age_trace (AR := AR) z Om0 w0 wa h in
    obs_mag_z_trace (AR := AR) (fins ws)
      (sed_traces (length ws) flux
         (joint_table_traces (lgmet_matrix_t_traces (AR := AR) (fins ts) lgmet_table scatter (fins ssp_lgmet) (fins ages) t_obs)
            (age_weight_t_traces (AR := AR) (fins ts) sfrs (fins ages) t_obs SFR_MIN))
         (mstar_t_trace (AR := AR) (fins ts) sfrs t_obs (Fin sfr_min)))
      (fins wf) (fins tf) z Om0 w0 wa h in
  (forall (AR : Arith) x, let E e := eval (AR := AR) e x in exists t sed,
     age_at_z (Scalar (E z)) (E Om0) (E w0) (E wa) (E h) = [t]
     /\ calc_rest_sed_sfh_table_met_table (fins ts) (map E sfrs) (map E lgmet_table) (E scatter)
       (fins ssp_lgmet) (fins ages) (map (map (map E)) flux) t (Fin sfr_min) = Ok sed
     /\ calc_obs_mag (fins ws) (rest_sed sed) (fins wf) (fins tf) (E z) (E Om0) (E w0) (E wa) (E h) = Ok (E (mag AR)))
  /\ right_gradient (mag exact) v.
Proof.
  intros ts sfrs tab scatter lgmets ages flux smin ws wf tf z Om0 w0 wa h v ss ms sc tv zv Omv w0v wav hv S G H F Rz RO Rw Ra Rh Es Em Eh Ez_ EO Ew Ea Ehh ET
    GG Lm Ln Ht Hs Hm A1 A2 A3 A4 Lf Cf I Lw Gf Hz HO Hh NX Pos mag.
  destruct (C166_lemma z Om0 w0 wa h v zv Omv w0v wav hv Rz RO Rw Ra Rh Ez_ EO Ew Ea Ehh ltac:(lra) HO Hh) as (VA & RA).
  assert (RT : right_gradient (age_trace z Om0 w0 wa h) v).
  { unfold right_gradients in RA. rewrite List.Forall_forall in RA. apply RA. do 5 right. now left. }
  assert (EA : eval (age_trace z Om0 w0 wa h) (Fin v) = Fin tv).
  { destruct (VA exact (Fin v)) as (_ & _ & _ & _ & _ & V & _). rewrite Ez_, EO, Ew, Ea, Ehh, ET in V. symmetry. exact (one_inj _ _ V). }
  destruct (C171_lemma ts sfrs tab scatter lgmets ages flux (age_trace z Om0 w0 wa h) smin v ss ms sc tv (length ws) S G H F RT Es Em Eh EA GG Lm Ln Ht Hs Hm A1 A2 A3 A4 Lf Cf) as (V & R & _).
  cbv zeta in V, R.
  pose proof (V exact (Fin v)) as V0. rewrite Es, Em, Eh, EA in V0. destruct (Pos _ V0) as (l & El & Pl). cbn [rest_sed] in El.
  assert (N : ws <> []) by (intros ->; simpl in Lw; lia).
  assert (LS : forall f j mm, length (sed_traces (length ws) f j mm) = length ws).
  { intros. unfold sed_traces, sed_unit_traces. now rewrite !map_length, seq_length. }
  assert (Ll : length ws = length l). { rewrite <- (fins_length l), <- El, map_length. symmetry. apply LS. }
  pose proof (C167_lemma ws _ wf tf z Om0 w0 wa h v l zv Omv w0v wav hv R Rz RO Rw Ra Rh El Ez_ EO Ew Ea Ehh ltac:(split; auto) Lw Gf Hz HO Hh Pl NX) as (_ & R').
  split; [|exact R'].
  assert (Ls : length (fins ts) = length sfrs). { rewrite fins_length. destruct GG as (Hl & _). transitivity (length (map (fun e => eval e (Fin v)) sfrs)); [rewrite Es, fins_length; auto|apply map_length]. }
  assert (Lt : length (fins ts) = length tab). { rewrite fins_length. transitivity (length (map (fun e => eval e (Fin v)) tab)); [rewrite Em, fins_length; auto|apply map_length]. }
  assert (Nf : fins ts <> []) by (destruct ts; [simpl in Ln; lia|discriminate]).
  intros AR x E. exists (eval (age_trace (AR := AR) z Om0 w0 wa h) x). eexists. split; [|split; [apply rest_sed_table_t_eval with (w := length ws); [exact Ls|exact Lt|exact Nf|rewrite fins_length; apply GG|rewrite fins_length; apply GG|rewrite !fins_length; split; auto]|]].
  - destruct (VA AR x) as (_ & _ & _ & _ & _ & V6 & _). exact V6.
  - cbn [rest_sed]. apply obs_mag_z_ok; rewrite ?fins_length; auto.
    + intros Z. apply N. destruct ws; [auto|discriminate].
    + apply Gf.
Qed.


(** a spectrum behind a dust screen *)
Lemma frac_fin k a f : frac_transmission_from_k_lambda (Fin k) (Fin a) (Fin f) = Fin (f + (1 - f) * pow10 (-0.4 * Rmax 0 (a * k / 4.05))).
Proof.
  unfold frac_transmission_from_k_lambda, att_curve_from_k_lambda. change RV_C00 with (Fin 4.05). change (lit (-0.4)) with (Fin (-0.4)).
  rewrite nmul_fin, ndiv_fin by lra.
  assert (E : nwhere (Fin (a * k / 4.05) <? Fin 0)%num (Fin 0) (Fin (a * k / 4.05)) = Fin (Rmax 0 (a * k / 4.05))).
  { cbn [nltb]. unfold nwhere. destruct (Rlt_bool_spec (a * k / 4.05) 0); f_equal; [rewrite Rmax_left; lra|rewrite Rmax_right; lra]. }
  rewrite E, nmul_fin, npow10_fin, nsub_fin, nmul_fin, nadd_fin. reflexivity.
Qed.
Lemma dusty_evals (AR : Arith) lum ks av floor x :
  map (fun e => eval e x) (map2 (fun l k => Mul l (frac_transmission_trace k av floor)) lum ks)
  = map2 nmul (map (fun e => eval e x) lum) (map (fun k => frac_transmission_from_k_lambda (eval k x) (eval av x) (eval floor x)) ks).
Proof. revert ks. induction lum as [|l lum IH]; intros [|k ks]; cbn [map map2]; auto. f_equal; auto. Qed.
Lemma C172_dust_lemma : forall ws lum ks av floor wf tf z Om0 w0 wa h v ls kv a f zv Omv w0v wav hv,
  right_gradients lum v -> right_gradients ks v -> right_gradient av v -> right_gradient floor v ->
  right_gradient z v -> right_gradient Om0 v -> right_gradient w0 v -> right_gradient wa v -> right_gradient h v ->
  map (fun e => eval e (Fin v)) lum = fins ls -> map (fun e => eval e (Fin v)) ks = fins kv -> eval av (Fin v) = Fin a -> eval floor (Fin v) = Fin f ->
  eval z (Fin v) = Fin zv -> eval Om0 (Fin v) = Fin Omv -> eval w0 (Fin v) = Fin w0v -> eval wa (Fin v) = Fin wav -> eval h (Fin v) = Fin hv ->
  a <> 0 -> List.Forall (fun k => k <> 0) kv -> length kv = length ws ->
  good_spectrum ws ls -> (2 <= length ws)%nat -> good_filter wf tf -> 0 < zv -> 0 < Omv <= 1 -> 0 < hv ->
  (let dimmed := map2 (fun l k => l * (f + (1 - f) * pow10 (-0.4 * Rmax 0 (a * k / 4.05)))) ls kv in
   0 < band_flux (fun x => spectrum_at ws dimmed (x / (1 + zv))) wf tf) ->
  (forall x w, In x wf -> In w ws -> x <> w * (1 + zv)) ->
  let mag (AR : Arith) := obs_mag_z_trace (AR := AR) (fins ws) (map2 (fun l k => Mul l (frac_transmission_trace (AR := AR) k av floor)) lum ks)
                            (fins wf) (fins tf) z Om0 w0 wa h in
  (forall (AR : Arith) x, let E e := eval (AR := AR) e x in
     calc_obs_mag (fins ws) (map2 nmul (map E lum) (map (fun k => frac_transmission_from_k_lambda (E k) (E av) (E floor)) ks))
       (fins wf) (fins tf) (E z) (E Om0) (E w0) (E wa) (E h) = Ok (E (mag AR)))
  /\ right_gradient (mag exact) v.
Proof.
  intros ws lum ks av floor wf tf z Om0 w0 wa h v ls kv a f zv Omv w0v wav hv R Rk Rv Rf Rz RO Rw Ra Rh El Ek Ev Ef Ez_ EO Ew Ea Eh Na Nk Lk G Ln F Hz HO HH P NX mag.
  set (dimmed := map2 _ ls kv) in P. cbv zeta in P. destruct G as (I & Ll & Nw).
  assert (Lks : length ks = length kv) by (rewrite <- (fins_length kv), <- Ek; symmetry; apply map_length).
  assert (Llm : length lum = length ls) by (rewrite <- (fins_length ls), <- El; symmetry; apply map_length).
  assert (Ed : map (fun e => eval e (Fin v)) (map2 (fun l k => Mul l (frac_transmission_trace k av floor)) lum ks) = fins dimmed).
  { rewrite dusty_evals, El, <- (map_map (fun k => eval k (Fin v)) (fun k => frac_transmission_from_k_lambda k (eval av (Fin v)) (eval floor (Fin v)))), Ek, Ev, Ef.
    unfold dimmed. assert (L2 : length ls = length kv) by congruence. clear - L2. revert kv L2. induction ls as [|l ls IH]; intros [|k kv] L2; try discriminate; [reflexivity|].
    cbn [fins map map2] in *. rewrite frac_fin, nmul_fin. f_equal. apply IH. now injection L2. }
  assert (Rd : right_gradients (map2 (fun l k => Mul l (frac_transmission_trace k av floor)) lum ks) v).
  { apply Forall_map2. intros l k Il Ik. unfold right_gradients in R, Rk. rewrite List.Forall_forall in R, Rk. specialize (R l Il). specialize (Rk k Ik).
    assert (Nz : eval k (Fin v) <> Fin 0).
    { assert (Q : In (eval k (Fin v)) (fins kv)) by (rewrite <- Ek; apply in_map_iff; eauto). unfold fins in Q. apply in_map_iff in Q. destruct Q as (q & <- & Iq).
      rewrite List.Forall_forall in Nk. apply neq_fin. now apply Nk. }
    assert (Nv : eval av (Fin v) <> Fin 0) by (rewrite Ev; now apply neq_fin).
    destruct (C161_transmission_lemma k av floor v Rk Rv Rf Nz Nv) as (_ & _ & Rt). toT. ts. }
  assert (Ld : length dimmed = length ws) by (unfold dimmed; rewrite map2_length; rewrite <- Ll, Lk; apply Nat.min_id).
  destruct (C167_lemma ws _ wf tf z Om0 w0 wa h v dimmed zv Omv w0v wav hv Rd Rz RO Rw Ra Rh Ed Ez_ EO Ew Ea Eh ltac:(split; [exact I|split; [now symmetry|exact Nw]]) Ln F Hz HO HH P NX) as (_ & R').
  split; [|exact R']. intros AR x E. subst E. cbv beta. rewrite <- dusty_evals. apply obs_mag_z_ok; rewrite ?fins_length.
  - rewrite map2_length, Lks, Llm, <- Ll, Lk. symmetry. apply Nat.min_id.
  - intros Z. apply Nw. destruct ws; [auto|discriminate].
  - apply F.
Qed.

(** for the examples *)
Lemma demo_avoids_ba : forall a, In a (age_edges demo_ages ++ demo_ages) -> avoids (demo_tobs - pow10 a) (0.001 :: demo_t).
Proof.
  intros a Ia. apply in_app_or in Ia. destruct Ia as [Ia|Ia]; [apply demo_avoids_b; exact Ia|].
  assert (E : pow10 a = 1 / 10 \/ pow10 a = 1 \/ pow10 a = 10).
  { unfold demo_ages in Ia. cbn [In] in Ia. assert (P : pow10 1 = 10) by (unfold pow10; apply Rpower_1; lra).
    destruct Ia as [<-|[<-|[<-|[]]]]; [left|right; left; apply pow10_0|right; right; exact P].
    pose proof (pow10_plus (-1) 1) as Q. replace (-1 + 1) with 0 in Q by lra. rewrite pow10_0, P in Q. lra. }
  unfold avoids, demo_t, demo_tobs. destruct E as [->|[->| ->]]; repeat (apply List.Forall_cons; [lra|]); apply List.Forall_nil.
Qed.
Lemma C17_met_range_lemma : forall ts sfrs lgmet_table scatter ssp_lgmet ages n_wave t_obs sfr_min flux lo hi,
  good_grids ts sfrs scatter ssp_lgmet ages t_obs -> length ts = length lgmet_table -> 0 < t_obs -> 0 < sfr_min ->
  is_cube (length ssp_lgmet) (length ages) n_wave flux ->
  (forall i j k, (i < length ssp_lgmet)%nat -> (j < length ages)%nat -> (k < n_wave)%nat ->
     lo <= ent3 flux i j k <= hi) ->
  exists r sed,
    calc_rest_sed_sfh_table_met_table (fins ts) (fins sfrs) (fins lgmet_table) (Fin scatter)
      (fins ssp_lgmet) (fins ages) (fins3 flux) (Fin t_obs) (Fin sfr_min) = Ok r
    /\ rest_sed r = fins sed /\ length sed = n_wave
    /\ let mass := mass_formed_by ts (floored sfr_min sfrs) t_obs in
       0 < mass /\ List.Forall (fun s => mass * lo <= s <= mass * hi) sed.
Proof.
  intros ts sfrs tab h lgmets ages w t_obs smin f lo hi G Lm Ht Hs Hf Hb.
  destruct (C17_met_lemma ts sfrs tab h lgmets ages w t_obs smin G Lm Ht Hs) as (W & SW & HS & HP & HF).
  destruct (HF f Hf) as (r & sed & E & Er & _ & L & Hk).
  exists r, sed. split; [exact E|]. split; [exact Er|]. split; [exact L|]. cbv zeta.
  pose proof (mass_formed_pos ts (floored smin sfrs) t_obs) as HM. split; [exact HM|].
  apply Forall_ent. rewrite L. intros k Hlt. rewrite Hk by auto.
  destruct (template_mix_bounds (length lgmets) (length ages) W f k lo hi SW HS HP ltac:(auto)).
  split; apply Rmult_le_compat_l; lra.
Qed.
