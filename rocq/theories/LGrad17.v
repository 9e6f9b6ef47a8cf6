(** * Lemmas for C169: gradients from redshift and cosmology to the magnitude of a galaxy *)
From Coq Require Import Reals List Arith Bool Lra Lia.
From Coquelicot Require Import Coquelicot.
From Flocq Require Import Core.Raux.
From Verif Require Import Num Arr MUtils MSed MCosmo MPhot MGrad MTrace MTrace2 MTrace3 MTrace4 Spec Spec2 SpecGrad RList LUtils
  LAge LJoint LPhot LCosmo LCosmo2 LDiff5 LGrad2 LGrad4 LGrad8 LGrad9 LGrad11 LGrad12 LGrad13 LGrad14 LGrad15 LGrad16 Demo.
Import ListNotations.
Open Scope R_scope.
#[local] Existing Instance exact.
#[local] Strategy 1000 [nmul nadd nsub ndiv nlog10 npow nsqrt nexp].

Lemma one_inj {A} (a b : A) : [a] = [b] -> a = b. Proof. intros H. now injection H. Qed.
Lemma C169_lemma : forall ts sfrs lgmet scatter ssp_lgmet ages flux sfr_min ws wf tf z Om0 w0 wa h v ss m sc tv zv Omv w0v wav hv,
  right_gradients sfrs v -> right_gradient lgmet v -> right_gradient scatter v -> List.Forall (List.Forall (fun s => right_gradients s v)) flux ->
  right_gradient z v -> right_gradient Om0 v -> right_gradient w0 v -> right_gradient wa v -> right_gradient h v ->
  map (fun e => eval e (Fin v)) sfrs = fins ss -> eval lgmet (Fin v) = Fin m -> eval scatter (Fin v) = Fin sc ->
  eval z (Fin v) = Fin zv -> eval Om0 (Fin v) = Fin Omv -> eval w0 (Fin v) = Fin w0v -> eval wa (Fin v) = Fin wav -> eval h (Fin v) = Fin hv ->
  age_at_z (Scalar (Fin zv)) (Fin Omv) (Fin w0v) (Fin wav) (Fin hv) = [Fin tv] ->
  good_grids ts ss sc ssp_lgmet ages tv -> (2 <= length ts)%nat -> 0 < tv -> 0 < sfr_min -> -10 <= m <= 10 ->
  avoids sfr_min ss -> avoids (1 / 10 ^ 14) ss ->
  avoids tv ts -> (forall lg_age, In lg_age (age_edges ages) -> avoids (tv - pow10 lg_age) (0.001 :: ts)) ->
  length flux = length ssp_lgmet -> List.Forall (is_matrix (length ages) (length ws)) flux ->
  increasing ws -> (2 <= length ws)%nat -> good_filter wf tf -> 0 < zv -> 0 < Omv <= 1 -> 0 < hv ->
  (forall x w, In x wf -> In w ws -> x <> w * (1 + zv)) ->
  (forall sed, calc_rest_sed_sfh_table_lognormal_mdf (fins ts) (fins ss) (Fin m) (Fin sc)
        (fins ssp_lgmet) (fins ages) (map (map (map (fun e => eval e (Fin v)))) flux) (Fin tv) (Fin sfr_min) = Ok sed ->
     exists l, rest_sed sed = fins l /\ 0 < band_flux (fun x => spectrum_at ws l (x / (1 + zv))) wf tf) ->
  let mag (AR : Arith) :=
    let t_obs := age_trace (AR := AR) z Om0 w0 wa h in
    obs_mag_z_trace (AR := AR) (fins ws)
      (sed_traces (length ws) flux
         (joint_traces (lgmet_weight_traces (AR := AR) lgmet scatter (get_bin_edges_k (fins ssp_lgmet) LGMET_LO LGMET_HI))
            (age_weight_t_traces (AR := AR) (fins ts) sfrs (fins ages) t_obs SFR_MIN))
         (mstar_t_trace (AR := AR) (fins ts) sfrs t_obs (Fin sfr_min)))
      (fins wf) (fins tf) z Om0 w0 wa h in
  (forall (AR : Arith) x, let E e := eval (AR := AR) e x in exists t sed,
     age_at_z (Scalar (E z)) (E Om0) (E w0) (E wa) (E h) = [t]
     /\ calc_rest_sed_sfh_table_lognormal_mdf (fins ts) (map E sfrs) (E lgmet) (E scatter)
       (fins ssp_lgmet) (fins ages) (map (map (map E)) flux) t (Fin sfr_min) = Ok sed
     /\ calc_obs_mag (fins ws) (rest_sed sed) (fins wf) (fins tf) (E z) (E Om0) (E w0) (E wa) (E h) = Ok (E (mag AR)))
  /\ right_gradient (mag exact) v.
Proof.
  intros ts sfrs lgmet scatter lgmets ages flux smin ws wf tf z Om0 w0 wa h v ss m sc tv zv Omv w0v wav hv S G H F Rz RO Rw Ra Rh Es Em Eh Ez_ EO Ew Ea Ehh ET
    GG Ln Ht Hs Hm A1 A2 A3 A4 Lf Cf I Lw Gf Hz HO Hh NX Pos mag.
  destruct (C166_lemma z Om0 w0 wa h v zv Omv w0v wav hv Rz RO Rw Ra Rh Ez_ EO Ew Ea Ehh ltac:(lra) HO Hh) as (VA & RA).
  assert (RT : right_gradient (age_trace z Om0 w0 wa h) v).
  { unfold right_gradients in RA. rewrite List.Forall_forall in RA. apply RA. do 5 right. now left. }
  assert (EA : eval (age_trace z Om0 w0 wa h) (Fin v) = Fin tv).
  { destruct (VA exact (Fin v)) as (_ & _ & _ & _ & _ & V & _). rewrite Ez_, EO, Ew, Ea, Ehh, ET in V. symmetry. exact (one_inj _ _ V). }
  destruct (C168_lemma ts sfrs lgmet scatter lgmets ages flux (age_trace z Om0 w0 wa h) smin v ss m sc tv (length ws) S G H F RT Es Em Eh EA GG Ln Ht Hs Hm A1 A2 A3 A4 Lf Cf) as (V & R & _).
  cbv zeta in V, R.
  pose proof (V exact (Fin v)) as V0. rewrite Es, Em, Eh, EA in V0. destruct (Pos _ V0) as (l & El & Pl). cbn [rest_sed] in El.
  assert (N : ws <> []) by (intros ->; simpl in Lw; lia).
  assert (LS : forall f j mm, length (sed_traces (length ws) f j mm) = length ws).
  { intros. unfold sed_traces, sed_unit_traces. now rewrite !map_length, seq_length. }
  assert (Ll : length ws = length l). { rewrite <- (fins_length l), <- El, map_length. symmetry. apply LS. }
  pose proof (C167_lemma ws _ wf tf z Om0 w0 wa h v l zv Omv w0v wav hv R Rz RO Rw Ra Rh El Ez_ EO Ew Ea Ehh ltac:(split; auto) Lw Gf Hz HO Hh Pl NX) as (_ & R').
  split; [|exact R'].
  assert (Ls : length (fins ts) = length sfrs). { rewrite fins_length. destruct GG as (Hl & _). transitivity (length (map (fun e => eval e (Fin v)) sfrs)); [rewrite Es, fins_length; auto|apply map_length]. }
  assert (Nf : fins ts <> []) by (destruct ts; [simpl in Ln; lia|discriminate]).
  intros AR x E. exists (eval (age_trace (AR := AR) z Om0 w0 wa h) x). eexists. split; [|split; [apply rest_sed_t_eval with (w := length ws); [exact Ls|exact Nf|rewrite fins_length; apply GG|rewrite fins_length; apply GG|rewrite !fins_length; split; auto]|]].
  - destruct (VA AR x) as (_ & _ & _ & _ & _ & V6 & _). exact V6.
  - cbn [rest_sed]. apply obs_mag_z_ok; rewrite ?fins_length; auto.
    + intros Z. apply N. destruct ws; [auto|discriminate].
    + apply Gf.
Qed.

(** a Hubble parameter for which the universe at redshift 0.1 has the age [t] *)
Lemma demo_h t : 0 < t -> exists h, 0 < h /\ age_at_z (Scalar (Fin 0.1)) (Fin 0.3) (Fin (-1)) (Fin 0) (Fin h) = [Fin t].
Proof.
  intros Ht. destruct (C113_positive_lemma 0.3 1 0.1 ltac:(lra) ltac:(lra) ltac:(lra)) as (a & E & Pa).
  unfold age_at_z, atleast_1d in E; cbn [map] in E. rewrite agekern_fin in E by lra. apply one_inj in E. injection E as E.
  exists (a / t). assert (P : 0 < a / t) by (apply Rdiv_lt_0_compat; lra). split; [exact P|].
  unfold age_at_z, atleast_1d; cbn [map]. rewrite agekern_fin by lra. do 2 f_equal.
  assert (T : tH (a / t) = tH 1 * t / a) by (unfold tH; field; lra).
  unfold age0, look in *. rewrite T. replace (tH 1 * t / a * aint 0.3 (-1) 0 - tH 1 * t / a * quad 512 (f2 0.3 (-1) 0) 0.1)
    with ((tH 1 * aint 0.3 (-1) 0 - tH 1 * quad 512 (f2 0.3 (-1) 0) 0.1) * t / a) by (field; lra). rewrite E. field. lra.
Qed.
