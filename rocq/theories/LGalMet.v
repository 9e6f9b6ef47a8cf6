(** * C119, C125 for a galaxy with a metallicity history: the observed magnitude is differentiable and continuous *)
From Coq Require Import Reals List Arith Lra Lia Bool.
From Coquelicot Require Import Coquelicot.
From Verif Require Import Num Arr MUtils MSed MCosmo MPhot Spec Spec2 SpecApi RList LUtils LCalc LAge LMet LJoint LPhot LDiff LDiff2 LDiff3 LDiff4 LDiff5 LCont LCont2.
Import ListNotations.
Open Scope R_scope.

Lemma C119_galaxy_met_lemma : forall ts (sfrs lgmet_table : R -> list R) (scatter t_obs z : R -> R) flux ssp_lgmet ages sfr_min
    ws wf tf Om0 w0 wa h s,
  smooth_at sfrs s -> smooth_at lgmet_table s -> ex_derive scatter s -> ex_derive t_obs s -> ex_derive z s ->
  good_grids ts (sfrs s) (scatter s) ssp_lgmet ages (t_obs s) -> length ts = length (lgmet_table s) ->
  increasing (met_edges ssp_lgmet) ->
  is_cube (length ssp_lgmet) (length ages) (length ws) flux -> increasing ws -> ws <> [] -> good_filter wf tf ->
  0 < t_obs s -> 0 < sfr_min -> 0 < z s -> 0 < Om0 < 1 -> 0 < h ->
  avoids sfr_min (sfrs s) -> avoids (1 / 10 ^ 14) (sfrs s) ->
  (forall r, t_obs r = t_obs s)
  \/ (born_off_grid ts (t_obs s) (age_edges ages) /\ born_off_grid ts (t_obs s) ages /\ ~ In (t_obs s) ts) ->
  (forall r, z r = z s) \/ (forall x, In x wf -> ~ In (x / (1 + z s)) ws) ->
  (forall sed, calc_rest_sed_sfh_table_met_table (fins ts) (fins (sfrs s)) (fins (lgmet_table s)) (Fin (scatter s))
        (fins ssp_lgmet) (fins ages) (fins3 flux) (Fin (t_obs s)) (Fin sfr_min) = Ok sed ->
     exists l, rest_sed sed = fins l /\ 0 < band_flux (fun x => spectrum_at ws l (x / (1 + z s))) wf tf) ->
  exists mag : R -> R,
    near s (fun r => exists sed,
      calc_rest_sed_sfh_table_met_table (fins ts) (fins (sfrs r)) (fins (lgmet_table r)) (Fin (scatter r))
        (fins ssp_lgmet) (fins ages) (fins3 flux) (Fin (t_obs r)) (Fin sfr_min) = Ok sed
      /\ calc_obs_mag (fins ws) (rest_sed sed) (fins wf) (fins tf) (Fin (z r)) (Fin Om0) (Fin w0) (Fin wa) (Fin h)
         = Ok (Fin (mag r)))
    /\ ex_derive mag s.
Proof.
  intros ts F ms hs t z flux lgmets ages smin ws wf tf Om w0 wa h s S X Hs T Z G Lm Hme Hc I N Gf Ht Hsm Hz HO Hh A1 A2 O1 O2 Pos.
  destruct (C117_met_lemma ts F ms hs t (fun _ => flux) lgmets ages (length ws) smin s S X Hs T) as (sed & aw & W & M & Nr & SS & _); auto.
  { split; [now exists (length lgmets), (length ages), (length ws)|]. intros. apply ex_derive_const0. }
  destruct (Pos _ (near_at _ _ Nr)) as (l & El & Pl). cbn [rest_sed] in El. apply fins_inj' in El.
  assert (LS : length (sed s) = length ws).
  { pose proof (sed_met_explicit ts (F s) (ms s) (hs s) lgmets ages flux (length ws) (t s) smin G Lm Ht Hsm Hc) as E. cbv zeta in E.
    pose proof (near_at _ _ Nr) as E2. cbv beta in E2. rewrite E in E2.
    apply ok_inj in E2. assert (E3 := f_equal rest_sed E2). cbn [rest_sed] in E3. apply fins_inj' in E3. rewrite <- E3.
    now rewrite map_length, seq_length. }
  destruct (C119_obs_lemma ws sed wf tf z (fun _ => Om) (fun _ => w0) (fun _ => wa) (fun _ => h) s SS Z) as (mag & Nm & Dm);
    auto using ex_derive_const0.
  { split; auto. }
  { rewrite El. exact Pl. }
  exists mag. split; auto. eapply near_imp; [|exact (near_and _ _ _ Nr Nm)]. cbv beta. intros r [E1 E2].
  eexists. split; [exact E1|]. exact E2.
Qed.

Lemma C125_galaxy_met_lemma : forall ts (sfrs lgmet_table : R -> list R) (scatter t_obs z : R -> R) flux ssp_lgmet ages sfr_min
    ws wf tf Om0 w0 wa h s,
  steady_at sfrs s -> steady_at lgmet_table s -> continuity_pt scatter s -> continuity_pt t_obs s -> continuity_pt z s ->
  good_grids ts (sfrs s) (scatter s) ssp_lgmet ages (t_obs s) -> length ts = length (lgmet_table s) ->
  increasing (met_edges ssp_lgmet) ->
  is_cube (length ssp_lgmet) (length ages) (length ws) flux -> increasing ws -> ws <> [] -> good_filter wf tf ->
  0 < t_obs s -> 0 < sfr_min -> 0 < z s -> 0 < Om0 < 1 -> 0 < h ->
  (forall r, z r = z s)
  \/ (forall x, In x wf -> x / (1 + z s) <> ent ws 0 /\ x / (1 + z s) <> ent ws (length ws - 1)) ->
  (forall sed, calc_rest_sed_sfh_table_met_table (fins ts) (fins (sfrs s)) (fins (lgmet_table s)) (Fin (scatter s))
        (fins ssp_lgmet) (fins ages) (fins3 flux) (Fin (t_obs s)) (Fin sfr_min) = Ok sed ->
     exists l, rest_sed sed = fins l /\ 0 < band_flux (fun x => spectrum_at ws l (x / (1 + z s))) wf tf) ->
  exists mag : R -> R,
    near s (fun r => exists sed,
      calc_rest_sed_sfh_table_met_table (fins ts) (fins (sfrs r)) (fins (lgmet_table r)) (Fin (scatter r))
        (fins ssp_lgmet) (fins ages) (fins3 flux) (Fin (t_obs r)) (Fin sfr_min) = Ok sed
      /\ calc_obs_mag (fins ws) (rest_sed sed) (fins wf) (fins tf) (Fin (z r)) (Fin Om0) (Fin w0) (Fin wa) (Fin h)
         = Ok (Fin (mag r)))
    /\ continuity_pt mag s.
Proof.
  intros ts F ms hs t z flux lgmets ages smin ws wf tf Om w0 wa h s S X Hs T Z G Lm Hme Hc I N Gf Ht Hsm Hz HO Hh  O2 Pos.
  destruct (C124_sed_met_lemma ts F ms hs t (fun _ => flux) lgmets ages (length ws) smin s S X Hs T) as (sed & aw & W & M & Nr & SS & _); auto.
  { split; [now exists (length lgmets), (length ages), (length ws)|]. intros. apply cp_const0. }
  destruct (Pos _ (near_at _ _ Nr)) as (l & El & Pl). cbn [rest_sed] in El. apply fins_inj' in El.
  assert (LS : length (sed s) = length ws).
  { pose proof (sed_met_explicit ts (F s) (ms s) (hs s) lgmets ages flux (length ws) (t s) smin G Lm Ht Hsm Hc) as E. cbv zeta in E.
    pose proof (near_at _ _ Nr) as E2. cbv beta in E2. rewrite E in E2.
    apply ok_inj in E2. assert (E3 := f_equal rest_sed E2). cbn [rest_sed] in E3. apply fins_inj' in E3. rewrite <- E3.
    now rewrite map_length, seq_length. }
  destruct (C125_obs_lemma ws sed wf tf z (fun _ => Om) (fun _ => w0) (fun _ => wa) (fun _ => h) s SS Z) as (mag & Nm & Dm);
    auto using cp_const0.
  { split; auto. }
  { rewrite El. exact Pl. }
  exists mag. split; auto. eapply near_imp; [|exact (near_and _ _ _ Nr Nm)]. cbv beta. intros r [E1 E2].
  eexists. split; [exact E1|]. exact E2.
Qed.
