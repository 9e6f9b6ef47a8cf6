(** * Photometry of a mixture of templates: metallicity table, all three magnitudes *)
From Coq Require Import Reals List Arith Lra Lia Bool.
From Coquelicot Require Import Coquelicot.
From Flocq Require Import Core.Raux.
From Verif Require Import Num Arr MUtils MSed MCosmo MPhot Spec Spec2 SpecApi RList LUtils LCalc LKern LKern2 LAge LMet LJoint LBurst LDust LCosmo LPhot LPop.
Import ListNotations.
Open Scope R_scope.

Lemma C121_met_full : forall ts sfrs lgmet_table scatter ssp_lgmet ages ws flux fw ft t_obs sfr_min,
  good_grids ts sfrs scatter ssp_lgmet ages t_obs -> length ts = length lgmet_table -> 0 < t_obs -> 0 < sfr_min ->
  increasing ws -> ws <> [] -> is_cube (length ssp_lgmet) (length ages) (length ws) flux ->
  length fw = length ft -> (forall b, (b < length fw)%nat -> good_filter (nth b fw []) (nth b ft [])) ->
  exists sed W, let mass := mass_formed_by ts (floored sfr_min sfrs) t_obs in
    let mix := mixture (length ssp_lgmet) (length ages) W in
    let template i j := nth j (nth i flux []) [] in
    calc_rest_sed_sfh_table_met_table (fins ts) (fins sfrs) (fins lgmet_table) (Fin scatter)
      (fins ssp_lgmet) (fins ages) (fins3 flux) (Fin t_obs) (Fin sfr_min) = Ok sed
    /\ rs_weights sed = map fins W
    (* rest-frame *)
    /\ ((forall b i j, (b < length fw)%nat -> (i < length ssp_lgmet)%nat -> (j < length ages)%nat ->
           0 < band_flux (spectrum_at ws (template i j)) (nth b fw []) (nth b ft [])) ->
        exists tab, precompute_ssp_restmags (fins ws) (fins3 flux) (map fins fw) (map fins ft) = Ok tab
        /\ forall b, (b < length fw)%nat -> exists m : nat -> nat -> R,
           (forall i j, (i < length ssp_lgmet)%nat -> (j < length ages)%nat -> entry3 tab i j b = Fin (m i j))
           /\ calc_rest_mag (fins ws) (rest_sed sed) (fins (nth b fw [])) (fins (nth b ft []))
              = Ok (Fin (magnitude (mass * mix (fun i j => brightness (m i j))))))
    (* observed at a fixed redshift, no dimming *)
    /\ (forall z, -1 < z -> (forall b i j, (b < length fw)%nat -> (i < length ssp_lgmet)%nat -> (j < length ages)%nat ->
           0 < band_flux (fun x => spectrum_at ws (template i j) (x / (1 + z))) (nth b fw []) (nth b ft [])) ->
        exists tab, precompute_ssp_restmags_z_kcorrect (fins ws) (fins3 flux) (map fins fw) (map fins ft) (Fin z) = Ok tab
        /\ forall b, (b < length fw)%nat -> exists m : nat -> nat -> R,
           (forall i j, (i < length ssp_lgmet)%nat -> (j < length ages)%nat -> entry3 tab i j b = Fin (m i j))
           /\ calc_obs_mag_no_dimming (fins ws) (rest_sed sed) (fins (nth b fw [])) (fins (nth b ft [])) (Fin z)
              = Ok (Fin (magnitude (mass * mix (fun i j => brightness (m i j))))))
    (* observed, on a table of redshifts *)
    /\ (forall zs Om0 w0 wa h, List.Forall (fun z => 0 < z) zs -> 0 < Om0 <= 1 -> 0 < h ->
        (forall a b i j, (a < length zs)%nat -> (b < length fw)%nat -> (i < length ssp_lgmet)%nat -> (j < length ages)%nat ->
           0 < band_flux (fun x => spectrum_at ws (template i j) (x / (1 + ent zs a))) (nth b fw []) (nth b ft [])) ->
        exists tab, precompute_ssp_obsmags_on_z_table (fins ws) (fins3 flux) (map fins fw) (map fins ft) (fins zs)
                      (Fin Om0) (Fin w0) (Fin wa) (Fin h) = Ok tab
        /\ forall a b, (a < length zs)%nat -> (b < length fw)%nat -> exists m : nat -> nat -> R,
           (forall i j, (i < length ssp_lgmet)%nat -> (j < length ages)%nat -> entry3 (nth a tab []) i j b = Fin (m i j))
           /\ calc_obs_mag (fins ws) (rest_sed sed) (fins (nth b fw [])) (fins (nth b ft [])) (Fin (ent zs a))
                (Fin Om0) (Fin w0) (Fin wa) (Fin h)
              = Ok (Fin (magnitude (mass * mix (fun i j => brightness (m i j)))))).
Proof.
  intros ts sfrs lgmet h lgmets ages ws flux fw ft t_obs smin G Lm Ht Hs Iw Nw C L GF.
  destruct (C17_met_lemma ts sfrs lgmet h lgmets ages (length ws) t_obs smin G Lm Ht Hs) as (W & MW & S1 & P & HW).
  destruct (HW flux C) as (sed & l & E & El & EW & Ll & H).
  assert (HM : 0 < mass_formed_by ts (floored smin sfrs) t_obs) by (unfold mass_formed_by; apply pow10_pos).
  exists sed, W. cbv zeta. split; auto. split; auto. rewrite El.
  assert (Fok : filters_ok fw ft) by (split; auto).
  split; [|split].
  - intros. eapply mix_rest; eauto.
  - intros. eapply mix_nodim; eauto.
  - intros. eapply mix_obs; eauto.
Qed.
