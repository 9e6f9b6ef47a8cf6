(** * C17, C18 for the function taking a metallicity table: range, linearity and mass normalisation *)
From Coq Require Import Reals List Arith Lra Lia.
From Verif Require Import Num Arr MUtils MSed Spec RList LBcast LUtils LAge LMet LJoint.
Import ListNotations.
Open Scope R_scope.

Lemma C17_range_met_lemma : forall ts sfrs lgmet_table scatter ssp_lgmet ages n_wave t_obs sfr_min flux lo hi,
  good_grids ts sfrs scatter ssp_lgmet ages t_obs -> length ts = length lgmet_table -> 0 < t_obs -> 0 < sfr_min ->
  is_cube (length ssp_lgmet) (length ages) n_wave flux ->
  (forall i j k, (i < length ssp_lgmet)%nat -> (j < length ages)%nat -> (k < n_wave)%nat ->
     lo <= ent3 flux i j k <= hi) ->
  exists r sed,
    calc_rest_sed_sfh_table_met_table (fins ts) (fins sfrs) (fins lgmet_table) (Fin scatter)
      (fins ssp_lgmet) (fins ages) (fins3 flux) (Fin t_obs) (Fin sfr_min) = Ok r
    /\ rest_sed r = fins sed
    /\ let mass := mass_formed_by ts (floored sfr_min sfrs) t_obs in
       0 < mass /\ List.Forall (fun s => mass * lo <= s <= mass * hi) sed.
Proof.
  intros ts sfrs lgmet h lgmets ages w t_obs smin f lo hi G Lm Ht Hs Hf Hb.
  destruct (C17_met_lemma ts sfrs lgmet h lgmets ages w t_obs smin G Lm Ht Hs) as (W & SW & HS & HP & HF).
  destruct (HF f Hf) as (r & sed & E & Er & _ & L & Hk).
  exists r, sed. split; [exact E|]. split; [exact Er|]. cbv zeta.
  pose proof (mass_formed_pos ts (floored smin sfrs) t_obs) as HM. split; [exact HM|].
  apply Forall_ent. rewrite L. intros k Hlt. rewrite Hk by auto.
  destruct (template_mix_bounds (length lgmets) (length ages) W f k lo hi SW HS HP ltac:(auto)).
  split; apply Rmult_le_compat_l; lra.
Qed.

Lemma C17_linear_met_lemma : forall ts sfrs lgmet_table scatter ssp_lgmet ages n_wave t_obs sfr_min f g h a b,
  good_grids ts sfrs scatter ssp_lgmet ages t_obs -> length ts = length lgmet_table -> 0 < t_obs -> 0 < sfr_min ->
  is_cube (length ssp_lgmet) (length ages) n_wave f ->
  is_cube (length ssp_lgmet) (length ages) n_wave g ->
  is_cube (length ssp_lgmet) (length ages) n_wave h ->
  (forall i j k, (i < length ssp_lgmet)%nat -> (j < length ages)%nat -> (k < n_wave)%nat ->
     ent3 h i j k = a * ent3 f i j k + b * ent3 g i j k) ->
  exists sf sg sh,
    let sed flux s := exists r,
      calc_rest_sed_sfh_table_met_table (fins ts) (fins sfrs) (fins lgmet_table) (Fin scatter)
        (fins ssp_lgmet) (fins ages) (fins3 flux) (Fin t_obs) (Fin sfr_min) = Ok r
      /\ rest_sed r = fins s in
    sed f sf /\ sed g sg /\ sed h sh
    /\ forall k, (k < n_wave)%nat -> ent sh k = a * ent sf k + b * ent sg k.
Proof.
  intros ts sfrs lgmet sc lgmets ages w t_obs smin f g h a b G Lm Ht Hs Hf Hg Hh Hlin.
  destruct (C17_met_lemma ts sfrs lgmet sc lgmets ages w t_obs smin G Lm Ht Hs) as (W & SW & HS & HP & HF).
  destruct (HF f Hf) as (rf & sf & Ef & Erf & _ & Lf & Hkf).
  destruct (HF g Hg) as (rg & sg & Eg & Erg & _ & Lg & Hkg).
  destruct (HF h Hh) as (rh & sh & Eh & Erh & _ & Lh & Hkh).
  exists sf, sg, sh. cbv zeta. split; [eauto|]. split; [eauto|]. split; [eauto|].
  intros k Hk. rewrite Hkf, Hkg, Hkh by auto.
  rewrite (template_mix_linear _ _ W f g h a b k) by (intros; now apply Hlin). lra.
Qed.

Lemma C18_met_lemma : forall ts sfrs sfr_min,
  length ts = length sfrs -> ts <> [] -> increasing (0.001 :: ts) -> 0 < sfr_min ->
  exists mass : R -> R,
    (forall lgmet_table scatter ssp_lgmet ages n_wave flux t,
       good_grids ts sfrs scatter ssp_lgmet ages t -> length ts = length lgmet_table -> 0 < t ->
       is_cube (length ssp_lgmet) (length ages) n_wave flux ->
       (forall i j k, (i < length ssp_lgmet)%nat -> (j < length ages)%nat -> (k < n_wave)%nat ->
          ent3 flux i j k = 1) ->
       exists r,
         calc_rest_sed_sfh_table_met_table (fins ts) (fins sfrs) (fins lgmet_table) (Fin scatter)
           (fins ssp_lgmet) (fins ages) (fins3 flux) (Fin t) (Fin sfr_min) = Ok r
         /\ rest_sed r = fins (repeat (mass t) n_wave))
    /\ (forall i m, (i < length ts)%nat ->
        cumulative_mstar_formed (fins ts) (fins (floored sfr_min sfrs)) = Ok (fins m) ->
        mass (ent ts i) = ent m i)
    /\ (forall t, 0 < t -> 0 < mass t)
    /\ (forall t t', 0 < t -> t <= t' -> mass t <= mass t')
    /\ (forall t, 0 < t -> t <= ent ts 0 -> mass t = mass (ent ts 0))
    /\ (forall t, ent ts (length ts - 1) <= t -> mass t = mass (ent ts (length ts - 1))).
Proof.
  intros ts sfrs smin Hl Hn Hi Hs.
  assert (Hl' : length ts = length (floored smin sfrs)) by now apply floored_len_eq.
  exists (mass_formed_by ts (floored smin sfrs)).
  split.
  { intros lgmet h lgmets ages n_wave flux t G Lm Ht Hc H1.
    destruct (C17_met_lemma ts sfrs lgmet h lgmets ages n_wave t smin G Lm Ht Hs) as (W & S & HS & Hp & H).
    destruct (H flux Hc) as (r & sed & E & Er & _ & Hlen & Hk). exists r. split; auto. rewrite Er. f_equal.
    apply list_eq_ent; [now rewrite repeat_length|]. intros k Hlt. rewrite Hk by lia.
    unfold ent at 1. rewrite nth_repeat'' by lia.
    assert (B : 1 <= template_mix (length lgmets) (length ages) W flux k <= 1).
    { apply template_mix_bounds; auto. intros. rewrite H1 by (auto; lia). lra. }
    replace (template_mix _ _ _ _ _) with 1 by lra. lra. }
  split.
  - intros i m Hlt E. rewrite mass_formed_node by (auto using floored_pos).
    apply cum_ok in E. rewrite cumulative_mass_fins in E by auto.
    apply fins_inj in E. now subst.
  - split; [intros; apply mass_formed_pos|].
    split; [intros; apply mass_formed_by_mono; auto using floored_pos|].
    split; [intros; now apply mass_formed_before|intros; now apply mass_formed_after].
Qed.

