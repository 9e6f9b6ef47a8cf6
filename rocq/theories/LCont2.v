(** * Continuity: cosmology and photometry; where continuity fails *)
From Coq Require Import Reals List Arith Lra Lia Bool.
From Coquelicot Require Import Coquelicot.
From Flocq Require Import Core.Raux.
From Verif Require Import Num Arr MUtils MSed MCosmo MPhot Spec Spec2 SpecApi RList LUtils LCalc LAge LKern LKern2 LMet LBurst LDust LCosmo LPhot LDiff LDiff2 LDiff3 LDiff4 LDiff5 LCont.
Import ListNotations.
Open Scope R_scope.

(** ** cosmology *)
Lemma trapE2_steady n : forall (x y : nat -> R -> R) s, (forall i, continuity_pt (x i) s) -> (forall i, continuity_pt (y i) s) ->
  continuity_pt (fun r => Rsum (map (fun i => (x (S i) r - x i r) * (y i r + y (S i) r) / 2) (seq 0 n))) s.
Proof.
  intros x y s X Y. apply (cp_Rsum (fun i r => (x (S i) r - x i r) * (y i r + y (S i) r) / 2)). intros i _.
  unfold Rdiv. apply cp_mult'; [|apply cp_const0]. apply cp_mult'; [now apply cp_minus'|now apply cp_plus'].
Qed.
Lemma trapezoid2_steady (X Y : R -> list R) s n : steady_at X s -> steady_at Y s -> (forall r, length (X r) = n) -> (forall r, length (Y r) = n) ->
  continuity_pt (fun r => trapezoid (X r) (Y r)) s.
Proof.
  intros [_ DX] [_ DY] LX LY.
  apply (cp_eq (fun r => Rsum (map (fun i => (ent (X r) (S i) - ent (X r) i) * (ent (Y r) i + ent (Y r) (S i)) / 2) (seq 0 (n - 1))))).
  - intros r. rewrite trapezoid_sum by (now rewrite LX, LY). now rewrite LX.
  - now apply (trapE2_steady (n - 1) (fun i r => ent (X r) i) (fun i r => ent (Y r) i)).
Qed.
Lemma cp_exp' (f : R -> R) s : continuity_pt f s -> continuity_pt (fun r => exp (f r)) s.
Proof. intros F. apply (cp_comp' exp f); auto. apply cp_of_derive. eexists. apply is_derive_exp. Qed.
Lemma cp_ln' (f : R -> R) s : continuity_pt f s -> 0 < f s -> continuity_pt (fun r => ln (f r)) s.
Proof. intros F P. apply (cp_comp' ln f); auto. apply cp_of_derive. eexists. now apply is_derive_ln. Qed.
Lemma cp_sqrt' (f : R -> R) s : continuity_pt f s -> 0 < f s -> continuity_pt (fun r => sqrt (f r)) s.
Proof. intros F P. apply (cp_comp' sqrt f); auto. apply cp_of_derive. eexists. apply is_derive_sqrt; [apply (is_derive_id (f s))|exact P]. Qed.
Lemma cp_const_mult (c : R) (f : R -> R) s : continuity_pt f s -> continuity_pt (fun r => c * f r) s.
Proof. intros F. apply cp_mult'; auto. apply cp_const0. Qed.
Lemma cp_const_plus (c : R) (f : R -> R) s : continuity_pt f s -> continuity_pt (fun r => c + f r) s.
Proof. intros F. apply cp_plus'; auto. apply cp_const0. Qed.

Lemma cp_pow' (f : R -> R) n s : continuity_pt f s -> continuity_pt (fun r => f r ^ n) s.
Proof. intros F. induction n as [|n IH]; simpl; [apply cp_const0|]. now apply cp_mult'. Qed.
Lemma de_steady (w0 wa z : R -> R) s : continuity_pt w0 s -> continuity_pt wa s -> continuity_pt z s -> -1 < z s ->
  continuity_pt (fun r => dark_energy (w0 r) (wa r) (z r)) s.
Proof.
  intros W0 WA Z H. unfold dark_energy, Rpower. pose proof (cp_const_plus 1 z s Z) as Z1.
  apply cp_mult'; apply cp_exp'.
  - apply cp_mult'; [|apply cp_ln'; auto; lra]. apply cp_const_mult. apply cp_plus'; auto.
    now apply cp_const_plus.
  - apply cp_mult'; [now apply (cp_const_mult (-3))|]. apply cp_div'; auto. lra.
Qed.
Lemma E_steady (Om w0 wa z : R -> R) s : continuity_pt Om s -> continuity_pt w0 s -> continuity_pt wa s -> continuity_pt z s ->
  0 < Om s < 1 -> -1 < z s -> continuity_pt (fun r => expansion (Om r) (w0 r) (wa r) (z r)) s.
Proof.
  intros O W0 WA Z HO H. unfold expansion. apply cp_sqrt'.
  - apply cp_plus'; apply cp_mult'; auto.
    + apply (cp_pow' (fun r => 1 + z r)). now apply cp_const_plus.
    + apply cp_minus'; auto. apply cp_const0.
    + now apply de_steady.
  - pose proof (E2_pos (Om s) (w0 s) (wa s) (z s) ltac:(lra) H). lra.
Qed.
Lemma f1_steady (Om w0 wa z : R -> R) s : continuity_pt Om s -> continuity_pt w0 s -> continuity_pt wa s -> continuity_pt z s ->
  0 < Om s < 1 -> -1 < z s -> continuity_pt (fun r => f1 (Om r) (w0 r) (wa r) (z r)) s.
Proof.
  intros O W0 WA Z HO H. unfold f1. apply cp_div'; [apply cp_const0|now apply E_steady|].
  pose proof (E_pos (Om s) (w0 s) (wa s) (z s) ltac:(lra) H). lra.
Qed.
Lemma f2_steady (Om w0 wa z : R -> R) s : continuity_pt Om s -> continuity_pt w0 s -> continuity_pt wa s -> continuity_pt z s ->
  0 < Om s < 1 -> -1 < z s -> continuity_pt (fun r => f2 (Om r) (w0 r) (wa r) (z r)) s.
Proof.
  intros O W0 WA Z HO H. unfold f2. apply cp_div'; [now apply f1_steady|now apply cp_const_plus|lra].
Qed.
Lemma quad_steady n (g : R -> R -> R) (z : R -> R) s : (2 <= n)%nat -> continuity_pt z s -> -1 < z s ->
  (forall (x : R -> R), continuity_pt x s -> -1 < x s -> continuity_pt (fun r => g r (x r)) s) ->
  continuity_pt (fun r => quad n (g r) (z r)) s.
Proof.
  intros Hn Z H G. unfold quad.
  assert (SG : steady_at (fun r => grid n (z r)) s).
  { apply (steady_map_seq (fun i r => z r * (INR i / INR (n - 1)))). intros i _. apply cp_mult'; auto. apply cp_const0. }
  apply (trapezoid2_steady (fun r => grid n (z r)) (fun r => map (g r) (grid n (z r))) s n); auto.
  - apply (steady_intro _ n); [intros; now rewrite map_length, grid_length|]. intros i Hi.
    apply (cp_eq (fun r => g r (ent (grid n (z r)) i))).
    + intros r. rewrite ent_map; auto. now rewrite grid_length.
    + apply (G (fun r => ent (grid n (z r)) i)); [apply SG|now apply grid_gt].
  - intros; apply grid_length.
  - intros; now rewrite map_length, grid_length.
Qed.
Lemma hubble_steady (h : R -> R) s : continuity_pt h s -> 0 < h s -> continuity_pt (fun r => hubble_dist (h r)) s.
Proof. intros H P. unfold hubble_dist. apply cp_div'; auto; [apply cp_const0|lra]. Qed.
Lemma dc_steady (Om w0 wa h z : R -> R) s : continuity_pt Om s -> continuity_pt w0 s -> continuity_pt wa s -> continuity_pt h s -> continuity_pt z s ->
  0 < Om s < 1 -> 0 < h s -> -1 < z s -> continuity_pt (fun r => dc (Om r) (w0 r) (wa r) (h r) (z r)) s.
Proof.
  intros O W0 WA H Z HO Hh Hz. unfold dc. apply cp_mult'; [now apply hubble_steady|].
  apply (quad_steady 256 (fun r => f1 (Om r) (w0 r) (wa r)) z); auto using n256. intros x X Hx. now apply f1_steady.
Qed.

Lemma tH_steady (h : R -> R) s : continuity_pt h s -> 0 < h s -> continuity_pt (fun r => tH (h r)) s.
Proof. intros H P. unfold tH. apply cp_div'; auto; [apply cp_const0|lra]. Qed.
Lemma look_steady (Om w0 wa h z : R -> R) s : continuity_pt Om s -> continuity_pt w0 s -> continuity_pt wa s -> continuity_pt h s -> continuity_pt z s ->
  0 < Om s < 1 -> 0 < h s -> -1 < z s -> continuity_pt (fun r => look (Om r) (w0 r) (wa r) (h r) (z r)) s.
Proof.
  intros O W0 WA H Z HO Hh Hz. unfold look. apply cp_mult'; [now apply tH_steady|].
  apply (quad_steady 512 (fun r => f2 (Om r) (w0 r) (wa r)) z); auto using n512. intros x X Hx. now apply f2_steady.
Qed.
Lemma age0_steady (Om w0 wa h : R -> R) s : continuity_pt Om s -> continuity_pt w0 s -> continuity_pt wa s -> continuity_pt h s ->
  0 < Om s < 1 -> 0 < h s -> continuity_pt (fun r => age0 (Om r) (w0 r) (wa r) (h r)) s.
Proof.
  intros O W0 WA H HO Hh. unfold age0, aint. apply cp_mult'; [now apply tH_steady|].
  apply (trapezoid_steady agrid (fun r => map (f2 (Om r) (w0 r) (wa r)) agrid)); [|intros; apply map_length].
  apply (steady_intro _ (length agrid)); [intros; apply map_length|]. intros i Hi.
  apply (cp_eq (fun r => f2 (Om r) (w0 r) (wa r) (ent agrid i))); [intros; now rewrite ent_map|].
  apply (f2_steady Om w0 wa (fun _ => ent agrid i)); auto using cp_const0.
  pose proof (agrid_In _ (ent_In agrid i Hi)). lra.
Qed.
Lemma cosmo_near_c (Om h z : R -> R) s c : continuity_pt Om s -> continuity_pt h s -> continuity_pt z s -> 0 < Om s < 1 -> 0 < h s -> c < z s ->
  near s (fun r => 0 < Om r <= 1 /\ 0 < h r /\ c < z r).
Proof.
  intros O H Z HO Hh Hz. apply near_locally.
  pose proof (clocally_lt (fun _ => 0) Om s (cp_const0 _ _) O ltac:(lra)) as A1.
  pose proof (clocally_lt Om (fun _ => 1) s O (cp_const0 _ _) ltac:(lra)) as A2.
  pose proof (clocally_lt (fun _ => 0) h s (cp_const0 _ _) H Hh) as A3.
  pose proof (clocally_lt (fun _ => c) z s (cp_const0 _ _) Z Hz) as A4.
  eapply filter_imp; [|apply filter_and; [apply filter_and; [exact A1|exact A2]|apply filter_and; [exact A3|exact A4]]].
  cbv beta. intros r [[? ?] [? ?]]. lra.
Qed.
Lemma mu_steady (Om w0 wa h z : R -> R) s : continuity_pt Om s -> continuity_pt w0 s -> continuity_pt wa s -> continuity_pt h s -> continuity_pt z s ->
  0 < Om s < 1 -> 0 < h s -> 0 < z s ->
  continuity_pt (fun r => 5 * log10 (dc (Om r) (w0 r) (wa r) (h r) (z r) * (1 + z r) * 10 ^ 5)) s.
Proof.
  intros O W0 WA H Z HO Hh Hz. apply cp_const_mult. apply cp_log10.
  - apply cp_mult'; [|apply cp_const0]. apply cp_mult'; [apply dc_steady; auto; lra|now apply cp_const_plus].
  - pose proof (dc_pos (Om s) (w0 s) (wa s) (h s) (z s) ltac:(lra) Hh Hz).
    assert (0 < dc (Om s) (w0 s) (wa s) (h s) (z s) * (1 + z s)) by (apply Rmult_lt_0_compat; lra). lra.
Qed.

(** ** photometry *)
Lemma spectrum_steady ws (ls : R -> list R) (x : R -> R) s : steady_at ls s -> increasing ws -> length ws = length (ls s) -> ws <> [] ->
  (forall r, x r = x s) \/ (x s <> ent ws 0 /\ x s <> ent ws (length ws - 1)) -> continuity_pt x s ->
  continuity_pt (fun r => spectrum_at ws (ls r) (x r)) s.
Proof.
  intros S I L N H X. pose proof (steady_len ls s _ S (eq_sym L)) as LL.
  pose proof (pwlin_steady ws ls x s I S LL X) as PW.
  destruct H as [H|[H0 H1]].
  - apply (cp_eq (fun r => if Rlt_dec (x s) (ent ws 0) then 0 else if Rlt_dec (ent ws (length ws - 1)) (x s) then 0
        else pwlin (combine ws (ls r)) (x r))).
    { intros r. unfold spectrum_at. now rewrite (H r). }
    destruct (Rlt_dec (x s) (ent ws 0)); [apply cp_const0|]. destruct (Rlt_dec (ent ws (length ws - 1)) (x s)); [apply cp_const0|auto].
  - destruct (Rlt_dec (x s) (ent ws 0)) as [A|A].
    { apply (cp_near (fun _ => 0)); [|apply cp_const0]. eapply filter_imp; [|exact (clocally_lt x (fun _ => ent ws 0) s X (cp_const0 _ _) A)].
      cbv beta. intros r E. unfold spectrum_at. destruct (Rlt_dec (x r) (ent ws 0)); tauto. }
    assert (A' : ent ws 0 < x s) by lra.
    pose proof (clocally_lt (fun _ => ent ws 0) x s (cp_const0 _ _) X A') as N0.
    destruct (Rlt_dec (ent ws (length ws - 1)) (x s)) as [B|B].
    { apply (cp_near (fun _ => 0)); [|apply cp_const0].
      eapply filter_imp; [|exact (filter_and _ _ N0 (clocally_lt (fun _ => ent ws (length ws - 1)) x s (cp_const0 _ _) X B))].
      cbv beta. intros r [E F]. unfold spectrum_at. destruct (Rlt_dec (x r) (ent ws 0)); auto.
      destruct (Rlt_dec (ent ws (length ws - 1)) (x r)); tauto. }
    assert (B' : x s < ent ws (length ws - 1)) by lra.
    apply (cp_near (fun r => pwlin (combine ws (ls r)) (x r))); auto.
    eapply filter_imp; [|exact (filter_and _ _ N0 (clocally_lt x (fun _ => ent ws (length ws - 1)) s X (cp_const0 _ _) B'))].
    cbv beta. intros r [E F]. unfold spectrum_at. destruct (Rlt_dec (x r) (ent ws 0)); [lra|].
    destruct (Rlt_dec (ent ws (length ws - 1)) (x r)); [lra|reflexivity].
Qed.
Lemma band_steady (Sp : R -> R -> R) wf tf s : (forall x, In x wf -> continuity_pt (fun r => Sp r x) s) ->
  continuity_pt (fun r => band_flux (Sp r) wf tf) s.
Proof.
  intros H. unfold band_flux, Rdiv. apply cp_mult'; [|apply cp_const0].
  unfold band_integral. apply (trapezoid_steady wf (fun r => map (fun i => ent tf i * Sp r (ent wf i) / ent wf i) (seq 0 (length wf)))).
  - apply (steady_map_seq (fun i r => ent tf i * Sp r (ent wf i) / ent wf i)). intros i Hi. unfold Rdiv.
    apply cp_mult'; [|apply cp_const0]. apply cp_const_mult. apply H. now apply ent_In.
  - intros. now rewrite map_length, seq_length.
Qed.
Lemma obsflux_steady ws (ls : R -> list R) wf tf (z : R -> R) s :
  steady_at ls s -> increasing ws -> length ws = length (ls s) -> ws <> [] -> continuity_pt z s -> -1 < z s ->
  (forall r, z r = z s) \/ (forall x, In x wf -> x / (1 + z s) <> ent ws 0 /\ x / (1 + z s) <> ent ws (length ws - 1)) ->
  continuity_pt (fun r => band_flux (zspec ws (ls r) (z r)) wf tf) s.
Proof.
  intros S I L N Z Hz O. apply band_steady. intros x Hx. unfold zspec.
  assert (X : continuity_pt (fun r => x / (1 + z r)) s).
  { apply cp_div'; [apply cp_const0|now apply cp_const_plus|lra]. }
  apply (spectrum_steady ws ls (fun r => x / (1 + z r))); auto. destruct O as [O|O].
  - left. intros r. now rewrite (O r).
  - right. now apply O.
Qed.
Lemma C125_rest_lemma : forall ws (ls : R -> list R) wf tf s,
  steady_at ls s -> good_spectrum ws (ls s) -> good_filter wf tf -> 0 < band_flux (spectrum_at ws (ls s)) wf tf ->
  exists mag : R -> R,
    near s (fun r => calc_rest_mag (fins ws) (fins (ls r)) (fins wf) (fins tf) = Ok (Fin (mag r))) /\ continuity_pt mag s.
Proof.
  intros ws ls wf tf s S (I & L & N) G P. pose proof (steady_len ls s _ S (eq_sym L)) as LL.
  assert (D : continuity_pt (fun r => band_flux (spectrum_at ws (ls r)) wf tf) s).
  { apply band_steady. intros x _. apply (spectrum_steady ws ls (fun _ => x)); auto using cp_const0. }
  exists (fun r => -2.5 * log10 (band_flux (spectrum_at ws (ls r)) wf tf)). split.
  - apply near_locally. eapply filter_imp; [|apply (clocally_lt (fun _ => 0) _ s (cp_const0 _ _) D P)]. cbv beta. intros r Hr.
    apply mag_ok; auto. split; auto.
  - apply cp_const_mult. now apply cp_log10.
Qed.
Lemma C125_obs_lemma : forall ws (ls : R -> list R) wf tf (z Om0 w0 wa h : R -> R) s,
  steady_at ls s -> continuity_pt z s -> continuity_pt Om0 s -> continuity_pt w0 s -> continuity_pt wa s -> continuity_pt h s ->
  good_spectrum ws (ls s) -> good_filter wf tf -> 0 < z s -> 0 < Om0 s < 1 -> 0 < h s ->
  0 < band_flux (fun x => spectrum_at ws (ls s) (x / (1 + z s))) wf tf ->
  (forall r, z r = z s)
  \/ (forall x, In x wf -> x / (1 + z s) <> ent ws 0 /\ x / (1 + z s) <> ent ws (length ws - 1)) ->
  exists mag : R -> R,
    near s (fun r => calc_obs_mag (fins ws) (fins (ls r)) (fins wf) (fins tf) (Fin (z r)) (Fin (Om0 r)) (Fin (w0 r)) (Fin (wa r)) (Fin (h r))
                     = Ok (Fin (mag r)))
    /\ continuity_pt mag s.
Proof.
  intros ws ls wf tf z Om w0 wa h s S Z O W0 WA H (I & L & N) G Hz HO Hh P Off.
  pose proof (steady_len ls s _ S (eq_sym L)) as LL.
  pose proof (obsflux_steady ws ls wf tf z s S I L N Z ltac:(lra) Off) as D.
  pose proof (mu_steady Om w0 wa h z s O W0 WA H Z HO Hh Hz) as DM.
  pose proof (cp_const_plus 1 z s Z) as Z1.
  exists (fun r => -2.5 * log10 (band_flux (zspec ws (ls r) (z r)) wf tf)
    + 5 * log10 (dc (Om r) (w0 r) (wa r) (h r) (z r) * (1 + z r) * 10 ^ 5) - 2.5 * log10 (1 + z r)). split.
  - pose proof (near_locally _ _ (clocally_lt (fun _ => 0) _ s (cp_const0 _ _) D P)) as N1.
    pose proof (cosmo_near_c Om h z s 0 O H Z HO Hh Hz) as N2.
    eapply near_imp; [|exact (near_and _ _ _ N1 N2)]. cbv beta. intros r (R0 & R1 & R2 & R3).
    destruct (obs_ok ws (ls r) wf tf (z r) (Om r) (w0 r) (wa r) (h r)) as (mu & E & K); auto; [now split; auto|].
    rewrite mu_fin in E by auto. injection E as E. rewrite K, <- E. reflexivity.
  - apply cp_minus'; [apply cp_plus'; auto|]; apply cp_const_mult; apply cp_log10; auto. lra.
Qed.
Lemma C125_galaxy_lemma : forall ts (sfrs : R -> list R) (lgmet scatter t_obs z : R -> R) flux ssp_lgmet ages sfr_min
    ws wf tf Om0 w0 wa h s,
  steady_at sfrs s -> continuity_pt lgmet s -> continuity_pt scatter s -> continuity_pt t_obs s -> continuity_pt z s ->
  good_grids ts (sfrs s) (scatter s) ssp_lgmet ages (t_obs s) -> increasing (met_edges ssp_lgmet) ->
  is_cube (length ssp_lgmet) (length ages) (length ws) flux -> increasing ws -> ws <> [] -> good_filter wf tf ->
  0 < t_obs s -> 0 < sfr_min -> 0 < z s -> 0 < Om0 < 1 -> 0 < h ->
  (forall r, z r = z s)
  \/ (forall x, In x wf -> x / (1 + z s) <> ent ws 0 /\ x / (1 + z s) <> ent ws (length ws - 1)) ->
  (forall sed, calc_rest_sed_sfh_table_lognormal_mdf (fins ts) (fins (sfrs s)) (Fin (lgmet s)) (Fin (scatter s))
        (fins ssp_lgmet) (fins ages) (fins3 flux) (Fin (t_obs s)) (Fin sfr_min) = Ok sed ->
     exists l, rest_sed sed = fins l /\ 0 < band_flux (fun x => spectrum_at ws l (x / (1 + z s))) wf tf) ->
  exists mag : R -> R,
    near s (fun r => exists sed,
      calc_rest_sed_sfh_table_lognormal_mdf (fins ts) (fins (sfrs r)) (Fin (lgmet r)) (Fin (scatter r))
        (fins ssp_lgmet) (fins ages) (fins3 flux) (Fin (t_obs r)) (Fin sfr_min) = Ok sed
      /\ calc_obs_mag (fins ws) (rest_sed sed) (fins wf) (fins tf) (Fin (z r)) (Fin Om0) (Fin w0) (Fin wa) (Fin h)
         = Ok (Fin (mag r)))
    /\ continuity_pt mag s.
Proof.
  intros ts F x hs t z flux lgmets ages smin ws wf tf Om w0 wa h s S X Hs T Z G Hme Hc I N Gf Ht Hsm Hz HO Hh O2 Pos.
  destruct (C124_sed_lemma ts F x hs t (fun _ => flux) lgmets ages (length ws) smin s S X Hs T) as (sed & mw & aw & W & Nr & SS & _); auto.
  { split; [now exists (length lgmets), (length ages), (length ws)|]. intros. apply cp_const0. }
  destruct (Pos _ (near_at _ _ Nr)) as (l & El & Pl). cbn [rest_sed] in El. apply fins_inj' in El.
  assert (LS : length (sed s) = length ws).
  { destruct G as (Hl & Hn & Hi & Ha & He & Hh' & Hlm & Hmn & Hf).
    pose proof (sed_lognormal_explicit ts (F s) (x s) (hs s) lgmets ages flux (length ws) (t s) smin) as E. cbv zeta in E.
    pose proof (near_at _ _ Nr) as E2. cbv beta in E2. rewrite E in E2; auto. 2:{ repeat (split; auto). }
    apply ok_inj in E2. assert (E3 := f_equal rest_sed E2). cbn [rest_sed] in E3. apply fins_inj' in E3. rewrite <- E3.
    now rewrite map_length, seq_length. }
  destruct (C125_obs_lemma ws sed wf tf z (fun _ => Om) (fun _ => w0) (fun _ => wa) (fun _ => h) s SS Z) as (mag & Nm & Dm);
    auto using cp_const0.
  { split; auto. }
  { rewrite El. exact Pl. }
  exists mag. split; auto. eapply near_imp; [|exact (near_and _ _ _ Nr Nm)]. cbv beta. intros r [E1 E2].
  eexists. split; [exact E1|]. exact E2.
Qed.
