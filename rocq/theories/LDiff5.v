(** * Differentiability: photometry and cosmology *)
From Coq Require Import Reals List Arith Lra Lia Bool.
From Coquelicot Require Import Coquelicot.
From Flocq Require Import Core.Raux.
From Verif Require Import Num Arr MUtils MSed MCosmo MPhot Spec Spec2 SpecApi RList LUtils LCalc LAge LKern LKern2 LMet LBurst LDust LCosmo LPhot LDiff LDiff2 LDiff3 LDiff4.
Import ListNotations.
Open Scope R_scope.

(** ** cosmology *)
Lemma trapE2_smooth n : forall (x y : nat -> R -> R) s, (forall i, ex_derive (x i) s) -> (forall i, ex_derive (y i) s) ->
  ex_derive (fun r => Rsum (map (fun i => (x (S i) r - x i r) * (y i r + y (S i) r) / 2) (seq 0 n))) s.
Proof.
  intros x y s X Y. apply (ex_derive_Rsum (fun i r => (x (S i) r - x i r) * (y i r + y (S i) r) / 2)). intros i _.
  unfold Rdiv. apply ex_derive_mult'; [|apply ex_derive_const0]. apply ex_derive_mult'; [now apply ex_derive_minus'|now apply ex_derive_plus'].
Qed.
Lemma trapezoid_sum xs : forall ys, length xs = length ys ->
  trapezoid xs ys = Rsum (map (fun i => (ent xs (S i) - ent xs i) * (ent ys i + ent ys (S i)) / 2) (seq 0 (length xs - 1))).
Proof.
  induction xs as [|x0 xs IH]; intros [|y0 ys] H; try discriminate; auto.
  destruct xs as [|x1 xs], ys as [|y1 ys]; try discriminate; auto.
  rewrite trapezoid_cons2, (IH (y1 :: ys)) by (simpl in *; lia).
  cbn [length]. rewrite !Nat.sub_succ, !Nat.sub_0_r. cbn [seq map Rsum]. rewrite <- seq_shift, map_map. reflexivity.
Qed.
Lemma trapezoid2_smooth (X Y : R -> list R) s n : smooth_at X s -> smooth_at Y s -> (forall r, length (X r) = n) -> (forall r, length (Y r) = n) ->
  ex_derive (fun r => trapezoid (X r) (Y r)) s.
Proof.
  intros [_ DX] [_ DY] LX LY.
  apply (ex_derive_eq (fun r => Rsum (map (fun i => (ent (X r) (S i) - ent (X r) i) * (ent (Y r) i + ent (Y r) (S i)) / 2) (seq 0 (n - 1))))).
  - intros r. rewrite trapezoid_sum by (now rewrite LX, LY). now rewrite LX.
  - now apply (trapE2_smooth (n - 1) (fun i r => ent (X r) i) (fun i r => ent (Y r) i)).
Qed.
Lemma ex_derive_exp' (f : R -> R) s : ex_derive f s -> ex_derive (fun r => exp (f r)) s.
Proof. intros F. apply (ex_derive_comp' exp f); auto. eexists. apply is_derive_exp. Qed.
Lemma ex_derive_ln' (f : R -> R) s : ex_derive f s -> 0 < f s -> ex_derive (fun r => ln (f r)) s.
Proof. intros F P. apply (ex_derive_comp' ln f); auto. eexists. now apply is_derive_ln. Qed.
Lemma ex_derive_sqrt' (f : R -> R) s : ex_derive f s -> 0 < f s -> ex_derive (fun r => sqrt (f r)) s.
Proof. intros F P. apply (ex_derive_comp' sqrt f); auto. eexists. apply is_derive_sqrt; [apply (is_derive_id (f s))|exact P]. Qed.
Lemma ex_derive_const_mult (c : R) (f : R -> R) s : ex_derive f s -> ex_derive (fun r => c * f r) s.
Proof. intros F. apply ex_derive_mult'; auto. apply ex_derive_const0. Qed.
Lemma ex_derive_const_plus (c : R) (f : R -> R) s : ex_derive f s -> ex_derive (fun r => c + f r) s.
Proof. intros F. apply ex_derive_plus'; auto. apply ex_derive_const0. Qed.

Lemma de_smooth (w0 wa z : R -> R) s : ex_derive w0 s -> ex_derive wa s -> ex_derive z s -> -1 < z s ->
  ex_derive (fun r => dark_energy (w0 r) (wa r) (z r)) s.
Proof.
  intros W0 WA Z H. unfold dark_energy, Rpower. pose proof (ex_derive_const_plus 1 z s Z) as Z1.
  apply ex_derive_mult'; apply ex_derive_exp'.
  - apply ex_derive_mult'; [|apply ex_derive_ln'; auto; lra]. apply ex_derive_const_mult. apply ex_derive_plus'; auto.
    now apply ex_derive_const_plus.
  - apply ex_derive_mult'; [now apply (ex_derive_const_mult (-3))|]. apply ex_derive_div'; auto. lra.
Qed.
Lemma E_smooth (Om w0 wa z : R -> R) s : ex_derive Om s -> ex_derive w0 s -> ex_derive wa s -> ex_derive z s ->
  0 < Om s < 1 -> -1 < z s -> ex_derive (fun r => expansion (Om r) (w0 r) (wa r) (z r)) s.
Proof.
  intros O W0 WA Z HO H. unfold expansion. apply ex_derive_sqrt'.
  - apply ex_derive_plus'; apply ex_derive_mult'; auto.
    + apply (ex_derive_pow' (fun r => 1 + z r)). now apply ex_derive_const_plus.
    + apply ex_derive_minus'; auto. apply ex_derive_const0.
    + now apply de_smooth.
  - pose proof (E2_pos (Om s) (w0 s) (wa s) (z s) ltac:(lra) H). lra.
Qed.
Lemma f1_smooth (Om w0 wa z : R -> R) s : ex_derive Om s -> ex_derive w0 s -> ex_derive wa s -> ex_derive z s ->
  0 < Om s < 1 -> -1 < z s -> ex_derive (fun r => f1 (Om r) (w0 r) (wa r) (z r)) s.
Proof.
  intros O W0 WA Z HO H. unfold f1. apply ex_derive_div'; [apply ex_derive_const0|now apply E_smooth|].
  pose proof (E_pos (Om s) (w0 s) (wa s) (z s) ltac:(lra) H). lra.
Qed.
Lemma f2_smooth (Om w0 wa z : R -> R) s : ex_derive Om s -> ex_derive w0 s -> ex_derive wa s -> ex_derive z s ->
  0 < Om s < 1 -> -1 < z s -> ex_derive (fun r => f2 (Om r) (w0 r) (wa r) (z r)) s.
Proof.
  intros O W0 WA Z HO H. unfold f2. apply ex_derive_div'; [now apply f1_smooth|now apply ex_derive_const_plus|lra].
Qed.
Lemma quad_smooth n (g : R -> R -> R) (z : R -> R) s : (2 <= n)%nat -> ex_derive z s -> -1 < z s ->
  (forall (x : R -> R), ex_derive x s -> -1 < x s -> ex_derive (fun r => g r (x r)) s) ->
  ex_derive (fun r => quad n (g r) (z r)) s.
Proof.
  intros Hn Z H G. unfold quad.
  assert (SG : smooth_at (fun r => grid n (z r)) s).
  { apply (smooth_map_seq (fun i r => z r * (INR i / INR (n - 1)))). intros i _. apply ex_derive_mult'; auto. apply ex_derive_const0. }
  apply (trapezoid2_smooth (fun r => grid n (z r)) (fun r => map (g r) (grid n (z r))) s n); auto.
  - apply (smooth_intro _ n); [intros; now rewrite map_length, grid_length|]. intros i Hi.
    apply (ex_derive_eq (fun r => g r (ent (grid n (z r)) i))).
    + intros r. rewrite ent_map; auto. now rewrite grid_length.
    + apply (G (fun r => ent (grid n (z r)) i)); [apply SG|now apply grid_gt].
  - intros; apply grid_length.
  - intros; now rewrite map_length, grid_length.
Qed.
Lemma hubble_smooth (h : R -> R) s : ex_derive h s -> 0 < h s -> ex_derive (fun r => hubble_dist (h r)) s.
Proof. intros H P. unfold hubble_dist. apply ex_derive_div'; auto; [apply ex_derive_const0|lra]. Qed.
Lemma dc_smooth (Om w0 wa h z : R -> R) s : ex_derive Om s -> ex_derive w0 s -> ex_derive wa s -> ex_derive h s -> ex_derive z s ->
  0 < Om s < 1 -> 0 < h s -> -1 < z s -> ex_derive (fun r => dc (Om r) (w0 r) (wa r) (h r) (z r)) s.
Proof.
  intros O W0 WA H Z HO Hh Hz. unfold dc. apply ex_derive_mult'; [now apply hubble_smooth|].
  apply (quad_smooth 256 (fun r => f1 (Om r) (w0 r) (wa r)) z); auto using n256. intros x X Hx. now apply f1_smooth.
Qed.

Lemma tH_smooth (h : R -> R) s : ex_derive h s -> 0 < h s -> ex_derive (fun r => tH (h r)) s.
Proof. intros H P. unfold tH. apply ex_derive_div'; auto; [apply ex_derive_const0|lra]. Qed.
Lemma look_smooth (Om w0 wa h z : R -> R) s : ex_derive Om s -> ex_derive w0 s -> ex_derive wa s -> ex_derive h s -> ex_derive z s ->
  0 < Om s < 1 -> 0 < h s -> -1 < z s -> ex_derive (fun r => look (Om r) (w0 r) (wa r) (h r) (z r)) s.
Proof.
  intros O W0 WA H Z HO Hh Hz. unfold look. apply ex_derive_mult'; [now apply tH_smooth|].
  apply (quad_smooth 512 (fun r => f2 (Om r) (w0 r) (wa r)) z); auto using n512. intros x X Hx. now apply f2_smooth.
Qed.
Lemma age0_smooth (Om w0 wa h : R -> R) s : ex_derive Om s -> ex_derive w0 s -> ex_derive wa s -> ex_derive h s ->
  0 < Om s < 1 -> 0 < h s -> ex_derive (fun r => age0 (Om r) (w0 r) (wa r) (h r)) s.
Proof.
  intros O W0 WA H HO Hh. unfold age0, aint. apply ex_derive_mult'; [now apply tH_smooth|].
  apply (trapezoid_smooth agrid (fun r => map (f2 (Om r) (w0 r) (wa r)) agrid)); [|intros; apply map_length].
  apply (smooth_intro _ (length agrid)); [intros; apply map_length|]. intros i Hi.
  apply (ex_derive_eq (fun r => f2 (Om r) (w0 r) (wa r) (ent agrid i))); [intros; now rewrite ent_map|].
  apply (f2_smooth Om w0 wa (fun _ => ent agrid i)); auto using ex_derive_const0.
  pose proof (agrid_In _ (ent_In agrid i Hi)). lra.
Qed.
Lemma cosmo_near (Om h z : R -> R) s c : ex_derive Om s -> ex_derive h s -> ex_derive z s -> 0 < Om s < 1 -> 0 < h s -> c < z s ->
  near s (fun r => 0 < Om r <= 1 /\ 0 < h r /\ c < z r).
Proof.
  intros O H Z HO Hh Hz. apply near_locally.
  pose proof (locally_lt (fun _ => 0) Om s (ex_derive_const0 _ _) O ltac:(lra)) as A1.
  pose proof (locally_lt Om (fun _ => 1) s O (ex_derive_const0 _ _) ltac:(lra)) as A2.
  pose proof (locally_lt (fun _ => 0) h s (ex_derive_const0 _ _) H Hh) as A3.
  pose proof (locally_lt (fun _ => c) z s (ex_derive_const0 _ _) Z Hz) as A4.
  eapply filter_imp; [|apply filter_and; [apply filter_and; [exact A1|exact A2]|apply filter_and; [exact A3|exact A4]]].
  cbv beta. intros r [[? ?] [? ?]]. lra.
Qed.
Lemma dc_pos Om0 w0 wa h z : 0 < Om0 <= 1 -> 0 < h -> 0 < z -> 0 < dc Om0 w0 wa h z.
Proof.
  intros HO Hh Hz. apply Rmult_lt_0_compat; [now apply hubble_dist_pos|].
  apply quad_pos; [apply n256|auto|]. intros x Hx. apply f1_pos; auto; lra.
Qed.
Lemma mu_fin Om0 w0 wa h z : 0 < Om0 <= 1 -> 0 < h -> 0 < z ->
  distance_modulus_to_z (Fin z) (Fin Om0) (Fin w0) (Fin wa) (Fin h) = Fin (5 * log10 (dc Om0 w0 wa h z * (1 + z) * 10 ^ 5)).
Proof.
  intros HO Hh Hz. pose proof (dc_pos Om0 w0 wa h z HO Hh Hz) as P.
  assert (0 < dc Om0 w0 wa h z * (1 + z)) by (apply Rmult_lt_0_compat; lra).
  unfold distance_modulus_to_z. rewrite dl_fin by (auto; lra). rewrite nmul_fin, nlog10_fin, nmul_fin by lra. reflexivity.
Qed.
Lemma mu_smooth (Om w0 wa h z : R -> R) s : ex_derive Om s -> ex_derive w0 s -> ex_derive wa s -> ex_derive h s -> ex_derive z s ->
  0 < Om s < 1 -> 0 < h s -> 0 < z s ->
  ex_derive (fun r => 5 * log10 (dc (Om r) (w0 r) (wa r) (h r) (z r) * (1 + z r) * 10 ^ 5)) s.
Proof.
  intros O W0 WA H Z HO Hh Hz. apply ex_derive_const_mult. apply ex_derive_log10.
  - apply ex_derive_mult'; [|apply ex_derive_const0]. apply ex_derive_mult'; [apply dc_smooth; auto; lra|now apply ex_derive_const_plus].
  - pose proof (dc_pos (Om s) (w0 s) (wa s) (h s) (z s) ltac:(lra) Hh Hz).
    assert (0 < dc (Om s) (w0 s) (wa s) (h s) (z s) * (1 + z s)) by (apply Rmult_lt_0_compat; lra). lra.
Qed.
Lemma C120_lemma : forall (z Om0 w0 wa h : R -> R) s,
  ex_derive z s -> ex_derive Om0 s -> ex_derive w0 s -> ex_derive wa s -> ex_derive h s ->
  0 < Om0 s < 1 -> 0 < h s -> -1 < z s ->
  exists dC dL dA tL age t0 : R -> R,
    near s (fun r =>
      comoving_distance_to_z (Fin (z r)) (Fin (Om0 r)) (Fin (w0 r)) (Fin (wa r)) (Fin (h r)) = Fin (dC r)
      /\ luminosity_distance_to_z (Fin (z r)) (Fin (Om0 r)) (Fin (w0 r)) (Fin (wa r)) (Fin (h r)) = Fin (dL r)
      /\ angular_diameter_distance_to_z (Fin (z r)) (Fin (Om0 r)) (Fin (w0 r)) (Fin (wa r)) (Fin (h r)) = Fin (dA r)
      /\ lookback_to_z (Fin (z r)) (Fin (Om0 r)) (Fin (w0 r)) (Fin (wa r)) (Fin (h r)) = Fin (tL r)
      /\ age_at_z (Scalar (Fin (z r))) (Fin (Om0 r)) (Fin (w0 r)) (Fin (wa r)) (Fin (h r)) = [Fin (age r)]
      /\ age_at_z0 (Fin (Om0 r)) (Fin (w0 r)) (Fin (wa r)) (Fin (h r)) = Fin (t0 r))
    /\ ex_derive dC s /\ ex_derive dL s /\ ex_derive dA s /\ ex_derive tL s /\ ex_derive age s /\ ex_derive t0 s
    /\ (0 < z s -> exists mu : R -> R,
         near s (fun r => distance_modulus_to_z (Fin (z r)) (Fin (Om0 r)) (Fin (w0 r)) (Fin (wa r)) (Fin (h r)) = Fin (mu r))
         /\ ex_derive mu s).
Proof.
  intros z Om w0 wa h s Z O W0 WA H HO Hh Hz.
  pose proof (dc_smooth Om w0 wa h z s O W0 WA H Z HO Hh Hz) as DC.
  pose proof (look_smooth Om w0 wa h z s O W0 WA H Z HO Hh Hz) as DL.
  pose proof (age0_smooth Om w0 wa h s O W0 WA H HO Hh) as DA.
  pose proof (ex_derive_const_plus 1 z s Z) as Z1.
  exists (fun r => dc (Om r) (w0 r) (wa r) (h r) (z r)), (fun r => dc (Om r) (w0 r) (wa r) (h r) (z r) * (1 + z r)),
    (fun r => dc (Om r) (w0 r) (wa r) (h r) (z r) / (1 + z r)), (fun r => look (Om r) (w0 r) (wa r) (h r) (z r)),
    (fun r => age0 (Om r) (w0 r) (wa r) (h r) - look (Om r) (w0 r) (wa r) (h r) (z r)), (fun r => age0 (Om r) (w0 r) (wa r) (h r)).
  split.
  { eapply near_imp; [|apply (cosmo_near Om h z s (-1)); auto]. cbv beta. intros r (R1 & R2 & R3).
    assert (h r <> 0) by lra.
    split; [now apply dc_fin|]. split; [now apply dl_fin|]. split; [now apply da_fin|]. split; [now apply lookback_fin|].
    split; [|now apply age0_fin]. unfold age_at_z. simpl. now rewrite agekern_fin. }
  split; [auto|]. split; [now apply ex_derive_mult'|]. split; [apply ex_derive_div'; auto; lra|]. split; [auto|].
  split; [now apply ex_derive_minus'|]. split; [auto|]. intros Hz0.
  exists (fun r => 5 * log10 (dc (Om r) (w0 r) (wa r) (h r) (z r) * (1 + z r) * 10 ^ 5)). split.
  - eapply near_imp; [|apply (cosmo_near Om h z s 0); auto]. cbv beta. intros r (R1 & R2 & R3). now apply mu_fin.
  - now apply mu_smooth.
Qed.

(** ** photometry *)
Lemma spectrum_smooth ws (ls : R -> list R) (x : R -> R) s : smooth_at ls s -> length ws = length (ls s) -> ws <> [] ->
  (forall c, In c ws -> same_side x s c) -> ex_derive x s -> ex_derive (fun r => spectrum_at ws (ls r) (x r)) s.
Proof.
  intros S L N H X. pose proof (smooth_len ls s _ S (eq_sym L)) as LL.
  assert (NL : (0 < length ws)%nat) by (destruct ws; [congruence|simpl; lia]).
  pose proof (H _ (ent_In ws 0 NL)) as H0. pose proof (H _ (ent_In ws (length ws - 1) ltac:(lia))) as H1.
  unfold spectrum_at. destruct (Rlt_dec (x s) (ent ws 0)) as [A|A].
  { apply (ex_derive_near (fun _ => 0)); [|apply ex_derive_const0]. eapply filter_imp; [|exact H0]. cbv beta. intros r [_ E].
    destruct (Rlt_dec (x r) (ent ws 0)); tauto. }
  destruct (Rlt_dec (ent ws (length ws - 1)) (x s)) as [B|B].
  { apply (ex_derive_near (fun _ => 0)); [|apply ex_derive_const0].
    eapply filter_imp; [|apply filter_and; [exact H0|exact H1]]. cbv beta. intros r [[_ E] [F _]].
    destruct (Rlt_dec (x r) (ent ws 0)); [tauto|]. destruct (Rlt_dec (ent ws (length ws - 1)) (x r)); [tauto|]. exfalso. lra. }
  apply (ex_derive_near (fun r => pwlin (combine ws (ls r)) (x r))).
  - eapply filter_imp; [|apply filter_and; [exact H0|exact H1]]. cbv beta. intros r [[_ E] [F _]].
    destruct (Rlt_dec (x r) (ent ws 0)); [tauto|]. destruct (Rlt_dec (ent ws (length ws - 1)) (x r)); [exfalso; lra|]. reflexivity.
  - apply pwlin_smooth; auto.
Qed.
Lemma band_smooth (Sp : R -> R -> R) wf tf s : (forall x, In x wf -> ex_derive (fun r => Sp r x) s) ->
  ex_derive (fun r => band_flux (Sp r) wf tf) s.
Proof.
  intros H. unfold band_flux, Rdiv. apply ex_derive_mult'; [|apply ex_derive_const0].
  unfold band_integral. apply (trapezoid_smooth wf (fun r => map (fun i => ent tf i * Sp r (ent wf i) / ent wf i) (seq 0 (length wf)))).
  - apply (smooth_map_seq (fun i r => ent tf i * Sp r (ent wf i) / ent wf i)). intros i Hi. unfold Rdiv.
    apply ex_derive_mult'; [|apply ex_derive_const0]. apply ex_derive_const_mult. apply H. now apply ent_In.
  - intros. now rewrite map_length, seq_length.
Qed.
Definition wave_off (ws wf : list R) (z : R -> R) (s : R) : Prop :=
  (forall r, z r = z s) \/ (forall x, In x wf -> ~ In (x / (1 + z s)) ws).
Lemma obsflux_smooth ws (ls : R -> list R) wf tf (z : R -> R) s :
  smooth_at ls s -> length ws = length (ls s) -> ws <> [] -> ex_derive z s -> -1 < z s -> wave_off ws wf z s ->
  ex_derive (fun r => band_flux (zspec ws (ls r) (z r)) wf tf) s.
Proof.
  intros S L N Z Hz O. apply band_smooth. intros x Hx. unfold zspec.
  assert (X : ex_derive (fun r => x / (1 + z r)) s).
  { apply ex_derive_div'; [apply ex_derive_const0|now apply ex_derive_const_plus|lra]. }
  apply (spectrum_smooth ws ls (fun r => x / (1 + z r))); auto. intros c Hc. destruct O as [O|O].
  - apply same_side_const. intros r. now rewrite O.
  - apply same_side_off; auto. intros E. apply (O x Hx). now rewrite E.
Qed.
Lemma C119_rest_lemma : forall ws (ls : R -> list R) wf tf s,
  smooth_at ls s -> good_spectrum ws (ls s) -> good_filter wf tf -> 0 < band_flux (spectrum_at ws (ls s)) wf tf ->
  exists mag : R -> R,
    near s (fun r => calc_rest_mag (fins ws) (fins (ls r)) (fins wf) (fins tf) = Ok (Fin (mag r))) /\ ex_derive mag s.
Proof.
  intros ws ls wf tf s S (I & L & N) G P. pose proof (smooth_len ls s _ S (eq_sym L)) as LL.
  assert (D : ex_derive (fun r => band_flux (spectrum_at ws (ls r)) wf tf) s).
  { apply band_smooth. intros x _. apply (spectrum_smooth ws ls (fun _ => x)); auto using ex_derive_const0.
    intros c _. now apply same_side_const. }
  exists (fun r => -2.5 * log10 (band_flux (spectrum_at ws (ls r)) wf tf)). split.
  - apply near_locally. eapply filter_imp; [|apply (locally_lt (fun _ => 0) _ s (ex_derive_const0 _ _) D P)]. cbv beta. intros r Hr.
    apply mag_ok; auto. split; auto.
  - apply ex_derive_const_mult. now apply ex_derive_log10.
Qed.
Lemma C119_obs_lemma : forall ws (ls : R -> list R) wf tf (z Om0 w0 wa h : R -> R) s,
  smooth_at ls s -> ex_derive z s -> ex_derive Om0 s -> ex_derive w0 s -> ex_derive wa s -> ex_derive h s ->
  good_spectrum ws (ls s) -> good_filter wf tf -> 0 < z s -> 0 < Om0 s < 1 -> 0 < h s ->
  0 < band_flux (fun x => spectrum_at ws (ls s) (x / (1 + z s))) wf tf ->
  (forall r, z r = z s) \/ (forall x, In x wf -> ~ In (x / (1 + z s)) ws) ->
  exists mag : R -> R,
    near s (fun r => calc_obs_mag (fins ws) (fins (ls r)) (fins wf) (fins tf) (Fin (z r)) (Fin (Om0 r)) (Fin (w0 r)) (Fin (wa r)) (Fin (h r))
                     = Ok (Fin (mag r)))
    /\ ex_derive mag s.
Proof.
  intros ws ls wf tf z Om w0 wa h s S Z O W0 WA H (I & L & N) G Hz HO Hh P Off.
  pose proof (smooth_len ls s _ S (eq_sym L)) as LL.
  pose proof (obsflux_smooth ws ls wf tf z s S L N Z ltac:(lra) Off) as D.
  pose proof (mu_smooth Om w0 wa h z s O W0 WA H Z HO Hh Hz) as DM.
  pose proof (ex_derive_const_plus 1 z s Z) as Z1.
  exists (fun r => -2.5 * log10 (band_flux (zspec ws (ls r) (z r)) wf tf)
    + 5 * log10 (dc (Om r) (w0 r) (wa r) (h r) (z r) * (1 + z r) * 10 ^ 5) - 2.5 * log10 (1 + z r)). split.
  - pose proof (near_locally _ _ (locally_lt (fun _ => 0) _ s (ex_derive_const0 _ _) D P)) as N1.
    pose proof (cosmo_near Om h z s 0 O H Z HO Hh Hz) as N2.
    eapply near_imp; [|exact (near_and _ _ _ N1 N2)]. cbv beta. intros r (R0 & R1 & R2 & R3).
    destruct (obs_ok ws (ls r) wf tf (z r) (Om r) (w0 r) (wa r) (h r)) as (mu & E & K); auto; [now split; auto|].
    rewrite mu_fin in E by auto. injection E as E. rewrite K, <- E. reflexivity.
  - apply ex_derive_minus'; [apply ex_derive_plus'; auto|]; apply ex_derive_const_mult; apply ex_derive_log10; auto. lra.
Qed.
Lemma C119_galaxy_lemma : forall ts (sfrs : R -> list R) (lgmet scatter t_obs z : R -> R) flux ssp_lgmet ages sfr_min
    ws wf tf Om0 w0 wa h s,
  smooth_at sfrs s -> ex_derive lgmet s -> ex_derive scatter s -> ex_derive t_obs s -> ex_derive z s ->
  good_grids ts (sfrs s) (scatter s) ssp_lgmet ages (t_obs s) -> increasing (met_edges ssp_lgmet) ->
  is_cube (length ssp_lgmet) (length ages) (length ws) flux -> increasing ws -> ws <> [] -> good_filter wf tf ->
  0 < t_obs s -> 0 < sfr_min -> 0 < z s -> 0 < Om0 < 1 -> 0 < h ->
  avoids sfr_min (sfrs s) -> avoids (1 / 10 ^ 14) (sfrs s) ->
  (forall r, t_obs r = t_obs s) \/ (born_off_grid ts (t_obs s) (age_edges ages) /\ ~ In (t_obs s) ts) ->
  (forall r, z r = z s) \/ (forall x, In x wf -> ~ In (x / (1 + z s)) ws) ->
  (forall sed, calc_rest_sed_sfh_table_lognormal_mdf (fins ts) (fins (sfrs s)) (Fin (lgmet s)) (Fin (scatter s))
        (fins ssp_lgmet) (fins ages) (fins3 flux) (Fin (t_obs s)) (Fin sfr_min) = Ok sed ->
     exists l, rest_sed sed = fins l /\ 0 < band_flux (fun x => spectrum_at ws l (x / (1 + z s))) wf tf) ->
  exists mag : R -> R,
    near s (fun r => exists sed,
      calc_rest_sed_sfh_table_lognormal_mdf (fins ts) (fins (sfrs r)) (Fin (lgmet r)) (Fin (scatter r))
        (fins ssp_lgmet) (fins ages) (fins3 flux) (Fin (t_obs r)) (Fin sfr_min) = Ok sed
      /\ calc_obs_mag (fins ws) (rest_sed sed) (fins wf) (fins tf) (Fin (z r)) (Fin Om0) (Fin w0) (Fin wa) (Fin h)
         = Ok (Fin (mag r)))
    /\ ex_derive mag s.
Proof.
  intros ts F x hs t z flux lgmets ages smin ws wf tf Om w0 wa h s S X Hs T Z G Hme Hc I N Gf Ht Hsm Hz HO Hh A1 A2 O1 O2 Pos.
  destruct (C117_lemma ts F x hs t (fun _ => flux) lgmets ages (length ws) smin s S X Hs T) as (sed & mw & aw & W & Nr & SS & _); auto.
  { split; [now exists (length lgmets), (length ages), (length ws)|]. intros. apply ex_derive_const0. }
  destruct (Pos _ (near_at _ _ Nr)) as (l & El & Pl). cbn [rest_sed] in El. apply fins_inj' in El.
  assert (LS : length (sed s) = length ws).
  { destruct G as (Hl & Hn & Hi & Ha & He & Hh' & Hlm & Hmn & Hf).
    pose proof (sed_lognormal_explicit ts (F s) (x s) (hs s) lgmets ages flux (length ws) (t s) smin) as E. cbv zeta in E.
    pose proof (near_at _ _ Nr) as E2. cbv beta in E2. rewrite E in E2; auto. 2:{ repeat (split; auto). }
    apply ok_inj in E2. assert (E3 := f_equal rest_sed E2). cbn [rest_sed] in E3. apply fins_inj' in E3. rewrite <- E3.
    now rewrite map_length, seq_length. }
  destruct (C119_obs_lemma ws sed wf tf z (fun _ => Om) (fun _ => w0) (fun _ => wa) (fun _ => h) s SS Z) as (mag & Nm & Dm);
    auto using ex_derive_const0.
  { split; auto. }
  { rewrite El. exact Pl. }
  exists mag. split; auto. eapply near_imp; [|exact (near_and _ _ _ Nr Nm)]. cbv beta. intros r [E1 E2].
  eexists. split; [exact E1|]. exact E2.
Qed.
