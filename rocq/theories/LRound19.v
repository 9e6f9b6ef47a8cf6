(** * Rounding errors of the photometry functions *)
From Coq Require Import Reals List Arith Lra Lia ZArith Bool.
From Coquelicot Require Import Rcomplements.
From Flocq Require Import Core.Raux.
From Verif Require Import Num Arr MUtils MCosmo MPhot Float Spec SpecFloat SpecFloat2 RList LBcast LUtils LKern2 LBurst LPhot LFloat LFloat2 LFloat3 LFloat4 LFloat5 LFloat10 LRound1 LRound2 LRound3 LRound4 LRound7 LRound8 LRound12 LRound14 LRound15 LRound16 LRound17 LRound18.
Import ListNotations.
Open Scope R_scope.

Lemma Rinv_pow_1 k : 1 / 10 ^ k = / 10 ^ k.
Proof. unfold Rdiv. lra. Qed.
Section F.
Context {AR : Arith} (u : R) (H : rel_err AR u) (HE : interp_eps <= / 2 ^ 40).
Notation G := (re_good _ _ H).

Lemma filter_split wf tf : rounding_filter wf tf -> filter_basic wf tf /\ 1 / 10 ^ 4 <= band_integral (fun _ => 1) wf tf /\ good_filter wf tf.
Proof.
  intros (I & L & LN & W & T & HI). assert (L1 : (1 <= length wf)%nat).
  { destruct wf; [|simpl; lia]. exfalso. unfold band_integral in HI. simpl in HI. lra. }
  split; [|split; [exact HI|]].
  - split; [split; auto|]. split; auto.
  - split; auto. split; [apply Forall_ent; intros i Hi; destruct (W i Hi); lra|]. rewrite band_ab0. apply Rmult_lt_0_compat; [apply ab0_pos|]. assert (0 < 1 / 10 ^ 4) by (simpl; lra). lra.
Qed.
Lemma spectrum_split B ws ls : rounding_spectrum B ws ls -> spectrum_ok ws ls B /\ / 10 ^ 20 <= B <= 10 ^ 20 /\ good_spectrum ws ls.
Proof.
  intros (N & L & W & GP & V & HB). assert (SO : spectrum_ok ws ls B) by (split; auto). split; auto. split; auto.
  split; [eapply spectrum_increasing; eauto|]. auto.
Qed.

(** the redshifted table *)
Lemma shifted_table Res B ws ls z : rounding_spectrum B ws ls -> rounding_resolution Res ws -> rnd z = Fin z -> 0 <= z <= 20 -> Res * (2.01 * u) <= 1/100 ->
  exists xs', map (fun w => nmul w (nadd (Fin 1) (Fin z))) (fins ws) = fins xs' /\ length xs' = length ws /\ spectrum_ok xs' ls B
   /\ (forall i, (i < length ws)%nat -> Rabs (ent xs' i - ent ws i * (1 + z)) <= 2.01 * u * (ent ws i * (1 + z))).
Proof.
  intros RS (HR & RB & RG) Rz Hz HRu. pose proof (u_le u H) as Hu. pose proof (tiny_u1 u H) as Ht. destruct RS as (N & L & W & GP & V & HB).
  destruct (rnd_range _ G (1 + z)) as (zz & Ez). { rewrite Rabs_right by lra. apply Rle_trans with (10 ^ 2); [simpl; lra|apply Rle_pow; [lra|lia]]. }
  pose proof (re_add _ _ H 1 z zz (rnd1 G) Rz Ez ltac:(apply safe_nonneg; lra)) as Az. rewrite (Rabs_right (1 + z)) in Az by lra.
  assert (U1 : 0 <= u * (1 + z) <= / (4 * 10 ^ 6) * (1 + z)) by (split; [apply Rmult_le_pos; lra|apply Rmult_le_compat_r; lra]). simpl (10 ^ 6) in U1.
  pose proof Az as Az'. apply Rabs_le_inv in Az'. assert (Hzz : 0.999 <= zz <= 21.001) by lra.
  assert (Q : forall w, 1 <= w <= 10 ^ 8 -> exists x, nmul (Fin w) (Fin zz) = Fin x /\ rnd x = Fin x /\ Rabs (x - w * (1 + z)) <= 2.01 * u * (w * (1 + z))).
  { intros w Hw. cbn [nmul]. set (P := w * (1 + z)). assert (HP : 1 <= P). { unfold P. rewrite <- (Rmult_1_l 1). apply Rmult_le_compat; lra. }
    assert (WZ : Rabs (w * zz - P) <= u * P). { unfold P. replace (w * zz - w * (1 + z)) with (w * (zz - (1 + z))) by ring. rewrite Rabs_mult, (Rabs_right w) by lra. replace (u * (w * (1 + z))) with (w * (u * (1 + z))) by ring. apply Rmult_le_compat_l; lra. }
    assert (UP : 0 <= u * P <= / (4 * 10 ^ 6) * P) by (split; [apply Rmult_le_pos; lra|apply Rmult_le_compat_r; lra]). simpl (10 ^ 6) in UP. apply Rabs_le_inv in WZ.
    assert (P10 : P <= 10 ^ 10). { unfold P. apply Rle_trans with (10 ^ 8 * 21); [apply Rmult_le_compat; lra|simpl; lra]. }
    destruct (rnd_range _ G (w * zz)) as (x & Ex). { rewrite Rabs_right by lra. apply Rle_trans with (10 ^ 11); [simpl in *; lra|apply Rle_pow; [lra|lia]]. }
    pose proof (re_any _ _ H _ _ Ex) as Ax. exists x. split; auto. split; [eapply (rnd_idem _ G); eauto|].
    rewrite (Rabs_right (w * zz)) in Ax by lra. assert (u * (w * zz) <= u * (1.0000003 * P)) by (apply Rmult_le_compat_l; lra). assert (u * 1 <= u * P) by (apply Rmult_le_compat_l; lra). simpl (10 ^ 6) in Ht.
    apply Rabs_le_inv in Ax. apply Rabs_le. lra. }
  set (F := fun i => nmul (Fin (ent ws i)) (Fin zz)). set (xs' := map (fun i => fval (F i)) (seq 0 (length ws))).
  assert (LX : length xs' = length ws) by (unfold xs'; now rewrite map_length, seq_length).
  assert (VX : forall i, (i < length ws)%nat -> F i = Fin (ent xs' i) /\ rnd (ent xs' i) = Fin (ent xs' i) /\ Rabs (ent xs' i - ent ws i * (1 + z)) <= 2.01 * u * (ent ws i * (1 + z))).
  { intros i Hi. unfold xs'. rewrite ent_map_seq by auto. cbn [Nat.add]. destruct (Q (ent ws i) (RB i Hi)) as (x & Ex & Rx & Ax). unfold F. rewrite Ex. auto. }
  exists xs'. split; [|split; [exact LX|split; [|intros i Hi; apply VX; auto]]].
  - cbn [nadd]. rewrite Ez. rewrite (list_seq xs'), LX. unfold fins. rewrite map_map. rewrite (list_seq ws) at 1. rewrite !map_map. apply map_ext_in. intros i Hi. apply in_seq in Hi. apply (VX i). lia.
  - assert (XP : forall i, (i < length ws)%nat -> 1 <= ent ws i * (1 + z) <= 21 * 10 ^ 8).
    { intros i Hi. specialize (RB i Hi). split; [rewrite <- (Rmult_1_l 1); apply Rmult_le_compat; lra|rewrite (Rmult_comm 21); apply Rmult_le_compat; lra]. }
    split; [intros E; rewrite E in LX; destruct ws; [congruence|discriminate]|]. split; [congruence|]. rewrite LX. split; [|split].
    + intros i Hi. destruct (VX i Hi) as (_ & R1 & R2). split; auto. specialize (XP i Hi). set (P := ent ws i * (1 + z)) in *. assert (2.01 * u * P <= 1/1000 * P) by (apply Rmult_le_compat_r; simpl in Hu; lra). apply Rabs_le_inv in R2. simpl (10 ^ 8) in XP. simpl (10 ^ 10). lra.
    + intros i Hi. destruct (VX i ltac:(lia)) as (_ & _ & R0). destruct (VX (S i) Hi) as (_ & _ & R1). pose proof (XP i ltac:(lia)) as P0. pose proof (XP (S i) Hi) as P1. specialize (RG i Hi). specialize (GP i Hi). assert (0 < / 2 ^ 20) by (apply Rinv_0_lt_compat, pow_lt; lra).
      assert (RGz : ent ws (S i) * (1 + z) <= Res * (ent ws (S i) * (1 + z) - ent ws i * (1 + z))).
      { replace (Res * (ent ws (S i) * (1 + z) - ent ws i * (1 + z))) with (Res * (ent ws (S i) - ent ws i) * (1 + z)) by ring. apply Rmult_le_compat_r; lra. }
      assert (LEz : ent ws i * (1 + z) <= ent ws (S i) * (1 + z)) by (apply Rmult_le_compat_r; lra).
      set (p := ent ws i * (1 + z)) in *. set (q := ent ws (S i) * (1 + z)) in *.
      assert (2.01 * u * p <= 2.01 * u * q) by (apply Rmult_le_compat_l; lra). apply Rabs_le_inv in R0, R1.
      set (e := 2.01 * u) in *. assert (REQ : (Res * e) * q <= 1/100 * q) by (apply Rmult_le_compat_r; lra).
      assert (K : q - 2 * ((Res * e) * q) <= Res * (ent xs' (S i) - ent xs' i)). { apply Rle_trans with (Res * ((q - p) - 2 * (e * q))); [|apply Rmult_le_compat_l; lra]. replace (Res * (q - p - 2 * (e * q))) with (Res * (q - p) - 2 * ((Res * e) * q)) by ring. lra. }
      assert (K2 : 0.9 <= Res * (ent xs' (S i) - ent xs' i)) by lra.
      destruct (Rle_dec (/ 2 ^ 20) (ent xs' (S i) - ent xs' i)) as [|Z]; auto. exfalso. assert (Res * (ent xs' (S i) - ent xs' i) <= Res * / 2 ^ 20) by (apply Rmult_le_compat_l; lra). assert (Res * / 2 ^ 20 <= 10 ^ 5 * / 2 ^ 20) by (apply Rmult_le_compat_r; lra). simpl in *. lra.
    + exact V.
Qed.

Lemma zspec_err Res B ws ls z xs' x : rounding_spectrum B ws ls -> rounding_resolution Res ws -> 0 <= z <= 20 -> Res * (2.01 * u) <= 1/100 -> rnd x = Fin x ->
  length xs' = length ws -> spectrum_ok xs' ls B -> (forall i, (i < length ws)%nat -> Rabs (ent xs' i - ent ws i * (1 + z)) <= 2.01 * u * (ent ws i * (1 + z))) ->
  1.001 * (ent ws 0 * (1 + z)) <= x /\ 1.001 * x <= ent ws (length ws - 1) * (1 + z) ->
  0 <= zspec ws ls z x <= B /\ exists s, interp_lr (Fin 0) (Fin 0) (Fin x) (fins xs') (fins ls) = Fin s /\ rnd s = Fin s /\ Rabs (s - zspec ws ls z x) <= (20 + 4.3 * Res) * (u * B).
Proof.
  intros RS RR Hz HRu Rx LX SO' VX INS. pose proof (u_le u H) as Hu. destruct (spectrum_split _ _ _ RS) as (SO & HB & GS). destruct RR as (HR & RB & RG). destruct RS as (N & L & W & GP & V & _).
  assert (P20 : 0 < / 10 ^ 20) by apply e20_small. split; [apply spectrum_range; auto; lra|].
  assert (B30 : / 10 ^ 20 <= B <= 10 ^ 30). { split; [lra|]. eapply Rle_trans; [apply HB|]. apply Rle_pow; [lra|lia]. }
  destruct (spectrum_err u H HE xs' ls x B SO' B30 Rx) as (s & Es & Rs & As). exists s. split; auto. split; auto.
  set (c := 1 + z) in *. set (zs := map (fun w => w * c) ws). assert (LZ : length zs = length ws) by (unfold zs; now rewrite map_length).
  assert (EZ : forall i, (i < length ws)%nat -> ent zs i = ent ws i * c) by (intros i Hi; unfold zs; now rewrite ent_map).
  assert (N0 : (0 < length ws)%nat) by (destruct ws; [congruence|simpl; lia]).
  assert (IZ : increasing zs) by (apply stretch_increasing; [unfold c; lra|apply GS]).
  pose proof (spectrum_increasing _ _ _ SO') as IX. pose proof SO' as (NX & _).
  assert (SZ : zspec ws ls z x = spectrum_at zs ls x). { unfold zspec. fold c. symmetry. apply stretch_at; auto. unfold c; lra. }
  assert (E0 : ent zs 0 <= x <= ent zs (length zs - 1)).
  { rewrite LZ, !EZ by lia. destruct INS as [A B']. pose proof (RB 0%nat N0) as R0. assert (1 * 1 <= ent ws 0 * c) by (apply Rmult_le_compat; unfold c; lra). lra. }
  assert (E1 : ent xs' 0 <= x <= ent xs' (length zs - 1)).
  { rewrite LZ. pose proof (VX 0%nat N0) as V0. pose proof (VX (length ws - 1)%nat ltac:(lia)) as V1. destruct INS as [A B'].
    assert (1 * 1 <= ent ws 0 * c) by (apply Rmult_le_compat; pose proof (RB 0%nat N0); unfold c; lra). set (p := ent ws 0 * c) in *. set (q := ent ws (length ws - 1) * c) in *. assert (0 < q) by lra.
    assert (2.01 * u * p <= 1/10000 * p) by (apply Rmult_le_compat_r; simpl in Hu; lra). assert (2.01 * u * q <= 1/10000 * q) by (apply Rmult_le_compat_r; simpl in Hu; lra). apply Rabs_le_inv in V0, V1. lra. }
  assert (PR : Rabs (pwlin (combine xs' ls) x - pwlin (combine zs ls) x) <= 2.1 * (Res * (2.01 * u) * B)).
  { apply pwlin_rel; auto; try lia; try lra.
    - intros Z. rewrite Z in LZ. simpl in LZ. lia.
    - rewrite LZ. intros i Hi. rewrite EZ by auto. split; [|split; [apply VX; auto|apply V; auto]]. specialize (RB i Hi). apply Rmult_lt_0_compat; unfold c; lra.
    - rewrite LZ. intros i Hi. rewrite !EZ by lia. replace (Res * (ent ws (S i) * c - ent ws i * c)) with (Res * (ent ws (S i) - ent ws i) * c) by ring. apply Rmult_le_compat_r; [unfold c; lra|apply RG; auto]. }
  assert (ES : spectrum_at xs' ls x = pwlin (combine xs' ls) x). { unfold spectrum_at. rewrite LX, <- LZ. destruct (Rlt_dec _ _); [lra|]. destruct (Rlt_dec _ _); [lra|reflexivity]. }
  assert (ES' : spectrum_at zs ls x = pwlin (combine zs ls) x). { unfold spectrum_at. destruct (Rlt_dec _ _); [lra|]. destruct (Rlt_dec _ _); [lra|reflexivity]. }
  rewrite SZ, ES'. rewrite ES in As. apply Rabs_le_inv in As, PR. apply Rabs_le. assert (0 <= Res * (u * B)) by (apply Rmult_le_pos; [lra|apply Rmult_le_pos; lra]). replace (Res * (2.01 * u) * B) with (2.01 * (Res * (u * B))) in PR by ring. replace ((20 + 4.3 * Res) * (u * B)) with (20 * (u * B) + 4.3 * (Res * (u * B))) by ring. lra.
Qed.
End F.

(** ** the public functions *)
Lemma rest_main AR u : accurate_to AR u -> forall B ws ls wf tf, rounding_spectrum (AR := AR) B ws ls -> rounding_filter (AR := AR) wf tf ->
  1 / 10 ^ 18 <= B * band_integral (fun _ => 1) wf tf ->
  exists f, calc_rest_flux_k (AR := AR) (fins ws) (fins ls) (fins wf) (fins tf) = Fin f
    /\ calc_rest_flux (AR := AR) (fins ws) (fins ls) (fins wf) (fins tf) = Ok (Fin f)
    /\ calc_rest_flux (AR := exact) (fins ws) (fins ls) (fins wf) (fins tf) = Ok (Fin (band_flux (spectrum_at ws ls) wf tf))
    /\ 0 <= band_flux (spectrum_at ws ls) wf tf <= B / ab0
    /\ Rabs (f - band_flux (spectrum_at ws ls) wf tf) <= 3 * (INR (length wf) + 25) * u * (B / ab0).
Proof.
  intros U B ws ls wf tf RS RF HBI. pose proof (rel_err_unit _ _ U) as H. pose proof (unit_eps _ _ U) as HE. pose proof (u_le u H) as Hu.
  destruct (spectrum_split _ _ _ RS) as (SO & HB & GS). destruct (filter_split _ _ RF) as (FB & HI & GF). rewrite Rinv_pow_1 in HBI.
  assert (HE0 : 20 <= 20 /\ (20 + 3) * u <= / 10 ^ 3) by (simpl in Hu |- *; lra).
  assert (P20 : 0 < / 10 ^ 20) by apply e20_small.
  assert (B30 : / 10 ^ 20 <= B <= 10 ^ 30). { split; [lra|]. eapply Rle_trans; [apply HB|]. apply Rle_pow; [lra|lia]. }
  destruct (source_err u H 20 HE0 (fins ws) (fins ls) wf tf (spectrum_at ws ls) B HB FB HBI) as (r1 & E1 & _ & A1 & F1).
  { intros x _ Rx. split; [apply spectrum_range; auto; lra|]. now apply spectrum_err. }
  destruct (norm_err u H 20 HE0 wf tf FB HI) as (r0 & Er0 & _ & A0).
  pose proof FB as (_ & _ & LN & _). set (I := band_integral (fun _ => 1) wf tf) in *. assert (I0 : 0 < I). { assert (0 < 1 / 10 ^ 4) by (simpl; lra). lra. }
  destruct (ratio_err u H 20 HE0 r1 r0 (band_integral (spectrum_at ws ls) wf tf) I B (length wf) LN HB I0 F1 A1 A0) as (f & Ef & _ & Af).
  assert (EF : band_flux (spectrum_at ws ls) wf tf = band_integral (spectrum_at ws ls) wf tf / (ab0 * I)) by (unfold band_flux; now rewrite band_ab0).
  assert (EK : calc_rest_flux_k (AR := AR) (fins ws) (fins ls) (fins wf) (fins tf) = Fin f) by (unfold calc_rest_flux_k; now rewrite E1, Er0).
  exists f. split; auto. split.
  { unfold calc_rest_flux. rewrite (check_spec_gen (AR := AR)); [now rewrite stretch_same, EK by (rewrite !fins_length; symmetry; apply GF)| | |]; rewrite ?fins_length; [destruct ws; [destruct GS as (_ & _ & N); congruence|discriminate]|destruct GS as (_ & L & _); auto|apply GF]. }
  split; [now apply flux_ok|]. rewrite EF. split.
  - pose proof ab0_pos. assert (0 < ab0 * I) by (apply Rmult_lt_0_compat; lra). split; [apply Rdiv_le_0_compat'; lra|].
    apply Rmult_le_reg_r with (ab0 * I); [lra|]. unfold Rdiv at 1. rewrite Rmult_assoc, Rinv_l, Rmult_1_r by lra. replace (B / ab0 * (ab0 * I)) with (B * I) by (field; lra). apply F1.
  - replace (INR (length wf) + 25) with (INR (length wf) + 20 + 5) by ring. exact Af.
Qed.
Lemma C135_flux_lemma : forall AR u, accurate_to AR u -> forall B ws ls wf tf, rounding_spectrum (AR := AR) B ws ls -> rounding_filter (AR := AR) wf tf ->
  1 / 10 ^ 18 <= B * band_integral (fun _ => 1) wf tf ->
  exists f f0, calc_rest_flux (AR := AR) (fins ws) (fins ls) (fins wf) (fins tf) = Ok (Fin f)
    /\ calc_rest_flux (AR := exact) (fins ws) (fins ls) (fins wf) (fins tf) = Ok (Fin f0)
    /\ Rabs (f - f0) <= 3 * (INR (length wf) + 25) * u * (B / ab0).
Proof.
  intros AR u U B ws ls wf tf RS RF HBI. destruct (rest_main AR u U B ws ls wf tf RS RF HBI) as (f & _ & E & E0 & _ & A). exists f. eexists. split; [exact E|]. split; [exact E0|exact A].
Qed.
Lemma C135_mag_lemma : forall AR u, accurate_to AR u -> forall B ws ls wf tf kappa, rounding_spectrum (AR := AR) B ws ls -> rounding_filter (AR := AR) wf tf ->
  1 / 10 ^ 18 <= B * band_integral (fun _ => 1) wf tf ->
  0 < kappa -> B <= kappa * (ab0 * band_flux (spectrum_at ws ls) wf tf) -> 3 * (INR (length wf) + 25) * u * kappa <= 1 / 100 ->
  exists m m0, calc_rest_mag (AR := AR) (fins ws) (fins ls) (fins wf) (fins tf) = Ok (Fin m)
    /\ calc_rest_mag (AR := exact) (fins ws) (fins ls) (fins wf) (fins tf) = Ok (Fin m0)
    /\ Rabs (m - m0) <= 4 * (INR (length wf) + 70) * u * kappa.
Proof.
  intros AR u U B ws ls wf tf kap RS RF HBI K0 HK SM. pose proof (rel_err_unit _ _ U) as H. pose proof (u_le u H) as Hu.
  destruct (rest_main AR u U B ws ls wf tf RS RF HBI) as (f & EK & _ & E0 & [F0 FB'] & A). destruct (spectrum_split _ _ _ RS) as (SO & HB & GS). destruct (filter_split _ _ RF) as (FB & HI & GF).
  set (f0 := band_flux (spectrum_at ws ls) wf tf) in *. pose proof ab0_pos as AP. assert (P20 : 0 < / 10 ^ 20) by apply e20_small.
  assert (HK' : B / ab0 <= kap * f0). { apply Rmult_le_reg_r with ab0; [lra|]. unfold Rdiv. rewrite Rmult_assoc, Rinv_l, Rmult_1_r by lra. lra. }
  assert (F1 : 0 < f0). { destruct F0 as [|Z]; auto. rewrite <- Z, !Rmult_0_r in HK. lra. }
  assert (HE0 : 20 <= 20 /\ (20 + 3) * u <= / 10 ^ 3) by (simpl in Hu |- *; lra). pose proof FB as (_ & _ & LN & _).
  assert (E25 : INR (length wf) + 20 + 5 = INR (length wf) + 25) by ring.
  destruct (mag_err u H 20 HE0 f f0 B kap (length wf) LN HB (conj F1 FB') HK') as (_ & m & Em & _ & Am); [rewrite E25; exact SM|rewrite E25; exact A|].
  exists m, (-2.5 * log10 f0). split; [|split].
  - unfold calc_rest_mag. rewrite (check_spec_gen (AR := AR)); [unfold calc_rest_mag_k; now rewrite stretch_same, EK, Em by (rewrite !fins_length; symmetry; apply GF)| | |]; rewrite ?fins_length; [destruct ws; [destruct GS as (_ & _ & N); congruence|discriminate]|destruct GS as (_ & L & _); auto|apply GF].
  - now apply mag_ok.
  - replace (INR (length wf) + 70) with (INR (length wf) + 20 + 50) by ring. exact Am.
Qed.
(** the same for a redshifted spectrum *)
Lemma obs_main AR u : accurate_to AR u -> forall B Res ws ls wf tf z kap, rounding_spectrum (AR := AR) B ws ls -> rounding_filter (AR := AR) wf tf ->
  rounding_resolution Res ws -> machine_number (AR := AR) z -> 0 <= z <= 20 -> inside_spectrum ws wf z -> 1 / 10 ^ 18 <= B * band_integral (fun _ => 1) wf tf ->
  0 < kap -> B <= kap * (ab0 * band_flux (zspec ws ls z) wf tf) -> 3 * (INR (length wf) + 5 * Res + 25) * u * kap <= 1 / 1000 ->
  exists m, calc_obs_mag_no_dimming_k (AR := AR) (fins ws) (fins ls) (fins wf) (fins tf) (Fin z) = Fin m /\ rnd (Arith := AR) m = Fin m
    /\ calc_obs_mag_no_dimming (AR := AR) (fins ws) (fins ls) (fins wf) (fins tf) (Fin z) = Ok (Fin m)
    /\ 0 < band_flux (zspec ws ls z) wf tf
    /\ Rabs (m - -2.5 * log10 (band_flux (zspec ws ls z) wf tf)) <= 4 * (INR (length wf) + 5 * Res + 70) * u * kap
    /\ -34 <= log10 (band_flux (zspec ws ls z) wf tf) <= 34 /\ 1 <= kap.
Proof.
  intros U B Res ws ls wf tf z kap RS RF RR Mz Hz INS HBI K0 HK SM. pose proof (rel_err_unit _ _ U) as H. pose proof (unit_eps _ _ U) as HE. pose proof (u_le u H) as Hu.
  destruct (spectrum_split _ _ _ RS) as (SO & HB & GS). destruct (filter_split _ _ RF) as (FB & HI & GF). rewrite Rinv_pow_1 in HBI. pose proof RR as (HR & _).
  set (f0 := band_flux (zspec ws ls z) wf tf) in *. pose proof FB as (_ & _ & LN & _). set (N := INR (length wf)) in *. assert (N1 : 1 <= N) by (apply (le_INR 1); apply LN).
  pose proof ab0_pos as AP. assert (P20 : 0 < / 10 ^ 20) by apply e20_small.
  assert (HK' : B / ab0 <= kap * f0). { apply Rmult_le_reg_r with ab0; [lra|]. unfold Rdiv. rewrite Rmult_assoc, Rinv_l, Rmult_1_r by lra. lra. }
  set (E0 := 20 + 4.3 * Res).
  set (I := band_integral (fun _ => 1) wf tf) in *. assert (I0 : 0 < I). { assert (0 < 1 / 10 ^ 4) by (simpl; lra). lra. }
  assert (ZR : forall x, 0 <= zspec ws ls z x <= B) by (intros x; apply spectrum_range; auto; lra).
  assert (EF : f0 = band_integral (zspec ws ls z) wf tf / (ab0 * I)) by (unfold f0, band_flux; now rewrite band_ab0).
  assert (BZ : 0 <= band_integral (zspec ws ls z) wf tf <= B * I).
  { destruct FB as ([IX GX] & LT & _ & FT). assert (PW : List.Forall (fun w => 0 < w) wf) by (apply Forall_ent; intros i Hi; destruct (GX i Hi); lra).
    assert (TF : List.Forall (fun t => 0 <= t) tf) by (apply Forall_ent; intros i Hi; destruct (FT i Hi); lra).
    split; [rewrite <- (Rmult_0_l (band_integral (fun _ => 1) wf tf)), <- band_scal|unfold I; rewrite <- band_scal]; (apply band_mono; auto; intros; rewrite ?Rmult_1_r; apply ZR). }
  assert (F0 : 0 <= f0 <= B / ab0).
  { rewrite EF. assert (0 < ab0 * I) by (apply Rmult_lt_0_compat; lra). split; [apply Rdiv_le_0_compat'; lra|].
    apply Rmult_le_reg_r with (ab0 * I); [lra|]. unfold Rdiv at 1. rewrite Rmult_assoc, Rinv_l, Rmult_1_r by lra. replace (B / ab0 * (ab0 * I)) with (B * I) by (field; lra). apply BZ. }
  assert (F1 : 0 < f0). { destruct F0 as [[|Z] _]; auto. rewrite <- Z, !Rmult_0_r in HK. lra. }
  assert (K1 : 1 <= kap). { apply Rmult_le_reg_r with f0; lra. }
  assert (UK : u <= u * kap). { rewrite <- (Rmult_1_r u) at 1. apply Rmult_le_compat_l; lra. }
  assert (RUK : Res * u <= Res * (u * kap)) by (apply Rmult_le_compat_l; lra). assert (NUK : 0 <= N * (u * kap)) by (apply Rmult_le_pos; lra).
  assert (SM' : 3 * (N * (u * kap)) + 15 * (Res * (u * kap)) + 75 * (u * kap) <= 1 / 1000) by lra.
  assert (RU0 : u <= Res * u). { rewrite <- (Rmult_1_l u) at 1. apply Rmult_le_compat_r; lra. }
  assert (HE0 : 20 <= E0 /\ (E0 + 3) * u <= / 10 ^ 3). { unfold E0. split; [lra|]. replace ((20 + 4.3 * Res + 3) * u) with (23 * u + 4.3 * (Res * u)) by ring. simpl. lra. }
  destruct (shifted_table u H Res B ws ls z RS RR Mz Hz) as (xs' & EX & LX & SO' & VX); [lra|].
  destruct (source_err u H E0 HE0 (fins xs') (fins ls) wf tf (zspec ws ls z) B HB FB HBI) as (r1 & E1 & _ & A1 & F1').
  { intros x Hx Rx. apply (zspec_err u H HE Res B ws ls z xs' x); auto; lra. }
  destruct (norm_err u H E0 HE0 wf tf FB HI) as (r0 & Er0 & _ & A0). fold I in A1, A0.
  destruct (ratio_err u H E0 HE0 r1 r0 (band_integral (zspec ws ls z) wf tf) I B (length wf) LN HB I0 F1' A1 A0) as (f & Ef & _ & Af). rewrite <- EF in Af.
  assert (CMP : N + E0 + 5 <= N + 5 * Res + 25) by (unfold E0; lra).
  destruct (mag_err u H E0 HE0 f f0 B kap (length wf) LN HB (conj F1 (proj2 F0)) HK') as (_ & m & Em & Rm & Am); fold N.
  { unfold E0. replace (3 * (N + (20 + 4.3 * Res) + 5) * u * kap) with (3 * (N * (u * kap)) + 12.9 * (Res * (u * kap)) + 75 * (u * kap)) by lra. lra. }
  { exact Af. }
  assert (EK : calc_obs_mag_no_dimming_k (AR := AR) (fins ws) (fins ls) (fins wf) (fins tf) (Fin z) = Fin m).
  { unfold calc_obs_mag_no_dimming_k. change (obs_flux_ssp (fins ws) (fins ls) (fins wf) (fins tf) (Fin z)) with (rest_flux_ssp (map (fun w => nmul w (nadd (Fin 1) (Fin z))) (fins ws)) (fins ls) (fins wf) (fins tf)).
    rewrite EX, E1, Er0, Ef. exact Em. }
  exists m. split; auto. split; auto. split.
  { unfold calc_obs_mag_no_dimming. rewrite (check_spec_gen (AR := AR)); [now rewrite stretch_same, EK by (rewrite !fins_length; symmetry; apply GF)| | |]; rewrite ?fins_length; [destruct ws; [destruct GS as (_ & _ & N'); congruence|discriminate]|destruct GS as (_ & L & _); auto|apply GF]. }
  split; auto. split; [|split; auto].
  - fold N in Am. eapply Rle_trans; [exact Am|]. apply Rmult_le_compat_r; [lra|]. apply Rmult_le_compat_r; [lra|]. unfold E0. lra.
  - apply (log_flux_range f0 B kap); auto; try lra. apply Rle_trans with (1 / 1000 / u).
    + apply Rmult_le_reg_r with u; [lra|]. unfold Rdiv at 1. rewrite Rmult_assoc, Rinv_l by lra. lra.
    + apply Rmult_le_reg_r with u; [lra|]. unfold Rdiv at 1. rewrite Rmult_assoc, Rinv_l by lra. pose proof (re_tiny _ _ H) as T.
      assert (U75 : / 2 ^ 75 <= u). { eapply Rle_trans; [|apply (re_low _ _ H)]. apply Rinv_le; [apply pow_lt; lra|apply Rle_pow; [lra|lia]]. }
      assert (P75 : 0 < 2 ^ 75) by (apply pow_lt; lra). assert (2 ^ 75 * / 2 ^ 75 <= 2 ^ 75 * u) by (apply Rmult_le_compat_l; lra). rewrite Rinv_r in * by lra. lra.
Qed.
Lemma C136_lemma : forall AR u, accurate_to AR u -> forall B Res ws ls wf tf z kappa, rounding_spectrum (AR := AR) B ws ls -> rounding_filter (AR := AR) wf tf ->
  rounding_resolution Res ws -> machine_number (AR := AR) z -> 0 <= z <= 20 -> inside_spectrum ws wf z -> 1 / 10 ^ 18 <= B * band_integral (fun _ => 1) wf tf ->
  0 < kappa -> B <= kappa * (ab0 * band_flux (fun x => spectrum_at ws ls (x / (1 + z))) wf tf) -> 3 * (INR (length wf) + 5 * Res + 25) * u * kappa <= 1 / 1000 ->
  exists m m0, calc_obs_mag_no_dimming (AR := AR) (fins ws) (fins ls) (fins wf) (fins tf) (Fin z) = Ok (Fin m)
    /\ calc_obs_mag_no_dimming (AR := exact) (fins ws) (fins ls) (fins wf) (fins tf) (Fin z) = Ok (Fin m0)
    /\ Rabs (m - m0) <= 4 * (INR (length wf) + 5 * Res + 70) * u * kappa.
Proof.
  intros AR u U B Res ws ls wf tf z kap RS RF RR Mz Hz INS HBI K0 HK SM. destruct (obs_main AR u U B Res ws ls wf tf z kap RS RF RR Mz Hz INS HBI K0 HK SM) as (m & _ & _ & E & F0 & A & _).
  destruct (spectrum_split _ _ _ RS) as (_ & _ & GS). destruct (filter_split _ _ RF) as (_ & _ & GF).
  exists m, (-2.5 * log10 (band_flux (zspec ws ls z) wf tf)). split; auto. split; [apply nodim_ok; auto; lra|exact A].
Qed.
