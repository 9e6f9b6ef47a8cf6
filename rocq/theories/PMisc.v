(** * Properties C101-C103, C138: grid cells and time tables (utils.py, sed/stellar_age_weights.py),
    the Maiolino+08 relation (metallicity/mzr.py), tabulated cosmological dimming
    (photometry/photometry_kernels.py).  Exact real arithmetic unless stated. *)
From Coq Require Import Reals List Arith Lra Lia.
From Verif Require Import Num Arr MUtils MImf MDust MSed MMzr MCosmo MPhot Spec SpecApi RList LMisc LForms.
Import ListNotations.
Open Scope R_scope.

(** C101 *)
Theorem C101_cell_widths : forall a, (3 <= length a)%nat ->
  exists w, get_dt_array (fins a) = Ok (fins w) /\ length w = length a
    /\ (forall i, (0 < i < length a - 1)%nat -> ent w i = (ent a (i + 1) - ent a (i - 1)) / 2)
    /\ (increasing a -> List.Forall (fun d => 0 < d) w)
    /\ Rsum w = ent a (length a - 1) - ent a 0
                + (ent a 1 - ent a 0) / 2 + (ent a (length a - 1) - ent a (length a - 3)) / 4.
Proof. exact C101_cells_lemma. Qed.
Print Assumptions C101_cell_widths.
(** any arithmetic *)
Theorem C101_short_grid_raises : forall (AR : Arith) t, (length t < 3)%nat -> get_dt_array t = Raise IndexError.
Proof. exact C101_raises_lemma. Qed.
Print Assumptions C101_short_grid_raises.
Theorem C101_linspace_time_tables : forall t0, 0.001 < t0 ->
  exists t lgt dt,
    get_linspace_time_tables (Fin t0) = (fins t, fins lgt, fins dt)
    /\ length t = 100%nat /\ lgt = map log10 t /\ length dt = 100%nat
    /\ (forall i, (i < 100)%nat -> ent t i = 0.001 + INR i * (t0 - 0.001) / 99)
    /\ (forall i, (i < 100)%nat -> ent dt i = (t0 - 0.001) / 99).
Proof. exact C101_tables_lemma. Qed.
Print Assumptions C101_linspace_time_tables.
Example C101_nonvacuous :
  (3 <= length [1; 2; 4])%nat /\ increasing [1; 2; 4] /\ 0.001 < 13.8.
Proof.
  split; [simpl; lia|split; [|lra]].
  intros i j H. destruct i as [|[|[|]]], j as [|[|[|]]]; simpl in *; unfold ent; simpl; try lia; lra.
Qed.

(** C102 *)
Theorem C102_maiolino_relation : forall logm0 k0,
  exists f : R -> R,
    (forall m, maiolino08_metallicity_evolution (Fin m) (Fin logm0) (Fin k0) = Fin (f m))
    /\ f logm0 = k0 - 12
    /\ (forall m, m <> logm0 -> f m < f logm0)
    /\ (forall d, f (logm0 + d) = f (logm0 - d))
    /\ (forall m m', m < m' -> m' <= logm0 -> f m < f m').
Proof. exact C102_lemma. Qed.
Print Assumptions C102_maiolino_relation.

(** C103 *)
Theorem C103_dimming_table_agrees_at_nodes : forall Om0 w0 wa h zs, 0 < Om0 <= 1 -> 0 < h ->
  zs <> [] -> increasing (0 :: zs) ->
  let table := map (fun z => distance_modulus_to_z (Fin z) (Fin Om0) (Fin w0) (Fin wa) (Fin h)) zs in
  (forall i, (i < length zs)%nat ->
     cosmological_dimming_from_table (Fin (ent zs i)) (fins zs) table
     = cosmological_dimming (Fin (ent zs i)) (Fin Om0) (Fin w0) (Fin wa) (Fin h)
     /\ exists d, cosmological_dimming (Fin (ent zs i)) (Fin Om0) (Fin w0) (Fin wa) (Fin h) = Fin d).
Proof. exact C103_lemma. Qed.
Print Assumptions C103_dimming_table_agrees_at_nodes.
Example C103_nonvacuous : increasing (0 :: [0.1; 0.5; 2]).
Proof.
  intros i j H. destruct i as [|[|[|[|]]]], j as [|[|[|[|]]]]; simpl in *; unfold ent; simpl; try lia; lra.
Qed.
(** a table that starts at redshift 0 is useless below its second node *)
Theorem C103_table_from_zero_is_nan : forall Om0 w0 wa h z1 zs z, 0 < Om0 <= 1 -> 0 < h ->
  increasing (0 :: z1 :: zs) -> 0 <= z < z1 ->
  let table := map (fun z => distance_modulus_to_z (Fin z) (Fin Om0) (Fin w0) (Fin wa) (Fin h))
                   (0 :: z1 :: zs) in
  cosmological_dimming_from_table (Fin z) (fins (0 :: z1 :: zs)) table = NaN.
Proof. exact C103_zero_lemma. Qed.
Print Assumptions C103_table_from_zero_is_nan.

(** C138 *)
Theorem C138_surviving_mass_fit : forall p a d, In (p, a, d) [(SUR_CHABRIER, 0.225, 0.145); (SUR_SALPETER, 0.13, 0.055); (SUR_KROUPA, 0.211, 0.13); (SUR_VAN_DOKKUM, 0.238, 0.156)] ->
  forall x, let old := a + (d + (0.08 - d) * logistic (pow10 (-0.5) * (x - 8))) * (x - 8) in
    surviving_mstar (Fin x) p = Fin (1 - (0.005 + (old - 0.005) * logistic (pow10 0.7 * (x - 6.5)))).
Proof. exact C138_surviving_lemma. Qed.
Print Assumptions C138_surviving_mass_fit.
Theorem C138_remnant_mass_fit : forall p a, In (p, a) [(REM_CHABRIER, -1.42); (REM_SALPETER, -1.67); (REM_KROUPA, -1.45); (REM_VAN_DOKKUM, -1.4)] ->
  forall x, remnant_mass (Fin x) p = Fin (pow10 (a + (1.3 + (0.2 - 1.3) * logistic (10 * (x - 7))) * (x - 7))).
Proof. exact C138_remnant_lemma. Qed.
Print Assumptions C138_remnant_mass_fit.
Theorem C138_triweight_attenuation : exists k : R -> R, (forall w, 0 < w -> triweight_k_lambda_default (Fin w) = Fin (k w))
  /\ (forall w, 0 < w <= 0.1 -> k w = pow10 1.15 * Rpower (w / 0.1) (-0.65))
  /\ (forall w, 100 <= w -> k w = pow10 1.15 * Rpower (w / 0.1) (-1.95))
  /\ (forall w, 0.1 <= w <= 100 -> pow10 1.15 * Rpower (w / 0.1) (-1.95) <= k w <= pow10 1.15 * Rpower (w / 0.1) (-0.65))
  /\ k (pow10 0.5) = pow10 1.15 * Rpower (pow10 1.5) (-1.3).
Proof. exact C138_triweight_lemma. Qed.
Print Assumptions C138_triweight_attenuation.
Theorem C138_maiolino_relation : forall logm logm0 k0,
  maiolino08_metallicity_evolution (Fin logm) (Fin logm0) (Fin k0) = Fin (- 0.0864 * (logm - logm0) ^ 2 + k0 - 12).
Proof. exact C138_maiolino_lemma. Qed.
Print Assumptions C138_maiolino_relation.
Theorem C138_hubble_time_and_critical_density : forall Om0 w0 wa h z, 0 < Om0 <= 1 -> 0 < h -> -1 < z -> exists tH,
  hubble_time (Fin z) (Fin Om0) (Fin w0) (Fin wa) (Fin h) = Fin tH
  /\ 9.77812 / (h * expansion Om0 w0 wa z) < tH < 9.77814 / (h * expansion Om0 w0 wa z)
  /\ rho_crit (Fin z) (Fin Om0) (Fin w0) (Fin wa) (Fin h) = Fin (277.536627 * h ^ 2 * (Om0 * (1 + z) ^ 3 + (1 - Om0) * dark_energy w0 wa z)).
Proof. exact C138_scales_lemma. Qed.
Print Assumptions C138_hubble_time_and_critical_density.
Example C138_nonvacuous : surviving_mstar (Fin 8) SUR_KROUPA = Fin (1 - (0.005 + (0.211 - 0.005) * logistic (pow10 0.7 * 1.5))).
Proof.
  rewrite (C138_surviving_mass_fit SUR_KROUPA 0.211 0.13) by (simpl; auto). cbv zeta. replace (8 - 6.5) with 1.5 by lra. f_equal. replace (8 - 8) with 0 by ring. ring.
Qed.
