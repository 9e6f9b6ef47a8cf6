(** * Properties C48-C51 and C111: blackbody (dust/blackbody.py), exact real arithmetic. *)
From Coq Require Import Reals List Arith Lra Lia.
From Verif Require Import Num Arr MBlackbody Spec LBlack LBlack2.
Import ListNotations.
Open Scope R_scope.

(** C48: the hypotheses (positive frequency / wavelength and temperature) are met by any
    star, e.g. 5000 Angstrom at 5800 K; see [C48_nonvacuous] *)
Theorem C48_planck_law : (forall nu T, 0 < nu -> 0 < T -> exists B,
     blackbody_freq_density (Fin nu) (Fin T) = Fin B /\ B = planck_freq nu T / watts_per_lsun /\ 0 < B)
  /\ (forall wave_aa T, 0 < wave_aa -> 0 < T -> exists B,
     blackbody_wave_density (Fin wave_aa) (Fin T) = Fin B
     /\ B = planck_wave (wave_aa / 10 ^ 10) T / watts_per_lsun / 10 ^ 10 /\ 0 < B).
Proof. exact C48_lemma. Qed.
Print Assumptions C48_planck_law.
Example C48_nonvacuous : exists B, blackbody_wave_density (Fin 5000) (Fin 5800) = Fin B /\ 0 < B.
Proof.
  destruct C48_planck_law as [_ H]. destruct (H 5000 5800) as (B & E & _ & P); try lra.
  exists B. split; [exact E|exact P].
Qed.

(** C49 *)
Theorem C49_frequency_wavelength_consistent : forall wave_aa T, 0 < wave_aa -> 0 < T ->
  exists Bnu Blam,
    blackbody_freq_density (Fin (c_light / (wave_aa / 10 ^ 10))) (Fin T) = Fin Bnu
    /\ blackbody_wave_density (Fin wave_aa) (Fin T) = Fin Blam
    /\ c_light / (wave_aa / 10 ^ 10) * Bnu = wave_aa * Blam.
Proof. exact C49_lemma. Qed.
Print Assumptions C49_frequency_wavelength_consistent.

(** C50 *)
Theorem C50_increasing_and_below_rayleigh_jeans : forall nu, 0 < nu -> exists B : R -> R,
  (forall T, 0 < T -> blackbody_freq_density (Fin nu) (Fin T) = Fin (B T))
  /\ (forall T1 T2, 0 < T1 < T2 -> B T1 < B T2)
  /\ (forall T, 0 < T -> B T < 2 * nu ^ 2 * k_boltzmann * T / c_light ^ 2 / watts_per_lsun).
Proof. exact C50_lemma. Qed.
Print Assumptions C50_increasing_and_below_rayleigh_jeans.
Example C50_nonvacuous : exists B1 B2, blackbody_freq_density (Fin (10 ^ 14)) (Fin 3000) = Fin B1
  /\ blackbody_freq_density (Fin (10 ^ 14)) (Fin 6000) = Fin B2 /\ B1 < B2.
Proof.
  destruct (C50_increasing_and_below_rayleigh_jeans (10 ^ 14)) as (B & E & M & _); [lra|].
  exists (B 3000), (B 6000). split; [apply E; lra|]. split; [apply E; lra|apply M; lra].
Qed.

(** C51: zero temperature gives exactly 0; zero frequency gives NaN although the limit is 0 *)
Theorem C51_edge_cases : (forall nu, 0 < nu -> blackbody_freq_density (Fin nu) (Fin 0) = Fin 0)
  /\ (forall T, 0 < T -> blackbody_freq_density (Fin 0) (Fin T) = NaN).
Proof. exact C51_lemma. Qed.
Print Assumptions C51_edge_cases.

(** C111: Wien's displacement law. At every temperature each Planck curve has a single maximum:
    it rises strictly up to it and falls strictly after it. The two peak functions return it to one
    part in 10^4 (frequency) and 2 parts in 10^4 (wavelength, returned in metres while the
    wavelength density takes Angstrom). *)
Theorem C111_frequency_peak : forall T, 0 < T -> exists (peak nu0 : R) (B : R -> R),
  jax_bb_frequency_peak (Fin T) = Fin peak /\ 0 < nu0
  /\ (forall nu, 0 < nu -> blackbody_freq_density (Fin nu) (Fin T) = Fin (B nu))
  /\ (forall nu nu', 0 < nu < nu' -> nu' <= nu0 -> B nu < B nu')
  /\ (forall nu nu', nu0 <= nu < nu' -> B nu' < B nu)
  /\ Rabs (peak - nu0) <= nu0 / 10000.
Proof. exact C111_frequency_lemma. Qed.
Print Assumptions C111_frequency_peak.
Theorem C111_wavelength_peak : forall T, 0 < T -> exists (peak_m lam0 : R) (B : R -> R),
  jax_bb_wavelength_peak (Fin T) = Fin peak_m /\ 0 < lam0
  /\ (forall wave_aa, 0 < wave_aa -> blackbody_wave_density (Fin wave_aa) (Fin T) = Fin (B wave_aa))
  /\ (forall w w', 0 < w < w' -> w' <= lam0 -> B w < B w')
  /\ (forall w w', lam0 <= w < w' -> B w' < B w)
  /\ Rabs (peak_m * 10 ^ 10 - lam0) <= lam0 / 5000.
Proof. exact C111_wavelength_lemma. Qed.
Print Assumptions C111_wavelength_peak.
Example C111_nonvacuous : exists p, jax_bb_frequency_peak (Fin 5800) = Fin p /\ 3 * 10 ^ 14 < p < 4 * 10 ^ 14.
Proof.
  destruct (C111_frequency_peak 5800) as (p & nu0 & B & E & _); [lra|]. exists p. split; [exact E|].
  unfold jax_bb_frequency_peak in E. cbn in E. injection E as <-. lra.
Qed.
