(** * Properties C48-C51 and C111: blackbody (dust/blackbody.py), exact real arithmetic. *)
From Coq Require Import Reals List Arith Lra Lia.
From Verif Require Import Num Arr MBlackbody Spec LBlack LBlack2.
Import ListNotations.
Open Scope R_scope.

(** C48: the hypotheses (positive frequency / wavelength and temperature) are met by any
    star, e.g. 5000 Angstrom at 5800 K; see [C48_nonvacuous] *)
@@C48_planck_law = LBlack.C48_lemma
Example C48_nonvacuous : exists B, blackbody_wave_density (Fin 5000) (Fin 5800) = Fin B /\ 0 < B.
Proof.
  destruct C48_planck_law as [_ H]. destruct (H 5000 5800) as (B & E & _ & P); try lra.
  exists B. split; [exact E|exact P].
Qed.

(** C49 *)
@@C49_frequency_wavelength_consistent = LBlack.C49_lemma

(** C50 *)
@@C50_increasing_and_below_rayleigh_jeans = LBlack.C50_lemma
Example C50_nonvacuous : exists B1 B2, blackbody_freq_density (Fin (10 ^ 14)) (Fin 3000) = Fin B1
  /\ blackbody_freq_density (Fin (10 ^ 14)) (Fin 6000) = Fin B2 /\ B1 < B2.
Proof.
  destruct (C50_increasing_and_below_rayleigh_jeans (10 ^ 14)) as (B & E & M & _); [lra|].
  exists (B 3000), (B 6000). split; [apply E; lra|]. split; [apply E; lra|apply M; lra].
Qed.

(** C51: zero temperature gives exactly 0; zero frequency gives NaN although the limit is 0 *)
@@C51_edge_cases = LBlack.C51_lemma

(** C111: Wien's displacement law. At every temperature each Planck curve has a single maximum:
    it rises strictly up to it and falls strictly after it. The two peak functions return it to one
    part in 10^4 (frequency) and 2 parts in 10^4 (wavelength, returned in metres while the
    wavelength density takes Angstrom). *)
@@C111_frequency_peak = LBlack2.C111_frequency_lemma
@@C111_wavelength_peak = LBlack2.C111_wavelength_lemma
Example C111_nonvacuous : exists p, jax_bb_frequency_peak (Fin 5800) = Fin p /\ 3 * 10 ^ 14 < p < 4 * 10 ^ 14.
Proof.
  destruct (C111_frequency_peak 5800) as (p & nu0 & B & E & _); [lra|]. exists p. split; [exact E|].
  unfold jax_bb_frequency_peak in E. cbn in E. injection E as <-. lra.
Qed.
