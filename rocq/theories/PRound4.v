(** * Properties C173-C175.  C173: rounding error of the effective wavelength of a filter and of the triweight
    reddening curve, in any arithmetic accurate to u (single or double precision).
    [relatively_close e x y]: |x - y| <= e y with finite x and finite positive y;
    [absolutely_close e x y]: |x - y| <= e with finite x and y (SpecFloat8.v); [rounding_filter]
    is in SpecFloat2.v. *)
From Coq Require Import Reals List Arith Lra Lia ZArith.
From Verif Require Import Num Arr MUtils MDust Float Spec Spec2 SpecApi SpecFloat SpecFloat2 SpecFloat8 LFloat10 LRound12 LRound20 LRound23 LRound26 LRound59 LRound60 LRound61 LRound62 LRound63.
Import ListNotations.
Open Scope R_scope.

Theorem C173_effective_wavelength_rounding_error : forall AR u, accurate_to AR u -> forall wf tf z, @rounding_filter AR wf tf -> @machine_number AR z -> 0 <= z <= 20 ->
  exists lam lam0, @get_filter_effective_wavelength AR (fins wf) (fins tf) (Fin z) = Ok lam
    /\ @get_filter_effective_wavelength exact (fins wf) (fins tf) (Fin z) = Ok lam0
    /\ relatively_close ((2.5 * INR (length wf) + 17) * u) lam lam0.
Proof. exact C173_lemma. Qed.
Print Assumptions C173_effective_wavelength_rounding_error.
Theorem C173_triweight_curve_rounding_error : forall AR u, accurate_to AR u -> forall w, @machine_number AR w -> 0.01 <= w <= 100 ->
  relatively_close (1604 * u) (@triweight_k_lambda_default AR (Fin w)) (@triweight_k_lambda_default exact (Fin w)).
Proof. exact C173_tri_lemma. Qed.
Print Assumptions C173_triweight_curve_rounding_error.
Theorem C173_bump_amplitude_rounding_error : forall AR u, accurate_to AR u -> forall d, @machine_number AR d -> Rabs d <= 10 ->
  absolutely_close (62 * u) (@get_eb_from_delta AR (Fin d)) (@get_eb_from_delta exact (Fin d)).
Proof. exact C173_eb_lemma. Qed.
Print Assumptions C173_bump_amplitude_rounding_error.
Example C173_nonvacuous :
  (exists lam lam0, @get_filter_effective_wavelength binary64 (fins ph_wf) (fins ph_tf) (Fin (1/2)) = Ok lam
     /\ @get_filter_effective_wavelength exact (fins ph_wf) (fins ph_tf) (Fin (1/2)) = Ok lam0
     /\ relatively_close (24.5 * / 2 ^ 53) lam lam0)
  /\ relatively_close (1604 * / 2 ^ 24) (@triweight_k_lambda_default binary32 (Fin 2)) (@triweight_k_lambda_default exact (Fin 2))
  /\ absolutely_close (62 * / 2 ^ 53) (@get_eb_from_delta binary64 (Fin (1/2))) (@get_eb_from_delta exact (Fin (1/2))).
Proof.
  split; [|split].
  - replace 24.5 with (2.5 * INR (length ph_wf) + 17) by (simpl; lra). apply C173_effective_wavelength_rounding_error; [exact rd_unit|exact ph_filter|exact ph_half|lra].
  - apply C173_triweight_curve_rounding_error; [exact rd_unit32|exact (machine_int _ (rel_err_unit _ _ rd_unit32) 2 ltac:(lia))|lra].
  - apply C173_bump_amplitude_rounding_error; [exact rd_unit|exact ph_half|rewrite Rabs_right; lra].
Qed.

(** C174: however steep the step (k up to 1e8, h down to 1e-8) *)
Theorem C174_kernel_rounding_error : forall AR u, accurate_to AR u -> forall x m h, Rabs x <= 10 ^ 8 -> Rabs m <= 10 ^ 8 -> / 10 ^ 8 <= h <= 10 ^ 8 ->
  absolutely_close (26 * u) (@tw_cuml_kern AR (Fin x) (Fin m) (Fin h)) (@tw_cuml_kern exact (Fin x) (Fin m) (Fin h))
  /\ absolutely_close (25 * u / h) (@triweight_gaussian AR (Fin x) (Fin m) (Fin h)) (@triweight_gaussian exact (Fin x) (Fin m) (Fin h)).
Proof. exact C174_kernel. Qed.
Print Assumptions C174_kernel_rounding_error.
Theorem C174_histogram_rounding_error : forall AR u, accurate_to AR u -> forall x sig bins, Rabs x <= 10 ^ 8 -> / 10 ^ 8 <= sig <= 10 ^ 8 -> List.Forall (fun b => Rabs b <= 10 ^ 8) bins ->
  Forall2 (absolutely_close (55 * u)) (@triweighted_histogram AR (Fin x) (Fin sig) (fins bins)) (@triweighted_histogram exact (Fin x) (Fin sig) (fins bins)).
Proof. exact C174_histogram. Qed.
Print Assumptions C174_histogram_rounding_error.
Theorem C174_step_rounding_error : forall AR u, accurate_to AR u -> forall x x0 lo hi Y, Rabs x <= 10 ^ 8 -> Rabs x0 <= 10 ^ 8 -> @machine_number AR lo -> @machine_number AR hi ->
  Rabs lo <= Y -> Rabs hi <= Y -> 1 <= Y <= 10 ^ 8 ->
  (forall k, Rabs k <= 10 ^ 8 -> absolutely_close (60 * Y * u) (@sigmoid AR (Fin x) (Fin x0) (Fin k) (Fin lo) (Fin hi)) (@sigmoid exact (Fin x) (Fin x0) (Fin k) (Fin lo) (Fin hi)))
  /\ (forall h, / 10 ^ 8 <= h -> absolutely_close (60 * Y * u) (@tw_sigmoid AR (Fin x) (Fin x0) (Fin h) (Fin lo) (Fin hi)) (@tw_sigmoid exact (Fin x) (Fin x0) (Fin h) (Fin lo) (Fin hi))).
Proof. exact C174_steps. Qed.
Print Assumptions C174_step_rounding_error.
Theorem C174_slope_rounding_error : forall AR u, accurate_to AR u -> forall x xtp ytp x0 lo hi Y, @machine_number AR x -> @machine_number AR xtp -> @machine_number AR ytp -> Rabs x <= 10 ^ 8 -> Rabs xtp <= 10 ^ 8 -> Rabs ytp <= 10 ^ 8 ->
  Rabs x0 <= 10 ^ 8 -> @machine_number AR lo -> @machine_number AR hi -> Rabs lo <= Y -> Rabs hi <= Y -> 1 <= Y <= 10 ^ 8 ->
  let e := 65 * (Y * (Rabs (x - xtp) + 1) + Rabs ytp) * u in
  (forall k, Rabs k <= 10 ^ 8 -> absolutely_close e (@sig_slope AR (Fin x) (Fin xtp) (Fin ytp) (Fin x0) (Fin k) (Fin lo) (Fin hi)) (@sig_slope exact (Fin x) (Fin xtp) (Fin ytp) (Fin x0) (Fin k) (Fin lo) (Fin hi)))
  /\ (forall h, / 10 ^ 8 <= h -> absolutely_close e (@tw_sig_slope AR (Fin x) (Fin xtp) (Fin ytp) (Fin x0) (Fin h) (Fin lo) (Fin hi)) (@tw_sig_slope exact (Fin x) (Fin xtp) (Fin ytp) (Fin x0) (Fin h) (Fin lo) (Fin hi))).
Proof. exact C174_slopes. Qed.
Print Assumptions C174_slope_rounding_error.
Example C174_nonvacuous :
  Forall2 (absolutely_close (55 * / 2 ^ 24)) (@triweighted_histogram binary32 (Fin 1) (Fin (1/2)) (fins [0; 1; 2])) (@triweighted_histogram exact (Fin 1) (Fin (1/2)) (fins [0; 1; 2]))
  /\ absolutely_close (120 * / 2 ^ 24) (@sigmoid binary32 (Fin 3) (Fin 2) (Fin (10 ^ 6)) (Fin (-1)) (Fin 2)) (@sigmoid exact (Fin 3) (Fin 2) (Fin (10 ^ 6)) (Fin (-1)) (Fin 2))
  /\ absolutely_close (25 * / 2 ^ 24 / (1/2)) (@triweight_gaussian binary32 (Fin 1) (Fin 2) (Fin (1/2))) (@triweight_gaussian exact (Fin 1) (Fin 2) (Fin (1/2)))
  /\ absolutely_close (65 * (2 * (Rabs (3 - 1) + 1) + Rabs 4) * / 2 ^ 24) (@tw_sig_slope binary32 (Fin 3) (Fin 1) (Fin 4) (Fin 2) (Fin (1/2)) (Fin (-1)) (Fin 2)) (@tw_sig_slope exact (Fin 3) (Fin 1) (Fin 4) (Fin 2) (Fin (1/2)) (Fin (-1)) (Fin 2)).
Proof.
  assert (M : forall n, (Z.abs n <= 1000)%Z -> @machine_number binary32 (IZR n)) by exact (machine_int _ (rel_err_unit _ _ rd_unit32)).
  split; [|split; [|split]].
  - apply C174_histogram_rounding_error; [exact rd_unit32|rewrite Rabs_right; simpl; lra|simpl; lra|]. repeat constructor; rewrite Rabs_right; simpl; lra.
  - replace (120 * / 2 ^ 24) with (60 * 2 * / 2 ^ 24) by lra. apply C174_step_rounding_error; [exact rd_unit32|rewrite Rabs_right; simpl; lra|rewrite Rabs_right; simpl; lra|apply M; lia|apply M; lia|rewrite Rabs_left; lra|rewrite Rabs_right; lra|simpl; lra|rewrite Rabs_right; simpl; lra].
  - apply C174_kernel_rounding_error; [exact rd_unit32|rewrite Rabs_right; simpl; lra|rewrite Rabs_right; simpl; lra|simpl; lra].
  - apply C174_slope_rounding_error; first [exact rd_unit32|apply M; lia|rewrite Rabs_right; simpl; lra|rewrite Rabs_left; simpl; lra|simpl; lra].
Qed.

(** C175: [Rpower x y] is x to the power y; the draw r is in [0, 1) *)
Theorem C175_sampler_rounding_error : forall AR u, accurate_to AR u -> forall r a b g, @machine_number AR r -> @machine_number AR a -> @machine_number AR b -> @machine_number AR g ->
  0 <= r < 1 -> / 100 <= a -> a < b -> b <= 100 -> / 10 <= Rabs g <= 5 ->
  (0 < g -> relatively_close (350 * u) (@powerlaw_rvs AR (Fin r) (Fin a) (Fin b) (Fin g)) (@powerlaw_rvs exact (Fin r) (Fin a) (Fin b) (Fin g)))
  /\ (1 + Rpower (a / b) g <= 50 ->
      relatively_close ((42 * (1 + Rpower (a / b) g) + 265) * u) (@powerlaw_rvs AR (Fin r) (Fin a) (Fin b) (Fin g)) (@powerlaw_rvs exact (Fin r) (Fin a) (Fin b) (Fin g))).
Proof. exact C175_sampler. Qed.
Print Assumptions C175_sampler_rounding_error.
Theorem C175_sampler_rounding_error_away_from_one : forall AR u, accurate_to AR u -> forall r a b g, @machine_number AR r -> @machine_number AR a -> @machine_number AR b -> @machine_number AR g ->
  0 <= r <= 0.98 -> / 100 <= a -> a < b -> b <= 100 -> / 10 <= Rabs g <= 5 ->
  relatively_close ((42 / (1 - r) + 265) * u) (@powerlaw_rvs AR (Fin r) (Fin a) (Fin b) (Fin g)) (@powerlaw_rvs exact (Fin r) (Fin a) (Fin b) (Fin g)).
Proof. exact C175_away. Qed.
Print Assumptions C175_sampler_rounding_error_away_from_one.
Example C175_away_from_one_nonvacuous :
  relatively_close ((42 / (1 - 1/2) + 265) * / 2 ^ 53) (@powerlaw_rvs binary64 (Fin (1/2)) (Fin 1) (Fin 100) (Fin (-2))) (@powerlaw_rvs exact (Fin (1/2)) (Fin 1) (Fin 100) (Fin (-2))).
Proof.
  assert (M : forall n, (Z.abs n <= 1000)%Z -> @machine_number binary64 (IZR n)) by exact (machine_int _ (rel_err_unit _ _ rd_unit)).
  apply C175_sampler_rounding_error_away_from_one; first [exact rd_unit|exact ph_half|apply M; lia|rewrite Rabs_left; lra|lra].
Qed.
Theorem C175_sample_stays_in_range : forall AR u, accurate_to AR u -> forall r a b g, @machine_number AR r -> @machine_number AR a -> @machine_number AR b -> @machine_number AR g ->
  0 <= r < 1 -> / 100 <= a -> a < b -> b <= 100 -> / 10 <= g <= 5 ->
  exists x, @powerlaw_rvs AR (Fin r) (Fin a) (Fin b) (Fin g) = Fin x /\ a * (1 - 350 * u) <= x <= b * (1 + 350 * u).
Proof. exact C175_range. Qed.
Print Assumptions C175_sample_stays_in_range.
Theorem C175_density_rounding_error : forall AR u, accurate_to AR u -> forall x a b g, @machine_number AR x -> @machine_number AR a -> @machine_number AR b -> @machine_number AR g ->
  / 100 <= x <= 100 -> / 100 <= a -> a < b -> b <= 100 -> / 10 <= g <= 5 ->
  let amp := (Rpower b g + Rpower a g) / (Rpower b g - Rpower a g) in amp <= 1000 ->
  relatively_close ((2.1 * amp + 29) * u) (@powerlaw_pdf AR (Fin x) (Fin a) (Fin b) (Fin g)) (@powerlaw_pdf exact (Fin x) (Fin a) (Fin b) (Fin g)).
Proof. exact C175_density. Qed.
Print Assumptions C175_density_rounding_error.
Theorem C175_density_rounding_error_negative_index : forall AR u, accurate_to AR u -> forall x a b g, @machine_number AR x -> @machine_number AR a -> @machine_number AR b -> @machine_number AR g ->
  / 100 <= x <= 100 -> / 100 <= a -> a < b -> b <= 100 -> -5 <= g <= -0.1 ->
  let amp := (Rpower a g + Rpower b g) / (Rpower a g - Rpower b g) in amp <= 1000 ->
  relatively_close ((2.1 * amp + 34) * u) (@powerlaw_pdf AR (Fin x) (Fin a) (Fin b) (Fin g)) (@powerlaw_pdf exact (Fin x) (Fin a) (Fin b) (Fin g)).
Proof. exact C175_density_neg. Qed.
Print Assumptions C175_density_rounding_error_negative_index.
Example C175_negative_index_nonvacuous :
  (Rpower 2 (-1) + Rpower 10 (-1)) / (Rpower 2 (-1) - Rpower 10 (-1)) = 1.5
  /\ relatively_close ((2.1 * ((Rpower 2 (-1) + Rpower 10 (-1)) / (Rpower 2 (-1) - Rpower 10 (-1))) + 34) * / 2 ^ 53) (@powerlaw_pdf binary64 (Fin 3) (Fin 2) (Fin 10) (Fin (-1))) (@powerlaw_pdf exact (Fin 3) (Fin 2) (Fin 10) (Fin (-1))).
Proof.
  assert (M : forall n, (Z.abs n <= 1000)%Z -> @machine_number binary64 (IZR n)) by exact (machine_int _ (rel_err_unit _ _ rd_unit)).
  assert (E : (Rpower 2 (-1) + Rpower 10 (-1)) / (Rpower 2 (-1) - Rpower 10 (-1)) = 1.5). { replace (-1) with (Ropp 1) by lra. rewrite !Rpower_Ropp, !Rpower_1 by lra. lra. }
  split; [exact E|]. apply C175_density_rounding_error_negative_index; first [exact rd_unit|apply M; lia|rewrite E; lra|lra].
Qed.
Example C175_nonvacuous :
  relatively_close (350 * / 2 ^ 53) (@powerlaw_rvs binary64 (Fin (1/2)) (Fin 1) (Fin 10) (Fin 2)) (@powerlaw_rvs exact (Fin (1/2)) (Fin 1) (Fin 10) (Fin 2))
  /\ relatively_close ((42 * (1 + Rpower (1 / 10) (-1)) + 265) * / 2 ^ 53) (@powerlaw_rvs binary64 (Fin (1/2)) (Fin 1) (Fin 10) (Fin (-1))) (@powerlaw_rvs exact (Fin (1/2)) (Fin 1) (Fin 10) (Fin (-1)))
  /\ Rpower (1 / 10) (-1) = 10
  /\ (exists x, @powerlaw_rvs binary64 (Fin (1/2)) (Fin 1) (Fin 10) (Fin 2) = Fin x /\ 1 * (1 - 350 * / 2 ^ 53) <= x <= 10 * (1 + 350 * / 2 ^ 53))
  /\ relatively_close ((2.1 * ((Rpower 10 1 + Rpower 2 1) / (Rpower 10 1 - Rpower 2 1)) + 29) * / 2 ^ 53) (@powerlaw_pdf binary64 (Fin 3) (Fin 2) (Fin 10) (Fin 1)) (@powerlaw_pdf exact (Fin 3) (Fin 2) (Fin 10) (Fin 1)).
Proof.
  assert (M : forall n, (Z.abs n <= 1000)%Z -> @machine_number binary64 (IZR n)) by exact (machine_int _ (rel_err_unit _ _ rd_unit)).
  assert (E : Rpower (1 / 10) (-1) = 10). { replace (-1) with (Ropp 1) by lra. rewrite Rpower_Ropp, Rpower_1 by lra. lra. }
  split; [|split; [|split; [exact E|split]]].
  - apply C175_sampler_rounding_error; first [exact rd_unit|exact ph_half|apply M; lia|rewrite Rabs_right; lra|lra].
  - apply C175_sampler_rounding_error; first [exact rd_unit|exact ph_half|apply M; lia|rewrite Rabs_left; lra|rewrite E; lra|lra].
  - apply C175_sample_stays_in_range; first [exact rd_unit|exact ph_half|apply M; lia|lra].
  - apply C175_density_rounding_error; first [exact rd_unit|apply M; lia|rewrite !Rpower_1 by lra; lra|lra].
Qed.
