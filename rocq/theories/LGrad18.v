(** * Lemmas for C170: gradients of blackbody, power-law and effective-wavelength functions *)
From Coq Require Import Reals List Arith Bool Lra Lia.
From Coquelicot Require Import Coquelicot.
From Flocq Require Import Core.Raux.
From Verif Require Import Num Arr MUtils MDust MBlackbody MGrad MTrace MTrace2 MTrace5 Spec Spec2 SpecGrad RList LUtils LBlack LDust LGrad LGrad2 LGrad4 LGrad5 LGrad6 LGrad7 LGrad8 LGrad9 LGrad11 LBcast LKern LBcast.
Import ListNotations.
Open Scope R_scope.
#[local] Existing Instance exact.

Lemma planck_den x : 0 < x -> exp x - 1 <> 0.
Proof. intros H. pose proof (exp_increasing 0 x H) as E. rewrite exp_0 in E. lra. Qed.
Lemma T_freq nu t v n k : T nu v -> T t v -> eval nu (Fin v) = Fin n -> eval t (Fin v) = Fin k -> 0 < n -> 0 < k -> T (freq_density_trace nu t) v.
Proof.
  intros Tn Tt En Ek Hn Hk. pose proof hP_pos. pose proof kB_pos. pose proof cl_pos. pose proof ls_pos.
  unfold freq_density_trace, freq_denom_trace. consts. rewrite !nln_fin, !nmul_fin, !nadd_fin, !nsub_fin by (auto; lra).
  assert (E1 : eval (Mul (Cst (Fin k_boltzmann)) t) (Fin v) = Fin (k_boltzmann * k)) by (cbn [eval]; now rewrite Ek, nmul_fin).
  assert (P1 : 0 < k_boltzmann * k) by nra.
  apply T_div; [cbn [eval]; apply neq_fin; lra| |ts]. apply T_mul.
  - apply T_div.
    + change (eval (Sub (Exp (Div ?a ?b)) (Cst (Fin 1))) (Fin v)) with (nsub (nexp (ndiv (eval a (Fin v)) (eval b (Fin v)))) (Fin 1)).
      rewrite E1. cbn [eval]. rewrite En, nmul_fin, ndiv_fin, nexp_fin, nsub_fin by lra. apply neq_fin, planck_den. apply Rdiv_lt_0_compat; nra.
    + ts.
    + ts. apply T_exp. apply T_div; ts. rewrite E1. apply neq_fin. lra.
  - apply T_exp. ts. now apply T_ln with (v := n).
Qed.
Lemma T_wave w t v n k : T w v -> T t v -> eval w (Fin v) = Fin n -> eval t (Fin v) = Fin k -> 0 < n -> 0 < k -> T (wave_density_trace w t) v.
Proof.
  intros Tw Tt Ew Ek Hn Hk. pose proof hP_pos. pose proof kB_pos. pose proof cl_pos. pose proof ls_pos.
  unfold wave_density_trace, wave_denom_trace. cbv zeta. consts. rewrite !nln_fin, !nmul_fin, !nadd_fin by (auto; lra).
  assert (E1 : eval (Mul (Cst (Fin k_boltzmann)) t) (Fin v) = Fin (k_boltzmann * k)) by (cbn [eval]; now rewrite Ek, nmul_fin).
  assert (P1 : 0 < k_boltzmann * k) by nra. assert (Pt : 0 < 10 ^ 10) by (apply pow_lt; lra).
  set (wm := Div w (Cst (Fin (10 ^ 10)))).
  assert (E2 : eval wm (Fin v) = Fin (n / 10 ^ 10)) by (unfold wm; cbn [eval]; rewrite Ew, ndiv_fin by lra; reflexivity).
  assert (P2 : 0 < n / 10 ^ 10) by (apply Rdiv_lt_0_compat; lra).
  assert (T2 : T wm v) by (apply T_div; ts; cbn [eval]; apply neq_fin; lra).
  apply T_mul; [|ts]. apply T_div; [cbn [eval]; apply neq_fin; lra| |ts]. apply T_mul.
  - apply T_exp. ts. now apply T_ln with (v := n / 10 ^ 10).
  - apply T_div.
    + change (eval (Sub (Exp (Div (Div (Cst ?a) ?b) ?c)) (Cst (Fin 1))) (Fin v)) with (nsub (nexp (ndiv (ndiv a (eval b (Fin v))) (eval c (Fin v)))) (Fin 1)).
      rewrite E1, E2, !ndiv_fin, nexp_fin, nsub_fin by lra. apply neq_fin, planck_den. apply Rdiv_lt_0_compat; [|lra]. apply Rdiv_lt_0_compat; nra.
    + ts.
    + ts. apply T_exp. apply T_div; [rewrite E2; apply neq_fin; lra| |exact T2]. apply T_div; ts. rewrite E1. apply neq_fin. lra.
Qed.
Lemma C170_blackbody_lemma : forall nu wave T v n w k,
  right_gradient nu v -> right_gradient wave v -> right_gradient T v ->
  eval nu (Fin v) = Fin n -> eval wave (Fin v) = Fin w -> eval T (Fin v) = Fin k -> 0 < n -> 0 < w -> 0 < k ->
  (forall (AR : Arith) x,
     blackbody_freq_density (eval (AR := AR) nu x) (eval T x) = eval (freq_density_trace (AR := AR) nu T) x
     /\ blackbody_wave_density (eval (AR := AR) wave x) (eval T x) = eval (wave_density_trace (AR := AR) wave T) x)
  /\ right_gradient (freq_density_trace nu T) v /\ right_gradient (wave_density_trace wave T) v.
Proof.
  intros nu wave t v n w k Rn Rw Rt En Ew Ek Hn Hw Hk. split; [intros; split; reflexivity|].
  apply T_right in Rn, Rw, Rt. split; apply T_right; eauto using T_freq, T_wave.
Qed.
Lemma C170_zero_lemma : forall nu, 0 < nu ->
  let B := freq_density_trace (Cst (Fin nu)) Arg in
  blackbody_freq_density (Fin nu) (Fin 0) = eval B (Fin 0) /\ eval B (Fin 0) = Fin 0 /\ grad B (Fin 0) = NaN.
Proof.
  intros nu Hn. split; [reflexivity|]. split; [exact (proj1 C51_lemma nu Hn)|].
  pose proof hP_pos. pose proof kB_pos. pose proof cl_pos. pose proof ls_pos.
  unfold grad, freq_density_trace, freq_denom_trace. cbn [depends orb existsb]. cbv iota. cbn [back depends orb both eval]. consts.
  rewrite !nln_fin by (auto; lra). rewrite !nmul_fin, !nadd_fin, !nsub_fin, !nadd_fin, nexp_fin, Rmult_0_r, ndiv_pos_0, ndiv_fin, nmul_fin by (try nra; lra).
  change (nsub (nexp PInf) (Fin 1)) with PInf. change (nmul PInf PInf) with PInf. change (ndiv (Fin 1) PInf) with (Fin 0).
  rewrite !nopp_fin, !nmul_fin. change (nexp PInf) with PInf.
  rewrite !Rmult_0_r. assert (Z : nmul (Fin 0) PInf = NaN) by (cbn [nmul]; unfold inf_times; rewrite !Rlt_bool_false by lra; reflexivity).
  rewrite Z. reflexivity.
Qed.


Lemma Rpower_neq a b g : 0 < a -> 0 < b -> a <> b -> g <> 0 -> Rpower b g - Rpower a g <> 0.
Proof.
  intros A B N G E. apply N. assert (Q : Rpower a g = Rpower b g) by lra. unfold Rpower in Q. apply exp_inv in Q.
  assert (ln a = ln b) by nra. apply ln_inv; auto.
Qed.
Lemma C170_powerlaw_lemma : forall x r a b g v xv rv av bv gv,
  right_gradient x v -> right_gradient r v -> right_gradient a v -> right_gradient b v -> right_gradient g v ->
  eval x (Fin v) = Fin xv -> eval r (Fin v) = Fin rv -> eval a (Fin v) = Fin av -> eval b (Fin v) = Fin bv -> eval g (Fin v) = Fin gv ->
  0 < xv -> 0 <= rv < 1 -> 0 < av -> 0 < bv -> av <> bv -> gv <> 0 ->
  (forall (AR : Arith) y, let E e := eval (AR := AR) e y in
     powerlaw_pdf (E x) (E a) (E b) (E g) = E (powerlaw_pdf_trace x a b g)
     /\ powerlaw_rvs (E r) (E a) (E b) (E g) = E (powerlaw_rvs_trace r a b g))
  /\ right_gradient (powerlaw_pdf_trace x a b g) v /\ right_gradient (powerlaw_rvs_trace r a b g) v.
Proof.
  intros x r a b g v xv rv av bv gv Rx Rr Ra Rb Rg Ex Er Ea Eb Eg Hx Hr Ha Hb N G. split; [intros; split; reflexivity|].
  toT. assert (TA : T (Pow a g) v) by now apply T_pow with (v := av). assert (TB : T (Pow b g) v) by now apply T_pow with (v := bv).
  assert (EA : eval (Pow a g) (Fin v) = Fin (Rpower av gv)) by (cbn [eval]; now rewrite Ea, Eg, npow_fin).
  assert (EB : eval (Pow b g) (Fin v) = Fin (Rpower bv gv)) by (cbn [eval]; now rewrite Eb, Eg, npow_fin).
  pose proof (exp_pos (gv * ln av)) as PA. fold (Rpower av gv) in PA. pose proof (exp_pos (gv * ln bv)) as PB. fold (Rpower bv gv) in PB.
  split; toT.
  - unfold powerlaw_pdf_trace. apply T_div.
    + change (nsub (eval (Pow b g) (Fin v)) (eval (Pow a g) (Fin v)) <> Fin 0). rewrite EA, EB, nsub_fin. apply neq_fin. now apply Rpower_neq.
    + ts. apply T_pow with (v := xv); ts.
    + ts.
  - unfold powerlaw_rvs_trace. apply T_pow with (v := Rpower av gv + (Rpower bv gv - Rpower av gv) * rv).
    + change (nadd (eval (Pow a g) (Fin v)) (nmul (nsub (eval (Pow b g) (Fin v)) (eval (Pow a g) (Fin v))) (eval r (Fin v))) = Fin (Rpower av gv + (Rpower bv gv - Rpower av gv) * rv)).
      now rewrite EA, EB, Er, nsub_fin, nmul_fin, nadd_fin.
    + nra.
    + ts.
    + apply T_div; ts. rewrite Eg. now apply neq_fin.
Qed.
Lemma C170_effective_lemma : forall wave trans z v ts zv,
  right_gradients trans v -> right_gradient z v -> map (fun e => eval e (Fin v)) trans = fins ts -> eval z (Fin v) = Fin zv ->
  length wave = length ts -> trapezoid wave ts <> 0 -> zv <> -1 ->
  (forall (AR : Arith) x,
     get_filter_effective_wavelength (fins wave) (map (fun e => eval (AR := AR) e x) trans) (eval z x)
     = Ok (eval (effective_wavelength_trace (fins wave) trans z) x))
  /\ right_gradient (effective_wavelength_trace (fins wave) trans z) v.
Proof.
  intros wave trans z v ts zv Rt Rz Et Ez L N M.
  assert (Lt : length trans = length wave) by (rewrite L, <- (fins_length ts), <- Et; symmetry; apply map_length).
  split.
  - intros AR x. unfold get_filter_effective_wavelength, effective_wavelength_trace. cbn [eval]. rewrite !trapz_eval.
    rewrite trapz_same by (rewrite fins_length, map_length; auto). cbn [bind].
    rewrite bmap2_same by (rewrite fins_length, map_length; auto). cbn [bind].
    rewrite trapz_same by (rewrite fins_length, map2_length, map_length, fins_length, Lt; symmetry; apply Nat.min_id). cbn [bind]. do 4 f_equal.
    generalize (fins wave) as w. clear. induction trans as [|t trans IH]; intros [|a w]; cbn [map map2 eval]; auto. now rewrite IH.

  - toT. apply Ts_right in Rt. unfold effective_wavelength_trace. apply T_div; [cbn [eval]; rewrite Ez, nadd_fin; apply neq_fin; lra| |ts].
    apply T_div.
    + rewrite trapz_eval, Et, trapz_fins by auto. now apply neq_fin.
    + apply T_trapz. apply Forall_map2. intros a w Ia Iw. apply in_map_iff in Iw as (q & <- & _). rewrite List.Forall_forall in Rt. ts; auto.
    + now apply T_trapz.
Qed.
