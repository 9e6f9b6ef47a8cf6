(** * Supporting lemmas for C36 (pure burst) and C76 (number of parameters) *)
From Coq Require Import Reals List Arith Lia.
From Verif Require Import Num Arr MUtils MMzr MDiffburst LBcast.
Import ListNotations.

Lemma C36_pure_lemma {AR : Arith} : forall lgyr u smooth,
  pureburst_age_weights_from_u_params lgyr (u_lgyr_peak u) (u_lgyr_max u)
  = pureburst_age_weights_from_params lgyr
      (lgyr_peak (get_params_from_u_params u)) (lgyr_max (get_params_from_u_params u))
  /\ (length smooth = length lgyr ->
      compute_bursty_age_weights_from_u_params lgyr smooth u
      = Ok (map2 (fun b s => nadd (nmul (npow10 (lgfburst (get_params_from_u_params u))) b)
                                 (nmul (nsub (Fin 1) (npow10 (lgfburst (get_params_from_u_params u)))) s))
              (pureburst_age_weights_from_u_params lgyr (u_lgyr_peak u) (u_lgyr_max u)) smooth)).
Proof.
  intros lgyr u smooth. split; [reflexivity|]. intro L.
  unfold compute_bursty_age_weights_from_u_params, compute_bursty_age_weights_from_params.
  apply bmap2_same. unfold pureburst_age_weights_from_u_params. now rewrite pureburst_len.
Qed.

Lemma C76_count_lemma {AR : Arith} : forall m t params,
  (length params <> 10%nat -> mzr_model_star m t params = Raise TypeError)
  /\ (length params = 10%nat -> exists z, mzr_model_star m t params = Ok z)
  /\ mzr_model_star m t DEFAULT_MET_PARAMS = Raise TypeError.
Proof.
  intros m t params. split; [|split].
  - intro H. destruct params as [|a0 [|a1 [|a2 [|a3 [|a4 [|a5 [|a6 [|a7 [|a8 [|a9 [|a10 l]]]]]]]]]]];
      try reflexivity. exfalso. apply H. reflexivity.
  - intro H. destruct params as [|a0 [|a1 [|a2 [|a3 [|a4 [|a5 [|a6 [|a7 [|a8 [|a9 [|a10 l]]]]]]]]]]];
      try discriminate. eexists. reflexivity.
  - reflexivity.
Qed.
