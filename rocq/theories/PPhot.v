(** * Properties C63-C71: photometry.  Exact real arithmetic, except C70 which holds in any
    arithmetic (any rounding). *)
From Coq Require Import Reals List Arith Lra Lia.
From Verif Require Import Num Arr MUtils MCosmo MPhot Spec RList LPhot.
Import ListNotations.
Open Scope R_scope.

(** C63 *)
Theorem C63_flux_scaling_shifts_magnitudes : forall ws ls wf tf s, good_spectrum ws ls -> good_filter wf tf -> 0 < s ->
  (exists m, calc_rest_mag (fins ws) (fins ls) (fins wf) (fins tf) = Ok m
     /\ calc_rest_mag (fins ws) (fins (map (Rmult s) ls)) (fins wf) (fins tf) = Ok (m + Fin (-2.5 * log10 s))%num)
  /\ (forall z Om0 w0 wa h, -1 < z -> exists m,
     calc_obs_mag (fins ws) (fins ls) (fins wf) (fins tf) (Fin z) Om0 w0 wa h = Ok m
     /\ calc_obs_mag (fins ws) (fins (map (Rmult s) ls)) (fins wf) (fins tf) (Fin z) Om0 w0 wa h
        = Ok (m + Fin (-2.5 * log10 s))%num).
Proof. exact C63_lemma. Qed.
Print Assumptions C63_flux_scaling_shifts_magnitudes.
Theorem C63_rest_flux_additive : forall ws ls ls' wf tf, good_spectrum ws ls -> good_spectrum ws ls' -> good_filter wf tf ->
  exists f f', calc_rest_flux (fins ws) (fins ls) (fins wf) (fins tf) = Ok (Fin f)
   /\ calc_rest_flux (fins ws) (fins ls') (fins wf) (fins tf) = Ok (Fin f')
   /\ calc_rest_flux (fins ws) (fins (map2 Rplus ls ls')) (fins wf) (fins tf) = Ok (Fin (f + f')).
Proof. exact C63_add_lemma. Qed.
Print Assumptions C63_rest_flux_additive.
(** a spectrum and a filter meeting the hypotheses of this file *)
Example C63_nonvacuous : good_spectrum [1; 2; 3] [1; 4; 2] /\ good_filter [1.5; 2; 2.5] [0.1; 1; 0.2].
Proof.
  split; [split; [|split; [reflexivity|discriminate]]|split; [reflexivity|split]].
  - intros i j H. destruct i as [|[|[|]]], j as [|[|[|]]]; simpl in *; unfold ent; simpl; try lia; lra.
  - repeat constructor; lra.
  - unfold band_integral, ab0, ent. simpl. lra.
Qed.

(** C64 *)
Theorem C64_ab_zero_point : forall ws wf tf s, increasing ws -> ws <> [] -> good_filter wf tf -> 0 < s ->
  (forall w, In w wf -> ent ws 0 <= w <= ent ws (length ws - 1)) ->
  calc_rest_mag (fins ws) (fins (map (fun _ => s * ab0) ws)) (fins wf) (fins tf) = Ok (Fin (-2.5 * log10 s))
  /\ calc_rest_mag (fins ws) (fins (map (fun _ => ab0) ws)) (fins wf) (fins tf) = Ok (Fin 0).
Proof. exact C64_lemma. Qed.
Print Assumptions C64_ab_zero_point.
Example C64_nonvacuous : calc_rest_mag (fins [1; 2; 3]) (fins [ab0; ab0; ab0]) (fins [1.5; 2; 2.5]) (fins [0.1; 1; 0.2]) = Ok (Fin 0).
Proof.
  destruct C63_nonvacuous as [(I & _ & N) F]. apply (C64_ab_zero_point [1; 2; 3] _ _ 1 I N F); [lra|].
  intros w Hw. unfold ent. simpl in *. lra.
Qed.

(** C65 *)
Theorem C65_filter_normalisation_cancels : forall ws ls wf tf c, good_spectrum ws ls -> good_filter wf tf -> 0 < c ->
  calc_rest_flux (fins ws) (fins ls) (fins wf) (fins (map (Rmult c) tf)) = calc_rest_flux (fins ws) (fins ls) (fins wf) (fins tf)
  /\ calc_rest_mag (fins ws) (fins ls) (fins wf) (fins (map (Rmult c) tf)) = calc_rest_mag (fins ws) (fins ls) (fins wf) (fins tf)
  /\ forall z Om0 w0 wa h, -1 < z ->
     calc_obs_mag (fins ws) (fins ls) (fins wf) (fins (map (Rmult c) tf)) (Fin z) Om0 w0 wa h
     = calc_obs_mag (fins ws) (fins ls) (fins wf) (fins tf) (Fin z) Om0 w0 wa h.
Proof. exact C65_lemma. Qed.
Print Assumptions C65_filter_normalisation_cancels.

(** C66 *)
Theorem C66_brighter_spectrum_smaller_magnitude : forall ws ls ls' wf tf, good_spectrum ws ls -> good_spectrum ws ls' -> good_filter wf tf ->
  increasing wf -> List.Forall (fun t => 0 <= t) tf ->
  (forall i, (i < length ws)%nat -> ent ls i <= ent ls' i) ->
  exists f f', calc_rest_flux (fins ws) (fins ls) (fins wf) (fins tf) = Ok (Fin f)
   /\ calc_rest_flux (fins ws) (fins ls') (fins wf) (fins tf) = Ok (Fin f')
   /\ f <= f'
   /\ (0 < f -> exists m m', calc_rest_mag (fins ws) (fins ls) (fins wf) (fins tf) = Ok (Fin m)
        /\ calc_rest_mag (fins ws) (fins ls') (fins wf) (fins tf) = Ok (Fin m') /\ m' <= m).
Proof. exact C66_lemma. Qed.
Print Assumptions C66_brighter_spectrum_smaller_magnitude.
Example C66_nonvacuous : good_spectrum [1; 2; 3] [1; 5; 2] /\ increasing [1.5; 2; 2.5]
  /\ Forall (fun t => 0 <= t) [0.1; 1; 0.2] /\ (forall i, (i < 3)%nat -> ent [1; 4; 2] i <= ent [1; 5; 2] i).
Proof.
  split; [split; [apply C63_nonvacuous|split; [reflexivity|discriminate]]|]. split.
  - intros i j H. destruct i as [|[|[|]]], j as [|[|[|]]]; simpl in *; unfold ent; simpl; try lia; lra.
  - split; [repeat constructor; lra|]. intros i H. destruct i as [|[|[|]]]; unfold ent; simpl; try lia; lra.
Qed.

(** C67 *)
Theorem C67_no_overlap : forall ws ls wf tf, good_spectrum ws ls -> good_filter wf tf ->
  (forall w, In w wf -> w < ent ws 0 \/ ent ws (length ws - 1) < w) ->
  calc_rest_flux (fins ws) (fins ls) (fins wf) (fins tf) = Ok (Fin 0)
  /\ calc_rest_mag (fins ws) (fins ls) (fins wf) (fins tf) = Ok PInf.
Proof. exact C67_lemma. Qed.
Print Assumptions C67_no_overlap.
Example C67_nonvacuous : good_filter [5; 6] [1; 1] /\ forall w, In w [5; 6] -> w < ent [1; 2; 3] 0 \/ ent [1; 2; 3] (3 - 1) < w.
Proof.
  split; [split; [reflexivity|split]|].
  - repeat constructor; lra.
  - unfold band_integral, ab0, ent. simpl. lra.
  - intros w Hw. unfold ent. simpl in *. lra.
Qed.

(** C68 *)
Theorem C68_observed_magnitude_decomposition : forall ws ls wf tf, good_spectrum ws ls -> good_filter wf tf ->
  calc_obs_mag_no_dimming (fins ws) (fins ls) (fins wf) (fins tf) (Fin 0) = calc_rest_mag (fins ws) (fins ls) (fins wf) (fins tf)
  /\ (forall z Om0 w0 wa h, 0 < z -> 0 < Om0 <= 1 -> 0 < h -> exists m mu,
        calc_obs_mag_no_dimming (fins ws) (fins ls) (fins wf) (fins tf) (Fin z) = Ok m
        /\ distance_modulus_to_z (Fin z) (Fin Om0) (Fin w0) (Fin wa) (Fin h) = Fin mu
        /\ calc_obs_mag (fins ws) (fins ls) (fins wf) (fins tf) (Fin z) (Fin Om0) (Fin w0) (Fin wa) (Fin h)
           = Ok (m + Fin (mu - 2.5 * log10 (1 + z)))%num)
  /\ (forall Om0 w0 wa h m, 0 < Om0 <= 1 -> 0 < h ->
        calc_rest_mag (fins ws) (fins ls) (fins wf) (fins tf) = Ok (Fin m) ->
        calc_obs_mag (fins ws) (fins ls) (fins wf) (fins tf) (Fin 0) (Fin Om0) (Fin w0) (Fin wa) (Fin h) = Ok NInf).
Proof. exact C68_lemma. Qed.
Print Assumptions C68_observed_magnitude_decomposition.

(** C69 *)
Theorem C69_redshift_is_blueshifted_filter : forall ws ls wf tf z, good_spectrum ws ls -> good_filter wf tf -> -1 < z ->
  calc_obs_mag_no_dimming (fins ws) (fins ls) (fins wf) (fins tf) (Fin z)
  = calc_rest_mag (fins ws) (fins ls) (fins (map (fun w => w / (1 + z)) wf)) (fins tf).
Proof. exact C69_lemma. Qed.
Print Assumptions C69_redshift_is_blueshifted_filter.

(** C70: any arithmetic *)
Theorem C70_observed_magnitude_table {AR : Arith} : forall w f fw ft zt Om0 w0 wa h,
  (w <> [] -> length fw = length ft -> List.Forall (List.Forall (fun s => length s = length w)) f ->
   (forall ib, (ib < length fw)%nat -> length (nth ib fw []) = length (nth ib ft [])) ->
   exists tab, precompute_ssp_obsmags_on_z_table w f fw ft zt Om0 w0 wa h = Ok tab)
  /\ (forall tab, precompute_ssp_obsmags_on_z_table w f fw ft zt Om0 w0 wa h = Ok tab ->
   length tab = length zt
   /\ (forall iz, (iz < length zt)%nat -> length (nth iz tab []) = length f
     /\ forall im, (im < length f)%nat -> length (nth im (nth iz tab []) []) = length (nth im f [])
     /\ forall ia, (ia < length (nth im f []))%nat -> length (nth ia (nth im (nth iz tab []) []) []) = length fw
     /\ forall ib, (ib < length fw)%nat ->
        calc_obs_mag w (nth ia (nth im f []) []) (nth ib fw []) (nth ib ft []) (nth iz zt NaN) Om0 w0 wa h
        = Ok (nth ib (nth ia (nth im (nth iz tab []) []) []) NaN))).
Proof. exact C70_obs_lemma. Qed.
Print Assumptions C70_observed_magnitude_table.
Theorem C70_rest_magnitude_table {AR : Arith} : forall w f fw ft,
  (w <> [] -> length fw = length ft -> List.Forall (List.Forall (fun s => length s = length w)) f ->
   (forall ib, (ib < length fw)%nat -> length (nth ib fw []) = length (nth ib ft [])) ->
   exists tab, precompute_ssp_restmags w f fw ft = Ok tab)
  /\ (forall tab, precompute_ssp_restmags w f fw ft = Ok tab ->
   length tab = length f
   /\ forall im, (im < length f)%nat -> length (nth im tab []) = length (nth im f [])
   /\ forall ia, (ia < length (nth im f []))%nat -> length (nth ia (nth im tab []) []) = length fw
   /\ forall ib, (ib < length fw)%nat ->
      calc_rest_mag w (nth ia (nth im f []) []) (nth ib fw []) (nth ib ft [])
      = Ok (nth ib (nth ia (nth im tab []) []) NaN)).
Proof. exact C70_rest_lemma. Qed.
Print Assumptions C70_rest_magnitude_table.
Theorem C70_kcorrected_magnitude_table {AR : Arith} : forall w f fw ft z,
  (w <> [] -> length fw = length ft -> List.Forall (List.Forall (fun s => length s = length w)) f ->
   (forall ib, (ib < length fw)%nat -> length (nth ib fw []) = length (nth ib ft [])) ->
   exists tab, precompute_ssp_restmags_z_kcorrect w f fw ft z = Ok tab)
  /\ (forall tab, precompute_ssp_restmags_z_kcorrect w f fw ft z = Ok tab ->
   length tab = length f
   /\ forall im, (im < length f)%nat -> length (nth im tab []) = length (nth im f [])
   /\ forall ia, (ia < length (nth im f []))%nat -> length (nth ia (nth im tab []) []) = length fw
   /\ forall ib, (ib < length fw)%nat ->
      calc_obs_mag_no_dimming w (nth ia (nth im f []) []) (nth ib fw []) (nth ib ft []) z
      = Ok (nth ib (nth ia (nth im tab []) []) NaN)).
Proof. exact C70_kcorrect_lemma. Qed.
Print Assumptions C70_kcorrected_magnitude_table.

(** C71 *)
Theorem C71_filter_resampling : forall waves trans n N, waves <> [] -> length waves = length trans ->
  (forall k, (k < length waves)%nat -> length (nth k waves []) = length (nth k trans []) /\ nth k waves [] <> []
      /\ increasing (nth k waves [])) ->
  (n = Some N \/ n = None /\ shortest N waves) -> (2 <= N)%nat ->
  exists nw nt, interpolate_filter_trans_curves (map fins waves) (map fins trans) n = Ok (map fins nw, map fins nt)
  /\ length nw = length waves /\ length nt = length waves
  /\ forall k, (k < length waves)%nat ->
     let w := nth k waves [] in let t := nth k trans [] in let w' := nth k nw [] in let t' := nth k nt [] in
     length w' = N /\ length t' = N
     /\ ent w' 0 = ent w 0 /\ ent w' (N - 1) = ent w (length w - 1)
     /\ forall i, (i < N)%nat ->
        ent w' i = ent w 0 + INR i / INR (N - 1) * (ent w (length w - 1) - ent w 0)
        /\ ent t' i = pwlin (combine w t) (ent w' i)
        /\ forall lo hi, List.Forall (fun y => lo <= y <= hi) t -> lo <= ent t' i <= hi.
Proof. exact C71_lemma. Qed.
Print Assumptions C71_filter_resampling.
Example C71_nonvacuous : shortest 3 [[1; 2; 3]; [1; 2; 4; 5]] /\ increasing [1; 2; 4; 5].
Proof.
  split; [split|].
  - intros w [<-|[<-|[]]]; simpl; lia.
  - exists [1; 2; 3]. simpl. auto.
  - intros i j H. destruct i as [|[|[|[|]]]], j as [|[|[|[|]]]]; simpl in *; unfold ent; simpl; try lia; lra.
Qed.
