(** * A concrete spectrum and filter meeting the hypotheses of the photometry rounding theorems *)
From Coq Require Import Reals List Arith Lra Lia ZArith.
From Verif Require Import Num Arr MUtils MSed MPhot Float Spec SpecFloat SpecFloat2 RList LFloat LFloat2 LFloat9 LRound19.
Import ListNotations.
Open Scope R_scope.

Definition ph_ws : list R := [1000; 2000; 4000; 8000].
Definition ph_ls : list R := [1; 2; 2; 4].
Definition ph_wf : list R := [3000; 4000; 5000].
Definition ph_tf : list R := [1/2; 1; 1/2].

Lemma ph_int n x : (Z.abs n <= 2 ^ 24)%Z -> x = IZR n -> @rnd binary64 x = Fin x.
Proof. exact (LFloat9.demo_int n x). Qed.
Lemma ph_half : @rnd binary64 (1/2) = Fin (1/2).
Proof. apply (LFloat2.rnd_dy good_binary64 1 1); [lia|lia|simpl; lra]. Qed.
Lemma ph_p20 : / 2 ^ 20 <= 1. Proof. apply Rle_trans with (/ 1); [apply Rinv_le_contravar; [lra|apply pow_R1_Rle; lra]|lra]. Qed.
Lemma ph_p4 n : (4 <= n)%nat -> 10000 <= 10 ^ n.
Proof. intros Hn. apply Rle_trans with (10 ^ 4); [simpl; lra|apply Rle_pow; [lra|lia]]. Qed.
Lemma ph_spectrum : rounding_spectrum (AR := binary64) 4 ph_ws ph_ls.
Proof.
  pose proof ph_p20 as P. pose proof (ph_p4 10 ltac:(lia)) as P10. pose proof (ph_p4 20 ltac:(lia)) as P20.
  unfold rounding_spectrum. split; [discriminate|]. split; [reflexivity|]. set (T := 10 ^ 10) in *. set (T2 := 10 ^ 20) in *. set (e := / 2 ^ 20) in *. split; [|split; [|split]].
  - intros i Hi. destruct i as [|[|[|[|i]]]]; [| | | |cbn in Hi; lia]; unfold ent, ph_ws; cbn [nth]; (split; [|lra]); [apply (ph_int 1000)|apply (ph_int 2000)|apply (ph_int 4000)|apply (ph_int 8000)]; auto; cbn; lia.
  - intros i Hi. destruct i as [|[|[|i]]]; [| | |cbn in Hi; lia]; unfold ent, ph_ws; cbn [nth]; lra.
  - intros i Hi. destruct i as [|[|[|[|i]]]]; [| | | |cbn in Hi; lia]; unfold ent, ph_ls; cbn [nth]; (split; [|lra]); [apply (ph_int 1)|apply (ph_int 2)|apply (ph_int 2)|apply (ph_int 4)]; auto; cbn; lia.
  - split; [|lra]. apply Rle_trans with (/ 10000); [apply Rinv_le_contravar; lra|lra].
Qed.
Lemma ph_integral S : band_integral S ph_wf ph_tf = 500 * (S 3000 / 6000 + S 4000 / 2000 + S 5000 / 10000).
Proof. unfold band_integral, ph_wf, ph_tf, ent. simpl. field. Qed.
Lemma ph_filter : rounding_filter (AR := binary64) ph_wf ph_tf.
Proof.
  unfold rounding_filter. split; [|split; [|split; [|split; [|split]]]].
  - intros i j [Hij Hj]. unfold ph_wf, ent in *. destruct j as [|[|[|j]]]; [lia| | |cbn in Hj; lia]; destruct i as [|[|i]]; try lia; cbn [nth]; lra.
  - reflexivity.
  - apply Nat.le_trans with (2 ^ 4)%nat; [simpl; lia|apply Nat.pow_le_mono_r; lia].
  - intros i Hi. destruct i as [|[|[|i]]]; [| | |cbn in Hi; lia]; unfold ent, ph_wf; cbn [nth]; (split; [|simpl; lra]); [apply (ph_int 3000)|apply (ph_int 4000)|apply (ph_int 5000)]; auto; cbn; lia.
  - intros i Hi. destruct i as [|[|[|i]]]; [| | |cbn in Hi; lia]; unfold ent, ph_tf; cbn [nth]; (split; [|lra]); [apply ph_half|apply (ph_int 1); auto; cbn; lia|apply ph_half].
  - rewrite ph_integral. simpl. lra.
Qed.
Lemma ph_BI : 1 / 10 ^ 18 <= 4 * band_integral (fun _ => 1) ph_wf ph_tf.
Proof.
  apply Rle_trans with (/ 10000); [|rewrite ph_integral; lra]. unfold Rdiv. rewrite Rmult_1_l. apply Rinv_le_contravar; [lra|]. apply ph_p4. lia.
Qed.
Lemma ph_resolution : rounding_resolution 3 ph_ws.
Proof.
  assert (P5 : 10000 <= 10 ^ 5) by (apply ph_p4; lia). assert (P8 : 10000 <= 10 ^ 8) by (apply ph_p4; lia). unfold rounding_resolution. set (T := 10 ^ 5) in *. set (T8 := 10 ^ 8) in *. split; [lra|]. split.
  - intros i Hi. destruct i as [|[|[|[|i]]]]; [| | | |cbn in Hi; lia]; unfold ent, ph_ws; cbn [nth]; lra.
  - intros i Hi. destruct i as [|[|[|i]]]; [| | |cbn in Hi; lia]; unfold ent, ph_ws; cbn [nth]; lra.
Qed.
Lemma ph_inside : inside_spectrum ph_ws ph_wf (1/2).
Proof. intros x Hx. unfold ph_ws, ph_wf, ent in *. simpl in *. destruct Hx as [<-|[<-|[<-|[]]]]; lra. Qed.
Lemma ph_at x : 1000 <= x <= 8000 -> 1 <= spectrum_at ph_ws ph_ls x.
Proof. intros [H1 H2]. unfold spectrum_at, ph_ws, ph_ls, ent. simpl. repeat (destruct Rlt_dec; try lra); repeat (destruct Rle_dec; try lra). Qed.
Lemma ph_flux S : 1 <= S 3000 -> 1 <= S 4000 -> 1 <= S 5000 -> 1 <= ab0 * band_flux S ph_wf ph_tf.
Proof.
  intros H1 H2 H3. unfold band_flux. rewrite !ph_integral. assert (A : 0 < ab0) by (unfold ab0; apply Rdiv_lt_0_compat; [lra|apply pow_lt; lra]). set (a := ab0) in *. clearbody a.
  replace (a * (500 * (S 3000 / 6000 + S 4000 / 2000 + S 5000 / 10000) / (500 * (a / 6000 + a / 2000 + a / 10000)))) with ((S 3000 / 6000 + S 4000 / 2000 + S 5000 / 10000) / (1 / 6000 + 1/2000 + 1/10000)) by (field; lra).
  apply Rmult_le_reg_r with (1 / 6000 + 1/2000 + 1/10000); [lra|]. unfold Rdiv at 4. rewrite Rmult_assoc, Rinv_l; lra.
Qed.
Lemma ph_rest : 4 <= 4 * (ab0 * band_flux (spectrum_at ph_ws ph_ls) ph_wf ph_tf).
Proof. assert (1 <= ab0 * band_flux (spectrum_at ph_ws ph_ls) ph_wf ph_tf); [apply ph_flux; apply ph_at; lra|lra]. Qed.
Lemma ph_obs : 4 <= 4 * (ab0 * band_flux (fun x => spectrum_at ph_ws ph_ls (x / (1 + 1/2))) ph_wf ph_tf).
Proof. assert (1 <= ab0 * band_flux (fun x => spectrum_at ph_ws ph_ls (x / (1 + 1/2))) ph_wf ph_tf); [apply ph_flux; apply ph_at; lra|lra]. Qed.
Lemma ph_u : / 2 ^ 53 <= / 10 ^ 9.
Proof. apply Rinv_le_contravar; [apply pow_lt; lra|]. apply Rle_trans with (2 ^ 30); [simpl; lra|apply Rle_pow; [lra|lia]]. Qed.
