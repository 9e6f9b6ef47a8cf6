(** * Examples for the gradient theorems: every number of the demonstration tables, scaled by the input *)
From Coq Require Import Reals List Arith Lra Lia.
From Coquelicot Require Import Coquelicot.
From Verif Require Import Num MGrad Spec Spec2 SpecGrad RList LUtils LAge Demo LGrad2 LGrad4 LGrad8.
Import ListNotations.
Open Scope R_scope.
#[local] Existing Instance exact.

Definition scaled (c : R) : trace := Mul (Cst (Fin c)) Arg.
Lemma scaled_right c : right_gradient (scaled c) 1. Proof. apply T_right. unfold scaled. ts. Qed.
Lemma scaled_eval c : eval (scaled c) (Fin 1) = Fin c. Proof. unfold scaled. cbn [eval]. rewrite nmul_fin. f_equal. lra. Qed.
Lemma scaled_rights l : right_gradients (map scaled l) 1. Proof. apply List.Forall_map, List.Forall_forall. intros. apply scaled_right. Qed.
Lemma scaled_evals l : map (fun e => eval e (Fin 1)) (map scaled l) = fins l. Proof. rewrite map_map. apply map_ext. apply scaled_eval. Qed.
Definition scaled3 := map (map (map scaled)).
Lemma scaled3_rights f : List.Forall (List.Forall (fun s => right_gradients s 1)) (scaled3 f).
Proof. apply List.Forall_map, List.Forall_forall. intros p _. apply List.Forall_map, List.Forall_forall. intros s _. apply scaled_rights. Qed.
Lemma scaled3_evals f : map (map (map (fun e => eval e (Fin 1)))) (scaled3 f) = fins3 f.
Proof. unfold scaled3, fins3. rewrite map_map. apply map_ext. intros p. rewrite map_map. apply map_ext. intros s. apply scaled_evals. Qed.
Lemma scaled3_shape n k w f : is_cube n k w f -> length (scaled3 f) = n /\ List.Forall (is_matrix k w) (scaled3 f).
Proof.
  intros [L F]. unfold scaled3. split; [now rewrite map_length|]. apply List.Forall_map. eapply List.Forall_impl; [|exact F]. intros p [Lp Fp]. split; [now rewrite map_length|].
  apply List.Forall_map. eapply List.Forall_impl; [|exact Fp]. intros s Ls. cbv beta in *. now rewrite map_length.
Qed.
Lemma demo_filter : good_filter [1.5; 2; 2.5] [0.1; 1; 0.2] /\ increasing [1.5; 2; 2.5]
  /\ List.Forall (fun t => 0 <= t) [0.1; 1; 0.2] /\ increasing [1; 3].
Proof.
  split; [split; [reflexivity|split]|split; [solve_increasing|split; [|solve_increasing]]].
  - repeat (apply List.Forall_cons; [lra|]); apply List.Forall_nil.
  - unfold band_integral, ab0, ent. simpl. lra.
  - repeat (apply List.Forall_cons; [lra|]); apply List.Forall_nil.
Qed.
Lemma demo_avoids_t : avoids demo_tobs demo_t.
Proof. unfold avoids, demo_t, demo_tobs. repeat (apply List.Forall_cons; [lra|]). apply List.Forall_nil. Qed.
Lemma demo_avoids_b : forall a, In a (age_edges demo_ages) -> avoids (demo_tobs - pow10 a) (0.001 :: demo_t).
Proof.
  assert (H : 3 < pow10 (1/2) < 4).
  { assert (Q : pow10 (1/2) * pow10 (1/2) = 10) by (rewrite <- pow10_plus; replace (1/2 + 1/2) with 1 by lra; unfold pow10; apply Rpower_1; lra). pose proof (pow10_pos (1/2)). split; nra. }
  assert (H3 : pow10 (3/2) = 10 * pow10 (1/2)) by (replace 10 with (pow10 1) by (unfold pow10; apply Rpower_1; lra); rewrite <- pow10_plus; f_equal; lra).
  assert (H1 : 0 < pow10 (-1/2) < 1) by (split; [apply pow10_pos|rewrite <- pow10_0; apply pow10_lt; lra]).
  assert (H2 : 0 < pow10 (-3/2) < 1) by (split; [apply pow10_pos|rewrite <- pow10_0; apply pow10_lt; lra]).
  intros a Ha. unfold age_edges, demo_ages in Ha. cbn [length seq map In] in Ha.
  assert (C : pow10 a = pow10 (-3/2) \/ pow10 a = pow10 (-1/2) \/ pow10 a = pow10 (1/2) \/ pow10 a = pow10 (3/2)).
  { unfold age_edge, node_width, ent in Ha. simpl in Ha. destruct Ha as [<-|[<-|[<-|[<-|[]]]]]; [left|right; left|right; right; left|right; right; right]; f_equal; lra. }
  unfold avoids, demo_t, demo_tobs. destruct C as [->|[->|[->| ->]]]; repeat (apply List.Forall_cons; [lra|]); apply List.Forall_nil.
Qed.
