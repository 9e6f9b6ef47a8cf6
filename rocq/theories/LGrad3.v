(** * The triweight density: gradient also at the joints; evaluation of the traces *)
From Coq Require Import Reals List Arith Lra Lia ZArith Bool.
From Coquelicot Require Import Coquelicot.
From Flocq Require Import Core.Raux.
From Verif Require Import Num Arr MUtils MSed MDiffburst MImf MMzr MDust MGrad MTrace Spec Spec2 SpecGrad RList LUtils LKern LImf LDiff LGrad LGrad2.
Import ListNotations.
Open Scope R_scope.
#[local] Existing Instance exact.

Lemma tw_dens_derive z : is_derive tw_dens z (35/96 * 3 * (1 - (z/3)^2)^2 * (- 2 * z / 9)).
Proof. unfold tw_dens. auto_derive; auto. field. Qed.
Definition tw_slope (z : R) : R := if Rlt_dec (-3) z then if Rlt_dec z 3 then 35/96 * 3 * (1 - (z/3)^2)^2 * (- 2 * z / 9) else 0 else 0.
Ltac toR := match goal with |- @eq _ ?u ?v => change (@eq R u v) | _ => idtac end.
Ltac rlra := toR; lra.
Ltac rfield := toR; unfold tw_dens; field.
Lemma tw_density_is_derive z : is_derive tw_density z (tw_slope z).
Proof.
  unfold tw_slope. destruct (Rlt_dec (-3) z) as [H1|H1]; [destruct (Rlt_dec z 3) as [H2|H2]|].
  - apply (is_derive_ext_loc tw_dens); [|apply tw_dens_derive]. apply (loc2 _ _ _ z (loc_gt _ _ H1) (loc_lt _ _ H2)). intros y A B. unfold tw_density. destruct (Rlt_dec (-3) y), (Rlt_dec y 3); rlra.
  - destruct (Req_dec z 3) as [->|N].
    + apply (is_derive_ext_loc (fun y => if Rle_dec y 3 then tw_dens y else 0)).
      * generalize (loc_gt 3 (-3) ltac:(lra)). apply filter_imp. intros y Hy. unfold tw_density. destruct (Rle_dec y 3), (Rlt_dec (-3) y), (Rlt_dec y 3); try rlra. replace y with 3 by rlra. rfield.
      * apply (glue_derive _ tw_dens (fun _ => 0)).
        -- intros y Hy. destruct (Rle_dec y 3); rlra.
        -- intros y Hy. destruct (Rle_dec y 3); auto. replace y with 3 by rlra. rfield.
        -- replace 0 with (35/96 * 3 * (1 - (3/3)^2)^2 * (- 2 * 3 / 9)) by field. apply tw_dens_derive.
        -- apply is_derive_const0.
    + apply (is_derive_ext_loc (fun _ => 0)); [|apply is_derive_const0]. generalize (loc_gt z 3 ltac:(lra)). apply filter_imp. intros y Hy. unfold tw_density. destruct (Rlt_dec (-3) y), (Rlt_dec y 3); rlra.
  - destruct (Req_dec z (-3)) as [->|N].
    + apply (is_derive_ext_loc (fun y => if Rle_dec y (-3) then 0 else tw_dens y)).
      * generalize (loc_lt (-3) 3 ltac:(lra)). apply filter_imp. intros y Hy. unfold tw_density. destruct (Rle_dec y (-3)), (Rlt_dec (-3) y), (Rlt_dec y 3); rlra.
      * apply (glue_derive _ (fun _ => 0) tw_dens).
        -- intros y Hy. destruct (Rle_dec y (-3)); rlra.
        -- intros y Hy. destruct (Rle_dec y (-3)); auto. replace y with (-3) by rlra. rfield.
        -- apply is_derive_const0.
        -- replace 0 with (35/96 * 3 * (1 - (-3/3)^2)^2 * (- 2 * -3 / 9)) by field. apply tw_dens_derive.
    + apply (is_derive_ext_loc (fun _ => 0)); [|apply is_derive_const0]. generalize (loc_lt z (-3) ltac:(lra)). apply filter_imp. intros y Hy. unfold tw_density. destruct (Rlt_dec (-3) y), (Rlt_dec y 3); rlra.
Qed.
Lemma gauss_eval {AR : Arith} x m h v : eval (AR := AR) (gauss_trace x m h) v = triweight_gaussian (eval x v) (eval m v) (eval h v).
Proof. reflexivity. Qed.
Lemma T_gauss a m h x : eval h (Fin x) <> Fin 0 -> T a x -> T m x -> T h x -> T (gauss_trace a m h) x.
Proof.
  intros N A M H. pose proof (T_div _ _ _ N (T_sub _ _ _ A M) H) as (g & dz & Z). destruct A as (fa & da & _ & Ea & _), M as (fm & dm & _ & Em & _), H as (fh & dh & H).
  assert (Nh : fh x <> 0) by (intros Q; apply N; destruct H as (_ & Eh & _); rewrite (ev_at _ _ _ Eh); now f_equal).
  assert (Lh : locally x (fun y => fh y <> 0)) by (destruct H as (_ & _ & Dh); apply (cont_near fh x (fun z => z <> 0)); [eapply der_cont; exact Dh|apply open_neq|auto]).
  assert (B : tr (Div (Mul (Cst (lit (35/96))) (IPow (Sub (Cst (Fin 1)) (IPow (Div (Div (Sub a m) h) (Cst (Fin 3))) 2)) 3)) h) (fun y => tw_dens (g y) / fh y) x
     ((35/96 * 3 * (1 - (g x/3)^2)^2 * (- 2 * g x / 9) * dz * fh x - tw_dens (g x) * dh) / (fh x) ^ 2)).
  { eapply tr_d; [eapply tr_ext; [|eapply tr_div; [eapply tr_mul; [apply tr_cst|eapply tr_ipow; [lia|eapply tr_sub; [apply tr_cst|eapply tr_ipow; [lia|eapply tr_div; [exact Z|apply tr_cst|lra]]]]]|exact H|exact Nh]]|].
    - intros y. cbv beta. change (Pos.to_nat 2) with 2%nat. change (Pos.to_nat 3) with 3%nat. reflexivity.
    - cbv beta. change (Pos.to_nat 2) with 2%nat. change (Pos.to_nat 3) with 3%nat. unfold tw_dens. simpl INR. simpl Nat.pred. field. auto. }
  pose proof (tr_cst 0 x) as (K0 & _). exists (fun y => tw_density (g y) / fh y), ((tw_slope (g x) * dz * fh x - tw_density (g x) * dh) / (fh x) ^ 2). split; [|split].
  - destruct B as (KB & _). pose proof (bk_where (fun z => (z <? Fin (-3)) || (z >? Fin 3))%num%bool (Div (Sub a m) h) _ _ x _ _ _ eq_refl K0 KB) as V.
    destruct Z as (_ & Ez & _). rewrite (ev_at _ _ _ Ez) in V. match type of V with bk _ _ ?d' => match goal with |- bk _ _ ?d => replace d with d'; [exact V|] end end. clear V.
    unfold ngtb, nltb, tw_density, tw_slope. destruct (Rlt_bool_spec 3 (g x)), (Rlt_bool_spec (g x) (-3)), (Rlt_dec (-3) (g x)), (Rlt_dec (g x) 3); simpl orb; cbv iota; try lra; try (field; auto; fail).
    + replace (g x) with 3 by lra. unfold tw_dens. field. auto.
    + replace (g x) with (-3) by lra. unfold tw_dens. field. auto.
  - destruct H as (_ & Eh & _). destruct Z as (_ & Ez & _). apply (loc2 _ _ _ x (loc2 _ _ _ x (loc2 _ _ _ x Ea Em (fun y p q => conj p q)) (loc2 _ _ _ x Eh Ez (fun y p q => conj p q)) (fun y p q => conj p q)) Lh).
    intros y [[E1 E2] [E3 E4]] E5. rewrite gauss_eval, E1, E2, E3, triweight_gaussian_fin by auto. cbn [eval] in E4. rewrite E1, E2, E3, nsub_fin, ndiv_fin in E4 by auto. injection E4 as ->. reflexivity.
  - destruct Z as (_ & _ & Dz), H as (_ & _ & Dh). apply (is_derive_div (fun y => tw_density (g y)) fh x); auto. rewrite Rmult_comm. apply (is_derive_comp tw_density g x (tw_slope (g x)) dz (tw_density_is_derive _) Dz).
Qed.
