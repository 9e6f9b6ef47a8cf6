(** * Model of dsps/imf: remnant_mass.py and surviving_mstar.py *)
From Coq Require Import Reals List Bool Arith.
From Verif Require Import Num Arr MUtils.
Import ListNotations.
Local Open Scope num_scope.

Record RemnantParams := { rem_a : num; rem_b : num; rem_lgk1 : num; rem_d : num; rem_e : num }.
Record SurvivingParams := {
  sur_a : num; sur_b : num; sur_lgk1 : num; sur_d : num; sur_e : num;
  sur_f : num; sur_lgk2 : num; sur_h : num }.

Section Imf.
  Context {AR : Arith}.

  (** remnant_mass.py:8-17; [Chabrier] is the default *)
  Definition remnant_params_of (a : R) : RemnantParams :=
    {| rem_a := lit a; rem_b := Fin 7; rem_lgk1 := Fin 1; rem_d := lit 1.3%R;
       rem_e := lit 0.2%R |}.
  Definition REM_CHABRIER := remnant_params_of (-1.42)%R.
  Definition REM_SALPETER := remnant_params_of (-1.67)%R.
  Definition REM_KROUPA := remnant_params_of (-1.45)%R.
  Definition REM_VAN_DOKKUM := remnant_params_of (-1.4)%R.

  (** remnant_mass.py:50-53 [_log_remnant_mass], called by
      remnant_mass.py:21-46 [remnant_mass]; one element of [lg_age_yr] *)
  Definition remnant_mass (lg_age_yr : num) (p : RemnantParams) : num :=
    let k1 := npow10 (rem_lgk1 p) in
    let xtp := rem_b p in
    npow10 (sig_slope lg_age_yr xtp (rem_a p) (rem_b p) k1 (rem_d p) (rem_e p)).

  (** surviving_mstar.py:9-27 *)
  Definition surviving_params_of (a d : R) : SurvivingParams :=
    {| sur_a := lit a; sur_b := Fin 8; sur_lgk1 := lit (-0.5)%R; sur_d := lit d;
       sur_e := lit 0.08%R; sur_f := lit 6.5%R; sur_lgk2 := lit 0.7%R;
       sur_h := lit 0.005%R |}.
  Definition SUR_CHABRIER := surviving_params_of 0.225%R 0.145%R.
  Definition SUR_SALPETER := surviving_params_of 0.13%R 0.055%R.
  Definition SUR_KROUPA := surviving_params_of 0.211%R 0.13%R.
  Definition SUR_VAN_DOKKUM := surviving_params_of 0.238%R 0.156%R.

  (** surviving_mstar.py:64-71 [_returned_mass] *)
  Definition returned_mass (lg_age_yr : num) (p : SurvivingParams) : num :=
    let k1 := npow10 (sur_lgk1 p) in
    let xtp := sur_b p in
    let z := sig_slope lg_age_yr xtp (sur_a p) (sur_b p) k1 (sur_d p) (sur_e p) in
    let k2 := npow10 (sur_lgk2 p) in
    sigmoid lg_age_yr (sur_f p) k2 (sur_h p) z.

  (** surviving_mstar.py:31-60 [surviving_mstar] *)
  Definition surviving_mstar (lg_age_yr : num) (p : SurvivingParams) : num :=
    Fin 1 - returned_mass lg_age_yr p.
End Imf.
