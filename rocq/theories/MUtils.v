(** * Model of dsps/constants.py and dsps/utils.py *)
From Coq Require Import Reals List Bool Arith.
From Verif Require Import Num Arr.
Import ListNotations.
Local Open Scope num_scope.

Section Utils.
  Context {AR : Arith}.

  (** dsps/constants.py:4-12 *)
  Definition SFR_MIN : num := lit (1 / 10 ^ 14)%R.
  Definition T_BIRTH_MIN : num := lit 0.001%R.
  Definition T_TABLE_MIN : num := lit 0.01%R.
  Definition N_T_LGSM_INTEGRATION : nat := 100.
  Definition LGMET_LO : num := Fin (-10)%R.
  Definition LGMET_HI : num := Fin 10%R.
  Definition L_SUN_CGS : num := lit (3.828 * 10 ^ 33)%R.
  (** dsps/utils.py:12 *)
  Definition YEAR_PER_GYR : num := Fin (10 ^ 9)%R.

  (** dsps/utils.py:15-28 [_jax_get_dt_array].  With fewer than 3 entries [dtmids] is
      empty and [dtmids[-1]] (line 24) has nothing to read: an exception. *)
  Definition tmids (t : list num) : list num :=
    map2 (fun a b => Fin (1/2)%R * (a + b)) t (tl t).
  Definition get_dt_array_k (t : list num) : list num :=
    let tm := tmids t in
    let dtmids := diff tm in
    let t_lo := at_ t 0 - (at_ t 1 - at_ t 0) / Fin 2 in
    let t_hi := last_ t + last_ dtmids / Fin 2 in
    (first tm - t_lo) :: dtmids ++ [t_hi - last_ tm].
  Definition get_dt_array (t : list num) : res (list num) :=
    check (3 <=? length t)%nat IndexError (Ok (get_dt_array_k t)).

  (** dsps/utils.py:31-53 [_get_bin_edges]: entries 0..n-1 are bin_mids - dbins/2,
      then entry 0 and entry n are overwritten. *)
  Definition get_bin_edges_k (bin_mids : list num) (lo hi : num) : list num :=
    lo :: tl (map2 (fun m d => m - d / Fin 2) bin_mids (get_dt_array_k bin_mids)) ++ [hi].
  Definition get_bin_edges (bin_mids : list num) (lo hi : num) : res (list num) :=
    check (3 <=? length bin_mids)%nat IndexError (Ok (get_bin_edges_k bin_mids lo hi)).

  (** dsps/utils.py:56-63 [_tw_cuml_kern] *)
  Definition tw_cuml_kern (x m h : num) : num :=
    let z := (x - m) / h in
    let val := Fin (-5) * z ^i 7 / Fin 69984 + Fin 7 * z ^i 5 / Fin 2592
               - Fin 35 * z ^i 3 / Fin 864 + Fin 35 * z / Fin 96 + Fin (1/2)%R in
    let val := nwhere (z <? Fin (-3)) (Fin 0) val in
    nwhere (z >? Fin 3) (Fin 1) val.

  (** dsps/utils.py:66-70 [_tw_sigmoid] *)
  Definition tw_sigmoid (x x0 tw_h ymin ymax : num) : num :=
    let height_diff := ymax - ymin in
    let body := tw_cuml_kern x x0 tw_h in
    ymin + height_diff * body.

  (** dsps/utils.py:73-78 [_triweighted_histogram_kernel] *)
  Definition triweighted_histogram_kernel (x sig lo hi : num) : num :=
    let a := tw_cuml_kern x lo sig in
    let b := tw_cuml_kern x hi sig in
    a - b.

  (** dsps/utils.py:81-102 [triweighted_histogram], for one value x (the code maps
      the same computation over an array of x). *)
  Definition triweighted_histogram (x sig : num) (xbins : list num) : list num :=
    map2 (triweighted_histogram_kernel x sig) xbins (tl xbins).

  (** dsps/utils.py:105-110 [triweight_gaussian] *)
  Definition triweight_gaussian (x m h : num) : num :=
    let z := (x - m) / h in
    let val := lit (35/96)%R * (Fin 1 - (z / Fin 3) ^i 2) ^i 3 / h in
    let msk := ((z <? Fin (-3)) || (z >? Fin 3))%bool in
    nwhere msk (Fin 0) val.

  (** dsps/utils.py:113-116 [_tw_sig_slope] *)
  Definition tw_sig_slope (x xtp ytp x0 tw_h lo hi : num) : num :=
    let slope := tw_sigmoid x x0 tw_h lo hi in
    ytp + slope * (x - xtp).

  (** dsps/utils.py:119-133 [_fill_empty_weights_singlepoint], scalar x;
      [weights] has one entry per bin. *)
  Definition one_hot (n k : nat) : list num :=
    map (fun i => if (i =? k)%nat then Fin 1 else Fin 0) (seq 0 n).
  Definition fill_empty_weights_singlepoint (x : num) (bin_edges weights : list num)
    : list num :=
    let zmsk := forallb (fun w => w =? Fin 0) weights in
    let lomsk := x <? first bin_edges in
    let himsk := x >? last_ bin_edges in
    let n := (length bin_edges - 1)%nat in
    let lores := one_hot n 0 in
    let hires := one_hot n (n - 1) in
    let weights := nwhere (zmsk && lomsk)%bool lores weights in
    nwhere (zmsk && himsk)%bool hires weights.

  (** dsps/utils.py:136-146 [_get_triweights_singlepoint] *)
  Definition get_triweights_singlepoint (x sig : num) (bin_edges : list num) : list num :=
    let tw_hist_results := triweighted_histogram x sig bin_edges in
    let tw_hist_results_sum := vsum tw_hist_results in
    let zmsk := tw_hist_results_sum =? Fin 0 in
    let tw_hist_results_sum := nwhere zmsk (Fin 1) tw_hist_results_sum in
    let weights := map (fun w => w / tw_hist_results_sum) tw_hist_results in
    fill_empty_weights_singlepoint x bin_edges weights.

  (** dsps/utils.py:149-152 [_sigmoid] *)
  Definition sigmoid (x x0 k ylo yhi : num) : num :=
    let height_diff := yhi - ylo in
    ylo + height_diff * nlogistic (k * (x - x0)).

  (** dsps/utils.py:155-158 [_inverse_sigmoid] *)
  Definition inverse_sigmoid (y x0 k ylo yhi : num) : num :=
    let lnarg := (yhi - ylo) / (y - ylo) - Fin 1 in
    x0 - nln lnarg / k.

  (** dsps/utils.py:161-164 [_sig_slope] *)
  Definition sig_slope (x xtp ytp x0 slope_k lo hi : num) : num :=
    let slope := sigmoid x x0 slope_k lo hi in
    ytp + slope * (x - xtp).

  (** dsps/utils.py:167-187 [_mult_2d_vmap], [_mult_3d_vmap] and the galaxy-batched
      [_get_weight_matrices_2d/3d] *)
  Definition mult_2d_vmap (w1 w2 : list num) : list (list num) :=
    map (fun a => map (fun b => a * b) w2) w1.
  Definition mult_3d_vmap (w1 w2 w3 : list num) : list (list (list num)) :=
    map (fun a => map (fun b => map (fun c => a * b * c) w3) w2) w1.
  Definition get_weight_matrices_2d (w1 w2 : list (list num)) : list (list (list num)) :=
    map2 mult_2d_vmap w1 w2.
  Definition get_weight_matrices_3d (w1 w2 w3 : list (list num))
    : list (list (list (list num))) :=
    map2 (fun f c => f c) (map2 mult_3d_vmap w1 w2) w3.

  (** dsps/utils.py:190-215 [powerlaw_pdf], one array element *)
  Definition powerlaw_pdf (x a b g : num) : num :=
    let ag := npow a g in
    let bg := npow b g in
    g * npow x (g - Fin 1) / (bg - ag).

  (** dsps/utils.py:218-244 [powerlaw_rvs], one array element; [r] is the value of
      [jran.uniform], a number in [0, 1). *)
  Definition powerlaw_rvs (r a b g : num) : num :=
    let ag := npow a g in
    let bg := npow b g in
    npow (ag + (bg - ag) * r) (Fin 1 / g).

  (** dsps/utils.py:247-254 [_cumtrapz_scan_func] *)
  Definition cumtrapz_scan_func (carry : num * num * num) (el : num * num)
    : (num * num * num) * num :=
    let '(b, fb) := el in
    let '(a, fa, cum) := carry in
    let cum := cum + (b - a) * (fb + fa) / Fin 2 in
    ((b, fb, cum), cum).

  (** [jax.lax.scan(f, init, xs)[1]] *)
  Fixpoint scan {C E A : Type} (f : C -> E -> C * A) (c : C) (l : list E) : list A :=
    match l with
    | [] => []
    | e :: l => let '(c, a) := f c e in a :: scan f c l
    end.

  (** dsps/utils.py:257-275 [cumtrapz] *)
  Definition cumtrapz_k (xarr yarr : list num) : list num :=
    let res_init := (first xarr, first yarr, Fin 0) in
    scan cumtrapz_scan_func res_init (combine xarr yarr).
  Definition cumtrapz (xarr yarr : list num) : res (list num) :=
    check (same_len xarr yarr) ShapeError
      (check (negb (length xarr =? 0)%nat) IndexError (Ok (cumtrapz_k xarr yarr))).

  (** dsps/utils.py:278-293 [trapz]: [jnp.trapezoid] does not compare the lengths of its
      arguments, so only the product of the steps and the sums of neighbours can fail
      (two points of one array are broadcast against any number of points of the other) *)
  Definition trapz (xarr yarr : list num) : res num :=
    let* areas := bmap2 nmul (diff xarr) (map2 nadd (tl yarr) yarr) in
    Ok (Fin (1/2) * vsum areas).

  (** dsps/utils.py:296-334 [cumulative_mstar_formed].  Line 326 writes the SFH into a buffer
      sized by the times, so an SFH of length 1 is broadcast. *)
  Definition cumulative_mstar_formed_k (t_table sfh_table : list num) : list num :=
    let padded_t_table := T_BIRTH_MIN :: t_table in
    let padded_sfh_table := SFR_MIN :: stretch (length t_table) sfh_table in
    map (fun m => m * YEAR_PER_GYR) (tl (cumtrapz_k padded_t_table padded_sfh_table)).
  Definition cumulative_mstar_formed (t_table sfh_table : list num) : res (list num) :=
    check (fits (length t_table) sfh_table) ShapeError
      (Ok (cumulative_mstar_formed_k t_table sfh_table)).
End Utils.
