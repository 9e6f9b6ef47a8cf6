(** * Model of dsps/data_loaders/retrieve_fake_fsps_data.py

    The random draws and the iteration order of Python sets are inputs; the two text files
    of power-law coefficients are inputs [c0], [c1] (lists of rows). *)
From Coq Require Import Reals List Bool Arith ZArith String Ascii.
From Flocq Require Import Core.Raux.
From Verif Require Import Num Arr MUtils MLoaders.
Import ListNotations.
Local Open Scope num_scope.

Section Fake.
  Context {AR : Arith}.

  (** [np.arange(start, stop, step)]: ceil((stop - start)/step) entries start + i * delta
      with delta = (start + step) - start *)
  Definition np_arange (start stop step : num) : list num :=
    match (stop - start) / step with
    | Fin q => let delta := (start + step) - start in
               map (fun i => start + Fin (INR i) * delta) (seq 0 (Z.to_nat (Zceil q)))
    | _ => []
    end.

  (** retrieve_fake_fsps_data.py:78-80 [_get_log_age_gyr] *)
  Definition fake_log_age_gyr : list num := np_arange (lit (-3.5)%R) (lit 1.2%R) (lit 0.05%R).

  (** retrieve_fake_fsps_data.py:196-221 [zlegend] *)
  Definition zlegend : list num := map lit
    [0.0002; 0.0003; 0.0004; 0.0005; 0.0006; 0.0008; 0.001; 0.0012; 0.0016; 0.002; 0.0025;
     0.0031; 0.0039; 0.0049; 0.0061; 0.0077; 0.0096; 0.012; 0.015; 0.019; 0.024; 0.03]%R.
  (** retrieve_fake_fsps_data.py:83-85 [_get_lgzlegend] *)
  Definition fake_lgzlegend : list num := map nlog10 zlegend.

  (** retrieve_fake_fsps_data.py:88-91 [_get_ssp_wave] *)
  Definition fake_ssp_wave : list num := np_linspace (Fin 100) (Fin 20000) 1963.

  (** retrieve_fake_fsps_data.py:94-107 [_get_spec_ssp]; [ssp_plaw_data_c1[iz, iage]] raises
      if the second table is smaller than the first *)
  Definition fake_spec_ssp (c0 c1 : list (list num)) : res (list (list (list num))) :=
    let n_met := List.length c0 in
    let n_age := List.length (nth 0 c0 []) in
    check (forallb (fun iz => (n_age <=? List.length (nth iz c1 []))%nat) (seq 0 n_met)) IndexError
      (Ok (map (fun iz => map (fun iage =>
             let a := at_ (nth iz c0 []) iage in
             let b := at_ (nth iz c1 []) iage in
             map (fun w => npow10 (a + b * nlog10 w)) fake_ssp_wave)
             (seq 0 n_age)) (seq 0 n_met))).

  (** [string.ascii_uppercase], and ["".join(random.choices(ascii_uppercase, k=3))]: a draw is
      three positions in the alphabet *)
  Definition ascii_uppercase : list ascii := list_ascii_of_string "ABCDEFGHIJKLMNOPQRSTUVWXYZ".
  Definition choice (i : nat) : ascii := nth (i mod 26) ascii_uppercase "A"%char.
  Definition random_name (d : nat * nat * nat) : string :=
    let '(i, j, k) := d in String (choice i) (String (choice j) (String (choice k) "")).

  (** [s.add(x)] *)
  Definition set_add (s : list string) (x : string) : list string :=
    if existsb (String.eqb x) s then s else s ++ [x].
  (** retrieve_fake_fsps_data.py:111-113: [draws] are the draws available so far; [None]: the
      loop is still running when they are used up *)
  Fixpoint fake_names_loop (n_line : nat) (s : list string) (draws : list (nat * nat * nat))
    : option (list string) :=
    if (List.length s <? n_line)%nat then
      match draws with
      | [] => None
      | d :: r => fake_names_loop n_line (set_add s (random_name d)) r
      end
    else Some s.
  (** [np.logspace(3, 6, n)] *)
  Definition np_logspace (start stop : num) (n : nat) : list num := map npow10 (np_linspace start stop n).
  (** retrieve_fake_fsps_data.py:110-120 [_get_emline_wave_namedtuple]; [order] is the
      iteration order of the set *)
  Definition fake_emline_wave_namedtuple (n_line : nat) (draws : list (nat * nat * nat))
    (order : list string -> list string) : option (res (list (string * num))) :=
    match fake_names_loop n_line ["XXX"%string] draws with
    | None => None
    | Some s => Some (namedtuple (order s) (np_logspace (Fin 3) (Fin 6) n_line))
    end.

  (** [np.random.uniform(lo, hi)] for the draw [u] in [0, 1) *)
  Definition uniform (lo hi u : num) : num := lo + (hi - lo) * u.
  (** [int(x)] of a non-negative number *)
  Definition int_of (x : num) : nat := match x with Fin r => Z.to_nat (Zfloor r) | _ => O end.
  (** retrieve_fake_fsps_data.py:131-138, one row; [ul], [uh] are the uniform draws, [shuffle] the
      permutation applied by [np.random.shuffle] *)
  Definition fake_lum_row (n_line : nat) (ul uh : nat -> num) (shuffle : list num -> list num) : list num :=
    let n_low := int_of (lit 0.2%R * Fin (INR n_line)) in
    let n_high := (n_line - n_low)%nat in
    let low := map (fun i => npow10 (uniform (Fin (-70)) (Fin (-2)) (ul i))) (seq 0 n_low) in
    let high := map (fun i => npow10 (uniform (Fin (-2)) (Fin 3) (uh i))) (seq 0 n_high) in
    shuffle (low ++ high).
  (** retrieve_fake_fsps_data.py:123-140 [_get_ssp_emline_luminosity] *)
  Definition fake_emline_luminosity (c0 : list (list num)) (n_line : nat)
    (ul uh : nat -> nat -> nat -> num) (shuffle : nat -> nat -> list num -> list num)
    : list (list (list num)) :=
    map (fun iz => map (fun iage =>
           map (fun x => x * L_SUN_CGS) (fake_lum_row n_line (ul iz iage) (uh iz iage) (shuffle iz iage)))
           (seq 0 (List.length (nth 0 c0 [])))) (seq 0 (List.length c0)).

  (** everything random in one call *)
  Record Draws := {
    name_draws : list (nat * nat * nat);
    set_order : list string -> list string;
    low_draws : nat -> nat -> nat -> num;
    high_draws : nat -> nat -> nat -> num;
    shuffles : nat -> nat -> list num -> list num
  }.

  (** retrieve_fake_fsps_data.py:16-61 [load_fake_ssp_data]; [None]: still running *)
  Definition load_fake_ssp_data (c0 c1 : list (list num)) (n_line : nat) (r : Draws) : option (res SSPData) :=
    let data nt lum flux := {| ssp_lgmet := D1 fake_lgzlegend; ssp_lg_age_gyr := D1 fake_log_age_gyr;
                               ssp_wave := D1 fake_ssp_wave; ssp_flux := D3 flux;
                               ssp_emline_wave := nt; ssp_emline_luminosity := lum |} in
    match fake_spec_ssp c0 c1 with
    | Raise e => Some (Raise e)
    | Ok flux =>
        match n_line with
        | O => Some (Ok (data None None flux))
        | _ =>
            match fake_emline_wave_namedtuple n_line (name_draws r) (set_order r) with
            | None => None
            | Some (Raise e) => Some (Raise e)
            | Some (Ok nt) =>
                Some (Ok (data (Some nt)
                  (Some (fake_emline_luminosity c0 n_line (low_draws r) (high_draws r) (shuffles r))) flux))
            end
        end
    end.

  (** retrieve_fake_fsps_data.py:143-164 [_lsst_u_trans] ... [_lsst_y_trans], x = log10(wave) *)
  Definition lsst_trans (loc scale k : R) (x : num) : num := norm_pdf x (lit loc) (lit scale) / Fin k.
  Definition lsst_u_trans : num -> num := lsst_trans 3.57 0.022 80.
  Definition lsst_g_trans : num -> num := lsst_trans 3.68 0.04 20.
  Definition lsst_r_trans : num -> num := lsst_trans 3.79 0.03 25.
  Definition lsst_i_trans : num -> num := lsst_trans 3.875 0.025 30.
  Definition lsst_z_trans : num -> num := lsst_trans 3.935 0.017 47.
  Definition lsst_y_trans : num -> num := lsst_trans 3.985 0.017 85.
  Definition lsst_bands : list (num -> num) :=
    [lsst_u_trans; lsst_g_trans; lsst_r_trans; lsst_i_trans; lsst_z_trans; lsst_y_trans].

  (** retrieve_fake_fsps_data.py:64-75 [load_fake_filter_transmission_curves] *)
  Definition load_fake_filter_transmission_curves : list num * list (list num) :=
    let wave := fake_ssp_wave in
    (wave, map (fun f => map (fun w => f (nlog10 w)) wave) lsst_bands).

  (** retrieve_fake_fsps_data.py:167-176 [_get_filter_waves] *)
  Definition fake_filter_waves : list (list num) :=
    map (fun p => np_linspace (Fin (fst p)) (Fin (snd p)) 1906)
      [(3200, 9084); (3200, 9085); (3200, 9086); (4084, 10987); (4084, 10988); (4085, 10989)]%R.
  (** retrieve_fake_fsps_data.py:179-193 [_get_filter_trans] *)
  Definition fake_filter_trans : list (list num) :=
    map2 (fun f wave => map (fun w => f (nlog10 w)) wave) lsst_bands fake_filter_waves.
End Fake.
