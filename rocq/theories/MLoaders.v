(** * Model of dsps/data_loaders and scripts/write_fsps_data_to_disk.py

    Files, environment and the random draws are inputs ([World]); an HDF5 file is a
    finite map from dataset names to arrays.  Strings are ASCII.  Messages of the
    exceptions are dropped. *)
From Coq Require Import Reals List Bool Arith String Ascii.
From Verif Require Import Num Arr MUtils.
Import ListNotations.
Local Open Scope num_scope.

(** an HDF5 dataset / numpy array *)
Inductive dset : Type :=
| D1 (v : list num)                       (* 1-d float array *)
| D3 (c : list (list (list num)))         (* 3-d float array *)
| DS (s : list string).                   (* 1-d array of byte strings *)
Definition h5file := string -> option dset.
Definition h5empty : h5file := fun _ => None.
Definition h5set (f : h5file) (k : string) (d : dset) : h5file :=
  fun k' => if String.eqb k' k then Some d else f k'.

(** what the loaders observe of the outside *)
Record World := {
  env_DSPS_DRN : option string;          (* os.environ.get("DSPS_DRN") *)
  isfile : string -> bool;               (* os.path.isfile *)
  isdir : string -> bool;                (* os.path.isdir *)
  glob : string -> list string;          (* glob.glob *)
  h5open : string -> option h5file       (* h5py.File(fn, "r"); None: OSError *)
}.

(** [os.path.join(a, b)] on POSIX *)
Definition is_abs (s : string) : bool :=
  match s with String c _ => Ascii.eqb c "/" | EmptyString => false end.
Fixpoint ends_slash (s : string) : bool :=
  match s with
  | EmptyString => false
  | String c EmptyString => Ascii.eqb c "/"
  | String _ r => ends_slash r
  end.
Definition os_path_join (a b : string) : string :=
  if is_abs b then b
  else if (String.eqb a "" || ends_slash a)%bool then (a ++ b)%string
  else (a ++ "/" ++ b)%string.

(** ** [collections.namedtuple(typename, field_names)]: the checks it makes on the
    field names, in order.  ASCII only (Python also accepts non-ASCII letters). *)
Definition is_alpha_ (c : ascii) : bool :=
  let n := nat_of_ascii c in
  (((65 <=? n) && (n <=? 90)) || ((97 <=? n) && (n <=? 122)) || (n =? 95))%nat%bool.
Definition is_digit (c : ascii) : bool :=
  let n := nat_of_ascii c in ((48 <=? n) && (n <=? 57))%nat%bool.
Fixpoint all_chars (p : ascii -> bool) (s : string) : bool :=
  match s with EmptyString => true | String c r => (p c && all_chars p r)%bool end.
Definition isidentifier (s : string) : bool :=
  match s with
  | EmptyString => false
  | String c r => (is_alpha_ c && all_chars (fun c => is_alpha_ c || is_digit c) r)%bool
  end.
Definition keywords : list string :=
  ["False"; "None"; "True"; "and"; "as"; "assert"; "async"; "await"; "break"; "class";
   "continue"; "def"; "del"; "elif"; "else"; "except"; "finally"; "for"; "from";
   "global"; "if"; "import"; "in"; "is"; "lambda"; "nonlocal"; "not"; "or"; "pass";
   "raise"; "return"; "try"; "while"; "with"; "yield"]%string.
Definition iskeyword (s : string) : bool := existsb (String.eqb s) keywords.
Definition starts_underscore (s : string) : bool :=
  match s with String c _ => Ascii.eqb c "_" | EmptyString => false end.
Fixpoint no_duplicates (l : list string) : bool :=
  match l with
  | [] => true
  | x :: r => (negb (existsb (String.eqb x) r) && no_duplicates r)%bool
  end.
Definition valid_field (s : string) : bool :=
  (isidentifier s && negb (iskeyword s) && negb (starts_underscore s))%bool.
(** a namedtuple value is its list of (field, value) pairs *)
Definition namedtuple (names : list string) (vals : list num) : res (list (string * num)) :=
  check (forallb valid_field names && no_duplicates names)%bool ValueError
    (check (same_len names vals) TypeError (Ok (combine names vals))).

(** defaults.py:13-41 [SSPData]; the loader does not check the shapes of the arrays *)
Record SSPData := {
  ssp_lgmet : dset;
  ssp_lg_age_gyr : dset;
  ssp_wave : dset;
  ssp_flux : dset;
  ssp_emline_wave : option (list (string * num));
  ssp_emline_luminosity : option (list (list (list num)))
}.

(** defaults.py:7, 44 *)
Definition DEFAULT_SSP_BNAME : string := "ssp_data_fsps_v3.2_lgmet_age.h5".
Definition DEFAULT_SSP_KEYS : list string :=
  ["ssp_lgmet"; "ssp_lg_age_gyr"; "ssp_wave"; "ssp_flux"]%string.

Section Loaders.
  Context {AR : Arith}.

  Definition get_key (hdf : h5file) (k : string) : res dset :=
    match hdf k with Some d => Ok d | None => Raise KeyError end.
  (** [[name.decode("utf-8") for name in ...]] *)
  Definition decode_names (d : dset) : res (list string) :=
    match d with DS l => Ok l | D1 [] => Ok [] | D3 [] => Ok [] | _ => Raise AttributeError end.
  (** [[float(wave) for wave in ...]] *)
  Definition float_list (d : dset) : res (list num) :=
    match d with D1 l => Ok l | DS [] => Ok [] | DS _ => Raise ValueError
               | D3 [] => Ok [] | D3 _ => Raise TypeError end.
  (** [arr * L_SUN_CGS] for the (n_met, n_age, n_line) array *)
  Definition scale_cube (d : dset) (s : num) : res (list (list (list num))) :=
    match d with D3 c => Ok (map (map (map (fun x => x * s))) c) | _ => Raise TypeError end.

  (** ** load_ssp_data.py *)

  (** load_ssp_data.py:56-67: which file is opened *)
  Definition ssp_template_path (w : World) (fn drn : option string) (bn : string)
    : res string :=
    match fn with
    | Some f => Ok f
    | None =>
        match drn with
        | Some d => Ok (os_path_join d bn)
        | None =>
            match env_DSPS_DRN w with
            | Some d => Ok (os_path_join d bn)
            | None => Raise ValueError
            end
        end
    end.

  (** load_ssp_data.py:71-94: reading the file *)
  Definition read_ssp_h5 (hdf : h5file) : res SSPData :=
    let* lgmet := get_key hdf "ssp_lgmet" in
    let* lgage := get_key hdf "ssp_lg_age_gyr" in
    let* wave := get_key hdf "ssp_wave" in
    let* flux := get_key hdf "ssp_flux" in
    match hdf "ssp_emline_name"%string with
    | Some names =>
        let* names := decode_names names in
        let* lw := get_key hdf "ssp_emline_wave" in
        let* lw := float_list lw in
        let* lum := get_key hdf "ssp_emline_luminosity" in
        let* lum := scale_cube lum L_SUN_CGS in
        let* nt := namedtuple names lw in
        Ok {| ssp_lgmet := lgmet; ssp_lg_age_gyr := lgage; ssp_wave := wave;
              ssp_flux := flux; ssp_emline_wave := Some nt;
              ssp_emline_luminosity := Some lum |}
    | None =>
        Ok {| ssp_lgmet := lgmet; ssp_lg_age_gyr := lgage; ssp_wave := wave;
              ssp_flux := flux; ssp_emline_wave := None; ssp_emline_luminosity := None |}
    end.

  (** load_ssp_data.py:13-94 [load_ssp_templates]; [fake] is what
      [load_fake_ssp_data()] returns *)
  Definition load_ssp_templates (w : World) (fake : SSPData)
    (fn drn : option string) (bn : string) (dummy : bool) : res SSPData :=
    if dummy then Ok fake else
    let* f := ssp_template_path w fn drn bn in
    check (isfile w f) AssertionError
      (match h5open w f with
       | None => Raise OSError
       | Some hdf => read_ssp_h5 hdf
       end).

  (** ** load_filter_data.py *)

  (** defaults.py:47-59 [TransmissionCurve] *)
  Record TransmissionCurve := { tc_wave : dset; tc_transmission : list num }.

  (** load_filter_data.py:14 *)
  Definition TOL : num := lit 0.01%R.

  (** load_filter_data.py:53-75: which file is opened *)
  Definition transmission_path (w : World) (fn bn_pat drn : option string) : res string :=
    match fn with
    | Some f => Ok f
    | None =>
        let* d := match drn with
                  | Some d => Ok d
                  | None => match env_DSPS_DRN w with
                            | None => Raise ValueError
                            | Some e => let d := os_path_join e "filters" in
                                        check (isdir w d) AssertionError (Ok d)
                            end
                  end in
        match bn_pat with
        | None => Raise TypeError
        | Some pat =>
            match glob w (os_path_join d pat) with
            | [] => Raise AssertionError
            | [f] => Ok f
            | _ => Raise AssertionError
            end
        end
    end.

  (** load_filter_data.py:82-87: range checks and clipping.  Both tests use
      [transmission.min()]; the second one is meant to catch values above one. *)
  Definition validate_transmission (t : list num) : res (list num) :=
    match t with
    | [] => Raise ValueError              (* min() of an empty array *)
    | _ =>
        if vmin t <? - TOL then Raise ValueError
        else if vmin t >? Fin 1 + TOL then Raise ValueError
        else Ok (map (nclip (Fin 0) (Fin 1)) t)
    end.

  (** load_filter_data.py:17-89 [load_transmission_curve] *)
  Definition load_transmission_curve (w : World) (fn bn_pat drn : option string)
    : res TransmissionCurve :=
    let* f := transmission_path w fn bn_pat drn in
    check (isfile w f) AssertionError
      (match h5open w f with
       | None => Raise OSError
       | Some hdf =>
           let* wave := get_key hdf "wave" in
           let* trans := get_key hdf "transmission" in
           match trans with
           | D1 t => let* t := validate_transmission t in
                     Ok {| tc_wave := wave; tc_transmission := t |}
           | _ => Raise TypeError         (* only 1-d curves are modelled *)
           end
       end).

  (** [jax.scipy.stats.norm.pdf(x, loc, scale)] = exp(logpdf) *)
  Definition norm_pdf (x loc scale : num) : num :=
    let scale_sqrd := scale * scale in
    let log_normalizer := nln (lit (2 * PI)%R * scale_sqrd) in
    let quadratic := (x - loc) * (x - loc) / scale_sqrd in
    nexp ((log_normalizer + quadratic) / Fin (-2)).

  (** load_filter_data.py:91-111 [load_random_transmission_curve]; [center] is
      [tcurve_center] (None: drawn by [jran.uniform], here the number [draw] in [0,1)) *)
  Definition load_random_transmission_curve (draw : num) (center : option num)
    (wave_lo wave_hi scale : num) : res TransmissionCurve :=
    let* c := match center with
              | None => let xmin := wave_lo + scale * Fin 2 in
                        let xmax := wave_hi - scale * Fin 2 in
                        Ok (nmax xmin (draw * (xmax - xmin) + xmin))
              | Some c => check ((wave_lo <? c) && (c <? wave_hi))%bool AssertionError (Ok c)
              end in
    let wave := np_linspace wave_lo wave_hi 200 in
    let t := map (fun x => norm_pdf x c scale) wave in
    let m := vmax t in
    Ok {| tc_wave := D1 wave; tc_transmission := map (fun x => x / m) t |}.

  (** ** load_emline_info.py *)

  (** [s.replace(c, by)] for a one-character pattern *)
  Fixpoint replace_char (c : ascii) (by_ : string) (s : string) : string :=
    match s with
    | EmptyString => EmptyString
    | String x r => if Ascii.eqb x c then (by_ ++ replace_char c by_ r)%string
                    else String x (replace_char c by_ r)
    end.
  (** load_emline_info.py:18-19 *)
  Definition sanitize_read (s : string) : string :=
    let b := replace_char "." "p" (replace_char " " "_" (replace_char "-" "_" s)) in
    replace_char "]" "" (replace_char "[" "" b).
  (** retrieve_fsps_data.py:55-62 *)
  Definition sanitize_retrieve (s : string) : string :=
    replace_char "]" "" (replace_char "[" "" (replace_char " " "_" (replace_char "-" "_"
      (replace_char "." "p" s)))).

  (** [s.split(",")] *)
  Fixpoint split_comma (s : string) : list string :=
    match s with
    | EmptyString => [EmptyString]
    | String c r =>
        if Ascii.eqb c "," then EmptyString :: split_comma r
        else match split_comma r with
             | [] => [String c EmptyString]
             | h :: t => String c h :: t
             end
    end.
  (** [d[k] = v] of an insertion-ordered dict *)
  Fixpoint dict_set (d : list (string * num)) (k : string) (v : num)
    : list (string * num) :=
    match d with
    | [] => [(k, v)]
    | (k', v') :: r => if String.eqb k k' then (k', v) :: r else (k', v') :: dict_set r k v
    end.
  (** [float(s)], the parser of decimal literals, is an input; [lines] are the lines of
      the file after [strip()].
      load_emline_info.py:8-27 [read_emlines_info_fsps] *)
  Fixpoint read_emlines_loop (parse_float : string -> res num) (lines : list string)
    (emline_dict : list (string * num)) (waves : list num)
    : res (list (string * num) * list num) :=
    match lines with
    | [] => Ok (emline_dict, waves)
    | line :: rest =>
        match split_comma line with
        | [w; a] =>
            let* w := parse_float w in
            read_emlines_loop parse_float rest (dict_set emline_dict (sanitize_read a) w)
              (waves ++ [w])
        | _ => Raise ValueError
        end
    end.
  Definition read_emlines_info_fsps (parse_float : string -> res num) (lines : list string)
    : res (list (string * num) * list num) :=
    read_emlines_loop parse_float lines [] [].

  (** [tuple.index(name)] *)
  Fixpoint index_of (name : string) (l : list string) : option nat :=
    match l with
    | [] => None
    | x :: r => if String.eqb name x then Some O
                else match index_of name r with Some i => Some (S i) | None => None end
    end.
  Fixpoint indices_of (fields names : list string) : res (list nat) :=
    match names with
    | [] => Ok []
    | n :: r => match index_of n fields with
                | None => Raise ValueError
                | Some i => let* is_ := indices_of fields r in Ok (i :: is_)
                end
    end.

  (** load_emline_info.py:30-60 [get_subset_emline_data].  An empty list of names makes
      [indx_lines] a float array, which numpy refuses as an index. *)
  Definition get_subset_emline_data (d : SSPData) (emline_names : list string)
    : res SSPData :=
    match emline_names with
    | [] => Raise IndexError
    | _ =>
        match ssp_emline_wave d with
        | None => Raise AttributeError
        | Some lines =>
            let* idx := indices_of (map fst lines) emline_names in
            let line_wave := map (fun i => at_ (map snd lines) i) idx in
            let* nt := namedtuple emline_names line_wave in
            match ssp_emline_luminosity d with
            | None => Raise TypeError
            | Some lum =>
                check (forallb (forallb (fun row =>
                         forallb (fun i => (i <? List.length row)%nat) idx)) lum) IndexError
                  (let line_lum := map (map (fun row => map (at_ row) idx)) lum in
                   Ok {| ssp_lgmet := ssp_lgmet d; ssp_lg_age_gyr := ssp_lg_age_gyr d;
                         ssp_wave := ssp_wave d; ssp_flux := ssp_flux d;
                         ssp_emline_wave := Some nt;
                         ssp_emline_luminosity := Some line_lum |})
            end
        end
    end.

  (** ** retrieve_fsps_data.py *)

  (** retrieve_fsps_data.py:21-29 [get_fsps_emline_info] *)
  Fixpoint get_fsps_emline_info (parse_float : string -> res num) (lines : list string)
    : res (list num * list string) :=
    match lines with
    | [] => Ok ([], [])
    | line :: rest =>
        match split_comma line with
        | w :: a :: _ =>
            let* w := parse_float w in
            let* r := get_fsps_emline_info parse_float rest in
            Ok (w :: fst r, a :: snd r)
        | _ => Raise IndexError
        end
    end.

  (** [np.isclose(ref, x, atol=0, rtol=1e-6)], one element: |ref - x| <= rtol * |x| for
      a finite x, plain equality when x is not finite *)
  Definition isclose (ref x : num) : bool :=
    match x with
    | Fin _ => nabs (ref - x) <=? lit (1 / 10 ^ 6)%R * nabs x
    | _ => ref =? x
    end.

  (** retrieve_fsps_data.py:32-46 [_get_matched_emline_name] *)
  Definition get_matched_emline_name (ref_wave : list num) (ref_name : list string)
    (find : num) : string :=
    match filter (fun p => isclose (fst p) find) (combine ref_wave ref_name) with
    | [(_, name)] => name
    | _ => ""%string
    end.

  (** retrieve_fsps_data.py:49-66 [_get_emline_wave_namedtuple] *)
  Definition get_emline_wave_namedtuple (ref_wave : list num) (ref_name : list string)
    (emline_wave : list num) : res (list (string * num)) :=
    let names := map (get_matched_emline_name ref_wave ref_name) emline_wave in
    let names := map sanitize_retrieve names in
    namedtuple names emline_wave.

  (** python-fsps, as observed: [sp_spectrum i] is [get_spectrum()] and [sp_emline i] the
      attribute [emline_luminosity] (if there is one) of
      [fsps.StellarPopulation(zmet=i, ...)]; [sp_emline 0] is for the instance created
      without [zmet]. *)
  Record Fsps := {
    sp_zlegend : list num;
    sp_log_age : list num;
    sp_spectrum : nat -> list num * list (list num);
    sp_emline : nat -> option (list (list num));
    sp_emline_wavelengths : list num
  }.

  (** retrieve_fsps_data.py:69-158 [retrieve_ssp_data_from_fsps] *)
  Fixpoint collect_emlines (f : Fsps) (has0 : bool) (zs : list nat)
    (acc : list (list (list num))) : res (list (list (list num))) :=
    match zs with
    | [] => Ok acc
    | z :: r => match sp_emline f z with
                | None => collect_emlines f has0 r acc
                | Some e => if has0 then collect_emlines f has0 r (acc ++ [e])
                            else Raise UnboundLocalError
                end
    end.
  Definition has_emline (f : Fsps) (z : nat) : bool :=
    match sp_emline f z with Some _ => true | None => false end.
  Definition retrieve_ssp_data_from_fsps (has_fsps : bool) (f : Fsps)
    (ref_wave : list num) (ref_name : list string) : res SSPData :=
    check has_fsps AssertionError
      (let lgmet := map nlog10 (sp_zlegend f) in
       let lgage := map (fun x => x - Fin 9) (sp_log_age f) in
       let n := List.length lgmet in
       let zs := seq 1 n in
       let* lum := collect_emlines f (has_emline f 0) zs [] in
       match n with
       | O => Raise UnboundLocalError      (* _wave is never assigned *)
       | _ =>
           let wave := fst (sp_spectrum f n) in
           let flux := map (fun z => snd (sp_spectrum f z)) zs in
           if has_emline f n then
             let* nt := get_emline_wave_namedtuple ref_wave ref_name
                          (sp_emline_wavelengths f) in
             check (has_emline f 0) UnboundLocalError
               (Ok {| ssp_lgmet := D1 lgmet; ssp_lg_age_gyr := D1 lgage;
                      ssp_wave := D1 wave; ssp_flux := D3 flux;
                      ssp_emline_wave := Some nt; ssp_emline_luminosity := Some lum |})
           else
             Ok {| ssp_lgmet := D1 lgmet; ssp_lg_age_gyr := D1 lgage;
                   ssp_wave := D1 wave; ssp_flux := D3 flux;
                   ssp_emline_wave := None; ssp_emline_luminosity := None |}
       end).

  (** ** scripts/write_fsps_data_to_disk.py

      Lines 32-44: the file contents when the [with] block is left, normally or through
      an exception (h5py closes the file either way).  [SSPData._fields] always contains
      "ssp_emline_wave", so the test of line 35 is always true. *)
  Definition write_ssp_data (d : SSPData) : h5file * option exn :=
    let hdf := h5empty in
    let hdf := h5set hdf "ssp_lgmet" (ssp_lgmet d) in
    let hdf := h5set hdf "ssp_lg_age_gyr" (ssp_lg_age_gyr d) in
    let hdf := h5set hdf "ssp_wave" (ssp_wave d) in
    let hdf := h5set hdf "ssp_flux" (ssp_flux d) in
    match ssp_emline_wave d with
    | None => (hdf, Some AttributeError)   (* None._fields *)
    | Some lines =>
        let names := map fst lines in
        let waves := map snd lines in
        let hdf := h5set hdf "ssp_emline_name" (DS names) in
        let hdf := h5set hdf "ssp_emline_wave" (D1 waves) in
        match ssp_emline_luminosity d with
        | None => (hdf, Some TypeError)    (* h5py cannot store None *)
        | Some lum => (h5set hdf "ssp_emline_luminosity" (D3 lum), None)
        end
    end.
End Loaders.
