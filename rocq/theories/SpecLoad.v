(** * Specification vocabulary for the data loaders *)
From Coq Require Import Reals List Arith String Ascii ZArith.
From Verif Require Import Num Arr MLoaders Spec.
Import ListNotations.
Local Open Scope string_scope.

(** ** Names of namedtuple fields (ASCII) *)
Definition letter (c : ascii) : Prop :=
  (65 <= nat_of_ascii c <= 90)%nat \/ (97 <= nat_of_ascii c <= 122)%nat.
Definition digit (c : ascii) : Prop := (48 <= nat_of_ascii c <= 57)%nat.
(** a letter followed by letters, digits and underscores, and not a Python keyword *)
Definition field_name (s : string) : Prop :=
  (exists c r, s = String c r /\ letter c
     /\ forall d, In d (list_ascii_of_string r) -> letter d \/ digit d \/ d = "_"%char)
  /\ ~ In s ["False"; "None"; "True"; "and"; "as"; "assert"; "async"; "await"; "break"; "class";
   "continue"; "def"; "del"; "elif"; "else"; "except"; "finally"; "for"; "from";
   "global"; "if"; "import"; "in"; "is"; "lambda"; "nonlocal"; "not"; "or"; "pass";
   "raise"; "return"; "try"; "while"; "with"; "yield"].
Definition field_names (l : list string) : Prop := NoDup l /\ Forall field_name l.

(** how the name of a line becomes a field name: "-" and " " become "_", "." becomes "p",
    brackets are dropped, other characters are kept *)
Definition clean_char (c : ascii) : string :=
  if Ascii.eqb c "-" then "_" else if Ascii.eqb c " " then "_" else if Ascii.eqb c "." then "p"
  else if Ascii.eqb c "[" then "" else if Ascii.eqb c "]" then "" else String c "".
Fixpoint clean (s : string) : string :=
  match s with "" => "" | String c r => clean_char c ++ clean r end.

(** ** Decimal numerals such as 949.743 or 1666: the value of "d1...dn.e1...ek" *)
Definition digit_of (c : ascii) : option Z :=
  let n := nat_of_ascii c in
  if ((48 <=? n)%nat && (n <=? 57)%nat)%bool then Some (Z.of_nat (n - 48)) else None.
(** [m] is the number read so far without its point, [k] counts the digits after the point *)
Fixpoint decimal_aux (s : string) (m : Z) (k : option nat) : option (Z * nat) :=
  match s with
  | "" => Some (m, match k with Some k => k | None => 0%nat end)
  | String c r =>
      match digit_of c with
      | Some d => decimal_aux r (10 * m + d)%Z (option_map S k)
      | None => if Ascii.eqb c "." then match k with None => decimal_aux r m (Some 0%nat) | Some _ => None end
                else None
      end
  end.
Definition decimal_parts (s : string) : option (Z * nat) :=
  match s with
  | String c _ => match digit_of c with Some _ => decimal_aux s 0%Z None | None => None end
  | "" => None
  end.
Definition decimal (s : string) : option R :=
  match decimal_parts s with Some (m, k) => Some (IZR m / 10 ^ k)%R | None => None end.
(** [float] reads numerals to a relative accuracy of 1e-7 (double precision: 1.2e-16, single
    precision: 6e-8) *)
Definition reads_decimals (parse_float : string -> res num) : Prop :=
  forall s x, decimal s = Some x ->
    exists y, parse_float s = Ok (Fin y) /\ (Rabs (y - x) <= x / 10 ^ 7)%R.

(** entry (i, j, k) of a three-dimensional array, if there is one *)
Definition cube_at (c : list (list (list num))) (i j k : nat) : option num :=
  match nth_error c i with
  | Some m => match nth_error m j with Some r => nth_error r k | None => None end
  | None => None
  end.
(** all rows have [n] entries *)
Definition rows_of_length (n : nat) (c : list (list (list num))) : Prop :=
  forall m r, In m c -> In r m -> List.length r = n.
(** the two arrays have the same number of planes and of rows in each plane *)
Definition same_rows (c c' : list (list (list num))) : Prop :=
  map (@List.length (list num)) c = map (@List.length (list num)) c'.

(** ** Emission lines *)
Definition no_comma (s : string) : Prop := ~ In ","%char (list_ascii_of_string s).
(** line "numeral,name" of the table gives the pair (field name, value of the numeral) *)
Definition line_gives (parse_float : string -> res num) (l : string) (p : string * num) : Prop :=
  exists numeral name, l = (numeral ++ "," ++ name) /\ no_comma numeral /\ no_comma name
    /\ parse_float numeral = Ok (snd p) /\ fst p = clean name.
(** reference line [i] is within a relative 1e-6 of the requested wavelength *)
Definition close_to (refs : list R) (x : R) (i : nat) : Prop :=
  (i < List.length refs)%nat /\ (Rabs (ent refs i - x) <= Rabs x / 10 ^ 6)%R.

(** a file system with one HDF5 file [f] at path [p] and no environment variable *)
Definition one_file (p : string) (f : h5file) : World := {|
  env_DSPS_DRN := None; isfile := String.eqb p; isdir := fun _ => false; glob := fun _ => [];
  h5open := fun q => if String.eqb p q then Some f else None |}.

(** ** Dummy data *)
(** three upper-case letters *)
Definition three_capitals (s : string) : Prop :=
  exists a b c, s = String a (String b (String c ""))
    /\ forall d, In d [a; b; c] -> (65 <= nat_of_ascii d <= 90)%nat.
(** base-10 logs of the ages (Gyr) of the dummy templates: -3.5, -3.45, ..., 1.15 *)
Definition dummy_ages : list R := map (fun i => (-3.5 + INR i * 0.05)%R) (seq 0 94).
(** metallicities of the dummy templates *)
Definition dummy_mets : list R := map (fun k => (IZR k / 10000)%R)
  [2; 3; 4; 5; 6; 8; 10; 12; 16; 20; 25; 31; 39; 49; 61; 77; 96; 120; 150; 190; 240; 300]%Z.
(** wavelengths of the dummy templates: 1963 equally spaced values from 100 to 20000 *)
Definition dummy_waves : list R := map (fun i => (100 + INR i / 1962 * 19900)%R) (seq 0 1963).
(** base-10 logs of the central wavelengths of the dummy ugrizy filters *)
Definition lsst_centres : list R := [3.57; 3.68; 3.79; 3.875; 3.935; 3.985]%R.
