(** Level data files in the format of the TALYS nuclear code: DecayScheme.cc 147-259 and
    StructureDatabase.cc 73-118. *)
From Coq Require Import List Ascii String ZArith Bool.
From Coq Require Import Floats.SpecFloat.
From Verif Require Import Base Dbl Stream Pdg Event Levels Names Files MatEl.
Import ListNotations.
Local Open Scope Z_scope.

(** ** std::getline *)

(** An input file: the lines not yet read that end with a newline, and what follows the last
    newline unless it was read too; then eofbit is set. *)
Record infile := mkin { i_lines : list bytes; i_tail : option bytes }.
Definition open_file (s : bytes) : infile := let '(ls, t) := lines_of s in mkin ls (Some t).

(** The string read, which keeps its old content [line] when eofbit was set before; and
    whether the call succeeded. *)
Definition get_line (f : infile) (line : bytes) : infile * bytes * bool :=
  match i_lines f with
  | l :: r => (mkin r (i_tail f), l, true)
  | [] => match i_tail f with
          | None => (f, line, false)
          | Some [] => (mkin [] None, [], false)
          | Some t => (mkin [] None, t, true)
          end
  end.

(** ** Header lines *)

Definition digit_or_space (c : ascii) : bool := is_digit c || ceq c " "%char.

(** DecayScheme.cc 164: regex_match with "[0-9 ]{18} {57}" and the nuclide's name. *)
Definition nuclide_line (id line : bytes) : bool :=
  forallb digit_or_space (firstn 18 line) && bytes_eqb (skipn 18 line) (spaces 57 ++ id).

(** StructureDatabase.cc 84: regex_match with "[0-9 ]{18} {56}[0-9 ]{4}.{2}"; a dot matches
    anything but the ends of lines. *)
Definition any_nuclide_line (line : bytes) : bool :=
  Nat.eqb (List.length line) 80 && forallb digit_or_space (firstn 18 line) &&
  forallb (fun c => ceq c " "%char) (firstn 56 (skipn 18 line)) &&
  forallb digit_or_space (firstn 4 (skipn 74 line)) &&
  forallb (fun c => negb (ceq c nl) && negb (ceq c (chr 13))) (skipn 78 line).

(** DecayScheme.cc 180-185: the loop that looks for the nuclide's data. *)
Fixpoint find_lines (id : bytes) (ls : list bytes) (tail : bytes) : option (bytes * infile) :=
  match ls with
  | l :: r => if nuclide_line id l then Some (l, mkin r (Some tail)) else find_lines id r tail
  | [] => if nuclide_line id tail then Some (tail, mkin [] None) else None
  end.
Definition find_dataset (id : bytes) (s : bytes) : option (bytes * infile) :=
  let '(ls, t) := lines_of s in find_lines id ls t.

(** ** Records *)

(** DecayScheme.cc 199-200: the number of excited levels. A variable without value is
    undefined. *)
Definition header_count (line : bytes) : res Z :=
  match get_int line with
  | Got _ r1 => match get_int r1 with
    | Got _ r2 => match get_int r2 with
      | Got _ r3 => match get_int r3 with
        | Got n _ | Bad n => Ok n
        | Unset => Er Undefined
        end
      | _ => Er Undefined
      end
    | _ => Er Undefined
    end
  | _ => Er Undefined
  end.

(** std::round( 2 * spin ) converted to int: halves away from zero. *)
Definition round_twice (spin : spec_float) : res Z :=
  let u := units spin in
  let z := Z.sgn u * ((4 * Z.abs u + 2 ^ 1074) / 2 ^ 1075) in
  if (z <? int_min) || (int_max <? z) then Er Undefined else Ok z.

(** DecayScheme.cc 214-224: a level's energy, doubled spin, parity and number of gammas.
    The number of gammas is used only after the parity was found to be valid, which a value
    stored by a failed conversion is not. *)
Definition read_level_line (line : bytes) : res (spec_float * Z * parity * Z) :=
  match get_int line with
  | Got _ r1 => match get_dbl r1 with
    | Got e r2 => match get_dbl r2 with
      | Got spin r3 => match get_int r3 with
        | Got p r4 =>
            do tj <- round_twice spin;
            do pi <- parity_of_int p;
            match get_int r4 with
            | Got n _ | Bad n => Ok (e, tj, pi, n)
            | Unset => Er Undefined
            end
        | Bad _ => do tj <- round_twice spin; Er MarleyErr
        | Unset => Er Undefined
        end
      | _ => Er Undefined
      end
    | _ => Er Undefined
    end
  | _ => Er Undefined
  end.

(** DecayScheme.cc 240-244: final level and branching ratio. *)
Definition read_gamma_line (line : bytes) : res (Z * spec_float) :=
  match get_int line with
  | Got f r1 => match get_dbl r1 with
    | Got br _ | Bad br => Ok (f, br)
    | Unset => Er Undefined
    end
  | _ => Er Undefined
  end.

(** DecayScheme.cc 230-258: the gammas of the level with address [a] and energy [e]. *)
Fixpoint talys_gammas (n : nat) (a : nat) (e : spec_float) (sc : scheme) (f : infile) (line : bytes) : res (scheme * infile * bytes) :=
  match n with
  | O => Ok (sc, f, line)
  | S k =>
      let '(f1, line1, _) := get_line f line in
      do (i, br) <- read_gamma_line line1;
      if 0 <? units br then
        do p <- level_at i (s_levels sc);
        talys_gammas k a e (add_gamma a (mkg (SFsub 53 1024 e (l_energy (snd p))) br (Some (fst p))) sc) f1 line1
      else talys_gammas k a e sc f1 line1
  end.

(** DecayScheme.cc 202-259: the levels. *)
Fixpoint talys_levels (n : nat) (sc : scheme) (f : infile) (line : bytes) : res scheme :=
  match n with
  | O => Ok sc
  | S k =>
      let '(f1, line1, _) := get_line f line in
      do (e, tj, pi, ng) <- read_level_line line1;
      let '(a, sc1) := add_level (mkl e tj pi []) sc in
      do (sc2, f2, line2) <- talys_gammas (Z.to_nat ng) a e sc1 f1 line1;
      talys_levels k sc2 f2 line2
  end.

(** DecayScheme.cc 147-151 and 153-259: the constructor that reads a file in this format.
    [file] is what the file holds, None if it cannot be opened. *)
Definition parse_talys (z a : Z) (file : option bytes) : res scheme :=
  do id <- nuc_id z a;
  let id := lower_last id in
  match file with
  | None => Er MarleyErr
  | Some s =>
      match find_dataset id s with
      | None => Er MarleyErr
      | Some (line, f) => do n <- header_count line; talys_levels (Z.to_nat (n + 1)) (new_scheme z a) f line
      end
  end.

(** ** All nuclides of a file *)

(** Conversion of a double to int, towards zero. *)
Definition to_int (x : spec_float) : res Z :=
  let z := Z.quot (units x) (2 ^ 1074) in
  if (z <? int_min) || (int_max <? z) then Er Undefined else Ok z.

(** StructureDatabase.cc 99-116: the loop. Z and A keep their values from line to line;
    [old] are those values, None before the first assignment. *)
Definition header_ZA (old : option spec_float * option spec_float) (line : bytes) : option spec_float * option spec_float :=
  match get_dbl line with
  | Unset => old
  | Bad z => (Some z, snd old)
  | Got z r => match get_dbl r with
               | Unset => (Some z, snd old)
               | Bad a | Got a _ => (Some z, Some a)
               end
  end.

Fixpoint nuclides_in (ls : list bytes) (old : option spec_float * option spec_float) (found : list Z) : res (list Z) :=
  match ls with
  | [] => Ok found
  | l :: r =>
      if any_nuclide_line l then
        match header_ZA old l with
        | (Some z, Some a) =>
            do zi <- to_int z;
            do ai <- to_int a;
            nuclides_in r (Some z, Some a) (nucleus_pid zi ai :: found)
        | _ => Er Undefined
        end
      else nuclides_in r old found
  end.

(** StructureDatabase.cc 73-122, find_all_nuclides for this format: the set, as a list. *)
Definition find_all_nuclides (file : option bytes) : res (list Z) :=
  match file with
  | None => Er MarleyErr
  | Some s => let '(ls, t) := lines_of s in nuclides_in (match t with [] => ls | _ => ls ++ [t] end) (None, None) []
  end.
