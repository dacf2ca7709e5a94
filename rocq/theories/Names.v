(** Names of nuclides, neutrinos and Coulomb corrections (src/marley_utils.cc,
    src/NuclearReaction.cc). *)
From Coq Require Import List Ascii String ZArith Bool Lia.
From Verif Require Import Base Dbl Json Pdg Strings.
Import ListNotations.
Local Open Scope Z_scope.

(** marley_utils.cc 573-693, element_symbols. *)
Definition element_symbols : list (Z * string) :=
  [(0, "Nn"); (1, "H"); (2, "He"); (3, "Li"); (4, "Be"); (5, "B"); (6, "C"); (7, "N"); (8, "O");
   (9, "F"); (10, "Ne"); (11, "Na"); (12, "Mg"); (13, "Al"); (14, "Si"); (15, "P"); (16, "S");
   (17, "Cl"); (18, "Ar"); (19, "K"); (20, "Ca"); (21, "Sc"); (22, "Ti"); (23, "V"); (24, "Cr");
   (25, "Mn"); (26, "Fe"); (27, "Co"); (28, "Ni"); (29, "Cu"); (30, "Zn"); (31, "Ga"); (32, "Ge");
   (33, "As"); (34, "Se"); (35, "Br"); (36, "Kr"); (37, "Rb"); (38, "Sr"); (39, "Y"); (40, "Zr");
   (41, "Nb"); (42, "Mo"); (43, "Tc"); (44, "Ru"); (45, "Rh"); (46, "Pd"); (47, "Ag"); (48, "Cd");
   (49, "In"); (50, "Sn"); (51, "Sb"); (52, "Te"); (53, "I"); (54, "Xe"); (55, "Cs"); (56, "Ba");
   (57, "La"); (58, "Ce"); (59, "Pr"); (60, "Nd"); (61, "Pm"); (62, "Sm"); (63, "Eu"); (64, "Gd");
   (65, "Tb"); (66, "Dy"); (67, "Ho"); (68, "Er"); (69, "Tm"); (70, "Yb"); (71, "Lu"); (72, "Hf");
   (73, "Ta"); (74, "W"); (75, "Re"); (76, "Os"); (77, "Ir"); (78, "Pt"); (79, "Au"); (80, "Hg");
   (81, "Tl"); (82, "Pb"); (83, "Bi"); (84, "Po"); (85, "At"); (86, "Rn"); (87, "Fr"); (88, "Ra");
   (89, "Ac"); (90, "Th"); (91, "Pa"); (92, "U"); (93, "Np"); (94, "Pu"); (95, "Am"); (96, "Cm");
   (97, "Bk"); (98, "Cf"); (99, "Es"); (100, "Fm"); (101, "Md"); (102, "No"); (103, "Lr");
   (104, "Rf"); (105, "Db"); (106, "Sg"); (107, "Bh"); (108, "Hs"); (109, "Mt"); (110, "Ds");
   (111, "Rg"); (112, "Cn"); (114, "Fl"); (116, "Lv")]%string.

(** marley_utils.cc 697-817, atomic_numbers. *)
Definition atomic_numbers : list (string * Z) :=
  [("Nn", 0); ("H", 1); ("He", 2); ("Li", 3); ("Be", 4); ("B", 5); ("C", 6); ("N", 7); ("O", 8);
   ("F", 9); ("Ne", 10); ("Na", 11); ("Mg", 12); ("Al", 13); ("Si", 14); ("P", 15); ("S", 16);
   ("Cl", 17); ("Ar", 18); ("K", 19); ("Ca", 20); ("Sc", 21); ("Ti", 22); ("V", 23); ("Cr", 24);
   ("Mn", 25); ("Fe", 26); ("Co", 27); ("Ni", 28); ("Cu", 29); ("Zn", 30); ("Ga", 31); ("Ge", 32);
   ("As", 33); ("Se", 34); ("Br", 35); ("Kr", 36); ("Rb", 37); ("Sr", 38); ("Y", 39); ("Zr", 40);
   ("Nb", 41); ("Mo", 42); ("Tc", 43); ("Ru", 44); ("Rh", 45); ("Pd", 46); ("Ag", 47); ("Cd", 48);
   ("In", 49); ("Sn", 50); ("Sb", 51); ("Te", 52); ("I", 53); ("Xe", 54); ("Cs", 55); ("Ba", 56);
   ("La", 57); ("Ce", 58); ("Pr", 59); ("Nd", 60); ("Pm", 61); ("Sm", 62); ("Eu", 63); ("Gd", 64);
   ("Tb", 65); ("Dy", 66); ("Ho", 67); ("Er", 68); ("Tm", 69); ("Yb", 70); ("Lu", 71); ("Hf", 72);
   ("Ta", 73); ("W", 74); ("Re", 75); ("Os", 76); ("Ir", 77); ("Pt", 78); ("Au", 79); ("Hg", 80);
   ("Tl", 81); ("Pb", 82); ("Bi", 83); ("Po", 84); ("At", 85); ("Rn", 86); ("Fr", 87); ("Ra", 88);
   ("Ac", 89); ("Th", 90); ("Pa", 91); ("U", 92); ("Np", 93); ("Pu", 94); ("Am", 95); ("Cm", 96);
   ("Bk", 97); ("Cf", 98); ("Es", 99); ("Fm", 100); ("Md", 101); ("No", 102); ("Lr", 103);
   ("Rf", 104); ("Db", 105); ("Sg", 106); ("Bh", 107); ("Hs", 108); ("Mt", 109); ("Ds", 110);
   ("Rg", 111); ("Cn", 112); ("Fl", 114); ("Lv", 116)]%string.

(** unordered_map::at on the two tables. *)
Definition element_symbol (z : Z) : res bytes :=
  match assoc z element_symbols with Some s => Ok (b s) | None => Er StdRange end.
Fixpoint find_name (s : bytes) (l : list (string * Z)) : option Z :=
  match l with
  | [] => None
  | (k, z) :: r => if bytes_eqb s (b k) then Some z else find_name s r
  end.
Definition atomic_number (s : bytes) : res Z :=
  match find_name s atomic_numbers with Some z => Ok z | None => Er StdRange end.

(** marley_utils.cc 324-354, nuc_id. *)
Definition nuc_id (z a : Z) : res bytes :=
  if (z <? 0) || (a <? 1) || (999 <? a) then Er MarleyErr
  else
    let mass := if a <? 10 then b "  " ++ show_int a else if a <? 100 then b " " ++ show_int a else show_int a in
    do symbol <- element_symbol z;
    let symbol := to_uppercase symbol in
    let symbol := match symbol with [c] => [c; " "%char] | _ => symbol end in
    Ok (mass ++ symbol).

(** nucid.back() = tolower(nucid.back()); on an empty string this is undefined, and
    is not reached for one. *)
Fixpoint lower_last (s : bytes) : bytes :=
  match s with
  | [] => []
  | [c] => [lower c]
  | c :: r => c :: lower_last r
  end.

(** std::regex_search(nucid, m, "[0-9]+") and m.suffix(): what follows the first run
    of digits, or the empty string if there is none. *)
Fixpoint skip_digits (s : bytes) : bytes :=
  match s with
  | [] => []
  | c :: r => if is_digit c then skip_digits r else s
  end.
Fixpoint after_digits (s : bytes) : bytes :=
  match s with
  | [] => []
  | c :: r => if is_digit c then skip_digits r else after_digits r
  end.

(** marley_utils.cc 545-568, nucid_to_Z. *)
Definition nucid_to_Z (nucid : bytes) : res Z :=
  let e :=
    if Nat.eqb (List.length nucid) 5 then trim_right whitespace (skipn 3 (lower_last nucid))
    else
      let e := after_digits nucid in
      match e with _ :: _ :: _ => lower_last e | _ => e end in
  atomic_number e.

(** marley_utils.cc 490-502, string_to_neutrino_pdg; None stands for false. *)
Definition neutrino_of_string (s : bytes) : option Z :=
  if bytes_eqb s (b "ve") then Some 12
  else if bytes_eqb s (b "vebar") then Some (-12)
  else if bytes_eqb s (b "vu") then Some 14
  else if bytes_eqb s (b "vubar") then Some (-14)
  else if bytes_eqb s (b "vt") then Some 16
  else if bytes_eqb s (b "vtbar") then Some (-16)
  else None.

(** marley_utils.cc 504-518, neutrino_pdg_to_string. *)
Definition neutrino_to_string (pdg : Z) : bytes :=
  if pdg =? 12 then b "ve"
  else if pdg =? -12 then b "vebar"
  else if pdg =? 14 then b "vu"
  else if pdg =? -14 then b "vubar"
  else if pdg =? 16 then b "vt"
  else if pdg =? -16 then b "vtbar"
  else b "?".

(** NuclearReaction.hh: CoulombMode. *)
Inductive cmode := NoCorrection | FermiFunction | EMA | MEMA | FermiAndEMA | FermiAndMEMA.

(** NuclearReaction.cc 37-46, coulomb_mode_string_map_, in key order. *)
Definition cmode_names : list (cmode * string) :=
  [(NoCorrection, "none"); (FermiFunction, "Fermi"); (EMA, "EMA"); (MEMA, "MEMA");
   (FermiAndEMA, "Fermi-EMA"); (FermiAndMEMA, "Fermi-MEMA")]%string.

(** NuclearReaction.cc 738-746, coulomb_mode_from_string. *)
Fixpoint find_cmode (s : bytes) (l : list (cmode * string)) : res cmode :=
  match l with
  | [] => Er MarleyErr
  | (m, n) :: r => if bytes_eqb s (b n) then Ok m else find_cmode s r
  end.
Definition cmode_of_string (s : bytes) : res cmode := find_cmode s cmode_names.

Definition cmode_eqb (x y : cmode) : bool :=
  match x, y with
  | NoCorrection, NoCorrection | FermiFunction, FermiFunction | EMA, EMA | MEMA, MEMA
  | FermiAndEMA, FermiAndEMA | FermiAndMEMA, FermiAndMEMA => true
  | _, _ => false
  end.

(** NuclearReaction.cc 749-754, string_from_coulomb_mode. *)
Definition cmode_to_string (m : cmode) : res bytes :=
  match find (fun p => cmode_eqb m (fst p)) cmode_names with
  | Some (_, n) => Ok (b n)
  | None => Er MarleyErr
  end.
