(** Texts for people: descriptions of reactions, names of nuclides, printed events and level
    schemes (src/NuclearReaction.cc, src/ElectronReaction.cc, src/Level.cc,
    src/DecayScheme.cc, src/Event.cc, src/HauserFeshbachDecay.cc, src/marley_utils.cc). *)
From Coq Require Import List Ascii String ZArith Bool Lia.
From Coq Require Import Floats.SpecFloat.
From Verif Require Import Base Dbl Strings Pdg Names React Event Levels.
Import ListNotations.
Local Open Scope Z_scope.

(** ** Numbers *)

(** operator<< for a double on a stream in its initial state, that is printf's %g with six
    significant digits. *)
Definition show_g6 (x : spec_float) : bytes :=
  match x with
  | S754_zero s => sign_str s ++ b "0"
  | S754_infinity s => sign_str s ++ b "inf"
  | S754_nan => b "nan"
  | S754_finite s m e =>
      let '(D, X) := to_dec 6 (dnum m e) (dden e) in
      let ds := digits D in
      sign_str s ++
      (if (X <? -4) || (6 <=? X) then
         firstn 1 ds ++ frac_str (strip0 (skipn 1 ds)) ++ "e"%char :: show_exp X
       else if X <? 0 then
         "0"%char :: frac_str (strip0 (repeat "0"%char (Z.to_nat (- X - 1)) ++ ds))
       else
         firstn (Z.to_nat (X + 1)) ds ++ frac_str (strip0 (skipn (Z.to_nat (X + 1)) ds)))
  end.

(** ** Reactions *)

Definition utf8 (l : list Z) : bytes := map chr l.

(** marley_utils.hh 452-466, particle_symbols, in UTF-8: Greek letters. *)
Definition particle_symbols : list (Z * bytes) :=
  [(11, b "e"); (12, utf8 [206; 189] ++ b "e"); (13, utf8 [206; 188]); (14, utf8 [206; 189; 206; 188]); (15, utf8 [207; 132]);
   (16, utf8 [206; 189; 207; 132]); (22, utf8 [206; 179]); (2112, b "n"); (2212, b "p"); (1000010020, b "d"); (1000010030, b "t");
   (1000020030, b "h"); (1000020040, utf8 [206; 177])].

(** marley_utils.hh 495-502, get_particle_symbol; superscript minus and plus. *)
Definition particle_symbol (pid : Z) : res bytes :=
  do charge <- particle_charge pid;
  match assoc (Z.abs pid) particle_symbols with
  | None => Er StdRange
  | Some s => Ok (if charge <? 0 then s ++ utf8 [226; 129; 187]
                  else if 0 <? charge then s ++ utf8 [226; 129; 186]
                  else if pid <? 0 then b "anti-" ++ s
                  else s)
  end.

(** NuclearReaction.cc 719-735, set_description, for the particle codes of a reaction and the
    level energies of its matrix elements. *)
Definition nuclear_description (pdg_a pdg_b pdg_c pdg_d : Z) (energies : list spec_float) : res bytes :=
  do sa <- particle_symbol pdg_a;
  do ei <- element_symbol (code_Z pdg_b);
  do sc <- particle_symbol pdg_c;
  do ef <- element_symbol (code_Z pdg_d);
  Ok (sa ++ b " + " ++ show_int (code_A pdg_b) ++ ei ++ b " --> " ++ sc ++ b " + " ++ show_int (code_A pdg_d) ++ ef
      ++ (if existsb (fun e => dlt dbl_zero e) energies then b "*" else b " (g.s.)")).

(** ElectronReaction.cc 39-43. *)
Definition electron_description (pdg_a : Z) : res bytes :=
  do pdg_c <- ejectile pdg_a NuElectronElastic;
  do sa <- particle_symbol pdg_a;
  do sb <- particle_symbol ELECTRON;
  do sc <- particle_symbol pdg_c;
  do sd <- particle_symbol ELECTRON;
  Ok (sa ++ b " + " ++ sb ++ b " --> " ++ sc ++ b " + " ++ sd).

(** ** Nuclides *)

(** std::regex_search(nucid, m, "[0-9]+"), m.str(): the first run of digits. *)
Fixpoint take_digits (s : bytes) : bytes :=
  match s with
  | c :: r => if is_digit c then c :: take_digits r else []
  | [] => []
  end.
Fixpoint first_digits (s : bytes) : bytes :=
  match s with
  | c :: r => if is_digit c then take_digits s else first_digits r
  | [] => []
  end.

(** marley_utils.cc 523-541, nucid_to_symbol. *)
Definition nucid_to_symbol (nucid : bytes) : bytes :=
  if Nat.eqb (List.length nucid) 5 then trim whitespace (lower_last nucid)
  else
    let e := after_digits nucid in
    first_digits nucid ++ (if Nat.ltb 1 (List.length e) then lower_last e else e).

(** DecayScheme.cc 293-303, the mass number and the symbol in the caption of the LaTeX table
    of print_latex_table. *)
Definition caption_names (z a : Z) : res (bytes * bytes) :=
  do id <- nuc_id z a;
  Ok (trim whitespace (firstn 3 id), firstn 1 (skipn 3 id) ++ trim whitespace (to_lowercase (firstn 1 (skipn 4 id)))).

(** ** Spins *)

(** Level.cc 74-79, spin_parity_string. *)
Definition spin_parity_string (l : level) : bytes :=
  show_int (Z.quot (l_twoJ l) 2) ++ (if Z.rem (l_twoJ l) 2 =? 0 then [] else b "/2") ++ [parity_to_char (l_parity l)].

(** DecayScheme.cc 282-287: the two lines for one gamma ray. Following a null pointer, or one
    to a level that is not in the scheme, is undefined. *)
Fixpoint gamma_lines (levels : list (nat * level)) (gs : list gamma) : res bytes :=
  match gs with
  | [] => Ok []
  | g :: r =>
      match g_end g with
      | None => Er Undefined
      | Some a =>
          match find (fun p => Nat.eqb (fst p) a) levels with
          | None => Er Undefined
          | Some p =>
              do rest <- gamma_lines levels r;
              Ok (b "  has a gamma with energy " ++ show_g6 (g_energy g) ++ b " MeV" ++ b " (transition to level at "
                  ++ show_g6 (l_energy (snd p)) ++ b " MeV)" ++ [nl] ++ b "    and relative intensity " ++ show_g6 (g_ri g) ++ [nl] ++ rest)
          end
      end
  end.

(** DecayScheme.cc 264-289, print_report. *)
Fixpoint report_lines (all levels : list (nat * level)) : res bytes :=
  match levels with
  | [] => Ok []
  | (_, l) :: r =>
      do gs <- gamma_lines all (l_gammas l);
      do rest <- report_lines all r;
      Ok (b "Level at " ++ show_g6 (l_energy l) ++ b " MeV has spin-parity " ++ spin_parity_string l ++ [nl] ++ gs ++ rest)
  end.
Definition print_report (s : scheme) : res bytes := report_lines (s_levels s) (s_levels s).

(** Event.cc 648-654: the spin and parity of the residue in print_human_readable. *)
Definition event_spin (ev : event) : bytes :=
  (if Z.rem (e_twoJ ev) 2 =? 1 then show_int (e_twoJ ev) ++ b "/2" else show_int (Z.quot (e_twoJ ev) 2)) ++ [parity_to_char (e_par ev)].

(** Event.cc 44-51, print_particle_info. *)
Definition particle_info (p : particle) : bytes :=
  b "  particle with PDG code = " ++ show_int (p_pdg p) ++ b " has total energy " ++ show_g6 (p_E p) ++ b " MeV," ++ [nl]
  ++ b "    3-momentum = (" ++ show_g6 (p_px p) ++ b " MeV, " ++ show_g6 (p_py p) ++ b " MeV, " ++ show_g6 (p_pz p) ++ b " MeV)," ++ [nl]
  ++ b "    mass = " ++ show_g6 (p_mass p) ++ b " MeV, and charge = " ++ show_int (p_charge p) ++ b " times the proton charge." ++ [nl].

(** Event.cc 641-665, print_human_readable. *)
Definition print_human_readable (num : Z) (ev : event) : bytes :=
  [nl] ++ b "*** MARLEY Event " ++ (if 0 <=? num then show_int num ++ b " " else []) ++ b "has " ++ show_int (len (e_init ev))
  ++ b " initial particles and " ++ show_int (len (e_fin ev)) ++ b " final particles. ***" ++ [nl]
  ++ b "The residual nucleus initially had excitation energy " ++ show_g6 (e_Ex ev) ++ b " MeV and spin-parity " ++ event_spin ev ++ [nl]
  ++ b "Initial particles" ++ [nl] ++ flat_map particle_info (e_init ev) ++ b "Final particles" ++ [nl] ++ flat_map particle_info (e_fin ev).

(** HauserFeshbachDecay.cc 211-214: the spin in print. *)
Definition compound_spin (twoJ : Z) : bytes := show_int (Z.quot twoJ 2) ++ (if Z.rem twoJ 2 =? 0 then [] else b ".5").
