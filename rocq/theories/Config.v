(** JSONConfig.cc: a generator from a job configuration. Numbers given in the configuration
    become real numbers. Log messages are not modelled, except that naming an atom in one may
    throw. update_logger_settings is not modelled here. *)
From Coq Require Import List Ascii String ZArith Reals Bool.
From Coq Require Import Floats.SpecFloat.
From Verif Require Import Base Dbl Json Pdg Names React Levels MatEl Mass NucReact Kin Rot Sample XReal Grid Quad Source Target Gen Decay Run.
From Verif Require Files.
Import ListNotations.
Open Scope R_scope.

(** The value of a finite double. Infinities and NaN, which numbers like 1e400 and 0e400 give
    (C56), count as zero here: configurations with such numbers are outside the model. *)
Definition dbl_R (x : spec_float) : R :=
  match x with S754_finite s m e => (if s then -1 else 1) * IZR (Zpos m) * powerRZ 2 e | _ => 0 end.

(** What the configuration is resolved against: the file system and the search path, the
    nuclear structure data, the mass table, the Fermi function of a reaction, and whether
    some log stream receives warnings and informational messages. *)
Record cenv := mkcenv
  { ce_files : Files.files; ce_path : bytes; ce_nd : nuclear_data; ce_mt : mtab; ce_fermi : reaction -> R -> R; ce_warn : bool; ce_info : bool }.

(** ** Reactions from a file *)

(** MatrixElement.hh: the matrix element with real numbers. *)
Definition rme_of (m : matel) : rme :=
  mkrme (dbl_R (m_energy m)) (dbl_R (m_strength m)) (m_type m)
    (match m_level m with Some p => Some (dbl_R (energy_of p), l_twoJ (snd p), l_parity (snd p)) | None => None end).

(** NuclearReaction.cc 86-108: the masses. The order in which a missing mass and a missing
    element symbol are noticed is not kept. NuclearReaction.hh 239: the default mode. *)
Definition make_nuclear (t : mtab) (ms : list matel) (r : reaction) : res nuc :=
  do ma <- particle_mass t (r_a r);
  do mc <- particle_mass t (r_c r);
  do mb <- (if Z.ltb 1000000000 (r_b r) then atomic_mass t (r_b r) true else particle_mass t (r_b r));
  do md <- (if Z.ltb 1000000000 (r_d r) then do m <- atomic_mass t (r_d r) true; do me <- particle_mass t ELECTRON; Ok (m - IZR (r_qd r) * me)
            else particle_mass t (r_d r));
  Ok (mknuc r ma mb mc md FermiAndMEMA (map rme_of ms)).

(** ElectronReaction.cc 45-51. *)
Definition make_electron (t : mtab) (p : Z * reaction) : res mode :=
  do _ <- particle_mass t (r_a (snd p));
  do _ <- particle_mass t ELECTRON;
  do l <- new_electron_reaction (fun x => match particle_mass t x with Ok m => m | Er _ => 0 end) (r_a (snd p)) (particle_Z (fst p));
  Ok (MEl l (fst p)).

(** Reaction.cc 287-453, load_from_file: the objects made from what MatEl.v reads. *)
Definition load_modes (c : cenv) (text : bytes) : res (list mode) :=
  do l <- MatEl.load (ce_nd c) text;
  match l with
  | Nuclear rs ms => map_res (fun r => do n <- make_nuclear (ce_mt c) ms r; Ok (MNuc n (ce_fermi c r))) rs
  | Electron ps => map_res (make_electron (ce_mt c)) ps
  end.

(** process_type() and atomic_target() of a reaction. *)
Definition mode_key (m : mode) : Z * proc := (x_atom (mode_rxn m), r_proc (mode_reaction m)).
Definition proc_eqb (p q : proc) : bool :=
  match p, q with NeutrinoCC, NeutrinoCC | AntiNeutrinoCC, AntiNeutrinoCC | NC, NC | NuElectronElastic, NuElectronElastic => true | _, _ => false end.
Definition key_eqb (a b : Z * proc) : bool := Z.eqb (fst a) (fst b) && proc_eqb (snd a) (snd b).

(** Generator::add_reaction (Gen.v) on the whole generator. *)
Definition add_mode (z : generator) (m : mode) : res generator :=
  let '(g, r) := add_reaction (z_state z) (Some (mode_rxn m)) in
  do _ <- r; Ok (mkgen (z_modes z ++ [m]) g (z_rot z) (z_deex z)).
Fixpoint add_modes (z : generator) (ms : list mode) : res generator :=
  match ms with [] => Ok z | m :: r => do z' <- add_mode z m; add_modes z' r end.

(** JSONConfig.cc 374-424: the loop over the file names. [seen] is loaded_proc_types. *)
Fixpoint load_files (c : cenv) (names : list json) (seen : list (Z * proc)) (z : generator) : res generator :=
  match names with
  | [] => Ok z
  | n :: rest =>
      match Files.find_file (ce_files c) (to_string n) (ce_path c) with
      | [] => Er MarleyErr
      | full =>
          do ms <- load_modes c (Files.f_text (ce_files c) full);
          match ms with
          | [] => Er MarleyErr
          | m :: _ =>
              let k := mode_key m in
              if existsb (key_eqb k) seen then
                do _ <- (if ce_warn c then atom_name (fst k) else Ok []);
                load_files c rest seen z
              else
                do _ <- (if ce_info c then atom_name (fst k) else Ok []);
                do z' <- add_modes z ms;
                load_files c rest (seen ++ [k]) z'
          end
      end
  end.

(** JSONConfig.cc 350-439, prepare_reactions. *)
Definition prepare_reactions (c : cenv) (j : json) (z : generator) : res generator :=
  if has_key (b "reactions") j then
    do rs <- at_key (b "reactions") j;
    match rs with
    | JNull => Ok z
    | JArr [] => Er MarleyErr
    | JArr l => load_files c l [] z
    | _ => Er MarleyErr
    end
  else Er MarleyErr.

(** ** Direction *)

(** A number, if the key is there; otherwise the default. *)
Definition number (k : bytes) (j : json) (default : R) : res R :=
  if has_key k j then do v <- at_key k j; let '(x, ok) := to_double v in if ok then Ok (dbl_R x) else Er MarleyErr
  else Ok default.

(** JSONConfig.cc 302-348, prepare_direction. *)
Definition prepare_direction (j : json) (z : generator) : res generator :=
  if has_key (b "direction") j then
    do d <- at_key (b "direction") j;
    match d with
    | JObj _ =>
        do x <- number (b "x") d (vx (o_dir (z_rot z)));
        do y <- number (b "y") d (vy (o_dir (z_rot z)));
        do w <- number (b "z") d (vz (o_dir (z_rot z)));
        do o <- set_direction (mkv x y w) (z_rot z);
        Ok (mkgen (z_modes z) (z_state z) o (z_deex z))
    | JStr s =>
        if bytes_eqb (escape s) (b "isotropic") then Ok (mkgen (z_modes z) (z_state z) (set_random true (z_rot z)) (z_deex z)) else Er MarleyErr
    | _ => Er MarleyErr
    end
  else Ok z.

(** ** Structure settings *)

(** JSONConfig.cc 451-466 and 469-484: an integer that is not below [least]; None if the key
    is missing. The conversion from long to int keeps the low 32 bits. *)
Definition setting (k : bytes) (least : Z) (j : json) : res (option Z) :=
  if has_key k j then
    do v <- at_key k j;
    let '(n, ok) := to_long v in
    if negb ok then Er MarleyErr else if Z.ltb (to_int n) least then Er MarleyErr else Ok (Some (to_int n))
  else Ok None.

(** ** Source *)

Definition all_digits (s : bytes) : bool := match s with [] => false | _ => forallb is_digit s end.

(** std::stoi for a text that is a run of digits with an optional sign. *)
Definition stoi_digits (s : bytes) : res Z :=
  let n := digits_val s in if Z.leb n (2 ^ 31 - 1) then Ok n else Er StdRange.
Definition stoi (s : bytes) : res Z :=
  match s with
  | c :: r => if ceq c "-" then let n := digits_val r in if Z.leb n (2 ^ 31) then Ok (- n)%Z else Er StdRange
              else if ceq c "+" then stoi_digits r else stoi_digits s
  | [] => Er StdInvalid
  end.

(** The regular expression [-+]?[0-9]+ of JSONConfig.cc 125. *)
Definition is_integer (s : bytes) : bool :=
  match s with c :: r => if (ceq c "-" || ceq c "+")%bool then all_digits r else all_digits s | [] => false end.

(** JSONConfig.cc 118-139, neutrino_pdg. *)
Definition neutrino_pdg (nu : bytes) : res Z :=
  if is_integer nu then do n <- stoi nu; if pdg_is_allowed n then Ok n else Er MarleyErr
  else match neutrino_of_string nu with Some n => Ok n | None => Er MarleyErr end.

(** JSONConfig.cc 489-522, get_interpolation_method. *)
Definition interpolation_method (rule : bytes) : res imethod :=
  if all_digits rule then
    do n <- stoi rule;
    Ok (if Z.eqb n 1 then IConstant else if Z.eqb n 2 then ILinLin else if Z.eqb n 3 then ILinLog
        else if Z.eqb n 4 then ILogLin else if Z.eqb n 5 then ILogLog else IConstant)
  else if (bytes_eqb rule (b "const") || bytes_eqb rule (b "constant"))%bool then Ok IConstant
  else if (bytes_eqb rule (b "lin") || bytes_eqb rule (b "linlin"))%bool then Ok ILinLin
  else if (bytes_eqb rule (b "log") || bytes_eqb rule (b "loglog"))%bool then Ok ILogLog
  else if bytes_eqb rule (b "linlog") then Ok ILinLog
  else if bytes_eqb rule (b "loglin") then Ok ILogLin
  else Er MarleyErr.

(** JSONConfig.cc 55-66, source_get_double. *)
Definition source_double (k : bytes) (j : json) : res R := if has_key k j then number k j 0 else Er MarleyErr.

(** A required or optional text; 561-562, 571-572 and 822-836 (source_get). *)
Definition text (k : bytes) (j : json) (default : res bytes) : res bytes :=
  if has_key k j then do v <- at_key k j; match v with JStr s => Ok (escape s) | _ => Er MarleyErr end else default.

(** JSONConfig.cc 68-96, get_vector. *)
Fixpoint numbers (l : list json) : res (list R) :=
  match l with
  | [] => Ok []
  | v :: r => let '(x, ok) := to_double v in if ok then do xs <- numbers r; Ok (dbl_R x :: xs) else Er MarleyErr
  end.
Definition get_vector (k : bytes) (j : json) : res (list R) :=
  if has_key k j then do v <- at_key k j; match v with JArr l => numbers l | _ => Er MarleyErr end else Er MarleyErr.

(** JSONConfig.cc 41-53. *)
Definition check_positive (x : R) : res unit := if Rle_dec x 0 then Er MarleyErr else Ok tt.
Definition check_nonnegative (x : R) : res unit := if Rlt_dec x 0 then Er MarleyErr else Ok tt.

(** JSONConfig.cc 665-674: weights to densities; the edges include the last one. *)
Fixpoint bin_densities (edges weights : list R) : res (list R) :=
  match edges, weights with
  | e :: (e' :: _) as r, w :: ws => if Rle_dec (e' - e) 0 then Er MarleyErr else do ds <- bin_densities r ws; Ok (w / (e' - e) :: ds)
  | _, ws => Ok ws
  end.

Definition one_of (s : bytes) (l : list string) : bool := existsb (fun n => bytes_eqb s (b n)) l.

(** JSONConfig.cc 577-697: the source object. process_extra_source_types does nothing in
    this class (JSONConfig.hh 80-84). *)
Definition make_source (type : bytes) (pdg : Z) (j : json) : res source :=
  if one_of type ["mono"; "monoenergetic"]%string then
    do e <- source_double (b "energy") j; do _ <- check_positive e; make_mono pdg e
  else if one_of type ["dar"; "decay-at-rest"]%string then make_dar pdg
  else if one_of type ["fd"; "fermi-dirac"; "fermi_dirac"]%string then
    do lo <- source_double (b "Emin") j;
    do hi <- source_double (b "Emax") j;
    do T <- source_double (b "temperature") j;
    do eta <- number (b "eta") j 0;
    do _ <- check_nonnegative lo;
    do _ <- check_positive T;
    if Rle_dec hi lo then Er MarleyErr else make_fermi pdg lo hi T eta
  else if one_of type ["bf"; "beta"; "beta-fit"]%string then
    do lo <- source_double (b "Emin") j;
    do hi <- source_double (b "Emax") j;
    do mean <- source_double (b "Emean") j;
    do beta <- number (b "beta") j (9 / 2);
    do _ <- check_nonnegative lo;
    do _ <- check_positive mean;
    if Rle_dec hi lo then Er MarleyErr else make_beta pdg lo hi mean beta
  else if one_of type ["hist"; "histogram"]%string then
    do es <- get_vector (b "E_bin_lefts") j;
    do ws <- get_vector (b "weights") j;
    if negb (Nat.eqb (List.length es) (List.length ws)) then Er MarleyErr
    else
      do hi <- source_double (b "Emax") j;
      do _ <- check_positive hi;
      do ds <- bin_densities (es ++ [hi]) (ws ++ [0]);
      make_grid_source_xy pdg (es ++ [hi]) ds IConstant
  else if one_of type ["grid"]%string then
    do es <- get_vector (b "energies") j;
    do ps <- get_vector (b "prob_densities") j;
    do rule <- text (b "rule") j (Ok (b "linlin"));
    do im <- interpolation_method rule;
    make_grid_source_xy pdg es ps im
  else Er MarleyErr.

(** The source as the generator sees it. A density that is not finite counts as zero. *)
Definition as_nsource (s : source) : res nsource :=
  do lo <- source_Emin s; do hi <- source_Emax s;
  Ok (mknsource (source_pid s) lo hi (fun E => match pdf s E with Ok (Fin v) => v | _ => 0 end)).

Definition with_state (z : generator) (g : gstate) : generator := mkgen (z_modes z) g (z_rot z) (z_deex z).

(** Generator.hh 340-342. *)
Definition set_default_max (g : gstate) (m : R) : gstate :=
  mkgstate (gn_rx g) (gn_xs g) (gn_source g) (gn_target g) (gn_weight g) (gn_norm g) (gn_hold g) (Some m) (gn_max g).

(** JSONConfig.cc 525-713, prepare_neutrino_source. *)
Definition prepare_source (j : json) (z : generator) : res generator :=
  do z <- (if has_key (b "energy_pdf_max") j then do m <- number (b "energy_pdf_max") j 0; Ok (with_state z (set_default_max (z_state z) m)) else Ok z);
  if negb (has_key (b "source") j) then Ok z
  else
    do spec <- at_key (b "source") j;
    match spec with
    | JNull => Ok z
    | _ =>
        do type <- text (b "type") spec (Er MarleyErr);
        do nu <- text (b "neutrino") spec (Er MarleyErr);
        do pdg <- neutrino_pdg nu;
        do s <- make_source type pdg spec;
        do g <- (if has_key (b "weight_flux") spec then
                   do v <- at_key (b "weight_flux") spec;
                   match v with JBool w => Ok (set_weight_flux (z_state z) w) | _ => Er MarleyErr end
                 else Ok (z_state z));
        do ns <- as_nsource s;
        let '(g', r) := set_source g (Some ns) in
        do _ <- r; Ok (with_state z g')
    end.

(** ** Target *)

(** JSONConfig.cc 785-806: the loop over the listed nuclides. *)
Fixpoint listed_atoms (ns fs : list json) : res (list Z * list R) :=
  match ns, fs with
  | n :: ns', f :: fs' =>
      let '(i, ok) := to_long n in
      if negb ok then Er MarleyErr
      else
        do a <- target_atom (to_int i);
        let '(x, ok) := to_double f in
        if negb ok then Er MarleyErr
        else do (l, m) <- listed_atoms ns' fs'; Ok (a :: l, dbl_R x :: m)
  | _, _ => Ok ([], [])
  end.

(** JSONConfig.cc 735-738: the set of atoms of the reactions, in the order of the codes. *)
Definition atom_set (rx : list rxn) : list Z := map fst (fold_left (fun s r => put (x_atom r) tt s) rx []).

(** JSONConfig.cc 715-820, prepare_target. A target of one nuclide is named in a message;
    one of several is printed with question marks for unknown elements (Target.cc 111-131). *)
Definition prepare_target (c : cenv) (j : json) (z : generator) : res generator :=
  let finish atoms fracs :=
    do t <- make_target (ce_warn c) atoms fracs;
    do _ <- (if (ce_info c && has_single_nuclide t)%bool then match t with (n, _) :: _ => atom_name n | [] => Ok [] end else Ok []);
    let '(g, r) := set_target (z_state z) (Some t) in
    do _ <- r; Ok (with_state z g) in
  if negb (has_key (b "target") j) then
    match gn_rx (z_state z) with
    | [] => Ok z
    | rx => let atoms := atom_set rx in finish atoms (map (fun _ => 1) atoms)
    end
  else
    do spec <- at_key (b "target") j;
    match spec with
    | JObj _ =>
        if negb (has_key (b "nuclides") spec) then Er MarleyErr
        else
          do n <- at_key (b "nuclides") spec;
          match n with
          | JArr ns =>
              if negb (has_key (b "atom_fractions") spec) then Er MarleyErr
              else
                do f <- at_key (b "atom_fractions") spec;
                match f with
                | JArr fs =>
                    if negb (Nat.eqb (List.length ns) (List.length fs)) then Er MarleyErr
                    else if Nat.eqb (List.length ns) 0 then Er MarleyErr
                    else do (atoms, fracs) <- listed_atoms ns fs; finish atoms fracs
                | _ => Er MarleyErr
                end
          | _ => Er MarleyErr
          end
    | _ => Er MarleyErr
    end.

(** ** The generator *)

(** JSONConfig.cc 195-203: the Coulomb mode. NuclearReaction.cc 738-746. *)
Definition cmode_of_bytes (s : bytes) : res cmode :=
  match find (fun p => bytes_eqb s (b (snd p))) cmode_names with Some (m, _) => Ok m | None => Er MarleyErr end.
Definition coulomb_mode (j : json) : res cmode :=
  if has_key (b "coulomb_mode") j then
    do v <- at_key (b "coulomb_mode") j; match v with JStr s => cmode_of_bytes (escape s) | _ => Er MarleyErr end
  else Ok FermiAndMEMA.

(** NuclearReaction.hh 167-168, set_coulomb_mode, for the nuclear reactions. *)
Definition with_cmode (m : cmode) (x : mode) : mode :=
  match x with
  | MNuc n f => MNuc (mknuc (n_r n) (n_ma n) (n_mb n) (n_mc n) (n_mdgs n) m (n_mes n)) f
  | MEl l a => MEl l a
  end.
Definition set_cmode (m : cmode) (z : generator) : generator :=
  let ms := map (with_cmode m) (z_modes z) in
  let g := z_state z in
  mkgen ms (mkgstate (map mode_rxn ms) (gn_xs g) (gn_source g) (gn_target g) (gn_weight g) (gn_norm g) (gn_hold g) (gn_default g) (gn_max g)) (z_rot z) (z_deex z).

Definition set_hold (h : bool) (z : generator) : generator :=
  let g := z_state z in
  mkgen (z_modes z) (mkgstate (gn_rx g) (gn_xs g) (gn_source g) (gn_target g) (gn_weight g) (gn_norm g) h (gn_default g) (gn_max g)) (z_rot z) (z_deex z).

(** JSONConfig.cc 244-282: the list of active reactions. Electron scattering is described
    with the name of the atom. *)
Fixpoint describe (z : generator) (ms : list mode) : res unit :=
  match ms with
  | [] => Ok tt
  | m :: r =>
      match gn_target (z_state z) with
      | None => Er Undefined
      | Some t =>
          let atom := x_atom (mode_rxn m) in
          do _ <- (if (Z.eqb (x_proj (mode_rxn m)) (ns_pid (gn_source (z_state z))) && (if Rlt_dec 0 (atom_fraction t atom) then true else false))%bool
                   then match r_proc (mode_reaction m) with NuElectronElastic => atom_name atom | _ => Ok [] end else Ok []);
          describe z r
      end
  end.

(** The outcome: the seed (None if taken from the clock), the generator, and the cutoffs set
    in its structure database. *)
Record configured := mkconf { k_seed : option Z; k_gen : generator; k_flmax : option Z; k_glmax : option Z }.

(** JSONConfig.cc 141-299, create_generator. *)
Definition create_generator (c : cenv) (j : json) : res configured :=
  do seed <- (if has_key (b "seed") j then do v <- at_key (b "seed") j; let '(n, ok) := to_long v in if ok then Ok (Some (n mod 2 ^ 64)%Z) else Er MarleyErr else Ok None);
  let z := set_hold true fresh_generator in
  do z <- prepare_direction j z;
  do fl <- setting (b "fragment_lmax") 0 j;
  do gl <- setting (b "gamma_lmax") 1 j;
  do z <- prepare_source j z;
  do z <- prepare_reactions c j z;
  do z <- prepare_target c j z;
  do z <- (if has_key (b "do_deexcitations") j then
             do v <- at_key (b "do_deexcitations") j;
             match v with JBool d => Ok (mkgen (z_modes z) (z_state z) (z_rot z) d) | _ => Ok z end
           else Ok z);
  do null <- (if has_key (b "reactions") j then do v <- at_key (b "reactions") j; match v with JNull => Ok true | _ => Ok false end else Ok false);
  if (null : bool) then Ok (mkconf seed z fl gl)
  else
    do m <- coulomb_mode j;
    let z := set_cmode m z in
    if negb (existsb (fun r => Z.eqb (ns_pid (gn_source (z_state z))) (x_proj r)) (gn_rx (z_state z))) then Er MarleyErr
    else
      do _ <- describe z (z_modes z);
      let z := set_hold false z in
      let '(g, r) := normalize (z_state z) in
      do _ <- r; Ok (mkconf seed (with_state z g) fl gl).
