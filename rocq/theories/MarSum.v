(** ROOT files (src/RootOutputFile.cc, src/RootEventFileReader.cc), as far as MARLEY's own code
    is concerned, and the program marsum (src/marsum.cc).

    The ROOT library is not modelled: a ROOT file is a set of named objects, writing an object
    replaces the one of the same name, reading it returns what was written, and a tree is a
    list of entries. *)
From Coq Require Import List Ascii String ZArith Bool.
From Coq Require Import Floats.SpecFloat.
From Verif Require Import Base Dbl Json Stream Pdg Event Output Main.
Import ListNotations.
Local Open Scope Z_scope.

(** ** The summary of an event *)

(** Particle.cc 99-101, kinetic_energy. *)
Definition kinetic (p : particle) : spec_float :=
  let d := SFsub 53 1024 (p_E p) (p_mass p) in if SFltb d dbl_zero then dbl_zero else d.

(** marsum.cc 193-201: the entry for a de-excitation product. *)
Record product := mkprod { d_pdg : Z; d_E : spec_float; d_KE : spec_float; d_px : spec_float; d_py : spec_float; d_pz : spec_float }.
Definition product_of (p : particle) : product := mkprod (p_pdg p) (p_E p) (kinetic p) (p_px p) (p_py p) (p_pz p).

(** marsum.cc 53-70 and 87-133: an entry of the summary tree. *)
Record row := mkrow {
  r_v : product; r_pdgt : Z; r_Mt : spec_float; r_l : product; r_r : product;
  r_Ex : spec_float; r_twoJ : Z; r_parity : Z; r_np : Z; r_products : list product; r_xsec : spec_float
}.

(** EventFileReader.cc 233-239, flux_averaged_xsec, in 10^-42 cm^2; marley_utils.hh 111-118. *)
Definition hbar_c : spec_float := dec_to_dbl false 1973269718 (-7).
Definition hbar_c2 : spec_float := SFmul 53 1024 hbar_c hbar_c.
Definition in_units (x : spec_float) : spec_float :=
  SFmul 53 1024 (SFmul 53 1024 (SFmul 53 1024 x hbar_c2) (dec_to_dbl false 1 14)) (dec_to_dbl false 1 2).

(** marsum.cc 155-212: the entry for the event [ev]. Event.cc 186-200: the particles are taken
    with at(), which throws std::out_of_range. *)
Definition row_of (x : spec_float) (ev : event) : res row :=
  match e_init ev, e_fin ev with
  | v :: t :: _, l :: r :: ps =>
      Ok (mkrow (product_of v) (p_pdg t) (p_mass t) (product_of l) (product_of r)
            (e_Ex ev) (e_twoJ ev) (if e_par ev then 1 else -1) (len (e_fin ev) - 2) (map product_of ps) (in_units x))
  | _, _ => Er StdRange
  end.

(** ** Files *)

(** What MARLEY keeps in a ROOT file: RootOutputFile.cc 129-150 and marsum.cc 84-85. *)
Record rootfile := mkroot {
  rt_events : option (list event); rt_flux : option spec_float;
  rt_config : option bytes; rt_state : option bytes; rt_seed : option bytes;
  rt_mst : option (list row)
}.
Definition blank_root : rootfile := mkroot None None None None None None.

Inductive content := CText (s : bytes) | CRoot (r : rootfile).
Definition store := bytes -> option content.
Definition put (n : bytes) (c : content) (fs : store) : store := fun m => if bytes_eqb n m then Some c else fs m.

(** RootOutputFile.cc 33-96, open, with the answer of the user if it is asked for: the mode, the
    file on disk and the tree. A file that is not in ROOT format can be replaced but not updated. *)
Definition root_open (md : mode) (force answer : bool) (c : option content) : res (mode * rootfile * list event) :=
  let update :=
    match c with
    | Some (CRoot r) => match rt_events r with Some l => Ok (Resume, r, l) | None => Er MarleyErr end
    | _ => Er MarleyErr
    end in
  match md with
  | Append => Er MarleyErr
  | Resume => match c with None => Er MarleyErr | Some _ => update end
  | Overwrite =>
      match c with
      | Some _ => if force || answer then Ok (Overwrite, blank_root, []) else update
      | None => Ok (Overwrite, blank_root, [])
      end
  end.

(** RootOutputFile.cc 169-208, resume: the configuration, the state of the random number generator and
    the number of events. What is done with the former is in Output.v. *)
Definition root_resume (m : mode) (r : rootfile) (tree : list event) : res (json * bytes * Z) :=
  match m with
  | Resume =>
      match rt_config r with
      | None => Er MarleyErr
      | Some s =>
          do config <- load s;
          match rt_state r with
          | None => Er MarleyErr
          | Some st => Ok (config, st, len tree)
          end
      end
  | _ => Er MarleyErr
  end.

(** RootOutputFile.cc 210-215, write_event. *)
Definition root_write (ev : event) (tree : list event) : list event := tree ++ [ev].

(** RootOutputFile.cc 129-167, write_generator_state and close. *)
Definition root_close (config : json) (state : bytes) (seed : Z) (flux : spec_float) (r : rootfile) (tree : list event) : rootfile :=
  mkroot (Some tree) (Some flux) (Some (dump None config)) (Some state) (Some (show_int seed)) (rt_mst r).

(** ** Reading *)

(** RootEventFileReader.hh 46-63: a reader of text, or the tree, the number of the next entry
    (event_num_ + 1) and flux_avg_tot_xs_. *)
Inductive rreader := RText (r : reader) | RRoot (l : list event) (pos : nat) (x : spec_float).
Definition rflux (r : rreader) : spec_float := match r with RText r => reader_flux r | RRoot _ _ x => x end.

(** RootEventFileReader.cc 31-79, deduce_file_format and initialize, and EventFileReader.cc 223-231.
    The contents of a ROOT file, read as text, start with a letter and are none of the text formats. *)
Definition ropen (c : option content) : res rreader :=
  match c with
  | None => Er MarleyErr
  | Some (CText s) => do r <- open_reader s; Ok (RText r)
  | Some (CRoot r) =>
      match rt_events r, rt_flux r with
      | Some l, Some x => Ok (RRoot l 0 x)
      | _, _ => Er MarleyErr
      end
  end.

(** RootEventFileReader.cc 81-97, next_event. *)
Definition rnext (r : rreader) : res (bool * event * rreader) :=
  match r with
  | RText r => do (ok, ev, r') <- next_event r; Ok (ok, ev, RText r')
  | RRoot l pos x =>
      match nth_error l pos with
      | Some ev => Ok (true, ev, RRoot l (S pos) x)
      | None => Ok (false, empty_event, RRoot l (S pos) x)
      end
  end.

(** EventFileReader.cc 37-107 and 223-231: whether exceptions are written to the log
    (Error.hh 35-49) after a text file was opened, from what it was before. It is switched off before the formats are
    tried and restored only when none fits. *)
Definition log_after (log : bool) (s : bytes) : bool :=
  match skip_sp s with
  | c :: _ =>
      if ceq c "{"%char then false
      else if ascii_ok s then false
      else match hep_ok s with Ok false => log | _ => false end
  | [] => log
  end.

(** ** The program *)

(** marsum.cc 144-215: the loop over the events of a file. After next_event the reader converts to
    true exactly if an event was read (EventFileReader.cc 198-221, RootEventFileReader.cc 99-104). *)
Fixpoint summarise (fuel : nat) (r : rreader) : res (list row) :=
  match fuel with
  | O => Er NoFuel
  | S fuel =>
      do (ok, ev, r') <- rnext r;
      if (ok : bool) then
        do x <- row_of (rflux r') ev;
        do l <- summarise fuel r';
        Ok (x :: l)
      else Ok []
  end.

(** marsum.cc 135-216: the loop over the files. *)
Fixpoint summarise_files (fuel : nat) (fs : store) (ins : list bytes) : res (list row) :=
  match ins with
  | [] => Ok []
  | n :: ins =>
      do r <- ropen (fs n);
      do l <- summarise fuel r;
      do k <- summarise_files fuel fs ins;
      Ok (l ++ k)
  end.

(** marsum.cc 44-222, main, with the arguments after the program's name: the files, what is left of
    the input, and the exit status, or the exception that ends the program. *)
Definition marsum (fuel : nat) (args : list bytes) (fs : store) (input : bytes) : store * bytes * res Z :=
  match args with
  | out :: ((_ :: _) as ins) =>
      let '(go, input) := match fs out with Some _ => prompt input | None => (true, input) end in
      if go then
        let fs := put out (CRoot blank_root) fs in
        match summarise_files fuel fs ins with
        | Ok rows => (put out (CRoot (mkroot None None None None None (Some rows))) fs, input, Ok 0)
        | Er e => (fs, input, Er e)
        end
      else (fs, input, Ok 0)
  | _ => (fs, input, Ok 0)
  end.
