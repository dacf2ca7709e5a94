(** What is set up once in a process: the search path (FileManager.cc) and the mass table
    (MassTable.cc). Log messages are not modelled. *)
From Coq Require Import List Ascii String ZArith Reals Bool.
From Verif Require Import Base Dbl Pdg Json React Mass Config.
From Verif Require Files.
Import ListNotations.
Open Scope list_scope.

(** What the process sees at the time of a call: its environment variables (std::getenv,
    None for a null pointer) and the file system. *)
Record world := mkworld { w_env : bytes -> option bytes; w_files : Files.files }.

(** ** FileManager *)

(** FileManager.cc 52-74, the constructor: the default search path. *)
Definition new_file_manager (w : world) : res bytes :=
  match w_env w (b "MARLEY") with
  | None => Er MarleyErr
  | Some dir =>
      match w_env w (b "MARLEY_SEARCH_PATH") with
      | Some p => Ok p
      | None => Ok (((dir ++ b "/data") ++ b ":" ++ dir ++ b "/data/react") ++ b ":" ++ dir ++ b "/data/structure")
      end
  end.

(** ** MassTable *)

(** MassTable.cc 319-340, one element of an array of masses. The conversion from long to
    int keeps the low 32 bits; the mass becomes a real number. *)
Definition mass_entry (el : json) : res (Z * R) :=
  if negb (has_key (b "pdg") el) then Er MarleyErr
  else if negb (has_key (b "mass") el) then Er MarleyErr
  else
    do p <- at_key (b "pdg") el;
    let '(pdg, ok) := to_long p in
    if negb ok then Er MarleyErr
    else
      do m <- at_key (b "mass") el;
      let '(mass, ok) := to_double m in
      if negb ok then Er MarleyErr else Ok (to_int pdg, dbl_R mass).

(** MassTable.cc 303-343, assign_masses on an empty map. *)
Definition read_masses (j : json) : res (list (Z * R)) :=
  match j with
  | JArr [] => Er MarleyErr
  | JArr l => do es <- map_res mass_entry l; Ok (assign_masses es [])
  | _ => Er MarleyErr
  end.

(** MassTable.cc 27, data_file_name_. *)
Definition mass_file : bytes := b "mass_table.js".

(** MassTable.cc 29-66, the constructor, with the search path of the FileManager. A file
    that cannot be opened gives the same exception as an empty one. *)
Definition new_mass_table (path : bytes) (fs : Files.files) : res mtab :=
  let name := Files.find_file fs mass_file path in
  match name with
  | [] => Er MarleyErr
  | _ =>
      do j <- Json.load (Files.f_text fs name);
      if negb (has_key (b "particle_masses") j) then Er MarleyErr
      else
        do pj <- at_key (b "particle_masses") j;
        do ps <- read_masses pj;
        if negb (has_key (b "atomic_masses") j) then Er MarleyErr
        else
          do aj <- at_key (b "atomic_masses") j;
          do am <- read_masses aj;
          Ok (mkmt ps am)
  end.

(** ** The two singletons *)

(** The static variables of the two Instance functions: None until the constructor has
    returned. *)
Record singles := mksing { s_path : option bytes; s_masses : option mtab }.
Definition fresh : singles := mksing None None.

(** FileManager.cc 76-85, Instance. If the constructor throws, the variable stays
    uninitialized and the next call tries again. *)
Definition file_manager (w : world) (s : singles) : res bytes * singles :=
  match s_path s with
  | Some p => (Ok p, s)
  | None =>
      match new_file_manager w with
      | Ok p => (Ok p, mksing (Some p) (s_masses s))
      | Er e => (Er e, s)
      end
  end.

(** MassTable.cc 68-77, Instance. *)
Definition mass_table (w : world) (s : singles) : res mtab * singles :=
  match s_masses s with
  | Some t => (Ok t, s)
  | None =>
      let '(r, s) := file_manager w s in
      match r with
      | Er e => (Er e, s)
      | Ok p =>
          match new_mass_table p (w_files w) with
          | Ok t => (Ok t, mksing (s_path s) (Some t))
          | Er e => (Er e, s)
          end
      end
  end.

(** A process: a sequence of requests for the one or the other, each made in the world of
    its time. *)
Inductive request := AskFile (base : bytes) (w : world) | AskMasses (w : world).
Inductive answer := Found (r : res bytes) | Masses (r : res mtab).

(** FileManager.cc 95-100 with the default argument of FileManager.hh 75-77. *)
Definition serve (q : request) (s : singles) : answer * singles :=
  match q with
  | AskFile base w => let '(r, s) := file_manager w s in (Found (do p <- r; Ok (Files.find_file (w_files w) base p)), s)
  | AskMasses w => let '(r, s) := mass_table w s in (Masses r, s)
  end.
Fixpoint serve_all (qs : list request) (s : singles) : list answer * singles :=
  match qs with
  | [] => ([], s)
  | q :: r => let '(a, s) := serve q s in let '(l, s) := serve_all r s in (a :: l, s)
  end.
