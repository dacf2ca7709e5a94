(** Finding data files: FileManager.cc. The file system is a parameter. Log messages
    are not modelled; the search path is an argument (Startup.v has where it comes from). *)
From Coq Require Import List Ascii String ZArith Bool.
From Verif Require Import Base Strings.
Import ListNotations.
Open Scope list_scope.

(** What a program sees of the file system.
    - [f_exists]: stat succeeds for a path;
    - [f_dir]: the entries of a directory in the order of readdir, or None if it cannot be
      opened. An entry is its name and its kind: None if stat fails for it, otherwise
      whether it counts as a regular file;
    - [f_text]: what an input stream opened on a path gives (nothing if it cannot be
      opened). *)
Record files := mkfiles { f_exists : bytes -> bool; f_dir : bytes -> option (list (bytes * option bool)); f_text : bytes -> bytes }.

Fixpoint bytes_eqb (x y : bytes) : bool :=
  match x, y with
  | [], [] => true
  | a :: x', c :: y' => ceq a c && bytes_eqb x' y'
  | _, _ => false
  end.

Definition slash : bytes := ["/"%char].

(** FileManager.cc 173-216, dir_iterate, with the function given to it by find_file
    (110-121): stop at the first regular file with the name. *)
Fixpoint find_entry (base : bytes) (l : list (bytes * option bool)) : bool :=
  match l with
  | [] => false
  | (n, Some true) :: r => if bytes_eqb base n then true else find_entry base r
  | _ :: r => find_entry base r
  end.

(** FileManager.cc 95-135, find_file in a list of directories. *)
Fixpoint find_in (fs : files) (base : bytes) (dirs : list bytes) : bytes :=
  match dirs with
  | [] => []
  | d :: r =>
      match f_dir fs d with
      | None => find_in fs base r
      | Some es => if find_entry base es then d ++ slash ++ base else find_in fs base r
      end
  end.
Definition find_file_dirs (fs : files) (base : bytes) (dirs : list bytes) : bytes :=
  if f_exists fs base then base else find_in fs base dirs.

(** FileManager.cc 87-93, search_path_to_dir_vector and find_file. *)
Definition find_file (fs : files) (base path : bytes) : bytes := find_file_dirs fs base (split_string ":"%char path).

(** FileManager.cc 137-163, list_all_files. *)
Definition regular (d : bytes) (l : list (bytes * option bool)) : list bytes :=
  flat_map (fun e => match snd e with Some true => [d ++ slash ++ fst e] | _ => [] end) l.
Definition list_all_files (fs : files) (path : bytes) : list bytes :=
  flat_map (fun d => match f_dir fs d with None => [] | Some es => regular d es end) (split_string ":"%char path).
