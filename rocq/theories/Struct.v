(** The structure database: StructureDatabase.cc. Decay schemes are those of Levels.v. An
    object on the heap has an address; addresses of new objects are fresh. The user can
    change a scheme through the pointer returned to them: not modelled. *)
From Coq Require Import List Ascii String ZArith Bool.
From Verif Require Import Base Stream Strings Pdg Names Levels Target Files.
Import ListNotations.
Open Scope list_scope.

(** What lookups depend on besides the database: the file system and search path, and which
    messages are received by some log stream (naming an element that has no symbol throws
    when it is). [w_make] tells whether an optical model, level density or strength function
    can be built for Z and A. *)
Inductive kind := Optical | Density | Strength.
Record world := mkworld {
  w_files : files; w_path : bytes; w_debug : bool; w_warn : bool; w_make : kind -> Z -> Z -> res unit }.

(** StructureDatabase.hh 190-253. The decay scheme table (an unordered_map) has entries that
    are a scheme at an address or the null pointer. The order of the entries is not
    modelled. *)
Definition entry := option (nat * scheme).
Record db := mkdb {
  d_next : nat; d_table : list (Z * entry); d_loaded : bool; d_names : list (Z * bytes);
  d_models : kind -> list (Z * (nat * (Z * Z))) }.

(** StructureDatabase.cc 50. *)
Definition new_db : db := mkdb 0 [] false [] (fun _ => []).

Definition set_table (f : list (Z * entry) -> list (Z * entry)) (d : db) : db := mkdb (d_next d) (f (d_table d)) (d_loaded d) (d_names d) (d_models d).
Definition new_address (d : db) : nat * db := (d_next d, mkdb (S (d_next d)) (d_table d) (d_loaded d) (d_names d) (d_models d)).

(** unordered_map: erase, and emplace, which keeps an existing entry. *)
Definition erase {A} (k : Z) (l : list (Z * A)) : list (Z * A) := filter (fun p => negb (Z.eqb k (fst p))) l.
Definition emplace {A} (k : Z) (v : A) (l : list (Z * A)) : list (Z * A) := match assoc k l with Some _ => l | None => (k, v) :: l end.
(** operator[] and assignment. *)
Definition assign {A} (k : Z) (v : A) (l : list (Z * A)) : list (Z * A) := (k, v) :: erase k l.

(** StructureDatabase.cc 52-57. The argument is a unique_ptr, perhaps null. If there is an
    entry already the new scheme is destroyed. *)
Definition add_scheme (pdg : Z) (s : option scheme) (d : db) : db :=
  match s with
  | None => set_table (emplace pdg None) d
  | Some sc => let '(a, d1) := new_address d in set_table (emplace pdg (Some (a, sc))) d1
  end.

(** StructureDatabase.cc 59-71. [r] is what constructing the scheme from the file gives: the
    old entry has gone by then. *)
Definition emplace_scheme (pdg : Z) (r : res scheme) (d : db) : db * res unit :=
  let d1 := set_table (erase pdg) d in
  match r with
  | Er e => (d1, Er e)
  | Ok sc => (add_scheme pdg (Some sc) d1, Ok tt)
  end.

(** StructureDatabase.cc 281-290. *)
Definition remove_scheme (pdg : Z) (d : db) : db := set_table (erase pdg) d.
Definition clear (d : db) : db := set_table (fun _ => []) d.

(** operator>> for std::string: the next word. *)
Fixpoint span_word (s : bytes) : bytes * bytes :=
  match s with
  | [] => ([], [])
  | c :: r => if is_space c then ([], s) else let (w, t) := span_word r in (c :: w, t)
  end.
Definition rd_word (s : bytes) : option (bytes * bytes) :=
  match span_word (skip_sp s) with ([], _) => None | (w, t) => Some (w, t) end.

(** StructureDatabase.cc 404-412: the lines of the index. *)
Fixpoint read_index (fuel : nat) (s : bytes) (l : list (Z * bytes)) : list (Z * bytes) :=
  match fuel with
  | O => l
  | S k =>
      match (olet (p, s1) <- rd_int s; olet (n, s2) <- rd_word s1; Some (p, n, s2)) with
      | None => l
      | Some (p, n, s2) => read_index k s2 (assign p n l)
      end
  end.

Definition index_name : bytes := Base.b "nuclide_index.txt".

(** StructureDatabase.cc 387-417, load_structure_index. *)
Definition load_index (w : world) (d : db) : db * res unit :=
  match find_file (w_files w) index_name (w_path w) with
  | [] => (d, Er MarleyErr)
  | p => let t := f_text (w_files w) p in
         (mkdb (d_next d) (d_table d) true (read_index (S (List.length t)) t (d_names d)) (d_models d), Ok tt)
  end.

(** Naming an atom in a message that is received or not. *)
Definition say (on : bool) (pdg : Z) : res unit := if on then do _ <- atom_name pdg; Ok tt else Ok tt.

(** StructureDatabase.cc 151-163: load all schemes of a file; the result tells whether the
    one looked for was among them. *)
Fixpoint load_all (fuel : nat) (w : world) (pdg : Z) (found : bool) (s : bytes) (d : db) : db * res bool :=
  match fuel with
  | O => (d, Er NoFuel)
  | S k =>
      match read_scheme (new_scheme 0 0) s with
      | Er e => (d, Er e)
      | Ok None => (d, Ok found)
      | Ok (Some (sc, t)) =>
          let p := nucleus_pid (s_Z sc) (s_A sc) in
          let d1 := add_scheme p (Some sc) d in
          match (do _ <- target_atom p; say (w_debug w) p) with
          | Er e => (d1, Er e)
          | Ok _ => load_all k w pdg (found || Z.eqb pdg p) t d1
          end
      end
  end.

(** StructureDatabase.cc 125-183, get_decay_scheme. The call of itself at the end finds the
    entry made before: C51_total. *)
Definition get_scheme (w : world) (pdg : Z) (d : db) : db * res entry :=
  match assoc pdg (d_table d) with
  | Some e => (d, Ok e)
  | None =>
      match (do _ <- target_atom pdg; say (w_debug w) pdg) with
      | Er e => (d, Er e)
      | Ok _ =>
          let '(d1, r) := if d_loaded d then (d, Ok tt) else load_index w d in
          match r with
          | Er e => (d1, Er e)
          | Ok _ =>
              match assoc pdg (d_names d1) with
              | None => (d1, Ok None)
              | Some name =>
                  let t := match find_file (w_files w) name (w_path w) with [] => [] | p => f_text (w_files w) p end in
                  let '(d2, r2) := load_all (S (List.length t)) w pdg false t d1 in
                  match r2 with
                  | Er e => (d2, Er e)
                  | Ok found =>
                      match (if found then Ok tt else say (w_warn w) pdg) with
                      | Er e => (d2, Er e)
                      | Ok _ =>
                          let d3 := if found then d2 else set_table (assign pdg None) d2 in
                          match assoc pdg (d_table d3) with Some e => (d3, Ok e) | None => (d3, Er NoFuel) end
                      end
                  end
              end
          end
      end
  end.

(** StructureDatabase.cc 185-190. *)
Definition get_scheme_ZA (w : world) (z a : Z) (d : db) : db * res entry := get_scheme w (nucleus_pid z a) d.

(** StructureDatabase.cc 192-279: optical models, level densities and strength functions
    are built on first use. The result is the address and the nuclide it was built for. *)
Definition find_model (w : world) (k : kind) (pid z a : Z) (d : db) : db * res (nat * (Z * Z)) :=
  match assoc pid (d_models d k) with
  | Some m => (d, Ok m)
  | None =>
      match w_make w k z a with
      | Er e => (d, Er e)
      | Ok _ =>
          let '(n, d1) := new_address d in
          let same k' := match k, k' with Optical, Optical | Density, Density | Strength, Strength => true | _, _ => false end in
          (mkdb (d_next d1) (d_table d1) (d_loaded d1) (d_names d1)
             (fun k' => if same k' then (pid, (n, (z, a))) :: d_models d1 k' else d_models d1 k'), Ok (n, (z, a)))
      end
  end.
Definition get_model (w : world) (k : kind) (pid : Z) (d : db) : db * res (nat * (Z * Z)) :=
  let z := particle_Z pid in
  let a := particle_A pid in
  match k with
  | Strength => find_model w k (nucleus_pid z a) z a d
  | _ => find_model w k pid z a d
  end.
Definition get_model_ZA (w : world) (k : kind) (z a : Z) (d : db) : db * res (nat * (Z * Z)) :=
  match k with
  | Density => get_model w k (nucleus_pid z a) d
  | _ => find_model w k (nucleus_pid z a) z a d
  end.

(** Histories of calls. *)
Inductive dop :=
| DAdd (pdg : Z) (s : option scheme)
| DEmplace (pdg : Z) (r : res scheme)
| DRemove (pdg : Z)
| DClear
| DGet (w : world) (pdg : Z)
| DModel (w : world) (k : kind) (pid : Z)
| DModelZA (w : world) (k : kind) (z a : Z).

Definition dstep (d : db) (op : dop) : db :=
  match op with
  | DAdd p s => add_scheme p s d
  | DEmplace p r => fst (emplace_scheme p r d)
  | DRemove p => remove_scheme p d
  | DClear => clear d
  | DGet w p => fst (get_scheme w p d)
  | DModel w k p => fst (get_model w k p d)
  | DModelZA w k z a => fst (get_model_ZA w k z a d)
  end.
