(** Ground-state spins and the fragments that can be emitted: the static part of
    StructureDatabase.cc. Log messages are not modelled. *)
From Coq Require Import List Ascii String ZArith Bool.
From Verif Require Import Base Stream Pdg Files Struct Target.
Import ListNotations.
Open Scope list_scope.

(** StructureDatabase.cc 36-48: jpi_table_, fragment_table_ (a std::map from code to doubled
    spin and parity, in the order of the codes) and the flag. *)
Record statics := mkstatics { t_init : bool; t_jpi : list (Z * (Z * parity)); t_frags : list (Z * (Z * parity)) }.
Definition no_statics : statics := mkstatics false [] [].

(** StructureDatabase.cc 350-358: the loop over the lines of the table. A parity that is not
    a sign makes the constructor of Parity throw (Parity.cc 45-62). *)
Fixpoint read_jpi (fuel : nat) (s : bytes) (l : list (Z * (Z * parity))) : list (Z * (Z * parity)) * res unit :=
  match fuel with
  | O => (l, Er NoFuel)
  | S k =>
      match (olet (p, s1) <- rd_int s; olet (j, s2) <- rd_int s1; Some (p, j, s2)) with
      | None => (l, Ok tt)
      | Some (p, j, s2) =>
          match rd_parity s2 with
          | Er e => (l, Er e)
          | Ok None => (l, Ok tt)
          | Ok (Some (pi, s3)) => read_jpi k s3 (assign p (j, pi) l)
          end
      end
  end.

(** marley_utils.hh 49-54 and StructureDatabase.cc 367-368: neutron, proton, deuteron,
    triton, helion, alpha. *)
Definition fragment_codes : list Z := [2112; 2212; 1000010020; 1000010030; 1000020030; 1000020040]%Z.

(** StructureDatabase.cc 321-327, the part of get_gs_spin_parity after the check of the
    flag. *)
Definition find_jpi (p : Z) (g : statics) : res (Z * parity) := match assoc p (t_jpi g) with Some x => Ok x | None => Er MarleyErr end.

(** StructureDatabase.cc 370-383: std::map::emplace keeps an existing entry. *)
Fixpoint make_fragments (l : list Z) (g : statics) : statics * res unit :=
  match l with
  | [] => (g, Ok tt)
  | f :: r =>
      match find_jpi f g with
      | Er e => (g, Er e)
      | Ok x => make_fragments r (mkstatics (t_init g) (t_jpi g) (match assoc f (t_frags g) with Some _ => t_frags g | None => put f x (t_frags g) end))
      end
  end.

Definition jpi_name : bytes := Base.b "gs_spin_parity_table.txt".

(** StructureDatabase.cc 330-385, initialize_jpi_table: the flag is set before the fragments
    are made. *)
Definition init_statics (fs : files) (path : bytes) (g : statics) : statics * res unit :=
  match find_file fs jpi_name path with
  | [] => (g, Er MarleyErr)
  | p =>
      let t := f_text fs p in
      let '(l, r) := read_jpi (S (List.length t)) t (t_jpi g) in
      match r with
      | Er e => (mkstatics (t_init g) l (t_frags g), Er e)
      | Ok _ => make_fragments fragment_codes (mkstatics true l (t_frags g))
      end
  end.

(** StructureDatabase.cc 297 and 320, StructureDatabase.hh 141: the check of the flag. *)
Definition ensure (fs : files) (path : bytes) (g : statics) : statics * res unit := if t_init g then (g, Ok tt) else init_statics fs path g.

(** StructureDatabase.cc 317-328. The overloads taking Z and A (303-315) only form the code. *)
Definition gs_spin_parity (fs : files) (path : bytes) (p : Z) (g : statics) : statics * res (Z * parity) :=
  let '(g', r) := ensure fs path g in (g', do _ <- r; find_jpi p g').

(** StructureDatabase.cc 292-301: None is the null pointer. *)
Definition get_fragment (fs : files) (path : bytes) (p : Z) (g : statics) : statics * res (option (Z * parity)) :=
  let '(g', r) := ensure fs path g in (g', do _ <- r; Ok (assoc p (t_frags g'))).

(** StructureDatabase.hh 139-143. *)
Definition fragments (fs : files) (path : bytes) (g : statics) : statics * res (list (Z * (Z * parity))) :=
  let '(g', r) := ensure fs path g in (g', do _ <- r; Ok (t_frags g')).

(** Histories of calls, each with the file system as it is then. *)
Inductive gsop := GSpin (fs : files) (path : bytes) (p : Z) | GFrag (fs : files) (path : bytes) (p : Z) | GAll (fs : files) (path : bytes).
Definition gs_step (g : statics) (op : gsop) : statics :=
  match op with
  | GSpin fs path p => fst (gs_spin_parity fs path p g)
  | GFrag fs path p => fst (get_fragment fs path p g)
  | GAll fs path => fst (fragments fs path g)
  end.
