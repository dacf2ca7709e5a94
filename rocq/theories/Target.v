(** Targets: Target.cc and TargetAtom.cc. Atom fractions are real numbers (rounding,
    infinities and NaN are not modelled). Log messages are not modelled, except that
    building one may throw. *)
From Coq Require Import List ZArith Reals Bool.
From Verif Require Import Base Pdg Names Sample.
Import ListNotations.
Open Scope R_scope.

(** TargetAtom.cc 23-25 and 46-51: a target atom is its code; codes whose mass number is
    not positive are refused. *)
Definition target_atom (pdg : Z) : res Z := if Z.leb (particle_A pdg) 0 then Er MarleyErr else Ok pdg.

(** TargetAtom.cc 27-30: a target atom from proton and mass numbers. *)
Definition target_atom_ZA (z a : Z) : res Z := target_atom (nucleus_pid z a).

(** TargetAtom.cc 40-44, to_string: only whether it throws matters here. *)
Definition atom_name (pdg : Z) : res bytes := element_symbol (particle_Z pdg).

(** Target.hh 86-91, atom_fractions_: a std::map from atoms to fractions, as the list of
    its entries in key order (TargetAtom.hh 70-73 orders atoms by code). *)
Definition target := list (Z * R).

(** std::map insertion of a key (replaces the value of a key already there). *)
Fixpoint put {A} (k : Z) (v : A) (m : list (Z * A)) : list (Z * A) :=
  match m with
  | [] => [(k, v)]
  | (k', v') :: r => if Z.ltb k k' then (k, v) :: m else if Z.eqb k k' then (k, v) :: r else (k', v') :: put k v r
  end.

(** Target.cc 67-77: check each fraction and add them up. An entry of zero is named in a
    warning and a negative one in the error, and naming it throws std::out_of_range for an
    element without a symbol. [lg] tells whether some log stream receives warnings: when
    none does, the name is not built (OutStreamVector in Logger.hh writes to each stream
    in turn). *)
Fixpoint check_fracs (lg : bool) (ns : list Z) (fs : list R) (sum : R) : res R :=
  match ns, fs with
  | n :: ns', af :: fs' =>
      if Rlt_dec af 0 then do _ <- atom_name n; Er MarleyErr
      else if Req_EM_T af 0 then do _ <- (if lg then atom_name n else Ok []); check_fracs lg ns' fs' (sum + af)
      else check_fracs lg ns' fs' (sum + af)
  | _, _ => Ok sum
  end.

(** Target.cc 86-95: fill the map; an atom already there is an error, whose message names
    the atom. *)
Fixpoint fill (l : list (Z * R)) (t : target) : res target :=
  match l with
  | [] => Ok t
  | (n, f) :: r =>
      match assoc n t with
      | Some _ => do _ <- atom_name n; Er MarleyErr
      | None => fill r (put n f t)
      end
  end.

(** Target.cc 52-96, initialize, and the constructor 46-50. *)
Definition make_target (lg : bool) (ns : list Z) (fs : list R) : res target :=
  if negb (Nat.eqb (length ns) (length fs)) then Er MarleyErr
  else if Nat.eqb (length ns) 0 then Er MarleyErr
  else
    do sum <- check_fracs lg ns fs 0;
    if Rle_dec sum 0 then Er MarleyErr
    else fill (combine ns (map (fun af => af / sum) fs)) [].

(** Target.cc 23-44: targets made of one nuclide. *)
Definition single_target (lg : bool) (pdg : Z) : res target := do n <- target_atom pdg; make_target lg [n] [1].
Definition single_target_ZA (lg : bool) (z a : Z) : res target := single_target lg (nucleus_pid z a).

(** Target.cc 98-105. *)
Definition atom_fraction (t : target) (n : Z) : R := match assoc n t with Some f => f | None => 0 end.

(** Target.cc 107-109. *)
Definition target_contains (t : target) (n : Z) : bool := if Req_EM_T (atom_fraction t n) 0 then false else true.

(** Target.hh 66-67. *)
Definition has_single_nuclide (t : target) : bool := Nat.eqb (length t) 1.
