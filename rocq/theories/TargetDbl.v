(** Atom fractions as doubles: Target.cc 52-96 with rounding, infinities and NaN. *)
From Coq Require Import List ZArith Bool.
From Coq Require Import Floats.SpecFloat.
From Verif Require Import Base Pdg Names Dbl Target.
Import ListNotations.

(** Target.cc 67-78: check each fraction and add them up; which names are built is as in
    [Target.check_fracs]. *)
Fixpoint check_doubles (lg : bool) (ns : list Z) (fs : list spec_float) (sum : spec_float) : res spec_float :=
  match ns, fs with
  | n :: ns', af :: fs' =>
      if SFltb af (S754_zero false) then do _ <- atom_name n; Er MarleyErr
      else
        do _ <- (if SFeqb af (S754_zero false) then if lg then atom_name n else Ok [] else Ok []);
        check_doubles lg ns' fs' (SFadd 53 1024 sum af)
  | _, _ => Ok sum
  end.

(** Target.cc 88-96: fill the map. *)
Fixpoint fill_doubles (l : list (Z * spec_float)) (t : list (Z * spec_float)) : res (list (Z * spec_float)) :=
  match l with
  | [] => Ok t
  | (n, f) :: r =>
      match assoc n t with
      | Some _ => do _ <- atom_name n; Er MarleyErr
      | None => fill_doubles r (put n f t)
      end
  end.

(** Target.cc 52-96, initialize. *)
Definition make_target_dbl (lg : bool) (ns : list Z) (fs : list spec_float) : res (list (Z * spec_float)) :=
  if negb (Nat.eqb (length ns) (length fs)) then Er MarleyErr
  else if Nat.eqb (length ns) 0 then Er MarleyErr
  else
    do sum <- check_doubles lg ns fs (S754_zero false);
    if SFleb sum (S754_zero false) then Er MarleyErr
    else fill_doubles (combine ns (map (fun af => SFdiv 53 1024 af sum) fs)) [].

(** Target.cc 98-109, atom_fraction and contains. *)
Definition atom_fraction_dbl (t : list (Z * spec_float)) (n : Z) : spec_float := match assoc n t with Some f => f | None => S754_zero false end.
Definition contains_dbl (t : list (Z * spec_float)) (n : Z) : bool := negb (SFeqb (atom_fraction_dbl t n) (S754_zero false)).
