(** Total cross sections as doubles: Generator.cc 555-616 and 641-668 with rounding, infinities
    and NaN. *)
From Coq Require Import List ZArith Bool.
From Coq Require Import Floats.SpecFloat.
From Verif Require Import Base Pdg Dbl SampleDbl TargetDbl.
Import ListNotations.

(** Reaction.hh 60-100: what the generator asks of a reaction. The cross section is an arbitrary
    function of the projectile and its kinetic energy. *)
Record rxn_dbl := mkrxn_dbl { dx_atom : Z; dx_proj : Z; dx_xs : Z -> spec_float -> spec_float }.

(** Generator.cc 560-590, total_xs for one kind of atom: the sum and the two lists. [j] is the
    index of the first reaction of [rx]. *)
Fixpoint total_dbl_loop (rx : list rxn_dbl) (pdg : Z) (E : spec_float) (atom : Z) (j : nat) (s : spec_float) (is : list nat) (ws : list spec_float)
  : spec_float * list nat * list spec_float :=
  match rx with
  | [] => (s, is, ws)
  | r :: rest =>
      if negb (Z.eqb atom (dx_atom r)) then total_dbl_loop rest pdg E atom (S j) s is ws
      else if negb (Z.eqb pdg (dx_proj r)) then total_dbl_loop rest pdg E atom (S j) s is ws
      else
        let x := dx_xs r pdg E in
        if SFltb (S754_zero false) x then total_dbl_loop rest pdg E atom (S j) (SFadd 53 1024 s x) (is ++ [j]) (ws ++ [x])
        else total_dbl_loop rest pdg E atom (S j) s is ws
  end.
Definition total_xs_dbl (rx : list rxn_dbl) (pdg : Z) (E : spec_float) (atom : Z) : spec_float * list nat * list spec_float :=
  total_dbl_loop rx pdg E atom 0 (S754_zero false) [] [].

(** Generator.cc 593-614: create_event for given initial particles, up to the choice of the
    reaction with the draw [u]. *)
Definition pick_dbl (rx : list rxn_dbl) (pdg : Z) (E : spec_float) (atom : Z) (u : spec_float) : res nat :=
  let '(tot, is, ws) := total_xs_dbl rx pdg E atom in
  if match ws with [] => true | _ :: _ => false end || SFleb tot (S754_zero false) then Er MarleyErr
  else match nth_error is (dbl_choice ws u) with
       | None => Er StdRange
       | Some i => match nth_error rx i with None => Er StdRange | Some _ => Ok i end
       end.

(** Generator.cc 641-668, total_xs: the cross section averaged over the target, if there is one. *)
Fixpoint average_dbl_loop (t : option (list (Z * spec_float))) (rx : list rxn_dbl) (pdg : Z) (E : spec_float) (s : spec_float) : spec_float :=
  match rx with
  | [] => s
  | r :: rest =>
      let x := dx_xs r pdg E in
      let y := match t with Some t' => SFmul 53 1024 x (atom_fraction_dbl t' (dx_atom r)) | None => x end in
      average_dbl_loop t rest pdg E (SFadd 53 1024 s y)
  end.
Definition average_xs_dbl (t : option (list (Z * spec_float))) (rx : list rxn_dbl) (pdg : Z) (E : spec_float) : spec_float :=
  average_dbl_loop t rx pdg E (S754_zero false).
