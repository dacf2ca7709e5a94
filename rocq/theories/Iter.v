(** Iterators over a member of the objects that a vector points at, and the searches and copies
    made with them (include/marley/IteratorToPointerMember.hh,
    include/marley/IteratorToMember.hh, src/DecayScheme.cc, src/Level.cc, src/ExitChannel.cc). *)
From Coq Require Import List ZArith Bool.
From Coq Require Import Floats.SpecFloat.
From Verif Require Import Base Dbl Levels.
Import ListNotations.
Local Open Scope Z_scope.

Section iterators.
  (** The vector, whose entries are pointers (None is null), and the member that the iterator
      is made for. A vector of objects is a vector of pointers none of which is null. *)
  Context {Obj R : Type} (mem : Obj -> R) (v : list (option Obj)).

  (** An iterator is the position of the contained iterator, m_it
      (IteratorToPointerMember.hh 85 and IteratorToMember.hh 79; the member is the same for all). *)
  Definition iter := Z.

  (** IteratorToPointerMember.hh 94-96, IteratorToMember.hh 87-89, operator*. Beyond the end, before
      the beginning and at a null pointer it is undefined. *)
  Definition deref (i : iter) : res R :=
    if i <? 0 then Er Undefined
    else match nth_error v (Z.to_nat i) with Some (Some o) => Ok (mem o) | _ => Er Undefined end.

  (** IteratorToPointerMember.hh 108-138, IteratorToMember.hh 101-131: +, +=, - and -= with a number (n, or
      its negative) and the prefix operators (1 and -1). A vector's iterator must stay between the
      beginning and the end. *)
  Definition advance (i : iter) (n : Z) : res iter :=
    if (i + n <? 0) || (Z.of_nat (List.length v) <? i + n) then Er Undefined else Ok (i + n).

  (** IteratorToPointerMember.hh 140-162, IteratorToMember.hh 133-155, postfix ++ and --: what is returned, and the
      iterator afterwards. *)
  Definition post (i : iter) (n : Z) : res (iter * iter) := do j <- advance i n; Ok (i, j).

  (** IteratorToPointerMember.hh 76-83, IteratorToMember.hh 68-76: difference and comparison. *)
  Definition minus (i j : iter) : Z := i - j.
  Definition equal (i j : iter) : bool := i =? j.

  (** libstdc++'s std::lower_bound with these iterators: distance by operator-, std::advance by
      operator+=, the comparison *middle < value, and the prefix operator++. *)
  Fixpoint search (less : R -> bool) (fuel : nat) (first : iter) (len : Z) : res iter :=
    match fuel with
    | O => Er NoFuel
    | S fuel =>
        if 0 <? len then
          let half := Z.shiftr len 1 in
          do middle <- advance first half;
          do x <- deref middle;
          if less x then do first <- advance middle 1; search less fuel first (len - half - 1)
          else search less fuel first half
        else Ok first
    end.

  (** Copying the range, as the constructor of std::discrete_distribution does with its weights: up
      to the end, by !=, operator* and operator++ (Level.cc 55-63 and ExitChannel.cc 480-491). *)
  Fixpoint collect (fuel : nat) (i e : iter) : res (list R) :=
    match fuel with
    | O => Er NoFuel
    | S fuel =>
        if equal i e then Ok []
        else do x <- deref i; do j <- advance i 1; do r <- collect fuel j e; Ok (x :: r)
    end.
End iterators.

(** DecayScheme.cc 358-364, level_lower_bound_index, with the iterators of Level.hh 135-140 over the
    vector of pointers to levels. Doubles are compared as IEEE 754 says. *)
Definition pointers (ls : list (nat * level)) : list (option level) := map (fun p => Some (snd p)) ls.
Definition searched_index (e : spec_float) (ls : list (nat * level)) : res Z :=
  let n := Z.of_nat (List.length ls) in
  do i <- search l_energy (pointers ls) (fun x => SFltb x e) (S (List.length ls)) 0 (minus n 0);
  Ok (minus i 0).

(** DecayScheme.cc 367-378, add_level, by that search. *)
Definition searched_add (lev : level) (s : scheme) : res scheme :=
  do i <- searched_index (l_energy lev) (s_levels s);
  Ok (mksc (s_Z s) (s_A s) (S (s_next s)) (insert_at (Z.to_nat i) (s_next s, lev) (s_levels s))).
Definition searched_edit (s : scheme) (c : edit) : res scheme :=
  match c with AddLevel lev => searched_add lev s | AddGamma a g => Ok (add_gamma a g s) end.
Fixpoint searched_edits (s : scheme) (cs : list edit) : res scheme :=
  match cs with [] => Ok s | c :: cs => do s' <- searched_edit s c; searched_edits s' cs end.
