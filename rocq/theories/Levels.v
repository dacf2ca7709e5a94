(** Nuclear levels, gammas and decay schemes (src/DecayScheme.cc, src/Level.cc,
    include/marley/Gamma.hh). *)
From Coq Require Import List Ascii String ZArith Bool Lia.
From Coq Require Import Floats.SpecFloat.
From Verif Require Import Base Dbl Stream Pdg Event.
Import ListNotations.
Local Open Scope Z_scope.

(** ** Comparing doubles *)

(** Every finite double is a whole number of units of 2^-1074. Comparisons of
    finite doubles are comparisons of these integers. Infinities and NaN are
    given the value 0 and are excluded by the theorems that read numbers. *)
Definition units (x : spec_float) : Z :=
  match x with
  | S754_finite s m e => (if s then -1 else 1) * (Zpos m * 2 ^ (e + 1074))
  | _ => 0
  end.
Definition dlt (x y : spec_float) : bool := units x <? units y.
Definition dle (x y : spec_float) : bool := units x <=? units y.

(** An integer number of units rounded to 53 significant bits, to nearest, ties to
    even: the result of adding or subtracting doubles (overflow not modelled). *)
Definition round53 (z : Z) : Z :=
  let k := Z.max 0 (Z.log2 (Z.abs z) - 52) in
  Z.sgn z * (rne_div (Z.abs z) (2 ^ k) * 2 ^ k).

(** std::abs(x - y), in units. *)
Definition dist (x y : spec_float) : Z := Z.abs (round53 (units x - units y)).

(** ** Levels *)

(** Gamma.hh. Level objects live on the heap and are named by their address; the
    pointer to the start level is not used by any code and left out. *)
Record gamma := mkg { g_energy : spec_float; g_ri : spec_float; g_end : option nat }.

(** Level.hh. *)
Record level := mkl {
  l_energy : spec_float; l_twoJ : Z; l_parity : parity; l_gammas : list gamma
}.

(** DecayScheme.hh: Z, A and the vector of pointers to levels, each shown with the
    level it points to; [s_next] is an address not in use. *)
Record scheme := mksc { s_Z : Z; s_A : Z; s_next : nat; s_levels : list (nat * level) }.

(** DecayScheme.cc 143-145, constructor. *)
Definition new_scheme (z a : Z) : scheme := mksc z a 0 [].

Definition energy_of (p : nat * level) : spec_float := l_energy (snd p).

(** DecayScheme.cc 358-364, level_lower_bound_index. std::lower_bound on a sorted
    range returns the first element that is not less. *)
Fixpoint lower_bound_index (e : spec_float) (l : list (nat * level)) : nat :=
  match l with
  | [] => 0
  | p :: r => if dlt (energy_of p) e then S (lower_bound_index e r) else 0
  end.

Fixpoint insert_at {A} (i : nat) (x : A) (l : list A) : list A :=
  match i, l with
  | S j, y :: r => y :: insert_at j x r
  | _, _ => x :: l
  end.

(** DecayScheme.cc 367-378, add_level; returns the address of the new level. *)
Definition add_level (lev : level) (s : scheme) : nat * scheme :=
  let i := lower_bound_index (l_energy lev) (s_levels s) in
  (s_next s,
   mksc (s_Z s) (s_A s) (S (s_next s)) (insert_at i (s_next s, lev) (s_levels s))).

(** Level.cc 42-64, add_gamma, on the level with address [a]. The discrete
    distribution is rebuilt from the gammas and is a function of them. *)
Definition add_gamma (a : nat) (g : gamma) (s : scheme) : scheme :=
  mksc (s_Z s) (s_A s) (s_next s)
    (map (fun p : nat * level => if Nat.eqb (fst p) a
                   then (fst p, mkl (l_energy (snd p)) (l_twoJ (snd p)) (l_parity (snd p)) (l_gammas (snd p) ++ [g]))
                   else p) (s_levels s)).

(** DecayScheme.cc 35-65, get_pointer_to_closest_level; None is the null pointer. *)
Definition closest_index (e : spec_float) (l : list (nat * level)) : option nat :=
  match l with
  | [] => None
  | _ =>
      let i := lower_bound_index e l in
      if Nat.eqb i (List.length l) then Some (i - 1)%nat
      else match i with
           | O => Some O
           | S j =>
               match nth_error l (S j), nth_error l j with
               | Some p, Some q => if dist e (energy_of q) <? dist e (energy_of p) then Some j else Some (S j)
               | _, _ => None
               end
           end
  end.
Definition closest_level (e : spec_float) (s : scheme) : option (nat * level) :=
  match closest_index e (s_levels s) with Some i => nth_error (s_levels s) i | None => None end.

(** Changes a caller can make through the public interface, apart from writing to
    the energy of a level already in the scheme (Level::set_energy on the reference
    add_level returns would break the order). *)
Inductive edit := AddLevel (lev : level) | AddGamma (a : nat) (g : gamma).
Definition apply_edit (s : scheme) (c : edit) : scheme :=
  match c with AddLevel lev => snd (add_level lev s) | AddGamma a g => add_gamma a g s end.

(** ** Native text format *)

(** Position of a level in the vector; -1 if the pointer is null or not found. *)
Fixpoint index_of (a : nat) (l : list (nat * level)) : option nat :=
  match l with
  | [] => None
  | p :: r => if Nat.eqb (fst p) a then Some O else match index_of a r with Some i => Some (S i) | None => None end
  end.
Definition end_index (l : list (nat * level)) (g : gamma) : Z :=
  match g_end g with
  | Some a => match index_of a l with Some i => Z.of_nat i | None => -1 end
  | None => -1
  end.

Section text.
  (** How the stream prints a double: depends on its precision and flags. *)
  Variable fmt : spec_float -> bytes.

  (** DecayScheme.cc 380-402, print. *)
  Definition print_gamma (ls : list (nat * level)) (g : gamma) : bytes :=
    b "    " ++ fmt (g_energy g) ++ sp ++ fmt (g_ri g) ++ sp ++ show_int (end_index ls g) ++ [nl].
  Definition print_level (ls : list (nat * level)) (p : nat * level) : bytes :=
    b "  " ++ fmt (l_energy (snd p)) ++ sp ++ show_int (l_twoJ (snd p)) ++ sp ++
    [parity_to_char (l_parity (snd p))] ++ sp ++ show_int (len (l_gammas (snd p))) ++ [nl] ++
    flat_map (print_gamma ls) (l_gammas (snd p)).
  Definition print_scheme (s : scheme) : bytes :=
    show_int (s_Z s) ++ sp ++ show_int (s_A s) ++ sp ++ show_int (len (s_levels s)) ++ [nl] ++
    flat_map (print_level (s_levels s)) (s_levels s).
End text.

(** vector::at( int converted to size_t ). *)
Definition level_at (i : Z) (l : list (nat * level)) : res (nat * level) :=
  if i <? 0 then Er StdRange
  else match nth_error l (Z.to_nat i) with Some p => Ok p | None => Er StdRange end.

(** DecayScheme.cc 404-427, read_from_stream. After a failed extraction the C++
    loop goes on with unset or stale values; here that is [Undefined]. *)
Fixpoint read_gammas (n : nat) (a : nat) (sc : scheme) (s : bytes) : res (scheme * bytes) :=
  match n with
  | O => Ok (sc, s)
  | S k =>
      match (olet (e, s1) <- rd_dbl s; olet (ri, s2) <- rd_dbl s1; olet (i, s3) <- rd_int s2; Some (e, ri, i, s3)) with
      | None => Er Undefined
      | Some (e, ri, i, s3) =>
          do p <- level_at i (s_levels sc);
          read_gammas k a (add_gamma a (mkg e ri (Some (fst p))) sc) s3
      end
  end.
Fixpoint read_levels (n : nat) (sc : scheme) (s : bytes) : res (scheme * bytes) :=
  match n with
  | O => Ok (sc, s)
  | S k =>
      match (olet (e, s1) <- rd_dbl s; olet (tj, s2) <- rd_int s1; Some (e, tj, s2)) with
      | None => Er Undefined
      | Some (e, tj, s2) =>
          do r <- rd_parity s2;
          match r with
          | None => Er Undefined
          | Some (pi, s3) =>
              match rd_int s3 with
              | None => Er Undefined
              | Some (ng, s4) =>
                  let '(a, sc1) := add_level (mkl e tj pi []) sc in
                  do (sc2, s5) <- read_gammas (Z.to_nat ng) a sc1 s4;
                  read_levels k sc2 s5
              end
          end
      end
  end.
(** None: the header could not be read, and the scheme is left without levels. *)
Definition read_scheme (sc : scheme) (s : bytes) : res (option (scheme * bytes)) :=
  match (olet (z, s1) <- rd_int s; olet (a, s2) <- rd_int s1; olet (n, s3) <- rd_int s2; Some (z, a, n, s3)) with
  | None => Ok None
  | Some (z, a, n, s3) =>
      do r <- read_levels (Z.to_nat n) (mksc z a (s_next sc) []) s3;
      Ok (Some r)
  end.
