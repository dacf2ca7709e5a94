(** Particle codes, charges and parities (include/marley/marley_utils.hh,
    include/marley/Parity.hh, src/Parity.cc). *)
From Coq Require Import List Ascii String ZArith Bool Lia.
From Verif Require Import Base Dbl Stream.
Import ListNotations.
Local Open Scope Z_scope.

(** ** Conversions between integer types *)

(** Conversion of a long to int: modulo 2^32 (implementation-defined before
    C++20; gcc and clang do this). *)
Definition to_int (z : Z) : Z := (z + 2 ^ 31) mod 2 ^ 32 - 2 ^ 31.

Definition is_int (z : Z) : Prop := int_min <= z <= int_max.

(** ** PDG codes *)

(** marley_utils.hh: the constants used below. *)
Definition ELECTRON := 11.
Definition ELECTRON_NEUTRINO := 12.
Definition MUON := 13.
Definition MUON_NEUTRINO := 14.
Definition TAU := 15.
Definition TAU_NEUTRINO := 16.
Definition PHOTON := 22.
Definition NEUTRON := 2112.
Definition PROTON := 2212.

(** marley_utils.hh 138-142, get_nucleus_pid. Overflow of int is not modelled:
    the theorems that need it bound Z and A. *)
Definition nucleus_pid (z a : Z) : Z :=
  if (z =? 0) && (a =? 1) then NEUTRON
  else if (z =? 1) && (a =? 1) then PROTON
  else 10000 * z + 10 * a + 1000000000.

(** marley_utils.hh 144-151, get_particle_Z. C++ % and / truncate, and agree
    with floor division here because the operands are positive. *)
Definition particle_Z (pid : Z) : Z :=
  if pid =? PROTON then 1
  else if pid =? NEUTRON then 0
  else if 1000000000 <? pid then (pid mod 10000000) / 10000
  else 0.

(** marley_utils.hh 153-160, get_particle_A. *)
Definition particle_A (pid : Z) : Z :=
  if pid =? PROTON then 1
  else if pid =? NEUTRON then 1
  else if 1000000000 <? pid then (pid mod 10000) / 10
  else 0.

(** marley_utils.hh 176-180, is_lepton. std::abs(INT_MIN) is undefined in C++;
    here it is 2^31, which is not a lepton code either. *)
Definition is_lepton (pdg : Z) : bool :=
  (ELECTRON <=? Z.abs pdg) && (Z.abs pdg <=? TAU_NEUTRINO).

(** marley_utils.hh 187-190, is_ion. *)
Definition is_ion (pdg : Z) : bool :=
  (1000000000 <? pdg) && (pdg <? 2000000000).

(** marley_utils.hh 470-480, particle_electric_charges. *)
Definition charge_table : list (Z * Z) :=
  [(11, -1); (12, 0); (13, -1); (14, 0); (15, -1); (16, 0); (22, 0);
   (2112, 0); (2212, 1)].

Fixpoint assoc {A} (k : Z) (l : list (Z * A)) : option A :=
  match l with
  | [] => None
  | (k', v) :: r => if k =? k' then Some v else assoc k r
  end.

(** marley_utils.hh 483-493, get_particle_charge; unordered_map::at throws
    out_of_range. *)
Definition particle_charge (pid : Z) : res Z :=
  if 1000000000 <? pid then Ok ((pid mod 10000000) / 10000)
  else match assoc (Z.abs pid) charge_table with
       | None => Er StdRange
       | Some q => Ok (if pid <? 0 then q * (-1) else q)
       end.

(** ** Parity *)

(** Parity.hh: a parity is the boolean is_positive_. *)
Notation parity := bool (only parsing).

(** Parity.cc 24-29 (constructor from int) and 34-43 (assignment from int). *)
Definition parity_of_int (i : Z) : res parity :=
  if i =? 1 then Ok true else if i =? -1 then Ok false else Er MarleyErr.

(** Parity.cc 45-50, from_char. *)
Definition parity_of_char (c : ascii) : res parity :=
  if ceq c "+"%char then Ok true
  else if ceq c "-"%char then Ok false
  else Er MarleyErr.

(** Parity.hh 86-89, conversion to int. *)
Definition parity_to_int (p : parity) : Z := if p then 1 else -1.

(** Parity.hh 92-95, to_char; also operator<<, Parity.hh 115-119. *)
Definition parity_to_char (p : parity) : ascii := if p then "+"%char else "-"%char.

(** Parity.hh 47-49, unary minus. *)
Definition parity_neg (p : parity) : parity := negb p.

(** Parity.hh 72-75, product of parities. *)
Definition parity_mul (p q : parity) : parity := eqb p q.

(** Parity.hh 77-81 and 109-113, product with an int. *)
Definition parity_times (p : parity) (i : Z) : Z := if p then i else - i.

(** Parity.hh 62-70, == and !=. *)
Definition parity_eqb (p q : parity) : bool := eqb p q.
Definition parity_neqb (p q : parity) : bool := negb (eqb p q).

(** Parity.cc 52-62, operator>>: the first non-blank character; nothing is
    assigned if the stream fails. *)
Definition rd_parity (s : bytes) : res (option (parity * bytes)) :=
  match rd_char s with
  | None => Ok None
  | Some (c, r) => do p <- parity_of_char c; Ok (Some (p, r))
  end.
