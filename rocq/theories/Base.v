(** Shared definitions of the MARLEY model: byte strings, outcomes of C++
    functions, character classes. *)
From Coq Require Import List Ascii String ZArith Bool Lia.
Import ListNotations.

(** A file, stream or std::string is a list of bytes. *)
Notation bytes := (list ascii).

(** Literal bytes from a Coq string literal. *)
Definition b (s : string) : bytes := list_ascii_of_string s.

(** How a C++ function can end, apart from returning a value:
    - [MarleyErr]  : throws marley::Error (include/marley/Error.hh 31-57)
    - [StdInvalid] : throws std::invalid_argument (std::stol, std::stod)
    - [StdRange]   : throws std::out_of_range (std::stol, std::stod, .at())
    - [StdOther]   : throws another exception class (std::range_error, ...)
    - [Undefined]  : undefined behaviour
    - [NoFuel]     : artefact of the model: the fuel of a recursive function ran
      out. Theorems show it does not happen for the fuel the model supplies. *)
Inductive err := MarleyErr | StdInvalid | StdRange | StdOther | Undefined | NoFuel.

Inductive res (A : Type) : Type :=
| Ok (a : A)
| Er (e : err).
Arguments Ok {A} a.
Arguments Er {A} e.

Definition bind {A B} (r : res A) (f : A -> res B) : res B :=
  match r with Ok a => f a | Er e => Er e end.
Notation "'do' x <- r ; k" := (bind r (fun x => k))
  (at level 200, x pattern, r at level 100, k at level 200).

Definition code (c : ascii) : Z := Z.of_N (N_of_ascii c).
Definition chr (z : Z) : ascii := ascii_of_N (Z.to_N z).

Definition ceq := Ascii.eqb.

(** The C locale's std::isspace, as used throughout MARLEY: space, \t, \n, \v,
    \f, \r. For bytes above 127 (negative char, formally undefined in C) and
    for EOF glibc returns false. *)
Definition is_space (c : ascii) : bool :=
  let z := code c in ((9 <=? z) && (z <=? 13) || (z =? 32))%Z.

Definition is_digit (c : ascii) : bool :=
  let z := code c in ((48 <=? z) && (z <=? 57))%Z.

(** Decimal digit character of 0 <= d <= 9, and back. *)
Definition dig (d : Z) : ascii := chr (48 + d).
Definition undig (c : ascii) : Z := (code c - 48)%Z.

Definition nl : ascii := chr 10.
Definition spaces (n : nat) : bytes := repeat " "%char n.

(** Keep these folded under cbn and simpl. *)
Arguments ceq : simpl never.
Arguments code : simpl never.
Arguments chr : simpl never.
Arguments is_space : simpl never.
Arguments is_digit : simpl never.
Arguments dig : simpl never.
Arguments undig : simpl never.
