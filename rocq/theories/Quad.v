(** Integrator.cc: numerical integration by Clenshaw-Curtis quadrature, over the real
    numbers (no rounding, no infinities). *)
From Coq Require Import List Reals.
From Verif Require Import Base Sample.
Import ListNotations.
Open Scope R_scope.

(** Integrator.cc 37-42: the sum over k of the pieces of weight n. *)
Definition weight_piece (N n k : nat) : R :=
  let piece := cos (INR n * INR k * PI / INR N) / (1 - (2 * INR k) ^ 2) in
  if Nat.eqb k 0 then piece else if Nat.eqb k N then piece else piece * 2.

(** Integrator.cc 35-44, weights_. *)
Definition weight (N n : nat) : R := sumR (map (weight_piece N n) (seq 0 (S N))) / INR N.

(** Integrator.cc 28-33: the value of arg after n additions. *)
Fixpoint offset_arg (N n : nat) : R := match n with O => 0 | S m => offset_arg N m + PI / 2 / INR N end.

(** Integrator.cc 32: offsets_[n - 1], for 1 <= n <= N - 1. *)
Definition offset (N n : nat) : R := cos (offset_arg N n).

(** Integrator.cc 47-64, for N >= 1 (for N = 0 the constructor asks for a vector of
    2^64 - 1 numbers and throws). *)
Definition num_integrate (N : nat) (f : R -> R) (a b : R) : R :=
  let A := (b - a) / 2 in
  let B := (b + a) / 2 in
  let C := (f a + f b) / 2 in
  A * (weight N 0 * C + weight N N * f B +
       sumR (map (fun n => weight N n * (f (B + A * offset N n) + f (B - A * offset N n))) (seq 1 (N - 1)))).

(** marley_utils.cc 253-260: the integrator used throughout has N = 50. *)
Definition utils_integrate (f : R -> R) (a b : R) : R := num_integrate 50 f a b.
