(** Random sampling (src/Generator.cc 173-265 and 462-511, and the standard library
    distributions it calls). Real numbers stand for doubles. What the random number
    engine would produce is a parameter: a number of the unit interval per draw. *)
From Coq Require Import List ZArith Reals.
From Verif Require Import Base.
Import ListNotations.
Local Open Scope R_scope.

(** Generator.cc 173-199, uniform_random_double. [u] is in [0,1) for the half-open
    form and in [0,1] for the inclusive one, whose upper bound the code moves to the
    next double. *)
Definition uniform (lo hi u : R) : R := u * (hi - lo) + lo.

(** std::discrete_distribution, as implemented in libstdc++ (random.tcc): fewer than
    two weights always give 0; otherwise the weights are divided by their sum, their
    partial sums formed with the last one set to 1, and the first partial sum not less
    than the draw is taken. *)
Fixpoint sumR (ws : list R) : R := match ws with [] => 0 | w :: r => w + sumR r end.

Fixpoint first_not_less (ws : list R) (tot acc u : R) (i : nat) : nat :=
  match ws with
  | [] => i
  | [w] => i
  | w :: r => if Rle_dec u ((acc + w) / tot) then i else first_not_less r tot (acc + w) u (S i)
  end.

Definition discrete (ws : list R) (u : R) : nat := first_not_less ws (sumR ws) 0 u 0.

(** Generator.cc 219-265, rejection_sample, once fmax is known: the accepted point
    and the final estimate of the maximum. [draws n] are the two numbers of the nth
    turn. *)
Fixpoint rejection (f : R -> R) (lo hi fmax safety : R) (draws : nat -> R * R) (turn fuel : nat)
  : res (R * R) :=
  match fuel with
  | O => Er NoFuel
  | S fuel' =>
      let x := uniform lo hi (fst (draws turn)) in
      let y := uniform 0 fmax (snd (draws turn)) in
      let v := f x in
      let fmax' := if Rlt_dec fmax v then v * safety else fmax in
      if Rlt_dec v y then rejection f lo hi fmax' safety draws (S turn) fuel' else Ok (x, fmax')
  end.

(** Generator.cc 219-241: with the value UNKNOWN_MAX (None) the maximum is searched
    for first. [maximum] is the value found by marley_utils::maximize. *)
Definition rejection_sample (f : R -> R) (lo hi : R) (fmax : option R) (safety maximum : R)
    (draws : nat -> R * R) (fuel : nat) : res (R * R) :=
  rejection f lo hi (match fmax with Some m => m | None => maximum * safety end) safety draws 0 fuel.

(** Generator.cc 496-507: the bisection loop. *)
Fixpoint bisect (F : R -> R) (norm prob tol a b : R) (fuel : nat) : res R :=
  match fuel with
  | O => Er NoFuel
  | S fuel' =>
      if Rlt_dec tol (b - a) then
        let m := (a + b) / 2 in
        let c := F m / norm in
        if Req_EM_T c prob then Ok m
        else if Rlt_dec prob c then bisect F norm prob tol a m fuel'
        else bisect F norm prob tol m b fuel'
      else Ok ((a + b) / 2)
  end.

(** Generator.cc 478-511, inverse_transform_sample from a cumulative distribution
    function. *)
Definition inverse_transform (F : R -> R) (lo hi tol prob : R) (fuel : nat) : res R :=
  if Req_EM_T prob 0 then Ok lo
  else if Req_EM_T prob 1 then Ok hi
  else bisect F (F hi) prob tol lo hi fuel.
