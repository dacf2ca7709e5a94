(** Inverse transform sampling on doubles. *)
From Coq Require Import ZArith List Bool.
Import ListNotations.
From Coq Require Import Floats.SpecFloat.
From Verif Require Import Base.

Definition dbl_one : spec_float := S754_finite false 4503599627370496 (-52).
Definition dbl_two : spec_float := S754_finite false 4503599627370496 (-51).

(** Generator.cc 500 and 509: the midpoint of two doubles. *)
Definition dbl_mid (a b : spec_float) : spec_float := SFdiv 53 1024 (SFadd 53 1024 a b) dbl_two.

(** Generator.cc 495-510: the bisection. [F] is the evaluation of the cumulative function
    (ChebyshevInterpolatingFunction.hh 40-60), any function of doubles here. *)
Fixpoint dbl_bisect (F : spec_float -> spec_float) (norm prob tol a b : spec_float) (fuel : nat) : res spec_float :=
  match fuel with
  | O => Er NoFuel
  | S fuel' =>
      if SFltb tol (SFsub 53 1024 b a) then
        let m := dbl_mid a b in
        let c := SFdiv 53 1024 (F m) norm in
        if SFeqb c prob then Ok m
        else if SFltb prob c then dbl_bisect F norm prob tol a m fuel'
        else dbl_bisect F norm prob tol m b fuel'
      else Ok (dbl_mid a b)
  end.

(** Generator.cc 478-511, inverse_transform_sample, with the draw as an argument. *)
Definition dbl_inverse (F : spec_float -> spec_float) (lo hi tol prob : spec_float) (fuel : nat) : res spec_float :=
  if SFeqb prob (S754_zero false) then Ok lo
  else if SFeqb prob dbl_one then Ok hi
  else dbl_bisect F (F hi) prob tol lo hi fuel.

(** ** Draws *)

(** Generator.cc 190, nextafter( x, std::numeric_limits<double>::max() ) of C's library on
    finite doubles: the next larger one, the largest one staying what it is. *)
Definition next_up (x : spec_float) : spec_float :=
  match x with
  | S754_zero _ => S754_finite false 1 (-1074)
  | S754_finite false m e =>
      if Pos.eqb m 9007199254740991 then
        if Z.eqb e 971 then x else S754_finite false 4503599627370496 (e + 1)
      else S754_finite false (m + 1) e
  | S754_finite true m e =>
      if Pos.eqb m 4503599627370496 && negb (Z.eqb e (-1074)) then S754_finite true 9007199254740991 (e - 1)
      else if Pos.eqb m 1 then S754_zero true
      else S754_finite true (m - 1) e
  | _ => x
  end.

(** Generator.cc 173-199, uniform_random_double. [u] is the number in [0,1) that
    std::generate_canonical makes of the generator's output; the rest of the expression is
    libstdc++'s uniform_real_distribution: u * (b - a) + a. *)
Definition dbl_uniform (lo hi : spec_float) (inclusive : bool) (u : spec_float) : spec_float :=
  let top := if inclusive then next_up hi else hi in
  SFadd 53 1024 (SFmul 53 1024 u (SFsub 53 1024 top lo)) lo.

(** libstdc++'s std::partial_sum. *)
Fixpoint dbl_sums (acc : spec_float) (l : list spec_float) : list spec_float :=
  match l with
  | [] => []
  | x :: r => let s := SFadd 53 1024 acc x in s :: dbl_sums s r
  end.
Definition dbl_partial_sums (l : list spec_float) : list spec_float :=
  match l with [] => [] | x :: r => x :: dbl_sums x r end.

(** libstdc++'s std::lower_bound on [len] elements from [first] on: the halving search.
    [less i] tells whether element [i] is below the value looked for. *)
Fixpoint lower_bound (less : nat -> bool) (first len fuel : nat) : nat :=
  match fuel with
  | O => first
  | S fuel' =>
      match len with
      | O => first
      | _ =>
          let half := Nat.div2 len in
          let mid := (first + half)%nat in
          if less mid then lower_bound less (S mid) (len - half - 1) fuel'
          else lower_bound less first half fuel'
      end
  end.

(** Generator.hh 172-190, sample_from_distribution with a std::discrete_distribution, as at
    Generator.cc 370-372 and 611-613, NuclearReaction.cc 242-247 and 340-343, Level.cc 36,
    HauserFeshbachDecay.cc 253-255 and ExitChannel.cc 491-492. The distribution is libstdc++'s:
    weights divided by their sum, partial sums of the quotients, the last one set to 1. *)
Definition dbl_table (ws : list spec_float) : list spec_float :=
  let sum := fold_left (SFadd 53 1024) ws (S754_zero false) in
  removelast (dbl_partial_sums (map (fun w => SFdiv 53 1024 w sum) ws)) ++ [dbl_one].
Definition dbl_choice (ws : list spec_float) (u : spec_float) : nat :=
  match ws with
  | [] | [_] => 0%nat
  | _ => let cp := dbl_table ws in
         lower_bound (fun i => SFltb (nth i cp (S754_zero false)) u) 0 (length cp) (length cp)
  end.
