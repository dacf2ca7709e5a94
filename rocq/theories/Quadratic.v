(** Quadratic equations (marley_utils.cc). Numbers are real numbers; a quotient by zero, which is
    infinite or not a number, is no value. *)
From Coq Require Import Reals.
From Verif Require Import Kin.
Local Open Scope R_scope.

Definition quotient (x y : R) : option R := if Req_EM_T y 0 then None else Some (x / y).

(** marley_utils.cc 268-293, solve_quadratic_equation: solPlus and solMinus. *)
Definition solve_quadratic (A B C : R) : option R * option R :=
  match quotient C A, quotient B (2 * A) with
  | Some c, Some b =>
      let discr := b * b - c in
      if Rlt_dec 0 b then let minus := - b - real_sqrt discr in (quotient c minus, Some minus)
      else let plus := - b + real_sqrt discr in (Some plus, quotient c plus)
  | _, _ => (None, None)
  end.
