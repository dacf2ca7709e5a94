(** Real numbers with infinities and NaN: what double arithmetic returns, apart from
    rounding, overflow and the sign of zero (a zero is taken to be +0). Used where the code
    divides by a difference that may vanish or takes a logarithm of a value that may not
    be positive. *)
From Coq Require Import Reals Bool.
Open Scope R_scope.

Inductive xr := Fin (r : R) | Inf (neg : bool) | NaN.

(** IEEE 754 addition. *)
Definition xadd (a b : xr) : xr :=
  match a, b with
  | NaN, _ | _, NaN => NaN
  | Fin x, Fin y => Fin (x + y)
  | Inf s, Inf t => if eqb s t then Inf s else NaN
  | Inf s, Fin _ | Fin _, Inf s => Inf s
  end.

Definition xopp (a : xr) : xr := match a with Fin x => Fin (- x) | Inf s => Inf (negb s) | NaN => NaN end.
Definition xsub (a b : xr) : xr := xadd a (xopp b).

(** The sign of a non-zero number; zero has no sign here. *)
Definition inf_times (s : bool) (y : R) : xr :=
  if Rlt_dec 0 y then Inf s else if Rlt_dec y 0 then Inf (negb s) else NaN.

(** IEEE 754 multiplication. *)
Definition xmul (a b : xr) : xr :=
  match a, b with
  | NaN, _ | _, NaN => NaN
  | Fin x, Fin y => Fin (x * y)
  | Inf s, Inf t => Inf (xorb s t)
  | Inf s, Fin y => inf_times s y
  | Fin x, Inf t => inf_times t x
  end.

(** IEEE 754 division, with a divisor of zero taken to be +0. *)
Definition xdiv (a b : xr) : xr :=
  match a, b with
  | NaN, _ | _, NaN => NaN
  | Fin x, Fin y => if Req_EM_T y 0 then inf_times false x else Fin (x / y)
  | Fin _, Inf _ => Fin 0
  | Inf s, Fin y => if Rlt_dec y 0 then Inf (negb s) else Inf s
  | Inf _, Inf _ => NaN
  end.

(** C 7.12.6.7, std::log. *)
Definition xlog (a : xr) : xr :=
  match a with
  | Fin x => if Rlt_dec 0 x then Fin (ln x) else if Req_EM_T x 0 then Inf true else NaN
  | Inf false => Inf false
  | _ => NaN
  end.

(** C 7.12.6.1, std::exp. *)
Definition xexp (a : xr) : xr :=
  match a with Fin x => Fin (exp x) | Inf true => Fin 0 | Inf false => Inf false | NaN => NaN end.

(** C 7.12.7.4, std::pow, for a finite base and exponent. A negative base is NaN unless
    the exponent is an integer, a case not distinguished here: see the users. *)
Definition xpow (x y : R) : xr :=
  if Rlt_dec 0 x then Fin (Rpower x y)
  else if Req_EM_T x 0 then (if Req_EM_T y 0 then Fin 1 else if Rlt_dec 0 y then Fin 0 else Inf false)
  else NaN.
