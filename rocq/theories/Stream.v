(** Formatted input with operator>> on std::istream (libstdc++), as used by the
    readers of ASCII and HEPEVT events, decay schemes and reaction tables.

    A stream is the list of bytes not yet read. A reader returns [None] when it
    sets failbit; every later read then fails too, which [None] models because
    readers are chained with [obind]. Simplification: eofbit alone is not
    tracked; a read at the end of the bytes fails, which has the same effect. *)
From Coq Require Import List Ascii String ZArith Bool Lia.
From Coq Require Import Floats.SpecFloat.
From Verif Require Import Base Dbl.
Import ListNotations.
Local Open Scope Z_scope.

Definition obind {A B} (r : option A) (f : A -> option B) : option B :=
  match r with Some a => f a | None => None end.
Notation "'olet' x <- r ; k" := (obind r (fun x => k))
  (at level 200, x pattern, r at level 100, k at level 200).

(** The sentry of a formatted input function: skip white space. *)
Fixpoint skip_sp (s : bytes) : bytes :=
  match s with
  | c :: r => if is_space c then skip_sp r else s
  | [] => []
  end.

(** Optional sign of a number; both signs are accepted. *)
Definition take_sign (s : bytes) : bool * bytes :=
  match s with
  | c :: r => if ceq c "-"%char then (true, r)
              else if ceq c "+"%char then (false, r) else (false, s)
  | [] => (false, [])
  end.

Definition int_min := (- 2 ^ 31)%Z.
Definition int_max := (2 ^ 31 - 1)%Z.

(** operator>> for a signed integer type with range [lo, hi] (num_get, base 10):
    failbit if there is no digit or the value does not fit. *)
Definition rd_num (lo hi : Z) (s : bytes) : option (Z * bytes) :=
  let '(neg, r) := take_sign (skip_sp s) in
  match span_digits r with
  | ([], _) => None
  | (ds, t) =>
      let z := if neg then - digits_val ds else digits_val ds in
      if (z <? lo) || (hi <? z) then None else Some (z, t)
  end.

(** operator>> for int. *)
Definition rd_int := rd_num int_min int_max.

(** The exponent field accepted by num_get after a mantissa: 'e' or 'E', an
    optional sign and digits. Once the 'e' is read, missing digits are an error. *)
Definition rd_exp (s : bytes) : option (Z * bytes) :=
  match s with
  | c :: r =>
      if ceq c "e"%char || ceq c "E"%char then
        let '(neg, r1) := take_sign r in
        match span_digits r1 with
        | ([], _) => None
        | (ds, t) => Some (if neg then - digits_val ds else digits_val ds, t)
        end
      else Some (0, s)
  | [] => Some (0, s)
  end.

(** operator>> for double (libstdc++ num_get::_M_extract_float followed by
    strtod): sign, digits with at most one '.', exponent. failbit if there is no
    digit in the mantissa, if an exponent mark has no digits, or on overflow.
    Underflow is not an error. "inf" and "nan" are not accepted. *)
Definition rd_dbl (s : bytes) : option (spec_float * bytes) :=
  let '(neg, r) := take_sign (skip_sp s) in
  let '(ip, r1) := span_digits r in
  let '(fp, r2) := match r1 with
                   | c :: r' => if ceq c "."%char then span_digits r' else ([], r1)
                   | [] => ([], r1)
                   end in
  match ip ++ fp with
  | [] => None
  | ds =>
      olet (x, t) <- rd_exp r2;
      let v := dec_to_dbl neg (digits_val ds) (x - Z.of_nat (List.length fp)) in
      if is_finite_dbl v then Some (v, t) else None
  end.

(** operator>> for char. *)
Definition rd_char (s : bytes) : option (ascii * bytes) :=
  match skip_sp s with c :: r => Some (c, r) | [] => None end.
