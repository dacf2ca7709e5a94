(** Binary64 numbers and their decimal conversions.

    Values are Coq's [spec_float] (standard library, Floats.SpecFloat), valid for
    precision 53 and maximal exponent 1024. All conversions below are exact
    integer computations followed by one rounding to nearest, ties to even,
    which is what glibc's printf family and strtod do in the default rounding
    mode. *)
From Coq Require Import List Ascii String ZArith Bool Lia.
From Coq Require Import Floats.SpecFloat.
From Verif Require Import Base.
Import ListNotations.
Local Open Scope Z_scope.

(** ** Integers in decimal *)

(** Decimal digits of n >= 0, most significant first, no leading zeros, "0" for
    zero. Models the digits written by operator<< for int and long and by
    std::to_string. *)
Fixpoint digits_fuel (f : nat) (n : Z) (acc : bytes) : bytes :=
  match f with
  | O => acc
  | S f' => if n <? 10 then dig n :: acc
            else digits_fuel f' (n / 10) (dig (n mod 10) :: acc)
  end.
Definition digits (n : Z) : bytes := digits_fuel (S (Z.to_nat (Z.log2 n))) n [].

(** operator<< for int and long. *)
Definition show_int (z : Z) : bytes :=
  if z <? 0 then "-"%char :: digits (- z) else digits z.

(** Value of a string of decimal digits. *)
Definition digits_val (l : bytes) : Z :=
  fold_left (fun a c => 10 * a + undig c) l 0.

(** ** Rounding *)

(** The integer nearest to n/d (d > 0), ties to even. *)
Definition rne_div (n d : Z) : Z :=
  let q := n / d in
  let r := n mod d in
  if 2 * r <? d then q
  else if d <? 2 * r then q + 1
  else if Z.even q then q else q + 1.

(** n/d divided by k^e, as a fraction. *)
Definition scale_num (k n e : Z) : Z := if e <=? 0 then n * k ^ (- e) else n.
Definition scale_den (k d e : Z) : Z := if e <=? 0 then d else d * k ^ e.

(** floor (log2 (n/d)) for n, d > 0. *)
Definition flog2 (n d : Z) : Z :=
  let l := Z.log2 n - Z.log2 d in
  if scale_num 2 n l <? scale_den 2 d l then l - 1 else l.

(** Round the non-negative rational n/d to binary64 (nearest, ties to even),
    with sign [s]; overflow gives infinity. *)
Definition rnd64 (s : bool) (n d : Z) : spec_float :=
  if n <=? 0 then S754_zero s
  else
    let e := Z.max (flog2 n d - 52) (-1074) in
    let m := rne_div (scale_num 2 n e) (scale_den 2 d e) in
    let '(m, e) := if m =? 2 ^ 53 then (2 ^ 52, e + 1) else (m, e) in
    if m <=? 0 then S754_zero s
    else if 971 <? e then S754_infinity s
    else S754_finite s (Z.to_pos m) e.

(** A finite non-zero double is the fraction [dnum/dden] up to sign. *)
Definition dnum (m : positive) (e : Z) : Z := scale_num 2 (Zpos m) (- e).
Definition dden (e : Z) : Z := scale_den 2 1 (- e).

(** floor (log10 (n/d)) for n, d > 0. *)
Definition flog10 (n d : Z) : Z :=
  if d <=? n then Z.of_nat (List.length (digits (n / d))) - 1
  else
    let c := (d + n - 1) / n in  (* ceiling of d/n *)
    - Z.of_nat (List.length (digits (c - 1))).

(** n/d rounded to p significant decimal digits: (D, X) with
    10^(p-1) <= D < 10^p and n/d close to D * 10^(X-p+1). *)
Definition to_dec (p n d : Z) : Z * Z :=
  let x := flog10 n d in
  let D := rne_div (scale_num 10 n (x - p + 1)) (scale_den 10 d (x - p + 1)) in
  if D =? 10 ^ p then (10 ^ (p - 1), x + 1) else (D, x).

(** ** Writing *)

(** Exponent field of printf's %e and %g: sign and at least two digits. *)
Definition show_exp (x : Z) : bytes :=
  (if x <? 0 then "-"%char else "+"%char) ::
  (if Z.abs x <? 10 then "0"%char :: digits (Z.abs x) else digits (Z.abs x)).

Definition sign_str (s : bool) : bytes := if s then ["-"%char] else [].

(** Split a digit string after its first digit: "ddd" -> "d" "." "dd". *)
Definition dot1 (l : bytes) : bytes :=
  match l with [] => [] | c :: r => c :: "."%char :: r end.

(** printf "%.17e", which is what an ostream with std::scientific and
    precision(17) writes (src/Event.cc 226-241, src/OutputFile.cc 357-362). *)
Definition show_e17 (x : spec_float) : bytes :=
  match x with
  | S754_zero s => sign_str s ++ b "0." ++ repeat "0"%char 17 ++ b "e+00"
  | S754_infinity s => sign_str s ++ b "inf"
  | S754_nan => b "nan"
  | S754_finite s m e =>
      let '(D, X) := to_dec 18 (dnum m e) (dden e) in
      sign_str s ++ dot1 (digits D) ++ "e"%char :: show_exp X
  end.

(** Remove trailing '0' characters. *)
Fixpoint strip0 (l : bytes) : bytes :=
  match l with
  | [] => []
  | c :: r => match strip0 r with
              | [] => if ceq c "0"%char then [] else [c]
              | r' => c :: r'
              end
  end.

(** A '.' and the fraction, or nothing if the fraction is empty. *)
Definition frac_str (l : bytes) : bytes :=
  match l with [] => [] | _ => "."%char :: l end.

(** printf "%.17g", which is what an ostream with default float format and
    precision(17) writes (include/marley/JSON.hh 478-483, 546-554). *)
Definition show_g17 (x : spec_float) : bytes :=
  match x with
  | S754_zero s => sign_str s ++ b "0"
  | S754_infinity s => sign_str s ++ b "inf"
  | S754_nan => b "nan"
  | S754_finite s m e =>
      let '(D, X) := to_dec 17 (dnum m e) (dden e) in
      let ds := digits D in
      sign_str s ++
      (if (X <? -4) || (17 <=? X) then
         firstn 1 ds ++ frac_str (strip0 (skipn 1 ds)) ++ "e"%char :: show_exp X
       else if X <? 0 then
         "0"%char :: frac_str (strip0 (repeat "0"%char (Z.to_nat (- X - 1)) ++ ds))
       else
         firstn (Z.to_nat (X + 1)) ds
         ++ frac_str (strip0 (skipn (Z.to_nat (X + 1)) ds)))
  end.

(** ** Reading *)

(** Longest prefix of decimal digits. *)
Fixpoint span_digits (l : bytes) : bytes * bytes :=
  match l with
  | c :: r => if is_digit c then let '(d, t) := span_digits r in (c :: d, t)
              else ([], l)
  | [] => ([], [])
  end.

(** The double nearest to (-1)^s * D * 10^k. *)
Definition dec_to_dbl (s : bool) (D k : Z) : spec_float :=
  rnd64 s (scale_num 10 D (- k)) (scale_den 10 1 (- k)).

(** Numerical value of a finite double times 1, used for products: IEEE
    multiplication is the rounding of the exact product. *)
Definition dbl_mul (x y : spec_float) : spec_float :=
  match x, y with
  | S754_nan, _ | _, S754_nan => S754_nan
  | S754_infinity s, S754_infinity t => S754_infinity (xorb s t)
  | S754_infinity s, S754_finite t _ _ => S754_infinity (xorb s t)
  | S754_finite s _ _, S754_infinity t => S754_infinity (xorb s t)
  | S754_infinity _, S754_zero _ | S754_zero _, S754_infinity _ => S754_nan
  | S754_zero s, S754_zero t => S754_zero (xorb s t)
  | S754_zero s, S754_finite t _ _ => S754_zero (xorb s t)
  | S754_finite s _ _, S754_zero t => S754_zero (xorb s t)
  | S754_finite s m e, S754_finite t m' e' =>
      rnd64 (xorb s t) (dnum m e * dnum m' e') (dden e * dden e')
  end.

(** Conversion of a long to double (to nearest). *)
Definition dbl_of_int (z : Z) : spec_float := rnd64 (z <? 0) (Z.abs z) 1.

Definition dbl_one : spec_float := dbl_of_int 1.

(** std::pow(10, k): modelled as the correctly rounded power of ten. glibc's
    pow is only guaranteed to be within one unit in the last place; it is exact
    for 0 <= k <= 22. *)
Definition dbl_pow10 (k : Z) : spec_float := dec_to_dbl false 1 k.

Definition is_finite_dbl (x : spec_float) : bool :=
  match x with S754_zero _ | S754_finite _ _ _ => true | _ => false end.

Definition valid_dbl (x : spec_float) : bool := valid_binary 53 1024 x.
