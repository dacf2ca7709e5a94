(** The Fermi function (src/NuclearReaction.cc 118-150) and the complex gamma function it
    uses (src/marley_utils.cc 110-144). Real numbers stand for doubles. *)
From Coq Require Import List ZArith Reals.
From Verif Require Import Base React NucReact.
Import ListNotations.
Local Open Scope R_scope.

(** std::complex<double>, with the operations used. The code's operators and functions are
    those of the C++ standard library, given here by their mathematical definitions. *)
Record cx := mkcx { re : R; im : R }.
Definition cadd (a b : cx) : cx := mkcx (re a + re b) (im a + im b).
Definition cmul (a b : cx) : cx := mkcx (re a * re b - im a * im b) (re a * im b + im a * re b).
Definition cnorm (a : cx) : R := re a ^ 2 + im a ^ 2.
Definition cinv (a : cx) : cx := mkcx (re a / cnorm a) (- im a / cnorm a).
Definition cscale (x : R) (a : cx) : cx := mkcx (x * re a) (x * im a).
Definition cexp (a : cx) : cx := mkcx (exp (re a) * cos (im a)) (exp (re a) * sin (im a)).
Definition csin (a : cx) : cx := mkcx (sin (re a) * cosh (im a)) (cos (re a) * sinh (im a)).

(** std::log for a number with a positive real part, the only ones met here. *)
Definition clog (a : cx) : cx := mkcx (1 / 2 * ln (cnorm a)) (atan (im a / re a)).
Definition cpow (a w : cx) : cx := cexp (cmul w (clog a)).

(** marley_utils.cc 122-127: the constants pi and p. *)
Definition gamma_pi : R := 31415926535897932384626433832795028841972 / 10 ^ 40.
Definition lanczos : list R :=
  [99999999999980993 / 10 ^ 17; 6765203681218851 / 10 ^ 13; - (12591392167224028 / 10 ^ 13); 77132342877765313 / 10 ^ 14;
   - (17661502916214059 / 10 ^ 14); 12507343278686905 / 10 ^ 15; - (13857109526572012 / 10 ^ 17); 99843695780195716 / 10 ^ 22; 15056327351493116 / 10 ^ 23].

(** marley_utils.cc 135-139: the loop over j, from [j] on. *)
Fixpoint lanczos_sum (z : cx) (j : Z) (ps : list R) (x : cx) : cx :=
  match ps with
  | [] => x
  | p :: r => lanczos_sum z (j + 1) r (cadd x (cscale p (cinv (cadd z (mkcx (IZR j) 0)))))
  end.

(** marley_utils.cc 133-143: the case of a real part from one half on. *)
Definition gamma_right (z : cx) : cx :=
  let z := cadd z (mkcx (-1) 0) in
  let x := match lanczos with [] => mkcx 0 0 | p0 :: ps => lanczos_sum z 1 ps (mkcx p0 0) end in
  let t := cadd z (mkcx (7 + 1 / 2) 0) in
  cmul (cmul (cmul (mkcx (sqrt (2 * gamma_pi)) 0) (cpow t (cadd z (mkcx (1 / 2) 0)))) (cexp (cscale (-1) t))) x.

(** marley_utils.cc 115-144, gamma. The number 1 - z of the recursive call has a real part
    over one half, so the call goes no deeper. *)
Definition gamma (z : cx) : cx :=
  if Rlt_dec (re z) (1 / 2) then
    cscale gamma_pi (cinv (cmul (csin (cscale gamma_pi z)) (gamma_right (cadd (mkcx 1 0) (cscale (-1) z)))))
  else gamma_right z.

(** NuclearReaction.cc 122-150, fermi_function, for a speed strictly between 0 and 1 and a
    residue with alpha * Z below 1 (for others the code gives an infinity or NaN). [tgamma] is
    the gamma function of the C library. *)
Definition fermi_function (tgamma : R -> R) (n : nuc) (beta : R) : R :=
  let c_minus := Z.ltb 0 (r_c (n_r n)) in
  let gamma_c := Rpower (1 - beta * beta) (- (1 / 2)) in
  let s := sqrt (1 - (alpha * IZR (code_Z (r_d (n_r n)))) ^ 2) in
  let rho := radius (code_A (r_d (n_r n))) in
  let eta := alpha * IZR (code_Z (r_d (n_r n))) / beta in
  let eta := if c_minus then eta else eta * -1 in
  let b := tgamma (1 + 2 * s) in
  2 * (1 + s) * Rpower (2 * beta * gamma_c * rho * n_mc n) (2 * s - 2) * exp (PI * eta) * cnorm (gamma (mkcx s eta)) / b ^ 2.
