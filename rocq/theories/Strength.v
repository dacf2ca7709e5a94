(** Gamma-ray strength functions: GammaStrengthFunctionModel.cc,
    StandardLorentzianModel.cc, WeisskopfSingleParticleModel.cc. *)
From Coq Require Import ZArith Reals Bool.
From Verif Require Import Base Dbl Stream Pdg Mass XReal.
Open Scope R_scope.

(** GammaStrengthFunctionModel.hh 43, TransitionType. A value outside the enumeration is
    not represented. *)
Inductive trtype := Electric | Magnetic | Unphysical.

(** GammaStrengthFunctionModel.cc 28-33, check_multipolarity. *)
Definition check_multipolarity (l : Z) : res unit := if Z.ltb l 1 then Er MarleyErr else Ok tt.

(** marley_utils.hh 109-124. *)
Definition mb_unit : R := 1 / (389379338 / 1000).
Definition fine_structure : R := 72973525698 / 10 ^ 13.
Definition hbar_c : R := 1973269718 / 10 ^ 7.
Definition radius0 : R := 12 / 10.

(** std::pow with an integer exponent; 0 to a negative power is infinite. *)
Definition xpowz (x : R) (n : Z) : xr :=
  if Req_EM_T x 0 then (if Z.ltb n 0 then Inf false else Fin (powerRZ x n)) else Fin (powerRZ x n).

(** ** The standard Lorentzian model *)

Record slo := mkslo {
  l_A : Z; e_E1 : R; g_E1 : R; s_E1 : R; e_E2 : R; g_E2 : R; s_E2 : R; e_M1 : R; g_M1 : R; s_M1 : R
}.

(** StandardLorentzianModel.cc 126-128. *)
Definition lorentzian (sigma gamma e : R) (l : Z) (eg : R) : R :=
  sigma * gamma ^ 2 / (IZR (2 * l + 1) * PI ^ 2 * ((eg ^ 2 - e ^ 2) ^ 2 + eg ^ 2 * gamma ^ 2)).

(** StandardLorentzianModel.cc 98 and 109: for (i = from; i < l; ++i) sigma *= 8e-4. *)
Fixpoint scaled (sigma : R) (n : nat) : R := match n with O => sigma | S n => scaled (sigma * (8 / 10 ^ 4)) n end.
Definition scale_from (sigma : R) (from l : Z) : R := scaled sigma (Z.to_nat (l - from)).

(** StandardLorentzianModel.cc 70-131, strength_function_coefficient. *)
Definition slo_coeff (m : slo) (ty : trtype) (l : Z) (eg : R) : res R :=
  do _ <- check_multipolarity l;
  match ty with
  | Electric =>
      if Z.eqb l 1 then Ok (lorentzian (s_E1 m) (g_E1 m) (e_E1 m) l eg)
      else Ok (lorentzian (scale_from (s_E2 m) 2 l) (g_E2 m) (e_E2 m) l eg)
  | Magnetic => Ok (lorentzian (scale_from (s_M1 m) 1 l) (g_M1 m) (e_M1 m) l eg)
  | Unphysical => Ok 0
  end.

(** StandardLorentzianModel.cc 133-138, strength_function. *)
Definition slo_strength (m : slo) (ty : trtype) (l : Z) (eg : R) : res xr :=
  do c <- slo_coeff m ty l eg; Ok (xmul (xpowz eg (3 - 2 * l)) (Fin c)).

(** StandardLorentzianModel.cc 140-146, transmission_coefficient. *)
Definition slo_T (m : slo) (ty : trtype) (l : Z) (eg : R) : res R :=
  do c <- slo_coeff m ty l eg; Ok (2 * PI * c * eg ^ 4).

(** StandardLorentzianModel.cc 29-68, the constructor. The call of strength_function for
    electric dipole radiation at 7 MeV uses the parameters set before it. For A <= 0, where
    std::pow has no value, the numbers here mean nothing. *)
Definition new_slo (Zn A : Z) : slo :=
  let e1 := (312 / 10) * Rpower (IZR A) (- 1 / 3) + (206 / 10) * Rpower (IZR A) (- 1 / 6) in
  let g1 := (26 / 1000) * Rpower e1 (191 / 100) in
  let s1 := (12 / 10) * 120 * IZR (A - Zn) * IZR Zn / (IZR A * PI * g1) * mb_unit in
  let e2 := 63 * Rpower (IZR A) (- 1 / 3) in
  let g2 := (611 / 100) - (12 / 1000) * IZR A in
  let s2 := (14 / 10 ^ 5) * IZR Zn ^ 2 * e2 / (Rpower (IZR A) (1 / 3) * g2) * mb_unit in
  let ref := 7 in
  let factor := (ref * lorentzian s1 g1 e1 1 ref) / ((588 / 10 ^ 4) * Rpower (IZR A) (878 / 1000)) in
  let gm := 4 in
  let em := 41 * Rpower (IZR A) (- 1 / 3) in
  let sm := ((ref ^ 2 - em ^ 2) ^ 2 + ref ^ 2 * gm ^ 2) * (3 * PI ^ 2 * factor) / (ref * gm ^ 2) in
  mkslo A e1 g1 s1 e2 g2 s2 em gm sm.

(** ** The Weisskopf single-particle model *)

Record wsp := mkwsp { w_A : Z; w_D0 : R }.

(** WeisskopfSingleParticleModel.cc 25-32, the constructor. *)
Definition new_wsp (A : Z) (D0 : R) : res wsp := if Rle_dec D0 0 then Er MarleyErr else Ok (mkwsp A D0).

(** WeisskopfSingleParticleModel.cc 49-50: int dfact = 1; for (n = 2l+1; n > 0; n -= 2)
    dfact *= n; the multiplication is undefined once it leaves the range of int. *)
Fixpoint dfact_loop (fuel : nat) (n dfact : Z) : res Z :=
  match fuel with
  | O => Er NoFuel
  | S f => if Z.ltb 0 n then (if Z.leb (dfact * n) int_max then dfact_loop f (n - 2) (dfact * n) else Er Undefined) else Ok dfact
  end.

(** WeisskopfSingleParticleModel.cc 43-83, strength_function. [mp] is the proton's mass.
    2*l + 1 beyond the range of int is not represented: the loop fails before. *)
Definition wsp_strength (mp : R) (w : wsp) (ty : trtype) (l : Z) : res R :=
  do _ <- check_multipolarity l;
  do dfact <- dfact_loop (Z.to_nat l + 3) (2 * l + 1) 1;
  let lambda := (IZR l + 1) / (IZR l * IZR dfact ^ 2) * (3 / (IZR l + 3)) ^ 2 in
  let radius := radius0 * Rpower (IZR (w_A w)) (1 / 3) in
  let el := 2 * fine_structure * lambda * powerRZ (radius / hbar_c) (2 * l) / w_D0 w in
  match ty with
  | Electric => Ok el
  | Magnetic => Ok (10 * el * (hbar_c / (mp * radius)) ^ 2)
  | Unphysical => Ok 0
  end.

(** WeisskopfSingleParticleModel.cc 85-90, transmission_coefficient. *)
Definition wsp_T (mp : R) (w : wsp) (ty : trtype) (l : Z) (eg : R) : res R :=
  do f <- wsp_strength mp w ty l; Ok (2 * PI * f * powerRZ eg (2 * l + 1)).

(** WeisskopfSingleParticleModel.cc 36-41, partial_decay_width. *)
Definition wsp_width (mp : R) (w : wsp) (ty : trtype) (l : Z) (eg : R) : res R :=
  do f <- wsp_strength mp w ty l; Ok (w_D0 w * powerRZ eg (2 * l + 1) * f).
