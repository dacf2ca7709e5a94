(** The level density model: BackshiftedFermiGasModel.cc and .hh. *)
From Coq Require Import ZArith Reals Bool.
From Verif Require Import Base Pdg Mass XReal.
Open Scope R_scope.

(** BackshiftedFermiGasModel.hh 68-82: the members, apart from sigma_. *)
Record bfg := mkbfg { b_Z : Z; b_A : Z; b_atilde : R; b_gamma : R; b_dW : R; b_Delta : R; b_sigd : R; b_Sn : R }.

(** BackshiftedFermiGasModel.cc 23-58, the constructor. sigma_ is not initialised.
    For A <= 1 the separation energy is NaN unless the mass of what is left is in the table;
    the theorems are for A >= 2. *)
Definition new_bfg (t : mtab) (Zn A : Z) : res bfg :=
  let N := (A - Zn)%Z in
  let A_third := Rpower (IZR A) (1 / 3) in
  let a_tilde := (722396 / 10 ^ 7) * IZR A + (195267 / 10 ^ 6) * A_third ^ 2 in
  let gamma := (410289 / 10 ^ 6) / A_third in
  do ex <- mass_excess t Zn A true;
  let dW := ex - ldm_excess Zn A in
  let global := 173015 / 10 ^ 6 in
  let Delta := if (Z.odd Zn && Z.odd N)%bool then global + - 12 / sqrt (IZR A)
               else if (negb (Z.odd Zn) && negb (Z.odd N))%bool then global + 12 / sqrt (IZR A) else global in
  let sigd := (83 / 100) * Rpower (IZR A) (26 / 100) in
  do sn <- separation_ZA t Zn A NEUTRON true;
  Ok (mkbfg Zn A a_tilde gamma dW Delta sigd sn).

(** BackshiftedFermiGasModel.cc 79-90: the level density parameter. *)
Definition density_parameter (m : bfg) (Ex : R) : R :=
  let U := Ex - b_Delta m in
  if Rle_dec U 0 then b_atilde m * (1 + b_gamma m * b_dW m)
  else b_atilde m * (1 + (b_dW m / U) * (1 - exp (- b_gamma m * U))).

(** BackshiftedFermiGasModel.hh 58-66. The argument of the square root is not negative where
    this is used: the case of a negative [a] is split off below, and U is positive. *)
Definition sigma_F2 (m : bfg) (Ex a : R) : R :=
  (1389 / 10 ^ 5) * Rpower (IZR (b_A m)) (5 / 3) * sqrt (a * (Ex - b_Delta m)) / b_atilde m.

(** BackshiftedFermiGasModel.cc 105-121: the square of the spin cut-off parameter above the
    energy shift, before its root is taken; Ed is zero. *)
Definition cutoff2 (m : bfg) (Ex a : R) : R :=
  if Rle_dec (b_Sn m) Ex then sigma_F2 m Ex a
  else
    let s := sigma_F2 m (b_Sn m) a in
    let sd2 := b_sigd m ^ 2 in
    sd2 + (Ex - 0) * (s - sd2) / (b_Sn m - 0).

(** BackshiftedFermiGasModel.cc 77-134, level_density(Ex): the new value of sigma_ and the
    result. Above the energy shift (U > 0): if the level density parameter is negative its
    product with U has no root; if it vanishes, e^(-1)/a is infinite; a negative argument of
    the root for sigma_ gives NaN, and zero an infinite density. A separation energy of
    exactly zero together with a negative excitation energy is counted as NaN. *)
Definition total_density (m : bfg) (sigma0 : xr) (Ex : R) : xr * xr :=
  let U := Ex - b_Delta m in
  let a := density_parameter m Ex in
  if Rle_dec U 0 then (Fin (b_sigd m), Fin (exp 1 * a / (12 * b_sigd m)))
  else if Rlt_dec a 0 then (NaN, NaN)
  else
    let s2 := cutoff2 m Ex a in
    if (if Rle_dec (b_Sn m) Ex then false else if Req_EM_T (b_Sn m) 0 then true else false) then (NaN, NaN)
    else if Rlt_dec s2 0 then (NaN, NaN)
    else
      let sigma := sqrt s2 in
      if Req_EM_T a 0 then (Fin sigma, if Req_EM_T sigma 0 then NaN else Fin 0)
      else
        let aU := a * U in
        let d := 12 * sigma * (sqrt (2 * sqrt aU) * U * exp (-2 * sqrt aU) + exp (- aU - 1) / a) in
        (Fin sigma, if Req_EM_T sigma 0 then Inf false else Fin (/ d)).

(** BackshiftedFermiGasModel.cc 67-74, level_density(Ex, two_J): uses sigma_ as the call of
    level_density(Ex) left it. With sigma_ = 0 the factor is an infinity times zero. *)
Definition spin_density (m : bfg) (sigma0 : xr) (Ex : R) (two_J : Z) : xr * xr :=
  let '(sigma, rho) := total_density m sigma0 Ex in
  (sigma,
   match sigma, rho with
   | Fin s, Fin r =>
       if Req_EM_T s 0 then NaN
       else let two_sigma2 := 2 * s ^ 2 in
            Fin ((IZR (two_J + 1) / two_sigma2) * exp (- (25 / 100) * IZR (two_J + 1) ^ 2 / two_sigma2) * r)
   | _, _ => NaN
   end).

(** BackshiftedFermiGasModel.cc 61-65, level_density(Ex, two_J, Pi): the parity is not used. *)
Definition parity_density (m : bfg) (sigma0 : xr) (Ex : R) (two_J : Z) (P : bool) : xr * xr :=
  let '(sigma, rho) := spin_density m sigma0 Ex two_J in (sigma, xmul (Fin (1 / 2)) rho).

(** Calls on one object. *)
Inductive ldcall := LTotal (Ex : R) | LSpin (Ex : R) (two_J : Z) | LParity (Ex : R) (two_J : Z) (P : bool).
Definition ldstep (m : bfg) (sigma0 : xr) (c : ldcall) : xr * xr :=
  match c with
  | LTotal Ex => total_density m sigma0 Ex
  | LSpin Ex J => spin_density m sigma0 Ex J
  | LParity Ex J P => parity_density m sigma0 Ex J P
  end.
