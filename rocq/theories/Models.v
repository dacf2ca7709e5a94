(** The statistical model with MARLEY's own nuclear models: what Decay.v leaves open is
    filled in from Dens.v, Optical.v, Strength.v, Quad.v and Cheb.v. *)
From Coq Require Import List ZArith Reals Bool.
From Verif Require Import Base Pdg Mass XReal Dens Strength Optical Quad Sample Cheb Decay.
Import ListNotations.
Open Scope R_scope.

(** StructureDatabase.cc 228-251, get_level_density_model, with the calls of level_density
    (HauserFeshbachDecay.cc 49-50, ExitChannel.cc 263 and 352). A density that is not finite,
    or a model that cannot be made because a mass is missing, counts as zero here. *)
Definition own_rho (t : mtab) (n : Z) (E : R) (J : Z) (P : bool) : R :=
  match new_bfg t (particle_Z n) (particle_A n) with
  | Ok m => match snd (parity_density m NaN E J P) with Fin r => r | _ => 0 end
  | Er _ => 0
  end.

(** StructureDatabase.cc 192-209, get_optical_model, with the calls of transmission_coefficient
    (ExitChannel.cc 129-130 and 260-261), which leave the target's charge at zero. [H] is
    coulomb_H_plus, [fuel] bounds the steps of the wave function. What throws counts as zero
    here. No result depends on the contents of the object (C69_history). *)
Definition own_T (H : Z -> R -> R -> option cpx) (fuel : nat) (t : mtab) (n : Z) (K : R) (f two_j l two_s : Z) : R :=
  let k := new_kd (particle_Z n) (particle_A n) default_step in
  match snd (om_T H fuel t k (mkkst 0 0 0 0 0 (om_parameters k 0 f 0 0 0)) K f two_j l two_s 0) with
  | Ok T => T
  | Er _ => 0
  end.

(** StructureDatabase.cc 253-282, get_gamma_strength_function_model, with the calls of
    transmission_coefficient (ExitChannel.cc 200 and 351). What throws counts as zero here. *)
Definition own_TX (n : Z) (electric : bool) (l : Z) (E : R) : R :=
  match slo_T (new_slo (particle_Z n) (particle_A n)) (if electric then Electric else Magnetic) l E with
  | Ok T => T
  | Er _ => 0
  end.

(** ExitChannel.cc 430-438: the cumulative distribution made from 65 Chebyshev points. *)
Definition own_cdf (f : R -> R) (lo hi : R) : R -> R :=
  match build f lo hi 64 with Ok g => evaluate (cdf g) | Er _ => fun _ => 0 end.

(** Everything together, for a mass table, level schemes, fragments and the limits on
    angular momenta (StructureDatabase.hh 160-172); the tolerance is that of Generator.hh
    101. *)
Definition own_env (H : Z -> R -> R -> option cpx) (fuel : nat) (t : mtab) (scheme : Z -> option rscheme)
    (frags : list (Z * (Z * bool))) (flmax glmax : Z) : env :=
  mkenv t scheme frags (own_rho t) (own_T H fuel t) own_TX flmax glmax utils_integrate own_cdf (1 / 10 ^ 12).
