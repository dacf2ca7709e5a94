(** The mass table (src/MassTable.cc).

    Numbers are real numbers. Where an estimate for A <= 0 would be NaN in C++ the
    functions below return an arbitrary number; [nan_separation] says when, and is
    used wherever the code compares such a value. *)
From Coq Require Import List ZArith Reals Bool.
From Verif Require Import Base Pdg.
Import ListNotations.
Local Open Scope R_scope.

(** MassTable.hh 185: the conversion factor from micro-amu to MeV. *)
Definition micro_amu : R := 931494061 / 1000000000000.

(** The two lookup tables of a MassTable object, in micro-amu. A later insertion
    shadows an earlier one. *)
Record mtab := mkmt { t_part : list (Z * R); t_atom : list (Z * R) }.

(** MassTable.cc 303-343, assign_masses: insertion of the entries of the data file in
    order. Reading of the JSON elements is not modelled here (see Json.v). *)
Definition assign_masses (entries : list (Z * R)) (m : list (Z * R)) : list (Z * R) :=
  fold_left (fun m e => e :: m) entries m.

(** MassTable.cc 232-262, liquid_drop_model_mass_excess. *)
Definition ldm_excess (Zn A : Z) : R :=
  let N := (A - Zn)%Z in
  let kt := (179 / 100) * (IZR (N - Zn) / IZR A) ^ 2 in
  let c1 := (15677 / 1000) * (1 - kt) in
  let c2 := (1856 / 100) * (1 - kt) in
  let vol := - c1 * IZR A in
  let sur := c2 * Rpower (IZR A) (2 / 3) in
  let coul := ((717 / 1000) / Rpower (IZR A) (1 / 3) - (121129 / 100000) / IZR A) * IZR Zn ^ 2 in
  let delta := if (Z.odd Zn && Z.odd N)%bool then 11 / sqrt (IZR A)
               else if (negb (Z.odd Zn) && negb (Z.odd N))%bool then - 11 / sqrt (IZR A) else 0 in
  (807144 / 100000) * IZR N + (728899 / 100000) * IZR Zn + vol + sur + coul + delta.

(** MassTable.cc 79-81, liquid_drop_model_atomic_mass. *)
Definition ldm_mass (Zn A : Z) : R := ldm_excess Zn A + micro_amu * 1000000 * IZR A.

(** particle_masses_.at(id). *)
Definition part_at (t : mtab) (id : Z) : res R :=
  match assoc id (t_part t) with Some m => Ok m | None => Er StdRange end.

(** MassTable.cc 83-92, get_particle_mass. *)
Definition particle_mass (t : mtab) (id : Z) : res R :=
  let id := if Z.ltb id 0 then (id * -1)%Z else id in
  do m <- part_at t id; Ok (micro_amu * m).

(** MassTable.cc 137-164, lookup_atomic_mass by Z and A: the mass and the flag "exp". *)
Definition lookup_ZA (t : mtab) (Zn A : Z) (theory : bool) : res (R * bool) :=
  match assoc (nucleus_pid Zn A) (t_atom t) with
  | Some m => Ok (m, true)
  | None => if theory then Ok (ldm_mass Zn A, false) else Er MarleyErr
  end.

(** MassTable.cc 103-134, lookup_atomic_mass by code. *)
Definition lookup_pdg (t : mtab) (pdg : Z) (theory : bool) : res (R * bool) :=
  match assoc pdg (t_atom t) with
  | Some m => Ok (m, true)
  | None => if theory then Ok (ldm_mass (particle_Z pdg) (particle_A pdg), false) else Er MarleyErr
  end.

(** MassTable.cc 94-101 and 190-195, get_atomic_mass. *)
Definition atomic_mass (t : mtab) (pdg : Z) (theory : bool) : res R :=
  do (m, exp) <- lookup_pdg t pdg theory; Ok (if exp then m * micro_amu else m).
Definition atomic_mass_ZA (t : mtab) (Zn A : Z) (theory : bool) : res R :=
  do (m, exp) <- lookup_ZA t Zn A theory; Ok (if exp then m * micro_amu else m).

(** MassTable.cc 166-180, get_binding_energy. *)
Definition binding_energy (t : mtab) (Zn A : Z) (theory : bool) : res R :=
  let N := (A - Zn)%Z in
  do mh <- match assoc 1000010010%Z (t_atom t) with Some m => Ok m | None => Er StdRange end;
  do mn <- part_at t NEUTRON;
  do (mN, exp) <- lookup_ZA t Zn A theory;
  Ok (if exp then micro_amu * (IZR Zn * mh + IZR N * mn - mN)
      else micro_amu * (IZR Zn * mh + IZR N * mn) - mN).

(** MassTable.cc 182-188, get_mass_excess. *)
Definition mass_excess (t : mtab) (Zn A : Z) (theory : bool) : res R :=
  do (mN, exp) <- lookup_ZA t Zn A theory;
  Ok (if exp then micro_amu * (mN - IZR A * 1000000) else mN - micro_amu * IZR A * 1000000).

(** MassTable.cc 205-226, get_fragment_separation_energy by Z and A. *)
Definition separation_ZA (t : mtab) (Zn A pid : Z) (theory : bool) : res R :=
  let Zx := particle_Z pid in
  let Zf := (Zn - Zx)%Z in
  let Af := (A - particle_A pid)%Z in
  do me <- part_at t ELECTRON;
  do mp <- part_at t pid;
  let extra := IZR Zx * me + mp in
  do (mi, exp_i) <- lookup_ZA t Zn A theory;
  do (mf, exp_f) <- lookup_ZA t Zf Af theory;
  Ok (if exp_i then
        if exp_f then micro_amu * (mf - mi + extra) else mf + micro_amu * (extra - mi)
      else if exp_f then micro_amu * (mf + extra) - mi
      else micro_amu * extra + mf - mi).

(** MassTable.cc 197-203, by code. *)
Definition separation (t : mtab) (nuc frag : Z) (theory : bool) : res R :=
  separation_ZA t (particle_Z nuc) (particle_A nuc) frag theory.

(** StructureDatabase.cc 363-383: the codes of the fragments considered, in the order
    of the std::map keyed by code. *)
Definition fragment_pdgs : list Z := [2112; 2212; 1000010020; 1000010030; 1000020030; 1000020040]%Z.

(** The liquid drop estimate is NaN for A <= 0 (std::pow of a non-positive base and
    division by zero), so that a separation energy involving such a nuclide is NaN and
    every comparison with it is false. *)
Definition nan_mass (t : mtab) (Zn A : Z) : bool :=
  match assoc (nucleus_pid Zn A) (t_atom t) with Some _ => false | None => Z.leb A 0 end.
Definition nan_separation (t : mtab) (Zn A f : Z) : bool :=
  nan_mass t Zn A || nan_mass t (Zn - particle_Z f) (A - particle_A f).

(** MassTable.cc 275-294, unbound_threshold: [best] starts at the largest double. *)
Fixpoint min_threshold (t : mtab) (Zn A : Z) (best : R) (frags : list Z) : res R :=
  match frags with
  | [] => Ok best
  | f :: r =>
      do s <- separation_ZA t Zn A f true;
      min_threshold t Zn A
        (if nan_separation t Zn A f then best else if Rlt_dec s best then s else best) r
  end.
Definition max_double : R := IZR (2 ^ 1024 - 2 ^ 971).
Definition unbound_threshold (t : mtab) (pdg : Z) : res R :=
  min_threshold t (particle_Z pdg) (particle_A pdg) max_double fragment_pdgs.
