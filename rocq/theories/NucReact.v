(** Cross sections and events of single reactions (src/NuclearReaction.cc,
    src/ElectronReaction.cc, include/marley/MatrixElement.hh).

    Doubles are real numbers: no rounding, NaN or infinity. The code replaces a NaN
    partial cross section by zero (NuclearReaction.cc 447-456); that branch has no
    counterpart here. *)
From Coq Require Import List ZArith Reals Rpower String.
From Verif Require Import Base Pdg React Kin Sample.
Import ListNotations.
Local Open Scope R_scope.

(** marley_utils.hh 62-75 and 109-126. *)
Definition GF : R := 116637 / 10 ^ 16.
Definition Vud : R := 97427 / 10 ^ 5.
Definition sin2thetaw : R := 23155 / 10 ^ 5.
Definition alpha : R := 72973525698 / 10 ^ 13.
Definition hbar_c : R := 1973269718 / 10 ^ 7.
Definition r0 : R := 12 / 10.

(** MatrixElement.hh: tabulated energy, strength, type (0 is Fermi, 1 is
    Gamow-Teller) and, for a discrete level, its energy, doubled spin and parity. *)
Record rme := mkrme { me_en : R; me_str : R; me_type : Z; me_lev : option (R * Z * bool) }.

(** MatrixElement.hh 77-84, level_energy. *)
Definition me_energy (m : rme) : R :=
  match me_lev m with Some (e, _, _) => e | None => me_en m end.

(** MatrixElement.hh 141-157, cos_theta_pdf. *)
Definition cos_pdf (ty : Z) (c beta : R) : res R :=
  if Z.eqb ty 0 then Ok (1 / 2 * (1 + beta * c))
  else if Z.eqb ty 1 then Ok (1 / 2 * ((3 - beta * c) / 3))
  else Er MarleyErr.

(** NuclearReaction.hh, CoulombMode. *)
Inductive cmode := NoCorrection | FermiFunction | EMA | MEMA | FermiAndEMA | FermiAndMEMA.

(** NuclearReaction.cc 37-46, coulomb_mode_string_map_, in the order of the map. *)
Definition cmode_names : list (cmode * string) :=
  [(NoCorrection, "none"%string); (FermiFunction, "Fermi"%string); (EMA, "EMA"%string);
   (MEMA, "MEMA"%string); (FermiAndEMA, "Fermi-EMA"%string); (FermiAndMEMA, "Fermi-MEMA"%string)].

(** NuclearReaction.cc 738-746, coulomb_mode_from_string. *)
Definition cmode_of_string (s : string) : res cmode :=
  match find (fun p => String.eqb s (snd p)) cmode_names with
  | Some (m, _) => Ok m
  | None => Er MarleyErr
  end.

(** NuclearReaction.cc 749-754, string_from_coulomb_mode. *)
Definition cmode_eqb (a b : cmode) : bool :=
  match a, b with
  | NoCorrection, NoCorrection | FermiFunction, FermiFunction | EMA, EMA | MEMA, MEMA
  | FermiAndEMA, FermiAndEMA | FermiAndMEMA, FermiAndMEMA => true
  | _, _ => false
  end.
Definition string_of_cmode (m : cmode) : res string :=
  match find (fun p => cmode_eqb m (fst p)) cmode_names with
  | Some (_, s) => Ok s
  | None => Er MarleyErr
  end.

(** A NuclearReaction object: codes and charges, the masses of a, b, c and of the
    residue's ground state, the Coulomb mode and the matrix elements. *)
Record nuc := mknuc {
  n_r : reaction; n_ma : R; n_mb : R; n_mc : R; n_mdgs : R; n_mode : cmode; n_mes : list rme
}.

(** NuclearReaction.cc 110-111 (the same formula in ElectronReaction.cc 55-56). *)
Definition threshold (ma mb mc md : R) : R := ((mc + md) ^ 2 - (ma + mb) ^ 2) / (2 * mb).

(** NuclearReaction.cc 157-168, max_level_energy. *)
Definition max_level_energy (n : nuc) (KEa : R) : R :=
  sqrt ((n_ma n + n_mb n) ^ 2 + 2 * n_mb n * KEa) - n_mc n - n_mdgs n.

(** NuclearReaction.cc 53-61, nuclear_radius_natural_units. *)
Definition radius (A : Z) : R := r0 * Rpower (IZR A) (1 / 3) / hbar_c.

(** NuclearReaction.cc 650-706, ema_factor: the factor and the ok flag. *)
Definition ema_factor (n : nuc) (beta : R) (modified : bool) : R * bool :=
  let minus_c := Z.ltb 0 (r_c (n_r n)) in
  let Rn := radius (code_A (r_d (n_r n))) in
  let Vc := (-3 * IZR (code_Z (r_d (n_r n))) * alpha) / (2 * Rn) in
  let Vc := if minus_c then Vc else - Vc in
  let gam := 1 / sqrt (1 - beta ^ 2) in
  let E := gam * n_mc n in
  let p := beta * E in
  let Eeff := E - Vc in
  let ok := if Rle_dec (n_mc n) Eeff then true else false in
  let peff := real_sqrt (Eeff ^ 2 - n_mc n * n_mc n) in
  ((if modified then (peff * Eeff) / (p * E) else (peff / p) ^ 2), ok).

(** NuclearReaction.cc 592-646, coulomb_correction_factor. [fermi] stands for the
    Fermi function of the reaction (118-150): the theorems of this part hold for any
    function of the relative speed, and Fermi.v gives the one of the code. *)
Definition coulomb_factor (n : nuc) (fermi : R -> R) (beta : R) : res R :=
  match n_mode n with
  | NoCorrection => Ok 1
  | FermiFunction => Ok (fermi beta)
  | EMA => let (f, ok) := ema_factor n beta false in if ok then Ok f else Er MarleyErr
  | MEMA => let (f, ok) := ema_factor n beta true in if ok then Ok f else Er MarleyErr
  | FermiAndEMA =>
      let (f, ok) := ema_factor n beta false in
      if ok then Ok (if Rlt_dec (Rabs (fermi beta - 1)) (Rabs (f - 1)) then fermi beta else f)
      else Ok (fermi beta)
  | FermiAndMEMA =>
      let (f, ok) := ema_factor n beta true in
      if ok then Ok (if Rlt_dec (Rabs (fermi beta - 1)) (Rabs (f - 1)) then fermi beta else f)
      else Ok (fermi beta)
  end.

(** NuclearReaction.cc 711-716, weak_nuclear_charge. *)
Definition weak_charge (n : nuc) : R :=
  let Z := code_Z (r_b (n_r n)) in
  let A := code_A (r_b (n_r n)) in
  IZR (A - Z) - (1 - 4 * sin2thetaw) * IZR Z.

(** NuclearReaction.cc 474-545, total_xs for one matrix element with
    check_max_E_level false: the cross section and the ejectile's speed. *)
Definition level_xs (n : nuc) (fermi : R -> R) (KEa : R) (me : rme) : res (R * R) :=
  if Req_EM_T (me_str me) 0 then Ok (0, 0)
  else
    let md2 := (n_mdgs n + me_energy me) ^ 2 in
    let s := (n_ma n + n_mb n) ^ 2 + 2 * n_mb n * KEa in
    let rs := sqrt s in
    let Eb := (s + n_mb n * n_mb n - n_ma n * n_ma n) / (2 * rs) in
    let Ec := (s + n_mc n * n_mc n - md2) / (2 * rs) in
    let pc := real_sqrt (Ec ^ 2 - n_mc n * n_mc n) in
    let beta := pc / Ec in
    let Ed := rs - Ec in
    let dot := Ed * Ec + pc ^ 2 in
    let brel := real_sqrt (dot ^ 2 - n_mc n * n_mc n * md2) / dot in
    let xs := (GF * GF / PI) * (Eb * Ed / s) * Ec * pc * me_str me in
    match r_proc (n_r n) with
    | NeutrinoCC | AntiNeutrinoCC =>
        do f <- coulomb_factor n fermi brel;
        Ok (xs * (Vud * Vud * f), beta)
    | NC => Ok (if Z.eqb (me_type me) 0 then xs * (1 / 4 * weak_charge n ^ 2) else xs, beta)
    | NuElectronElastic => Er MarleyErr
    end.

(** NuclearReaction.cc 421-468: the loop of summed_xs_helper. The result is the list
    of partial cross sections pushed. A differential cross section is asked for with
    [Some cos]. *)
Fixpoint partial_xs (n : nuc) (fermi : R -> R) (KEa : R) (diff : option R) (mes : list rme) : res (list R) :=
  match mes with
  | [] => Ok []
  | me :: r =>
      if Rlt_dec (max_level_energy n KEa) (me_energy me) then Ok []
      else if Req_EM_T (me_str me) 0 then partial_xs n fermi KEa diff r
      else
        do (xs, beta) <- level_xs n fermi KEa me;
        do w <- match diff with
                | None => Ok xs
                | Some c => do f <- cos_pdf (me_type me) c beta; Ok (xs * f)
                end;
        do ws <- partial_xs n fermi KEa diff r;
        Ok (w :: ws)
  end.

(** NuclearReaction.cc 399-470, summed_xs_helper: the weights and their sum. The
    vector passed in is empty in every call. *)
Definition summed_xs (n : nuc) (fermi : R -> R) (pdg : Z) (KEa : R) (diff : option R) : res (list R * R) :=
  if negb (Z.eqb pdg (r_a (n_r n))) then Ok ([], 0)
  else if match diff with Some c => if Rlt_dec 1 (Rabs c) then true else false | None => false end
  then Ok ([], 0)
  else if Rle_dec KEa 0 then Ok ([], 0)
  else do ws <- partial_xs n fermi KEa diff (n_mes n); Ok (ws, sumR ws).

(** NuclearReaction.cc 370-382, total_xs and diff_xs. *)
Definition nuc_total_xs (n : nuc) fermi pdg KEa : res R :=
  do (_, t) <- summed_xs n fermi pdg KEa None; Ok t.
Definition nuc_diff_xs (n : nuc) fermi pdg KEa c : res R :=
  do (_, t) <- summed_xs n fermi pdg KEa (Some c); Ok t.

(** Generator.hh 90: the default safety factor. *)
Definition default_safety : R := 101 / 100.

(** NuclearReaction.cc 548-573, sample_cos_theta_c_cm. *)
Definition sample_cos (ty : Z) (beta : R) (draws : nat -> R * R) (fuel : nat) : res R :=
  do top <- (if Z.eqb ty 0 then cos_pdf ty 1 beta
             else if Z.eqb ty 1 then cos_pdf ty (-1) beta
             else Er MarleyErr);
  let f := fun c => match cos_pdf ty c beta with Ok v => v | Er _ => 0 end in
  do (x, _) <- rejection_sample f (-1) 1 (Some top) default_safety 0 draws fuel;
  Ok x.

(** NuclearReaction.cc 333-338: the spins allowed for a Gamow-Teller transition from
    doubled spin [t], in steps of two from |t-2| to t+2. *)
Definition gt_spins (t : Z) : list Z :=
  let lo := Z.abs (t - 2) in
  map (fun i => lo + 2 * Z.of_nat i)%Z (seq 0 (Z.to_nat ((t + 2 - lo) / 2 + 1))).

(** NuclearReaction.cc 293-350: spin and parity of the residue. [gs] is the target's
    ground state from the structure database, [ld] its level density model. *)
Definition residue_spin (me : rme) (gs : Z * bool) (ld : R -> Z -> bool -> R) (u : R) : res (Z * bool) :=
  let (tgs, Pgs) := gs in
  match me_lev me with
  | Some (_, t, P) => Ok (t, P)
  | None =>
      if Z.eqb (me_type me) 0 then Ok (tgs, Pgs)
      else if Z.eqb (me_type me) 1 then
        if Z.eqb tgs 0 then Ok (2%Z, Pgs)
        else
          let ts := gt_spins tgs in
          let ws := map (fun t => ld (me_energy me) t Pgs) ts in
          match nth_error ts (discrete ws u) with
          | Some t => Ok (t, Pgs)
          | None => Er StdRange
          end
      else Er MarleyErr
  end.

(** The random numbers of one event. *)
Record draws := mkdr { d_level : R; d_cos : nat -> R * R; d_phi : R; d_spin : R }.

Definition ids_of (r : reaction) : Z * Z * Z * Z := (r_a r, r_b r, r_c r, r_d r).
Definition charges_of (r : reaction) : Z * Z * Z * Z := (r_qa r, r_qb r, r_qc r, r_qd r).

(** NuclearReaction.cc 175-366, create_event. *)
Definition nuc_create (n : nuc) (fermi : R -> R) (gs : res (Z * bool)) (ld : R -> Z -> bool -> R)
    (pdg : Z) (KEa : R) (d : draws) (fuel : nat) : res kevent :=
  if negb (Z.eqb pdg (r_a (n_r n))) then Er MarleyErr
  else if Rlt_dec KEa (threshold (n_ma n) (n_mb n) (n_mc n) (n_mdgs n)) then Er StdOther
  else
    do (ws, tot) <- summed_xs n fermi pdg KEa None;
    match ws with
    | [] => Er MarleyErr
    | _ =>
        if Rle_dec tot 0 then Er MarleyErr
        else
          match nth_error (n_mes n) (discrete ws (d_level d)) with
          | None => Er StdRange
          | Some me =>
              let k := mkmass (n_ma n) (n_mb n) (n_mc n) (n_mdgs n + me_energy me) in
              let '(s, Ec, pc, Ed) := two_two_scatter k KEa in
              do ct <- sample_cos (me_type me) (pc / Ec) (d_cos d) fuel;
              let phi := uniform 0 (2 * PI) (d_phi d) in
              do g <- gs;
              do (twoJ, P) <- residue_spin me g ld (d_spin d);
              make_event_object k (ids_of (n_r n)) (charges_of (n_r n)) KEa pc ct phi Ec Ed (me_energy me) twoJ P
          end
    end.

(** ** Electrons *)

(** An ElectronReaction object: codes and charges, masses, the couplings and the
    proton number of the atom. *)
Record elec := mkel { l_r : reaction; l_k : masses; l_g1 : R; l_g2 : R; l_Z : Z }.

(** ElectronReaction.cc 59-84, set_coupling_constants. *)
Definition couplings (a : Z) : res (R * R) :=
  if Z.eqb a 12 then Ok (1 / 2 + sin2thetaw, sin2thetaw)
  else if Z.eqb a (-12) then Ok (sin2thetaw, 1 / 2 + sin2thetaw)
  else if (Z.eqb a 14 || Z.eqb a 16)%bool then Ok (- (1 / 2) + sin2thetaw, sin2thetaw)
  else if (Z.eqb a (-14) || Z.eqb a (-16))%bool then Ok (sin2thetaw, - (1 / 2) + sin2thetaw)
  else Er MarleyErr.

(** ElectronReaction.cc 29-57, the constructor; [mass_of] is the mass table. *)
Definition new_electron_reaction (mass_of : Z -> R) (a Z : Z) : res elec :=
  do r <- electron_reaction a;
  do (g1, g2) <- couplings a;
  Ok (mkel r (mkmass (mass_of (r_a r)) (mass_of (r_b r)) (mass_of (r_c r)) (mass_of (r_d r))) g1 g2 Z).

Definition el_threshold (l : elec) : R :=
  threshold (k_ma (l_k l)) (k_mb (l_k l)) (k_mc (l_k l)) (k_md (l_k l)).

Definition el_s (l : elec) (KEa : R) : R := (k_ma (l_k l) + k_mb (l_k l)) ^ 2 + 2 * k_mb (l_k l) * KEa.
Definition el_Ec (l : elec) (KEa : R) : R :=
  (el_s l KEa + k_mc (l_k l) * k_mc (l_k l) - k_md (l_k l) * k_md (l_k l)) / (2 * sqrt (el_s l KEa)).

(** ElectronReaction.cc 86-115, total_xs. *)
Definition el_total_xs (l : elec) (pdg : Z) (KEa : R) : R :=
  if negb (Z.eqb pdg (r_a (l_r l))) then 0
  else if Rlt_dec KEa (el_threshold l) then 0
  else
    let r := k_md (l_k l) * k_md (l_k l) / el_s l KEa in
    let g := l_g2 l * l_g2 l / 3 in
    (4 / PI) * (GF * el_Ec l KEa) ^ 2 *
      (l_g1 l ^ 2 + (g - l_g1 l * l_g2 l) * r + g * (1 + r ^ 2)) * IZR (l_Z l).

(** ElectronReaction.cc 117-149, diff_xs. *)
Definition el_diff_xs (l : elec) (pdg : Z) (KEa c : R) : R :=
  if negb (Z.eqb pdg (r_a (l_r l))) then 0
  else if Rlt_dec KEa (el_threshold l) then 0
  else
    let r := k_md (l_k l) * k_md (l_k l) / el_s l KEa in
    let terms := l_g1 l ^ 2 + l_g1 l * l_g2 l * r * (c - 1)
                 + (l_g2 l * (1 + 1 / 2 * (1 - r) * (c - 1))) ^ 2 in
    (2 / PI) * (GF * el_Ec l KEa) ^ 2 * terms * IZR (l_Z l).

(** ElectronReaction.cc 172-200: the maximum used for rejection sampling. *)
Definition el_max (l : elec) (pdg : Z) (KEa s : R) : R :=
  let r := k_md (l_k l) * k_md (l_k l) / s in
  let B := 1 / 2 * (l_g2 l * (1 - r)) ^ 2 in
  let A := l_g1 l * l_g2 l * r + l_g2 l * l_g2 l * (1 - r) - B in
  let cth := - A / B in
  let ends := Rmax (el_diff_xs l pdg KEa (-1)) (el_diff_xs l pdg KEa 1) in
  if Rle_dec (-1) cth then if Rle_dec cth 1 then Rmax ends (el_diff_xs l pdg KEa cth) else ends else ends.

(** ElectronReaction.cc 153-216, create_event. *)
Definition el_create (l : elec) (pdg : Z) (KEa : R) (d : draws) (fuel : nat) : res kevent :=
  if negb (Z.eqb pdg (r_a (l_r l))) then Er MarleyErr
  else if Rlt_dec KEa (el_threshold l) then Er MarleyErr
  else
    let '(s, Ec, pc, Ed) := two_two_scatter (l_k l) KEa in
    do (ct, _) <- rejection_sample (el_diff_xs l pdg KEa) (-1) 1 (Some (el_max l pdg KEa s))
                    default_safety 0 (d_cos d) fuel;
    make_event_object (l_k l) (ids_of (l_r l)) (charges_of (l_r l)) KEa pc ct
      (uniform 0 (2 * PI) (d_phi d)) Ec Ed 0 1 true.
