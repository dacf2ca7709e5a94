(** The particles of a reaction (src/Reaction.cc, src/NuclearReaction.cc,
    src/ElectronReaction.cc). *)
From Coq Require Import List Ascii String ZArith Bool Lia.
From Verif Require Import Base Pdg Names.
Import ListNotations.
Local Open Scope Z_scope.

(** Reaction.hh 46-51, ProcessType. *)
Inductive proc := NeutrinoCC | AntiNeutrinoCC | NC | NuElectronElastic.

(** static_cast<ProcType>( integer ): a code outside 0..3 is none of the
    enumerators. *)
Definition proc_of_int (i : Z) : option proc :=
  if i =? 0 then Some NeutrinoCC
  else if i =? 1 then Some AntiNeutrinoCC
  else if i =? 2 then Some NC
  else if i =? 3 then Some NuElectronElastic
  else None.

(** Reaction.cc 47-67, proc_type_to_nu_pdg; 283-285 get_projectiles. *)
Definition projectiles (pt : proc) : list Z :=
  match pt with
  | NeutrinoCC => [12; 14; 16]
  | AntiNeutrinoCC => [-12; -14; -16]
  | NC | NuElectronElastic => [12; 14; 16; -12; -14; -16]
  end.

(** Reaction.cc 258-277, get_ejectile_pdg. *)
Definition ejectile (a : Z) (pt : proc) : res Z :=
  if existsb (Z.eqb a) (projectiles pt) then
    match pt with
    | NeutrinoCC => Ok (a - 1)
    | AntiNeutrinoCC => Ok (a + 1)
    | NC => Ok a
    | NuElectronElastic => Ok a
    end
  else Er MarleyErr.

(** Reaction.cc 402-435: the residue and its charge. *)
Definition residue (pt : proc) (pdg_b : Z) : res (Z * Z) :=
  let zi := particle_Z pdg_b in
  let a := particle_A pdg_b in
  match pt with
  | NC => Ok (pdg_b, 0)
  | NeutrinoCC =>
      let ni := a - zi in
      if ni <=? 0 then Er MarleyErr else Ok (nucleus_pid (zi + 1) a, 1)
  | AntiNeutrinoCC => if zi <=? 0 then Er MarleyErr else Ok (nucleus_pid (zi - 1) a, -1)
  | NuElectronElastic => Er MarleyErr
  end.

(** The particle codes stored in a reaction, and the charges its events give the
    four particles. *)
Record reaction := mkr {
  r_proc : proc; r_a : Z; r_b : Z; r_c : Z; r_d : Z;
  r_qa : Z; r_qb : Z; r_qc : Z; r_qd : Z
}.

(** NuclearReaction.cc 75-78: the proton and mass numbers a reaction uses. C++ %
    and / truncate towards zero. *)
Definition code_Z (pdg : Z) : Z := Z.quot (Z.rem pdg 10000000) 10000.
Definition code_A (pdg : Z) : Z := Z.quot (Z.rem pdg 10000) 10.

(** NuclearReaction.cc 65-114, constructor, and 575-590 with Reaction.cc 240-254,
    make_event_object: the charge of each particle is looked up from its code, then
    the target is made neutral and the residue given q_d. The description needs
    element symbols for the initial and final Z (719-727). Masses are in Masses.v
    and a missing mass is not represented here. *)
Definition nuclear_reaction (pt : proc) (a pdg_b c d qd : Z) : res reaction :=
  do _ <- element_symbol (code_Z pdg_b);
  do _ <- element_symbol (code_Z d);
  do qa <- particle_charge a;
  do _ <- particle_charge pdg_b;
  do qc <- particle_charge c;
  do _ <- particle_charge d;
  Ok (mkr pt a pdg_b c d qa 0 qc qd).

(** ElectronReaction.cc 29-57, constructor, with Reaction.cc 240-254. *)
Definition electron_reaction (a : Z) : res reaction :=
  do c <- ejectile a NuElectronElastic;
  do qa <- particle_charge a;
  do qb <- particle_charge ELECTRON;
  do qc <- particle_charge c;
  Ok (mkr NuElectronElastic a ELECTRON c ELECTRON qa qb qc qb).

Fixpoint map_res {A B} (f : A -> res B) (l : list A) : res (list B) :=
  match l with
  | [] => Ok []
  | x :: r => do y <- f x; do r' <- map_res f r; Ok (y :: r')
  end.

(** Reaction.cc 437-452: one nuclear reaction for every neutrino species. *)
Definition nuclear_reactions (pt : proc) (pdg_b : Z) : res (list reaction) :=
  do (d, qd) <- residue pt pdg_b;
  map_res (fun a => do c <- ejectile a pt; nuclear_reaction pt a pdg_b c d qd) (projectiles pt).

(** Reaction.cc 324-347: electron scattering, for one target atom. *)
Definition electron_reactions : res (list reaction) :=
  map_res electron_reaction (projectiles NuElectronElastic).
