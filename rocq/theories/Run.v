(** Whole events: Generator.cc 67-89 and 593-637, create_event, on top of the models of the
    generator's bookkeeping (Gen.v), the reactions (NucReact.v), the de-excitation (Decay.v)
    and the rotation (Rot.v). *)
From Coq Require Import List ZArith Reals Bool.
From Verif Require Import Base Pdg React Kin Sample Mass NucReact Decay Rot Target Gen.
Import ListNotations.
Open Scope R_scope.

(** A Reaction object held by the generator: a nuclear reaction with its Fermi function, or
    electron scattering on an atom (ElectronReaction.hh 42-43). *)
Inductive mode := MNuc (n : nuc) (fermi : R -> R) | MEl (l : elec) (atom : Z).

Definition mode_reaction (m : mode) : reaction := match m with MNuc n _ => n_r n | MEl l _ => l_r l end.

(** What the generator asks of it: pdg_a(), atomic_target() (NuclearReaction.hh 60-61,
    ElectronReaction.hh 42-43) and total_xs(). A nuclear reaction whose Coulomb correction
    throws (only possible in the pure effective-momentum modes) is not represented: it counts
    as zero here. *)
Definition mode_rxn (m : mode) : rxn :=
  match m with
  | MNuc n fermi => mkrxn (r_a (n_r n)) (r_b (n_r n)) (fun pdg E => match nuc_total_xs n fermi pdg E with Ok t => t | Er _ => 0 end)
  | MEl l atom => mkrxn (r_a (l_r l)) atom (el_total_xs l)
  end.

(** Reaction::create_event. [gs] gives the spin and parity of a nuclide's ground state
    (StructureDatabase.cc 310-328); the level densities are those of the residue. *)
Definition mode_event (v : env) (gs : Z -> res (Z * bool)) (m : mode) (pdg : Z) (E : R) (d : draws) (fuel : nat) : res kevent :=
  match m with
  | MNuc n fermi => nuc_create n fermi (gs (r_b (n_r n))) (v_rho v (r_d (n_r n))) pdg E d fuel
  | MEl l _ => el_create l pdg E d fuel
  end.

(** Generator.hh 291-347: the reactions, the other members modelled in Gen.v, the rotator and
    the do_deexcitations_ flag. *)
Record generator := mkgen { z_modes : list mode; z_state : gstate; z_rot : rotator; z_deex : bool }.

(** The random numbers of one event and the maximum found by the search in
    Generator.cc 226-234. *)
Record run_draws := mkrun
  { q_E : nat -> R * R; q_max : R; q_rx : R; q_ev : draws; q_hf : nat -> hdraw; q_cd : nat -> R * R * R; q_ct : R; q_phi : R }.

(** Generator.cc 76-83 and 621-628: the prompt event and its de-excitation. *)
Definition full_event (v : env) (gs : Z -> res (Z * bool)) (deex : bool) (m : mode) (pdg : Z) (E : R) (d : run_draws) (fuel : nat) : res kevent :=
  do ev <- mode_event v gs m pdg E (q_ev d) fuel;
  if deex then deexcite v ev (q_hf d) (q_cd d) fuel else Ok ev.

(** Generator.cc 67-89, create_event(). The generator is returned also when the call throws:
    the sampled cross sections and the maximum then stay. *)
Definition create_event (v : env) (gs : Z -> res (Z * bool)) (z : generator) (d : run_draws) (fuel : nat) : generator * res kevent :=
  match sample_reaction (z_state z) default_safety (q_max d) (q_E d) (q_rx d) fuel with
  | Er e => (z, Er e)
  | Ok (g', E, i) =>
      let z1 := mkgen (z_modes z) g' (z_rot z) (z_deex z) in
      match nth_error (z_modes z) i with
      | None => (z1, Er Undefined)
      | Some m =>
          match full_event v gs (z_deex z) m (ns_pid (gn_source g')) E d fuel with
          | Er e => (z1, Er e)
          | Ok ev =>
              match process_event (z_rot z) (q_ct d) (q_phi d) ev with
              | Er e => (z1, Er e)
              | Ok (o', ev') => (mkgen (z_modes z) g' o' (z_deex z), Ok ev')
              end
          end
      end
  end.

(** Generator.cc 593-637, create_event() for given initial particles. [o] is the static local
    rotator, shared by all generators; it is returned. *)
Definition create_event_for (v : env) (gs : Z -> res (Z * bool)) (z : generator) (o : rotator)
    (pdg : Z) (KEa : R) (atom : Z) (dir : vec) (d : run_draws) (fuel : nat) : rotator * res kevent :=
  match pick_reaction (z_state z) pdg KEa atom (q_rx d) with
  | Er e => (o, Er e)
  | Ok i =>
      match nth_error (z_modes z) i with
      | None => (o, Er Undefined)
      | Some m =>
          match full_event v gs (z_deex z) m pdg KEa d fuel with
          | Er e => (o, Er e)
          | Ok ev =>
              match set_direction dir o with
              | Er e => (o, Er e)
              | Ok o1 =>
                  match process_event o1 (q_ct d) (q_phi d) ev with
                  | Er e => (o1, Er e)
                  | Ok (o2, ev') => (o2, Ok ev')
                  end
              end
          end
      end
  end.

(** A new generator (Generator.cc 35-52, Generator.hh 351-357): a rotator towards z and
    de-excitation on. *)
Definition fresh_generator : generator := mkgen [] new_generator (mkrot zaxis zaxis identity false) true.

(** The calls a user can make. *)
Inductive uop :=
| UAdd (m : option mode) | UClear | USource (s : option nsource) | UTarget (t : option target) | UWeight (w : bool)
| UDirection (dir : vec) | URandom (b : bool) | UDeex (b : bool)
| UEvent (d : run_draws) (fuel : nat).

(** The generator after a call, also when it throws (Generator.cc 442-460 and
    Generator.hh 262-265 for the calls passed on to the rotator, 391-392 for the flag). *)
Definition ustep (v : env) (gs : Z -> res (Z * bool)) (z : generator) (op : uop) : generator :=
  let with_state g := mkgen (z_modes z) g (z_rot z) (z_deex z) in
  match op with
  | UAdd (Some m) => mkgen (z_modes z ++ [m]) (fst (add_reaction (z_state z) (Some (mode_rxn m)))) (z_rot z) (z_deex z)
  | UAdd None => z
  | UClear => mkgen [] (clear_reactions (z_state z)) (z_rot z) (z_deex z)
  | USource s => with_state (fst (set_source (z_state z) s))
  | UTarget t => with_state (fst (set_target (z_state z) t))
  | UWeight w => with_state (set_weight_flux (z_state z) w)
  | UDirection dir => match set_direction dir (z_rot z) with Ok o => mkgen (z_modes z) (z_state z) o (z_deex z) | Er _ => z end
  | URandom b => mkgen (z_modes z) (z_state z) (set_random b (z_rot z)) (z_deex z)
  | UDeex b => mkgen (z_modes z) (z_state z) (z_rot z) b
  | UEvent d fuel => fst (create_event v gs z d fuel)
  end.
