(** Vocabulary for statements about HEPEVT records. *)
From Coq Require Import List Ascii String ZArith Bool.
From Coq Require Import Floats.SpecFloat.
From Verif Require Import Base Dbl Stream Pdg Event EventSpec.
Import ListNotations.
Local Open Scope Z_scope.

(** Read n entries. *)
Fixpoint read_entries (n : nat) (s : bytes) : option (list hep_entry * bytes) :=
  match n with
  | O => Some ([], s)
  | S n' => match read_hep_entry s with
            | None => None
            | Some (h, s) => match read_entries n' s with
                             | None => None
                             | Some (hs, s) => Some (h :: hs, s)
                             end
            end
  end.

Definition to_gev (x : spec_float) : spec_float := dbl_div x GEV_TO_MEV.

Definition entry_of (p : particle) (status j1 j2 : Z) : hep_entry :=
  mkh status (p_pdg p) j1 j2 (to_gev (p_px p)) (to_gev (p_py p)) (to_gev (p_pz p)) (to_gev (p_E p))
    (to_gev (p_mass p)).

(** The entries of a written record. *)
Definition record_entries (flux : spec_float) (ev : event) : list hep_entry :=
  map (fun p => entry_of p ST_INITIAL 0 0) (e_init ev)
  ++ [entry_of (hep_dummy ev flux) ST_INFO (e_twoJ ev) (parity_to_int (e_par ev))]
  ++ map (fun p => entry_of p ST_FINAL 0 0) (e_fin ev).

Definition is_initial (h : hep_entry) : bool := h_status h =? ST_INITIAL.

Definition is_final (h : hep_entry) : bool := h_status h =? ST_FINAL.

(** The particle of an entry, before the charges of target and residue are
    set. *)
Definition entry_particle (h : hep_entry) (p : particle) : Prop :=
  p_pdg p = h_pdg h /\ particle_charge (h_pdg h) = Ok (p_charge p) /\
  p_E p = dbl_mul (h_E h) GEV_TO_MEV /\ p_px p = dbl_mul (h_px h) GEV_TO_MEV /\
  p_py p = dbl_mul (h_py h) GEV_TO_MEV /\ p_pz p = dbl_mul (h_pz h) GEV_TO_MEV /\
  p_mass p = dbl_mul (h_M h) GEV_TO_MEV.

Definition ionb (p : particle) : bool := is_ion (p_pdg p).

Definition lepb (p : particle) : bool := is_lepton (p_pdg p).

Definition massA (p : particle) : Z := particle_A (p_pdg p).

(** A particle without its charge. *)
Definition body (p : particle) : particle := set_charge 0 p.

(** Sum of the charges of ions in a list. *)
Fixpoint ion_charge (l : list particle) : Z :=
  match l with [] => 0 | p :: r => (if ionb p then p_charge p else 0) + ion_charge r end.

Definition at_least (f : particle -> bool) (w : Z) (l : list particle) : Prop :=
  exists p, In p l /\ f p = true /\ w < massA p.

(** Weight of the first final particle when choosing the residue: its mass number
    if it is an ion, otherwise 0. *)
Definition first_weight (l : list particle) : Z :=
  match l with p :: _ => if ionb p then massA p else 0 | [] => 0 end.

(** An event of the kind MARLEY writes for a reaction on a nucleus, with the
    charge conventions of read_hepevt. *)
Definition nuclear_event (ev : event) : Prop :=
  exists pj tg ej re rest,
    e_init ev = [pj; tg] /\ e_fin ev = ej :: re :: rest /\
    ionb pj = false /\ particle_charge (p_pdg pj) = Ok (p_charge pj) /\
    ionb tg = true /\ p_charge tg = 0 /\
    lepb ej = true /\ particle_charge (p_pdg ej) = Ok (p_charge ej) /\
    ionb re = true /\ 0 < massA re /\
    p_charge re = - p_charge ej - ion_charge rest /\
    Forall (fun p => lepb p = false /\ particle_charge (p_pdg p) = Ok (p_charge p) /\
                     (ionb p = true -> massA p <= massA re)) rest.
