(** Vocabulary for statements about the de-excitation of events. *)
From Coq Require Import List ZArith Reals Bool.
From Verif Require Import Base Pdg Kin KinSpec Sample Mass MassThms Decay DecaySpec.
Import ListNotations.
Local Open Scope R_scope.

(** A nuclide that exists as a code: at least one nucleon, no more protons than nucleons. *)
Definition nuclide (Zn A : Z) : Prop := (0 <= Zn <= A)%Z /\ (1 <= A <= 999)%Z.

(** A sane mass table: electrons lighter than 1 MeV, no negative masses, and measured
    nuclides of at least 890 MeV per nucleon. *)
Definition table_ok (t : mtab) : Prop :=
  (exists me, particle_mass t ELECTRON = Ok me /\ 0 <= me <= 1) /\
  (forall f m, In f (PHOTON :: fragment_pdgs) -> particle_mass t f = Ok m -> 0 <= m) /\
  (forall Zn A m, nuclide Zn A -> assoc (nucleus_pid Zn A) (t_atom t) = Some m -> 890 * IZR A <= m * micro_amu).

(** Sane structure data: the usual fragments, level schemes filed under their own code,
    no negative level energies and proper intensities. *)
Definition env_ok (v : env) : Prop :=
  table_ok (v_mt v) /\
  Forall (fun x => In (fst x) fragment_pdgs) (v_frags v) /\
  (forall pdg ds, v_scheme v pdg = Some ds ->
     s_pdg ds = pdg /\ Forall (fun l => good_intensities l /\ 0 <= rl_E l) (s_levels ds)).

Definition zsum (f : part -> Z) (l : list part) : Z := fold_right (fun p s => (f p + s)%Z) 0%Z l.
Definition protons (p : part) : Z := particle_Z (pid p).
Definition nucleons (p : part) : Z := particle_A (pid p).
Definition neutrons (p : part) : Z := (nucleons p - protons p)%Z.

(** The nucleus can contain what it emits, with at least one nucleon left. *)
Definition contains (nucleus : part) (l : list part) : Prop :=
  (zsum protons l <= protons nucleus)%Z /\ (zsum neutrons l <= neutrons nucleus)%Z /\ (zsum nucleons l < nucleons nucleus)%Z.

(** A nucleus as a particle: code of a nuclide, on its mass shell, not more electrons
    missing than it has protons. *)
Definition is_nucleus (p : part) : Prop :=
  exists Zn A, nuclide Zn A /\ pid p = nucleus_pid Zn A /\ (chg p <= Zn)%Z /\ on_shell p /\ 0 < mass p.

Definition hf_draws (d : nat -> hdraw) : Prop :=
  forall k, 0 < h_chan (d k) <= 1 /\ 0 < h_jpi (d k) <= 1 /\ unit_draw (h_E (d k)) /\ unit_draw (h_cos (d k)) /\ unit_draw (h_phi (d k)).
