(** What it means for an event to be representable, and for two events to
    agree. *)
From Coq Require Import List Ascii String ZArith Bool.
From Coq Require Import Floats.SpecFloat.
From Verif Require Import Base Dbl Json JsonSpec Stream Pdg Event.
Import ListNotations.
Local Open Scope Z_scope.

(** A double that is neither infinite nor NaN. *)
Definition finite_dbl (x : spec_float) : Prop := is_finite_dbl x = true /\ valid_dbl x = true.

(** The ints of an event are ints and its doubles satisfy [P]. *)
Definition particle_ok (P : spec_float -> Prop) (p : particle) : Prop :=
  is_int (p_pdg p) /\ is_int (p_charge p) /\
  P (p_E p) /\ P (p_px p) /\ P (p_py p) /\ P (p_pz p) /\ P (p_mass p).

Definition event_ok (P : spec_float -> Prop) (ev : event) : Prop :=
  Forall (particle_ok P) (e_init ev) /\ Forall (particle_ok P) (e_fin ev) /\
  P (e_Ex ev) /\ is_int (e_twoJ ev).

(** At least two initial and two final particles, and no more than an int can
    count. *)
Definition event_sized (ev : event) : Prop :=
  2 <= len (e_init ev) <= int_max /\ 2 <= len (e_fin ev) <= int_max.

(** An event as MARLEY produces it: a projectile and a target, an ejectile and a
    residue and possibly more, all numbers finite. *)
Definition good_event (ev : event) : Prop := event_ok finite_dbl ev /\ event_sized ev.

(** Two events agree in every integer, and their doubles are related by [R]. *)
Definition particle_rel (R : spec_float -> spec_float -> Prop) (p q : particle) : Prop :=
  p_pdg p = p_pdg q /\ p_charge p = p_charge q /\
  R (p_E p) (p_E q) /\ R (p_px p) (p_px q) /\ R (p_py p) (p_py q) /\
  R (p_pz p) (p_pz q) /\ R (p_mass p) (p_mass q).

Definition event_rel (R : spec_float -> spec_float -> Prop) (ev ev' : event) : Prop :=
  Forall2 (particle_rel R) (e_init ev) (e_init ev') /\
  Forall2 (particle_rel R) (e_fin ev) (e_fin ev') /\
  R (e_Ex ev) (e_Ex ev') /\ e_twoJ ev = e_twoJ ev' /\ e_par ev = e_par ev'.

(** The text of a sequence of events in an ASCII file. *)
Definition events_text (evs : list event) : bytes := flat_map print_event evs.

(** Two particles that differ at most in their charge. *)
Definition but_charge (p q : particle) : Prop := set_charge 0 p = set_charge 0 q.

(** Two events that differ at most in the charge of the last final particle. *)
Definition but_last_charge (ev ev' : event) : Prop :=
  e_init ev = e_init ev' /\ e_Ex ev = e_Ex ev' /\ e_twoJ ev = e_twoJ ev' /\
  e_par ev = e_par ev' /\
  exists l p q, e_fin ev = l ++ [p] /\ e_fin ev' = l ++ [q] /\ but_charge p q.
