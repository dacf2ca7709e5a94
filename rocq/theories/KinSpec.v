(** Vocabulary for statements about kinematics. *)
From Coq Require Import List ZArith Reals.
From Verif Require Import Base Kin.
Import ListNotations.
Local Open Scope R_scope.

(** Energy positive and equal to the relativistic energy for the mass and momentum. *)
Definition on_shell (p : part) : Prop :=
  0 <= mass p /\ mass p <= en p /\ en p ^ 2 = mass p ^ 2 + px p ^ 2 + py p ^ 2 + pz p ^ 2.

(** Everything about a particle except its energy and momentum. *)
Definition same_kind (p q : part) : Prop := pid p = pid q /\ mass p = mass q /\ chg p = chg q.

(** Total four-momentum of a list of particles. *)
Definition total (f : part -> R) (l : list part) : R := fold_right (fun p s => f p + s) 0 l.

Definition same_p4 (l l' : list part) : Prop :=
  total en l = total en l' /\ total px l = total px l' /\
  total py l = total py l' /\ total pz l = total pz l'.

(** The scalar product of two four-momenta. *)
Definition dot4 (p q : part) : R := en p * en q - (px p * px q + py p * py q + pz p * pz q).
