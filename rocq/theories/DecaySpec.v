(** Vocabulary for statements about nuclear de-excitation. *)
From Coq Require Import List ZArith Reals Bool.
From Verif Require Import Base Pdg Kin KinSpec Sample Mass Decay.
Import ListNotations.
Local Open Scope R_scope.

(** Draws from the unit interval. The libstdc++ distributions give zero with
    probability zero; where it matters (choices) zero is excluded. *)
Definition unit_draw (u : R) : Prop := 0 <= u <= 1.
Definition cascade_draws (d : nat -> R * R * R) : Prop :=
  forall k, 0 < fst (fst (d k)) <= 1 /\ unit_draw (snd (fst (d k))) /\ unit_draw (snd (d k)).

(** Relative intensities as they should be: none negative, and their sum positive
    where there are any. *)
Definition good_intensities (lev : rlevel) : Prop :=
  rl_gammas lev = [] \/ (Forall (fun g => 0 <= fst g) (rl_gammas lev) /\ 0 < sumR (map fst (rl_gammas lev))).

(** The levels a cascade passes through after [lev]: each is the end of a gamma of
    positive intensity of the one before, and the last has no gammas. *)
Inductive cascade_path (ds : rscheme) : rlevel -> list rlevel -> Prop :=
| path_end lev : rl_gammas lev = [] -> cascade_path ds lev []
| path_step lev w j lev' ls :
    In (w, Some j) (rl_gammas lev) -> 0 < w -> nth_error (s_levels ds) j = Some lev' ->
    cascade_path ds lev' ls -> cascade_path ds lev (lev' :: ls).

(** Gammas lead to levels further down the list. *)
Definition downward (ds : rscheme) : Prop :=
  forall i lev w e, nth_error (s_levels ds) i = Some lev -> In (w, e) (rl_gammas lev) ->
  exists j, e = Some j /\ (j < i)%nat.

Definition levels_sorted (ls : list rlevel) : Prop :=
  forall i j a b, (i <= j)%nat -> nth_error ls i = Some a -> nth_error ls j = Some b -> rl_E a <= rl_E b.

Definition photon (p : part) : Prop := pid p = 22%Z /\ mass p = 0 /\ chg p = 0%Z.

(** Coupling of two angular momenta to a third; all are doubled. *)
Definition triangle (a b c : Z) : Prop := (Z.abs (a - b) <= c <= a + b)%Z /\ Z.even (a + b + c) = true.

Definition sign (P : bool) : Z := if P then 1%Z else (-1)%Z.
Definition minus_one_to (l : Z) : Z := if Z.even l then 1%Z else (-1)%Z.

(** Emission of a fragment of doubled spin [s] and parity [Pa] with orbital angular
    momentum [l] and total angular momentum [two_j]. *)
Definition fragment_allowed (Ji : Z) (Pi : bool) (Jf : Z) (Pf : bool) (s : Z) (Pa : bool) (two_j l : Z) : Prop :=
  triangle Ji Jf two_j /\ triangle two_j s (2 * l) /\ (sign Pi = sign Pf * sign Pa * minus_one_to l)%Z.

(** Emission of a gamma of multipolarity [m]. *)
Definition gamma_allowed (Ji Jf m : Z) : Prop := (1 <= m)%Z /\ triangle Ji Jf (2 * m).

(** Nothing that is consulted for the decay of nuclide [n] is negative: level densities of
    the nuclide and of what fragments leave of it, at energies from zero up; transmission
    coefficients; level energies; and integrals of functions that are not negative. *)
Definition nonneg_at (v : env) (n : Z) : Prop :=
  (forall E J P, 0 <= E -> (0 <= J)%Z -> 0 <= v_rho v n E J P) /\
  (forall f s Pa E J P, In (f, (s, Pa)) (v_frags v) -> 0 <= E -> (0 <= J)%Z -> 0 <= v_rho v (fragment_final n f) E J P) /\
  (forall f s Pa E j l, In (f, (s, Pa)) (v_frags v) -> 0 <= v_T v (fragment_final n f) E f j l s) /\
  (forall e m E, (1 <= m)%Z -> 0 <= v_TX v n e m E) /\
  (forall f a b, a <= b -> (forall x, a <= x <= b -> 0 <= f x) -> 0 <= v_integrate v f a b) /\
  (forall pdg ds lev, v_scheme v pdg = Some ds -> In lev (s_levels ds) -> 0 <= rl_E lev).

(** Doubled spins of nuclei and fragments are even exactly for even mass numbers. *)
Definition spin_matches (A J : Z) : Prop := (0 <= J)%Z /\ Z.even (A + J) = true.
