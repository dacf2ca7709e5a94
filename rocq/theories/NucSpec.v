(** Vocabulary for statements about cross sections and reaction events. *)
From Coq Require Import List ZArith Reals.
From Verif Require Import Base Pdg React Kin Sample NucReact.
Import ListNotations.
Local Open Scope R_scope.

(** The Riemann integral of [f] from [a] to [b] exists and is [v]. *)
Definition integral (f : R -> R) (a b v : R) : Prop :=
  exists pr : Riemann_integrable f a b, RiemannInt pr = v.

(** The value of a computation that returned normally. *)
Definition value (r : res R) : R := match r with Ok v => v | Er _ => 0 end.

Definition masses_ok (n : nuc) : Prop :=
  0 <= n_ma n /\ 0 < n_mb n /\ 0 <= n_mc n /\ 0 <= n_mdgs n /\
  Forall (fun m => 0 <= me_energy m) (n_mes n).

(** A level can be reached if the two outgoing masses fit in the centre-of-mass
    energy. *)
Definition accessible (n : nuc) (KEa : R) (m : rme) : Prop :=
  (n_mc n + (n_mdgs n + me_energy m)) ^ 2 <= (n_ma n + n_mb n) ^ 2 + 2 * n_mb n * KEa.

Definition valid_type (m : rme) : Prop := me_type m = 0%Z \/ me_type m = 1%Z.

Definition ascending (ms : list rme) : Prop :=
  forall i j a b, (i < j)%nat -> nth_error ms i = Some a -> nth_error ms j = Some b -> me_energy a <= me_energy b.

Definition good_draws (d : draws) : Prop :=
  0 < d_level d <= 1 /\ 0 <= d_phi d < 1 /\ 0 < d_spin d <= 1 /\
  forall k, 0 <= fst (d_cos d k) <= 1 /\ 0 <= snd (d_cos d k) <= 1.

(** What the code uses as correction is not negative for any relative speed up to that of
    light. C59_factor shows that this holds in every mode if the Fermi function is not
    negative there. *)
Definition factor_nonneg (n : nuc) (fermi : R -> R) : Prop :=
  forall beta f, 0 <= beta <= 1 -> coulomb_factor n fermi beta = Ok f -> 0 <= f.

