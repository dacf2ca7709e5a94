(** C49: what the mass table refuses. *)
From Coq Require Import List ZArith Reals Bool Lia.
From Verif Require Import Base Pdg Mass MassThms.
Import ListNotations.
Local Open Scope R_scope.

(** The table of particles, or of atoms, has no entry for a code. *)
Definition absent (k : Z) (m : list (Z * R)) : Prop := forall v, ~ In (k, v) m.

Lemma absent_assoc k m : assoc k m = None <-> absent k m.
Proof.
  unfold absent. induction m as [|[k' v'] m IH]; cbn [assoc In]; [split; [intros _ v []|reflexivity]|].
  destruct (Z.eqb_spec k k') as [->|N].
  - split; [discriminate|]. intros H. exfalso. apply (H v'). left. reflexivity.
  - rewrite IH. split; [intros H v [E|E]; [congruence|exact (H v E)]|]. intros H v E. apply (H v). right. exact E.
Qed.

Lemma part_err t i e : part_at t i = Er e <-> e = StdRange /\ absent i (t_part t).
Proof.
  unfold part_at. rewrite <- absent_assoc. destruct (assoc i (t_part t)); split.
  - discriminate.
  - intros [_ H]. discriminate H.
  - intros H. injection H as <-. split; reflexivity.
  - intros [-> _]. reflexivity.
Qed.

Lemma lookup_err t Zn A theory e : lookup_ZA t Zn A theory = Er e <-> e = MarleyErr /\ theory = false /\ absent (nucleus_pid Zn A) (t_atom t).
Proof.
  unfold lookup_ZA. rewrite <- absent_assoc. destruct (assoc (nucleus_pid Zn A) (t_atom t)) as [m|].
  - split; [discriminate|]. intros (_ & _ & H). discriminate H.
  - destruct theory; split; try discriminate.
    + intros (_ & H & _). discriminate H.
    + intros H. injection H as <-. repeat split.
    + intros (-> & _). reflexivity.
Qed.

(** The mass of a particle is refused, with std::out_of_range, exactly if neither it nor its
    antiparticle is in the table. *)
Theorem C49_missing_particle t id e : particle_mass t id = Er e <-> e = StdRange /\ absent (Z.abs id) (t_part t).
Proof.
  unfold particle_mass. cbv zeta. replace (if Z.ltb id 0 then (id * -1)%Z else id) with (Z.abs id) by (destruct (Z.ltb_spec id 0); lia).
  rewrite <- part_err. destruct (part_at t (Z.abs id)); cbn [bind]; [split; discriminate|reflexivity].
Qed.
Print Assumptions C49_missing_particle.

(** Masses and mass excesses of atoms are refused, with marley::Error, exactly if the atom is
    not in the table and no estimate is wanted. *)
Theorem C49_missing_atom t Zn A theory e :
  (atomic_mass_ZA t Zn A theory = Er e <-> e = MarleyErr /\ theory = false /\ absent (nucleus_pid Zn A) (t_atom t)) /\
  (mass_excess t Zn A theory = Er e <-> e = MarleyErr /\ theory = false /\ absent (nucleus_pid Zn A) (t_atom t)).
Proof.
  unfold atomic_mass_ZA, mass_excess. rewrite <- (lookup_err t Zn A theory e).
  destruct (lookup_ZA t Zn A theory) as [[m x]|]; cbn [bind]; split; split; intros H; (discriminate H || (injection H as <-; reflexivity)).
Qed.
Print Assumptions C49_missing_atom.

(** Separation energies are refused with std::out_of_range exactly if the electron or the
    fragment is not among the particles, and else with marley::Error exactly if one of the two
    atoms is not in the table and no estimate is wanted. *)
Theorem C49_missing_fragment t Zn A f theory e : separation_ZA t Zn A f theory = Er e <->
  (e = StdRange /\ (absent 11 (t_part t) \/ absent f (t_part t))) \/
  (e = MarleyErr /\ ~ absent 11 (t_part t) /\ ~ absent f (t_part t) /\ theory = false /\
   (absent (nucleus_pid Zn A) (t_atom t) \/ absent (nucleus_pid (Zn - particle_Z f) (A - particle_A f)) (t_atom t))).
Proof.
  unfold separation_ZA. change ELECTRON with 11%Z.
  pose proof (part_err t 11) as P1. pose proof (part_err t f) as P2.
  pose proof (lookup_err t Zn A theory) as L1. pose proof (lookup_err t (Zn - particle_Z f) (A - particle_A f) theory) as L2.
  destruct (part_at t 11) as [me|e1]; cbn [bind].
  2: { destruct (proj1 (P1 e1) eq_refl) as [-> H]. split; [intros E; injection E as <-; left; split; [reflexivity|left; exact H]|].
       intros [[-> _]|(_ & N & _)]; [reflexivity|]. exfalso. exact (N H). }
  assert (N1 : ~ absent 11 (t_part t)) by (intros H; pose proof (proj2 (P1 StdRange) (conj eq_refl H)) as X; discriminate X).
  destruct (part_at t f) as [mp|e1]; cbn [bind].
  2: { destruct (proj1 (P2 e1) eq_refl) as [-> H]. split; [intros E; injection E as <-; left; split; [reflexivity|right; exact H]|].
       intros [[-> _]|(_ & _ & N & _)]; [reflexivity|]. exfalso. exact (N H). }
  assert (N2 : ~ absent f (t_part t)) by (intros H; pose proof (proj2 (P2 StdRange) (conj eq_refl H)) as X; discriminate X).
  destruct (lookup_ZA t Zn A theory) as [[mi xi]|e1]; cbn [bind].
  2: { destruct (proj1 (L1 e1) eq_refl) as (-> & T & H). split; [intros E; injection E as <-; right; tauto|].
       intros [(_ & [K|K])|(-> & _)]; [contradiction|contradiction|reflexivity]. }
  destruct (lookup_ZA t (Zn - particle_Z f) (A - particle_A f) theory) as [[mf xf]|e1]; cbn [bind].
  2: { destruct (proj1 (L2 e1) eq_refl) as (-> & T & H). split; [intros E; injection E as <-; right; tauto|].
       intros [(_ & [K|K])|(-> & _)]; [contradiction|contradiction|reflexivity]. }
  split; [discriminate|]. intros [(_ & [K|K])|(_ & _ & _ & T & [K|K])]; [contradiction|contradiction| |].
  - pose proof (proj2 (L1 MarleyErr) (conj eq_refl (conj T K))) as X. discriminate X.
  - pose proof (proj2 (L2 MarleyErr) (conj eq_refl (conj T K))) as X. discriminate X.
Qed.
Print Assumptions C49_missing_fragment.

(** Binding energies need the hydrogen atom and the neutron besides the atom itself. *)
Theorem C49_missing_binding t Zn A theory e : binding_energy t Zn A theory = Er e <->
  (e = StdRange /\ (absent 1000010010 (t_atom t) \/ absent 2112 (t_part t))) \/
  (e = MarleyErr /\ ~ absent 1000010010 (t_atom t) /\ ~ absent 2112 (t_part t) /\ theory = false /\ absent (nucleus_pid Zn A) (t_atom t)).
Proof.
  unfold binding_energy. change NEUTRON with 2112%Z. cbv zeta.
  pose proof (absent_assoc 1000010010 (t_atom t)) as P1. pose proof (part_err t 2112) as P2. pose proof (lookup_err t Zn A theory) as L1.
  destruct (assoc 1000010010%Z (t_atom t)) as [mh|]; cbn [bind].
  2: { pose proof (proj1 P1 eq_refl) as H. split; [intros E; injection E as <-; left; split; [reflexivity|left; exact H]|].
       intros [[-> _]|(_ & N & _)]; [reflexivity|]. exfalso. exact (N H). }
  assert (N1 : ~ absent 1000010010 (t_atom t)) by (intros H; pose proof (proj2 P1 H) as X; discriminate X).
  destruct (part_at t 2112) as [mn|e1]; cbn [bind].
  2: { destruct (proj1 (P2 e1) eq_refl) as [-> H]. split; [intros E; injection E as <-; left; split; [reflexivity|right; exact H]|].
       intros [[-> _]|(_ & _ & N & _)]; [reflexivity|]. exfalso. exact (N H). }
  assert (N2 : ~ absent 2112 (t_part t)) by (intros H; pose proof (proj2 (P2 StdRange) (conj eq_refl H)) as X; discriminate X).
  destruct (lookup_ZA t Zn A theory) as [[mi xi]|e1]; cbn [bind].
  - split; [discriminate|]. intros [(_ & [K|K])|(_ & _ & _ & T & K)]; [contradiction|contradiction|].
    pose proof (proj2 (L1 MarleyErr) (conj eq_refl (conj T K))) as X. discriminate X.
  - destruct (proj1 (L1 e1) eq_refl) as (-> & T & H). split; [intros E; injection E as <-; right; tauto|].
    intros [(_ & [K|K])|(-> & _)]; [contradiction|contradiction|reflexivity].
Qed.
Print Assumptions C49_missing_binding.

Example C49_missing_case : let t := mkmt [(11%Z, 548); (2112%Z, 1008664)] [(1000180400%Z, 39962383)] in
  particle_mass t (-13) = Er StdRange /\ separation_ZA t 18 40 2212 true = Er StdRange /\ separation_ZA t 18 40 2112 false = Er MarleyErr /\
  binding_energy t 18 40 true = Er StdRange /\ atomic_mass_ZA t 19 40 false = Er MarleyErr /\ absent 13 (t_part t).
Proof. cbv zeta. repeat split. intros v. cbn [t_part In]. intros [H|[H|[]]]; discriminate H. Qed.
