(** Property C48, continued: targets given by proton and mass number. *)
From Coq Require Import List ZArith Reals Bool Lia Lra.
From Verif Require Import Base Pdg PdgThms Names Sample Target TargetThms.
Import ListNotations.
Open Scope R_scope.

(** A target given by its proton number and mass number is all of one nuclide, which has
    these numbers. *)
Theorem C48_numbers lg z a : (0 <= z <= 999)%Z -> (1 <= a <= 999)%Z ->
  exists n, single_target_ZA lg z a = Ok [(n, 1)] /\ particle_Z n = z /\ particle_A n = a /\
    (((1 < a) \/ (1 < z))%Z -> n = (1000000000 + z * 10000 + a * 10)%Z).
Proof.
  intros Hz Ha. destruct (C21_decodes z a) as (EZ & EA & _); try lia.
  exists (nucleus_pid z a). split.
  - unfold single_target_ZA. apply (proj2 (C48_single lg (nucleus_pid z a))). lia.
  - split; [exact EZ|]. split; [exact EA|]. intros N. unfold nucleus_pid.
    destruct (Z.eqb_spec z 0), (Z.eqb_spec a 1), (Z.eqb_spec z 1); cbn [andb]; lia.
Qed.
Print Assumptions C48_numbers.

Example C48_numbers_case : single_target_ZA true 18 40 = Ok [(1000180400%Z, 1)].
Proof. destruct (C48_numbers true 18 40) as (n & E & _ & _ & F); try lia. rewrite E, F by lia. reflexivity. Qed.

(** An atom given by its proton number and mass number is the nuclide with these numbers, if
    there is more than one nucleon. *)
Theorem C48_atom z a : (0 <= z <= 999)%Z -> (1 <= a <= 999)%Z -> ((1 < a) \/ (1 < z))%Z ->
  exists n, target_atom_ZA z a = Ok n /\ particle_Z n = z /\ particle_A n = a /\ n = (1000000000 + z * 10000 + a * 10)%Z.
Proof.
  intros Hz Ha N. destruct (C48_numbers false z a Hz Ha) as (n & E & H1 & H2 & H3). exists n.
  split; [|split; [exact H1|split; [exact H2|exact (H3 N)]]]. unfold single_target_ZA in E. unfold target_atom_ZA.
  assert (nucleus_pid z a = n) as -> by (unfold nucleus_pid; rewrite (H3 N); destruct (Z.eqb_spec z 0), (Z.eqb_spec a 1), (Z.eqb_spec z 1); cbn [andb]; lia).
  unfold target_atom. rewrite H2. destruct (Z.leb_spec a 0); [lia|reflexivity].
Qed.
Print Assumptions C48_atom.

Example C48_atom_case : target_atom_ZA 18 40 = Ok 1000180400%Z.
Proof. destruct (C48_atom 18 40) as (n & E & _ & _ & ->); try lia. exact E. Qed.
