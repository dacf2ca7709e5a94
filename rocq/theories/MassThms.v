(** Theorems about the mass table (C49). *)
From Coq Require Import List ZArith Reals Lra Lia Bool.
From Verif Require Import Base Pdg PdgThms Mass.
Import ListNotations.
Local Open Scope R_scope.

(** A nuclide's mass in MeV, said directly: the table value converted (931.494061 MeV per
    mass unit, the tables being in millionths), or else the liquid drop estimate, which is in MeV already. *)
Definition mass_MeV (t : mtab) (Zn A : Z) : R :=
  match assoc (nucleus_pid Zn A) (t_atom t) with
  | Some m => m * (931494061 / 1000000000000)
  | None => ldm_mass Zn A
  end.

(** Whether the nuclide is measured. *)
Definition measured (t : mtab) (Zn A : Z) : Prop := assoc (nucleus_pid Zn A) (t_atom t) <> None.

Lemma atomic_ZA_true t Zn A : atomic_mass_ZA t Zn A true = Ok (mass_MeV t Zn A).
Proof. unfold atomic_mass_ZA, lookup_ZA, mass_MeV. destruct (assoc _ _); reflexivity. Qed.

(** Masses come out in MeV; where no estimate is wanted, missing nuclides are an error
    and measured ones are unaffected. *)
Theorem C49_atomic t Zn A theory :
  (theory = true \/ measured t Zn A -> atomic_mass_ZA t Zn A theory = Ok (mass_MeV t Zn A)) /\
  (theory = false -> ~ measured t Zn A -> atomic_mass_ZA t Zn A theory = Er MarleyErr).
Proof.
  unfold atomic_mass_ZA, lookup_ZA, mass_MeV, measured. destruct (assoc _ _) as [m|].
  - split; [intros _; reflexivity|]. intros _ H. exfalso. apply H. discriminate.
  - split.
    + intros [->|H]; [reflexivity|]. exfalso. apply H. reflexivity.
    + intros -> _. reflexivity.
Qed.
Print Assumptions C49_atomic.

(** Asking by code and by proton and mass number is the same. *)
Theorem C49_by_code t Zn A theory : (0 <= Zn <= 999)%Z -> (0 <= A <= 999)%Z ->
  atomic_mass t (nucleus_pid Zn A) theory = atomic_mass_ZA t Zn A theory /\
  forall f, separation t (nucleus_pid Zn A) f theory = separation_ZA t Zn A f theory.
Proof.
  intros HZ HA. destruct (C21_decodes Zn A HZ HA) as (E1 & E2 & _).
  unfold atomic_mass, atomic_mass_ZA, lookup_pdg, lookup_ZA, separation. rewrite E1, E2. split; reflexivity.
Qed.
Print Assumptions C49_by_code.

(** The separation energy is the mass difference in MeV, by the same formula whichever
    of the two nuclides are measured. *)
Theorem C49_separation t Zn A f me mf : (0 <= f)%Z ->
  particle_mass t ELECTRON = Ok me -> particle_mass t f = Ok mf ->
  separation_ZA t Zn A f true =
    Ok (mass_MeV t (Zn - particle_Z f) (A - particle_A f) + mf + IZR (particle_Z f) * me - mass_MeV t Zn A).
Proof.
  intros Hf H1 H2. unfold particle_mass in H1, H2.
  change (Z.ltb ELECTRON 0) with false in H1. cbv zeta iota in H1.
  assert (E : (f <? 0)%Z = false) by (apply Z.ltb_ge; exact Hf). rewrite E in H2. cbv zeta iota in H2.
  unfold separation_ZA. cbv zeta.
  destruct (part_at t ELECTRON) as [a|]; cbn [bind] in *; [|discriminate]. injection H1 as <-.
  destruct (part_at t f) as [b|]; cbn [bind] in *; [|discriminate]. injection H2 as <-.
  unfold lookup_ZA, mass_MeV. change (931494061 / 1000000000000) with micro_amu. set (o1 := assoc (nucleus_pid Zn A) (t_atom t)).
  set (o2 := assoc (nucleus_pid (Zn - particle_Z f) (A - particle_A f)) (t_atom t)).
  destruct o1 as [x|]; destruct o2 as [y|]; cbn [bind]; f_equal; ring.
Qed.
Print Assumptions C49_separation.

(** The energy needed to remove two fragments does not depend on their order. *)
Theorem C49_order t Zn A f g me mf mg s1 s2 s3 s4 : (0 <= f)%Z -> (0 <= g)%Z ->
  particle_mass t ELECTRON = Ok me -> particle_mass t f = Ok mf -> particle_mass t g = Ok mg ->
  separation_ZA t Zn A f true = Ok s1 -> separation_ZA t (Zn - particle_Z f) (A - particle_A f) g true = Ok s2 ->
  separation_ZA t Zn A g true = Ok s3 -> separation_ZA t (Zn - particle_Z g) (A - particle_A g) f true = Ok s4 ->
  s1 + s2 = s3 + s4.
Proof.
  intros Hf Hg He Ef Eg. rewrite !(C49_separation t _ _ f me mf Hf He Ef), !(C49_separation t _ _ g me mg Hg He Eg).
  intros E1 E2 E3 E4. injection E1 as <-. injection E2 as <-. injection E3 as <-. injection E4 as <-.
  replace (Zn - particle_Z g - particle_Z f)%Z with (Zn - particle_Z f - particle_Z g)%Z by ring.
  replace (A - particle_A g - particle_A f)%Z with (A - particle_A f - particle_A g)%Z by ring. ring.
Qed.
Print Assumptions C49_order.

(** Binding energy and mass excess, likewise by one formula. *)
Theorem C49_binding t Zn A mn :
  forall mh, assoc 1000010010%Z (t_atom t) = Some mh -> particle_mass t NEUTRON = Ok mn ->
  binding_energy t Zn A true = Ok (IZR Zn * (mh * (931494061 / 1000000000000)) + IZR (A - Zn) * mn - mass_MeV t Zn A).
Proof.
  intros mh Hh Hn. unfold particle_mass in Hn. change (Z.ltb NEUTRON 0) with false in Hn. cbv zeta iota in Hn.
  unfold binding_energy. cbv zeta. rewrite Hh. cbn [bind]. destruct (part_at t NEUTRON) as [b|]; cbn [bind] in *; [|discriminate].
  injection Hn as <-. unfold lookup_ZA, mass_MeV. change (931494061 / 1000000000000) with micro_amu. destruct (assoc (nucleus_pid Zn A) _) as [x|]; cbn [bind]; f_equal; ring.
Qed.
Print Assumptions C49_binding.

Theorem C49_excess t Zn A : mass_excess t Zn A true = Ok (mass_MeV t Zn A - IZR A * (931494061 / 1000000)) /\
  (~ measured t Zn A -> mass_excess t Zn A true = Ok (ldm_excess Zn A)).
Proof.
  unfold mass_excess, lookup_ZA, mass_MeV, measured. change (931494061 / 1000000000000) with micro_amu. destruct (assoc (nucleus_pid Zn A) _) as [x|]; cbn [bind].
  - split; [f_equal; unfold micro_amu; field|]. intros H. exfalso. apply H. discriminate.
  - split; [f_equal; unfold micro_amu; field|]. intros _. f_equal. unfold ldm_mass. ring.
Qed.
Print Assumptions C49_excess.

(** The mass excess of a nuclide that is not measured, as Myers and Swiatecki give it: Z
    hydrogen atoms and N neutrons, volume and surface terms, the Coulomb energy of a diffuse
    charge, and pairing, with a the cube root of A. *)
Theorem C49_estimate t Zn A : (0 < A)%Z -> ~ measured t Zn A ->
  let N := (A - Zn)%Z in
  exists a d, 0 < a /\ a ^ 3 = IZR A /\
    (Z.Even Zn /\ Z.Even N -> d < 0 /\ d ^ 2 * IZR A = 11 ^ 2) /\
    (Z.Odd Zn /\ Z.Odd N -> 0 < d /\ d ^ 2 * IZR A = 11 ^ 2) /\
    (Z.Odd A -> d = 0) /\
    let sym := 1 - 179 / 100 * (IZR (N - Zn) / IZR A) ^ 2 in
    mass_excess t Zn A true = Ok (
      807144 / 10 ^ 5 * IZR N + 728899 / 10 ^ 5 * IZR Zn
      - 15677 / 10 ^ 3 * sym * IZR A + 1856 / 10 ^ 2 * sym * a ^ 2
      + 717 / 10 ^ 3 * IZR Zn ^ 2 / a - 121129 / 10 ^ 5 * IZR Zn ^ 2 / IZR A + d).
Proof.
  intros HA Hm. cbv zeta. set (N := (A - Zn)%Z). assert (PA : 0 < IZR A) by (apply IZR_lt; exact HA).
  assert (PS := sqrt_lt_R0 _ PA). assert (SS : sqrt (IZR A) * sqrt (IZR A) = IZR A) by (apply sqrt_sqrt; lra).
  exists (Rpower (IZR A) (1 / 3)).
  exists (if (Z.odd Zn && Z.odd N)%bool then 11 / sqrt (IZR A) else if (negb (Z.odd Zn) && negb (Z.odd N))%bool then - 11 / sqrt (IZR A) else 0).
  assert (P3 : 0 < Rpower (IZR A) (1 / 3)) by (unfold Rpower; apply exp_pos).
  assert (ID : 0 < 11 / sqrt (IZR A)) by (apply Rmult_lt_0_compat; [lra|apply Rinv_0_lt_compat; exact PS]).
  assert (SQ : (11 / sqrt (IZR A)) ^ 2 * IZR A = 11 ^ 2).
  { transitivity (121 / (sqrt (IZR A) * sqrt (IZR A)) * IZR A); [field; lra|]. rewrite SS. field. lra. }
  split; [exact P3|]. split.
  { rewrite <- Rpower_pow by exact P3. rewrite Rpower_mult. replace (1 / 3 * INR 3) with 1 by (cbn [INR]; lra). apply Rpower_1. exact PA. }
  split; [|split; [|split]].
  - intros [E1 E2]. apply Z.even_spec in E1, E2. rewrite <- !Z.negb_even, E1, E2. cbn [negb andb].
    replace (- 11 / sqrt (IZR A)) with (- (11 / sqrt (IZR A))) by (field; lra). split; [lra|]. rewrite <- SQ. ring.
  - intros [O1 O2]. apply Z.odd_spec in O1, O2. rewrite O1, O2. cbn [andb]. split; assumption.
  - intros O. apply Z.odd_spec in O. replace A with (N + Zn)%Z in O by (unfold N; ring). rewrite Z.odd_add in O.
    destruct (Z.odd Zn), (Z.odd N); try discriminate O; reflexivity.
  - rewrite (proj2 (C49_excess t Zn A) Hm). f_equal. unfold ldm_excess. cbv zeta. fold N.
    assert (P2 : Rpower (IZR A) (2 / 3) = Rpower (IZR A) (1 / 3) ^ 2).
    { rewrite <- Rpower_pow by exact P3. rewrite Rpower_mult. f_equal. cbn [INR]. lra. }
    rewrite P2. set (d := if (_ && _)%bool then _ else _). field. split; lra.
Qed.
Print Assumptions C49_estimate.

(** Antiparticles weigh the same as particles. *)
Theorem C49_antiparticle t id : particle_mass t (- id) = particle_mass t id.
Proof.
  unfold particle_mass. cbv zeta. f_equal. f_equal.
  destruct (Z.ltb_spec id 0); destruct (Z.ltb_spec (- id) 0); lia.
Qed.
Print Assumptions C49_antiparticle.

(** The unbound threshold is at most every fragment's separation energy and equals
    one of them (or the largest double if all exceed it). The fragments are neutrons,
    protons, deuterons, tritons, helium-3 and alpha particles; those with as many nucleons
    as the nucleus or more only count if what remains has a measured mass. *)
Theorem C49_threshold t pdg u : unbound_threshold t pdg = Ok u ->
  let weighs Zn A := measured t Zn A \/ (0 < A)%Z in
  let possible f := In f [2112; 2212; 1000010020; 1000010030; 1000020030; 1000020040]%Z /\
    weighs (particle_Z pdg) (particle_A pdg) /\ weighs (particle_Z pdg - particle_Z f)%Z (particle_A pdg - particle_A f)%Z in
  (forall f, possible f -> exists s, separation t pdg f true = Ok s /\ u <= s) /\
  (u = IZR (2 ^ 1024 - 2 ^ 971) \/ exists f, possible f /\ separation t pdg f true = Ok u) /\ u <= IZR (2 ^ 1024 - 2 ^ 971).
Proof.
  cbv zeta. change [2112; 2212; 1000010020; 1000010030; 1000020030; 1000020040]%Z with fragment_pdgs.
  unfold unbound_threshold, separation. change (IZR (2 ^ 1024 - 2 ^ 971)) with max_double. generalize max_double as b. generalize (particle_Z pdg) as Zn. generalize (particle_A pdg) as A.
  intros A Zn.
  assert (NM : forall Z0 A0, nan_mass t Z0 A0 = false <-> measured t Z0 A0 \/ (0 < A0)%Z).
  { intros Z0 A0. unfold nan_mass, measured. destruct (assoc _ _); [split; [intros _; left; discriminate|reflexivity]|].
    rewrite Z.leb_gt. split; [intros ?; right; assumption|intros [C|?]; [exfalso; apply C; reflexivity|assumption]]. }
  assert (NS : forall f, nan_separation t Zn A f = false <->
     (measured t Zn A \/ (0 < A)%Z) /\ (measured t (Zn - particle_Z f) (A - particle_A f) \/ (0 < A - particle_A f)%Z)).
  { intros f. unfold nan_separation. rewrite orb_false_iff, !NM. reflexivity. }
  generalize fragment_pdgs as l. induction l as [|f r IH]; intros b H; cbn [min_threshold] in H.
  - injection H as <-. split; [intros f [[] _]|]. split; [left; reflexivity|lra].
  - destruct (separation_ZA t Zn A f true) as [s|] eqn:E; cbn [bind] in H; [|discriminate].
    destruct (nan_separation t Zn A f) eqn:EN.
    { destruct (IH _ H) as (I1 & I2 & I3). split; [|split; [|exact I3]].
      - intros g [[<-|Hg] Hn]; [apply NS in Hn; congruence|]. apply I1. split; assumption.
      - destruct I2 as [I2|(g & [Hg Hn] & Eg)]; [left; exact I2|]. right. exists g. split; [split; [right; exact Hg|exact Hn]|exact Eg]. }
    destruct (IH _ H) as (I1 & I2 & I3). split; [|split].
    + intros g [[<-|Hg] Hn]; [|apply I1; split; assumption]. exists s. split; [exact E|]. destruct (Rlt_dec s b); lra.
    + destruct I2 as [I2|(g & [Hg Hn] & Eg)]; [|right; exists g; split; [split; [right; exact Hg|exact Hn]|exact Eg]].
      destruct (Rlt_dec s b); [|left; exact I2]. right. exists f. split; [split; [left; reflexivity|apply NS; exact EN]|]. rewrite I2. exact E.
    + destruct (Rlt_dec s b); lra.
Qed.
Print Assumptions C49_threshold.

(** The last entry for a code in the data file wins, other codes keep theirs. *)
Theorem C49_assign entries m k :
  assoc k (assign_masses entries m) =
  match assoc k (rev entries) with Some v => Some v | None => assoc k m end.
Proof.
  unfold assign_masses. assert (E : forall l (a : list (Z * R)), fold_left (fun m e => e :: m) l a = rev l ++ a).
  { induction l as [|x r IH]; intros a; [reflexivity|]. cbn [fold_left rev]. rewrite IH, <- app_assoc. reflexivity. }
  rewrite E. induction (rev entries) as [|[k' v] r IH]; [reflexivity|]. cbn [app assoc]. destruct (Z.eqb k k'); [reflexivity|exact IH].
Qed.
Print Assumptions C49_assign.

(** A table with a measured and an estimated nuclide. *)
Example C49_case : let t := mkmt [(11%Z, 548); (2112%Z, 1008664); (2212%Z, 1007276)] [(1000180400%Z, 39962383)] in
  measured t 18 40 /\ ~ measured t 18 39 /\ exists s, separation t 1000180400 2112 true = Ok s.
Proof.
  cbv zeta. split; [discriminate|]. split; [intros H; apply H; reflexivity|].
  eexists. unfold separation. apply C49_separation with (me := micro_amu * 548) (mf := micro_amu * 1008664); [lia|reflexivity|reflexivity].
Qed.
