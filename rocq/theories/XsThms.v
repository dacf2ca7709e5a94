(** Cross sections in terms of the kinematics they stand for: C58, C59, C46, C45. The
    formulas of the code are compared with statements that name energies and momenta only
    by the equations they satisfy. *)
From Coq Require Import List ZArith Reals Lra Lia Psatz Bool Rpower.
From Verif Require Import Base Pdg React Kin KinSpec KinProofs Sample SampleProofs NucReact NucSpec NucProofs NucThms NucEventThms.
Import ListNotations.
Local Open Scope R_scope.

(** Two particles of masses m1 and m2 have opposite momenta of size p, energies E1 and E2,
    and squared total energy s. *)
Definition centre_of_mass (m1 m2 s p E1 E2 : R) : Prop :=
  0 <= p /\ 0 <= E1 /\ 0 <= E2 /\ E1 ^ 2 = m1 ^ 2 + p ^ 2 /\ E2 ^ 2 = m2 ^ 2 + p ^ 2 /\ (E1 + E2) ^ 2 = s.

(** The squared centre-of-mass energy of a projectile of mass ma and kinetic energy T that
    meets a target of mass mb at rest: energy squared less momentum squared. *)
Definition cm_energy2 (ma mb T : R) : R := (ma + T + mb) ^ 2 - ((ma + T) ^ 2 - ma ^ 2).

(** The relative speed of two particles of masses m1 and m2 with squared centre-of-mass
    energy s: the Lorentz factor of one in the rest frame of the other is
    (s - m1^2 - m2^2) / (2 m1 m2). *)
Definition relative_speed (m1 m2 s w : R) : Prop :=
  0 <= w <= 1 /\ (s - m1 ^ 2 - m2 ^ 2) ^ 2 * (1 - w ^ 2) = 4 * m1 ^ 2 * m2 ^ 2.

(** The number of protons and neutrons of the target (its code is 10LZZZAAAI). *)
Definition coupling (n : nuc) (fermi : R -> R) (s : R) (me : rme) (K : R) : Prop :=
  match r_proc (n_r n) with
  | NeutrinoCC | AntiNeutrinoCC =>
      exists w F, relative_speed (n_mc n) (n_mdgs n + me_energy me) s w /\ coulomb_factor n fermi w = Ok F /\ K = (97427 / 10 ^ 5) ^ 2 * F
  | NC => K = (if Z.eqb (me_type me) 0
               then ((IZR (code_A (r_b (n_r n)) - code_Z (r_b (n_r n))) - (1 - 4 * (23155 / 10 ^ 5)) * IZR (code_Z (r_b (n_r n)))) / 2) ^ 2
               else 1)
  | NuElectronElastic => False
  end.

(** The cross section of one transition, by the kinematics before and after. *)
Definition transition_xs (n : nuc) (fermi : R -> R) (T : R) (me : rme) (x : R) : Prop :=
  let s := cm_energy2 (n_ma n) (n_mb n) T in
  exists q Ea Eb p Ec Ed K,
    centre_of_mass (n_ma n) (n_mb n) s q Ea Eb /\
    centre_of_mass (n_mc n) (n_mdgs n + me_energy me) s p Ec Ed /\
    coupling n fermi s me K /\
    x = (116637 / 10 ^ 16) ^ 2 / PI * (Eb * Ed / s) * Ec * p * me_str me * K.

(** What a matrix element adds to the total: nothing if it has no strength or its level is
    too high, otherwise the cross section of the transition. *)
Definition part_of_total (n : nuc) (fermi : R -> R) (T : R) (me : rme) (x : R) : Prop :=
  (me_str me = 0 -> x = 0) /\
  (cm_energy2 (n_ma n) (n_mb n) T < (n_mc n + (n_mdgs n + me_energy me)) ^ 2 -> x = 0) /\
  (me_str me <> 0 -> (n_mc n + (n_mdgs n + me_energy me)) ^ 2 <= cm_energy2 (n_ma n) (n_mb n) T -> transition_xs n fermi T me x).

Lemma s_alt n T : cm_energy2 (n_ma n) (n_mb n) T = (n_ma n + n_mb n) ^ 2 + 2 * n_mb n * T.
Proof. unfold cm_energy2. ring. Qed.

(** Masses m1 and m2 with squared total energy s, at least (m1 + m2)^2, have the energies of
    the code. *)
Lemma cm_exists m1 m2 s : 0 <= m1 -> 0 <= m2 -> 0 < s -> (m1 + m2) ^ 2 <= s ->
  let E1 := (s + m1 * m1 - m2 ^ 2) / (2 * sqrt s) in
  centre_of_mass m1 m2 s (real_sqrt (E1 ^ 2 - m1 * m1)) E1 (sqrt s - E1).
Proof.
  intros H1 H2 Hs Hle. cbv zeta. pose proof (sqrt_lt_R0 s Hs) as Hr. pose proof (sqrt_sqrt s ltac:(lra)) as Hq.
  set (r := sqrt s) in *. set (E1 := (s + m1 * m1 - m2 ^ 2) / (2 * r)).
  assert (A : E1 * (2 * r) = s + m1 * m1 - m2 ^ 2) by (unfold E1; field; lra).
  assert (Hsum : m1 + m2 <= r) by nra.
  assert (G1 : m1 <= E1). { apply Rmult_le_reg_r with (2 * r); [lra|]. rewrite A, <- Hq. nra. }
  assert (G2 : m2 <= r - E1).
  { apply Rmult_le_reg_r with (2 * r); [lra|]. replace ((r - E1) * (2 * r)) with (2 * (r * r) - E1 * (2 * r)) by ring. rewrite A, Hq, <- Hq. nra. }
  assert (P2 : real_sqrt (E1 ^ 2 - m1 * m1) ^ 2 = E1 ^ 2 - m1 * m1) by (apply real_sqrt_sq; nra).
  unfold centre_of_mass. split; [apply real_sqrt_pos|]. split; [lra|]. split; [lra|]. rewrite P2. split; [ring|]. split.
  - replace ((r - E1) ^ 2) with (r * r - E1 * (2 * r) + E1 ^ 2) by ring. rewrite A, Hq. ring.
  - replace (E1 + (r - E1)) with r by ring. replace (r ^ 2) with (r * r) by ring. exact Hq.
Qed.

Lemma level_value n fermi T me x b : masses_ok n -> 0 <= me_energy me -> 0 <= T -> me_str me <> 0 ->
  accessible n T me -> level_xs n fermi T me = Ok (x, b) -> transition_xs n fermi T me x.
Proof.
  intros Hm He HT Hst Hac H. destruct (kin_signs n T (me_energy me) Hm He HT Hac) as (S1 & _).
  destruct Hm as (Ma & Mb & Mc & Md & _). unfold accessible in Hac. unfold transition_xs. rewrite s_alt. cbv zeta.
  unfold level_xs in H. destruct (Req_EM_T (me_str me) 0) as [Z0|_]; [contradiction|]. cbv zeta in H.
  set (s := (n_ma n + n_mb n) ^ 2 + 2 * n_mb n * T) in *. set (md := n_mdgs n + me_energy me) in *.
  assert (Hmd : 0 <= md) by (unfold md; lra).
  pose proof (cm_exists (n_mb n) (n_ma n) s ltac:(lra) Ma S1 ltac:(unfold s; nra)) as CI. cbv zeta in CI.
  pose proof (cm_exists (n_mc n) md s Mc Hmd S1 Hac) as CF. cbv zeta in CF.
  set (Eb := (s + n_mb n * n_mb n - n_ma n ^ 2) / (2 * sqrt s)) in *.
  replace (n_ma n * n_ma n) with (n_ma n ^ 2) in H by ring. fold Eb in H.
  set (Ec := (s + n_mc n * n_mc n - md ^ 2) / (2 * sqrt s)) in *. set (p := real_sqrt (Ec ^ 2 - n_mc n * n_mc n)) in *.
  set (Ed := sqrt s - Ec) in *. set (q := real_sqrt (Eb ^ 2 - n_mb n * n_mb n)) in *.
  set (w := real_sqrt ((Ed * Ec + p ^ 2) ^ 2 - n_mc n * n_mc n * md ^ 2) / (Ed * Ec + p ^ 2)) in *.
  assert (HW : relative_speed (n_mc n) md s w).
  { destruct CF as (P1 & P2 & P3 & P4 & P5 & P6). set (D := Ed * Ec + p ^ 2) in *.
    assert (HD : 0 <= D) by (unfold D; pose proof (pow2_ge_0 p); assert (0 <= Ed * Ec) by (apply Rmult_le_pos; assumption); lra).
    assert (ED : s - n_mc n ^ 2 - md ^ 2 = 2 * D) by (unfold D; rewrite <- P6; nra).
    split; [unfold w; apply speed_range; [exact HD|apply Rmult_le_pos; [nra|apply pow2_ge_0]]|]. rewrite ED.
    assert (HX : 0 <= D ^ 2 - n_mc n * n_mc n * md ^ 2).
    { unfold D. replace (n_mc n * n_mc n * md ^ 2) with (n_mc n ^ 2 * md ^ 2) by ring.
      replace (n_mc n ^ 2) with (Ec ^ 2 - p ^ 2) by lra. replace (md ^ 2) with (Ed ^ 2 - p ^ 2) by lra.
      replace ((Ed * Ec + p ^ 2) ^ 2 - (Ec ^ 2 - p ^ 2) * (Ed ^ 2 - p ^ 2)) with (p ^ 2 * (Ed + Ec) ^ 2) by ring.
      apply Rmult_le_pos; apply pow2_ge_0. }
    destruct (Req_dec D 0) as [D0|D0].
    - assert (Y : n_mc n * n_mc n * md ^ 2 = 0).
      { assert (0 <= n_mc n * n_mc n * md ^ 2) by (apply Rmult_le_pos; [nra|apply pow2_ge_0]). rewrite D0 in HX. lra. }
      rewrite D0. transitivity (4 * (n_mc n * n_mc n * md ^ 2)); [rewrite Y; ring|ring].
    - assert (WD : (w * D) ^ 2 = D ^ 2 - n_mc n * n_mc n * md ^ 2).
      { replace (w * D) with (real_sqrt (D ^ 2 - n_mc n * n_mc n * md ^ 2)); [apply real_sqrt_sq; exact HX|]. unfold w. field. exact D0. }
      replace ((2 * D) ^ 2 * (1 - w ^ 2)) with (4 * (D ^ 2 - (w * D) ^ 2)) by ring. rewrite WD. ring. }
  assert (CI' : centre_of_mass (n_ma n) (n_mb n) s q (sqrt s - Eb) Eb).
  { destruct CI as (A1 & A2 & A3 & A4 & A5 & A6). unfold centre_of_mass. repeat split; try assumption. transitivity ((Eb + (sqrt s - Eb)) ^ 2); [ring|exact A6]. }
  unfold coupling. destruct (r_proc (n_r n)).
  1,2: destruct (coulomb_factor n fermi w) as [F|] eqn:EF; cbn [bind] in H; [|discriminate]; injection H as <- _;
    exists q, (sqrt s - Eb), Eb, p, Ec, Ed, ((97427 / 10 ^ 5) ^ 2 * F); split; [exact CI'|]; split; [exact CF|]; split;
    [exists w, F; split; [exact HW|]; split; [exact EF|reflexivity] | unfold GF, Vud; rewrite <- Rsqr_pow2; unfold Rsqr; field; split; [lra|apply PI_neq0]].
  - injection H as <- _. exists q, (sqrt s - Eb), Eb, p, Ec, Ed.
    destruct (Z.eqb (me_type me) 0); eexists; (split; [exact CI'|]); (split; [exact CF|]); (split; [reflexivity|]).
    + unfold GF, weak_charge, sin2thetaw. field. split; [lra|apply PI_neq0].
    + unfold GF. field. split; [lra|apply PI_neq0].
  - discriminate.
Qed.

Lemma parts_exist n fermi T ms ws : masses_ok n -> 0 <= T -> Forall (fun m => 0 <= me_energy m) ms -> ascending ms ->
  partial_xs n fermi T None ms = Ok ws ->
  exists xs, Forall2 (part_of_total n fermi T) ms xs /\ sumR ws = sumR xs.
Proof.
  intros Hm HT. revert ws. induction ms as [|me r IH]; intros ws HE HA H; cbn [partial_xs] in H.
  { injection H as <-. exists []. split; [constructor|reflexivity]. }
  assert (He := Forall_inv HE). assert (Hr := Forall_inv_tail HE).
  assert (HA' : ascending r). { intros i j a b Hij Hi Hj. apply (HA (S i) (S j) a b); [lia|exact Hi|exact Hj]. }
  pose proof (access_iff n T me Hm He HT) as AI. unfold accessible in AI.
  destruct (Rlt_dec (max_level_energy n T) (me_energy me)) as [L|L].
  - injection H as <-. exists (map (fun _ => 0) (me :: r)). split.
    + assert (G : Forall (fun m => max_level_energy n T < me_energy m) (me :: r)).
      { constructor; [exact L|]. apply Forall_forall. intros m Hi. apply In_nth_error in Hi. destruct Hi as [i Hi].
        pose proof (HA O (S i) me m ltac:(lia) eq_refl Hi). lra. }
      clear -G Hm HT HE. induction G as [|m l Hl _ IHl]; [constructor|]. cbn [map]. constructor; [|apply IHl; apply (Forall_inv_tail HE)].
      unfold part_of_total. rewrite s_alt. split; [reflexivity|]. split; [reflexivity|]. intros _ C.
      exfalso. apply (access_iff n T m Hm (Forall_inv HE) HT) in C. lra.
    + clear. cbn [sumR]. induction (me :: r) as [|m l IHl]; [reflexivity|]. cbn [map sumR]. rewrite <- IHl. ring.
  - apply Rnot_lt_le in L. pose proof (proj1 AI L) as Hac. destruct (Req_EM_T (me_str me) 0) as [Z0|Z0].
    + destruct (IH ws Hr HA' H) as (xs & F & E). exists (0 :: xs). split; [|cbn [sumR]; lra].
      constructor; [|exact F]. unfold part_of_total. split; [reflexivity|]. split; [reflexivity|]. intros C. contradiction.
    + destruct (level_xs n fermi T me) as [[x b]|] eqn:EL; cbn [bind] in H; [|discriminate].
      destruct (partial_xs n fermi T None r) as [ws'|] eqn:EP; cbn [bind] in H; [|discriminate]. injection H as <-.
      destruct (IH ws' Hr HA' eq_refl) as (xs & F & E). exists (x :: xs). split; [|cbn [sumR]; lra].
      constructor; [|exact F]. unfold part_of_total. split; [intros C; contradiction|]. rewrite s_alt. split; [intros C; lra|].
      intros _ _. apply level_value with b; assumption.
Qed.

(** The total cross section of a nuclear reaction is the sum over the transitions to levels
    within reach of
      GF^2/pi (Eb Ed / s) Ec pc B K,
    where the energies and momenta are those of the particles in the centre-of-mass frame, B
    is the strength, and K is the CKM matrix element squared times the Coulomb factor at the
    relative speed of the outgoing particles (charged current) or, for neutral currents, a
    quarter of the squared weak charge (Fermi) or one (Gamow-Teller). *)
Theorem C58_value n fermi T t : masses_ok n -> ascending (n_mes n) -> 0 < T ->
  nuc_total_xs n fermi (r_a (n_r n)) T = Ok t ->
  exists xs, Forall2 (part_of_total n fermi T) (n_mes n) xs /\ t = sumR xs.
Proof.
  intros Hm HA HT H. unfold nuc_total_xs, summed_xs in H. rewrite Z.eqb_refl in H. cbn [negb] in H.
  destruct (Rle_dec T 0); [lra|].
  destruct (partial_xs n fermi T None (n_mes n)) as [ws|] eqn:E; cbn [bind] in H; [|discriminate]. injection H as <-.
  apply (parts_exist n fermi T (n_mes n) ws Hm ltac:(lra) ltac:(apply Hm) HA E).
Qed.
Print Assumptions C58_value.

(** The energies and momenta of that statement are determined by it. *)
Theorem C58_unique m1 m2 s p E1 E2 p' E1' E2' : 0 < s ->
  centre_of_mass m1 m2 s p E1 E2 -> centre_of_mass m1 m2 s p' E1' E2' -> p = p' /\ E1 = E1' /\ E2 = E2'.
Proof.
  intros Hs (A1 & A2 & A3 & A4 & A5 & A6) (B1 & B2 & B3 & B4 & B5 & B6).
  assert (S : E1 + E2 = E1' + E2') by (apply sq_eq; lra).
  assert (P : 0 < E1 + E2). { destruct (Req_dec (E1 + E2) 0) as [Z0|Z0]; [rewrite Z0 in A6; lra|lra]. }
  assert (D : (E1 - E2) * (E1 + E2) = (E1' - E2') * (E1 + E2)).
  { rewrite S at 2. replace ((E1 - E2) * (E1 + E2)) with (E1 ^ 2 - E2 ^ 2) by ring.
    replace ((E1' - E2') * (E1' + E2')) with (E1' ^ 2 - E2' ^ 2) by ring. lra. }
  apply Rmult_eq_reg_r in D; [|lra]. assert (E1 = E1') by lra. assert (E2 = E2') by lra. subst. split; [|split; reflexivity].
  apply sq_eq; try assumption. lra.
Qed.
Print Assumptions C58_unique.

(** ** C59 *)

(** The Coulomb potential energy of a unit charge at the centre of a uniformly charged sphere
    with Z protons and radius 1.2 A^(1/3) fm, in MeV: 3 Z alpha hbar c / (2 R). *)
Definition central_potential (Z A : Z) : R :=
  3 / 2 * IZR Z * (72973525698 / 10 ^ 13) * (1973269718 / 10 ^ 7) / (12 / 10 * Rpower (IZR A) (1 / 3)).

(** The factor of the effective momentum approximation, plain or modified, for a lepton of
    mass m, momentum p, energy E and potential energy V in the nucleus. *)
Definition effective_factor (modified : bool) (m p E V f : R) : Prop :=
  exists p', 0 <= p' /\ p' ^ 2 = (E - V) ^ 2 - m ^ 2 /\ f = if modified then p' * (E - V) / (p * E) else p' ^ 2 / p ^ 2.

(** The correction in each mode, for a lepton of momentum p and energy E in the rest frame
    of the residue: a negative lepton gains the energy of the central potential, a positive
    one loses it. *)
Theorem C59_value n fermi p E : 0 < n_mc n -> 0 < p -> 0 < E -> E ^ 2 = n_mc n ^ 2 + p ^ 2 -> (0 < code_A (r_d (n_r n)))%Z ->
  let U := central_potential (code_Z (r_d (n_r n))) (code_A (r_d (n_r n))) in
  let V := if Z.ltb 0 (r_c (n_r n)) then - U else U in
  let F := fermi (p / E) in
  match n_mode n with
  | NoCorrection => coulomb_factor n fermi (p / E) = Ok 1
  | FermiFunction => coulomb_factor n fermi (p / E) = Ok F
  | EMA | MEMA =>
      let m := match n_mode n with MEMA => true | _ => false end in
      (n_mc n <= E - V -> exists f, effective_factor m (n_mc n) p E V f /\ coulomb_factor n fermi (p / E) = Ok f) /\
      (E - V < n_mc n -> coulomb_factor n fermi (p / E) = Er MarleyErr)
  | FermiAndEMA | FermiAndMEMA =>
      let m := match n_mode n with FermiAndMEMA => true | _ => false end in
      (n_mc n <= E - V -> exists f, effective_factor m (n_mc n) p E V f /\
         coulomb_factor n fermi (p / E) = Ok (if Rlt_dec (Rabs (F - 1)) (Rabs (f - 1)) then F else f)) /\
      (E - V < n_mc n -> coulomb_factor n fermi (p / E) = Ok F)
  end.
Proof.
  intros Hm Hp HE Hon HA. cbv zeta. set (U := central_potential _ _).
  set (V := if Z.ltb 0 (r_c (n_r n)) then - U else U). set (beta := p / E).
  assert (Hb : beta * E = p) by (unfold beta; field; lra).
  assert (HG : 1 / sqrt (1 - beta ^ 2) * n_mc n = E).
  { assert (Q : 1 - beta ^ 2 = (n_mc n / E) ^ 2).
    { apply Rmult_eq_reg_r with (E ^ 2); [|apply pow_nonzero; lra]. replace ((1 - beta ^ 2) * E ^ 2) with (E ^ 2 - (beta * E) ^ 2) by ring.
      rewrite Hb. replace ((n_mc n / E) ^ 2 * E ^ 2) with (n_mc n ^ 2) by (field; lra). lra. }
    rewrite Q, sqrt_pow2; [field; split; lra|]. apply Rmult_le_pos; [lra|left; apply Rinv_0_lt_compat; lra]. }
  assert (HV : (if Z.ltb 0 (r_c (n_r n)) then -3 * IZR (code_Z (r_d (n_r n))) * alpha / (2 * radius (code_A (r_d (n_r n))))
                else - (-3 * IZR (code_Z (r_d (n_r n))) * alpha / (2 * radius (code_A (r_d (n_r n)))))) = V).
  { assert (X : -3 * IZR (code_Z (r_d (n_r n))) * alpha / (2 * radius (code_A (r_d (n_r n)))) = - U).
    { unfold U, central_potential, radius, alpha, r0, hbar_c. field. unfold Rpower. pose proof (exp_pos (1 / 3 * ln (IZR (code_A (r_d (n_r n)))))). lra. }
    unfold V. rewrite X. destruct (Z.ltb _ _); ring. }
  assert (G : forall m, ema_factor n beta m =
    ((if m then real_sqrt ((E - V) ^ 2 - n_mc n * n_mc n) * (E - V) / (p * E) else (real_sqrt ((E - V) ^ 2 - n_mc n * n_mc n) / p) ^ 2),
     if Rle_dec (n_mc n) (E - V) then true else false)).
  { intros m. unfold ema_factor. cbv zeta. rewrite HV, HG, Hb. reflexivity. }
  assert (K : forall m, n_mc n <= E - V ->
     effective_factor m (n_mc n) p E V (if m then real_sqrt ((E - V) ^ 2 - n_mc n * n_mc n) * (E - V) / (p * E) else (real_sqrt ((E - V) ^ 2 - n_mc n * n_mc n) / p) ^ 2)).
  { intros m L. exists (real_sqrt ((E - V) ^ 2 - n_mc n * n_mc n)). split; [apply real_sqrt_pos|].
    split; [rewrite real_sqrt_sq by nra; ring|]. destruct m; [reflexivity|]. field. lra. }
  unfold coulomb_factor. destruct (n_mode n); try reflexivity; rewrite G; destruct (Rle_dec (n_mc n) (E - V)) as [L|L];
    (split; intros L'; [try (exfalso; lra)|try (exfalso; lra)]); try reflexivity; eexists; (split; [apply (K _ L)|]); reflexivity.
Qed.
Print Assumptions C59_value.

(** ** C46: electron scattering *)

(** The chiral couplings of a neutrino to electrons. *)
Definition left_coupling (a : Z) : R := if Z.eqb (Z.abs a) 12 then 1 / 2 + 23155 / 10 ^ 5 else - (1 / 2) + 23155 / 10 ^ 5.
Definition right_coupling : R := 23155 / 10 ^ 5.

(** The textbook cross section per electron, differential in the recoil energy t, for
    neutrino energy E and electron mass m; for antineutrinos the couplings change places. *)
Definition recoil_xs (a : Z) (m E t : R) : R :=
  let gL := left_coupling a in
  let gR := right_coupling in
  let '(g1, g2) := if Z.ltb 0 a then (gL, gR) else (gR, gL) in
  2 * (116637 / 10 ^ 16) ^ 2 * m / PI * (g1 ^ 2 + g2 ^ 2 * (1 - t / E) ^ 2 - g1 * g2 * m * t / E ^ 2).

Lemma el_built mass_of a Z l : new_electron_reaction mass_of a Z = Ok l ->
  r_a (l_r l) = a /\ l_Z l = Z /\ r_c (l_r l) = a /\ k_ma (l_k l) = mass_of a /\ k_mc (l_k l) = mass_of a /\
  k_mb (l_k l) = mass_of ELECTRON /\ k_md (l_k l) = mass_of ELECTRON /\
  (l_g1 l, l_g2 l) = (if Z.ltb 0 a then (left_coupling a, right_coupling) else (right_coupling, left_coupling a)).
Proof.
  unfold new_electron_reaction, electron_reaction. intros H.
  destruct (ejectile a NuElectronElastic) as [c|] eqn:EC; cbn [bind] in H; [|discriminate].
  assert (c = a). { unfold ejectile in EC. destruct (existsb _ _) in EC; [congruence|discriminate]. } subst c.
  destruct (particle_charge a) as [qa|]; cbn [bind] in H; [|discriminate].
  destruct (particle_charge ELECTRON) as [qb|]; cbn [bind] in H; [|discriminate].
  destruct (couplings a) as [[g1 g2]|] eqn:EG; cbn [bind] in H; [|discriminate]. injection H as <-.
  cbn [l_r l_Z l_k k_ma k_mb k_mc k_md r_a r_b r_c r_d l_g1 l_g2].
  repeat (split; [reflexivity|]). unfold couplings in EG. unfold left_coupling, right_coupling.
  destruct (Z.eqb_spec a 12) as [->|_]; [injection EG as <- <-; reflexivity|].
  destruct (Z.eqb_spec a (-12)) as [->|_]; [injection EG as <- <-; reflexivity|].
  destruct (Z.eqb_spec a 14) as [->|_]; [injection EG as <- <-; reflexivity|].
  destruct (Z.eqb_spec a 16) as [->|_]; [injection EG as <- <-; reflexivity|].
  destruct (Z.eqb_spec a (-14)) as [->|_]; [injection EG as <- <-; reflexivity|].
  destruct (Z.eqb_spec a (-16)) as [->|_]; [injection EG as <- <-; reflexivity|]. discriminate.
Qed.

(** The cross section for scattering at the cosine c in the centre-of-mass frame is the
    textbook one for the recoil energy t = m E^2 (1 - c) / s, times dt/dc, for each of the Z
    electrons. *)
Theorem C46_recoil mass_of a Z l E c : new_electron_reaction mass_of a Z = Ok l -> mass_of a = 0 -> 0 < mass_of ELECTRON -> 0 < E ->
  let m := mass_of ELECTRON in
  let s := m ^ 2 + 2 * m * E in
  el_diff_xs l a E c = IZR Z * (m * E ^ 2 / s * recoil_xs a m E (m * E ^ 2 * (1 - c) / s)).
Proof.
  intros H Ha Hm HE. destruct (el_built _ _ _ _ H) as (R1 & R2 & R3 & K1 & K2 & K3 & K4 & KG). cbv zeta.
  set (m := mass_of ELECTRON) in *. set (s := m ^ 2 + 2 * m * E).
  assert (Hs : 0 < s) by (unfold s; nra).
  assert (ES : el_s l E = s) by (unfold el_s; rewrite K1, K3, Ha; unfold s; ring).
  assert (EC : el_Ec l E ^ 2 = m ^ 2 * E ^ 2 / s).
  { unfold el_Ec. rewrite ES, K2, K4, Ha. pose proof (sqrt_lt_R0 s Hs) as Hq. pose proof (sqrt_sqrt s ltac:(lra)) as Hq2.
    replace (s + 0 * 0 - m * m) with (2 * m * E) by (unfold s; ring).
    replace ((2 * m * E / (2 * sqrt s)) ^ 2) with (m ^ 2 * E ^ 2 / (sqrt s * sqrt s)) by (field; lra). rewrite Hq2. reflexivity. }
  unfold el_diff_xs. rewrite R1, Z.eqb_refl. cbn [negb].
  destruct (Rlt_dec E (el_threshold l)) as [C|_].
  { exfalso. unfold el_threshold, threshold in C. rewrite K1, K2, K3, K4, Ha in C.
    replace (((0 + m) ^ 2 - (0 + m) ^ 2) / (2 * m)) with 0 in C by (field; lra). lra. }
  cbv zeta. rewrite ES, K4, R2. rewrite Rpow_mult_distr, EC. unfold recoil_xs, GF.
  destruct (Z.ltb 0 a); injection KG as -> ->; unfold right_coupling; unfold s; field; unfold s in Hs; repeat split; try lra; try apply PI_neq0; nra.
Qed.
Print Assumptions C46_recoil.

(** That t is the kinetic energy of the recoiling electron in the laboratory frame. *)
Theorem C45_recoil k ids qs E ct phi Ex twoJ P s Ec pc Ed : k_ma k = 0 -> k_mc k = 0 -> 0 < k_mb k -> k_md k = k_mb k -> 0 < E -> -1 <= ct <= 1 ->
  two_two_scatter k E = (s, Ec, pc, Ed) ->
  exists ev, make_event_object k ids qs E pc ct phi Ec Ed Ex twoJ P = Ok ev /\
    let m := k_mb k in en (e_residue ev) = m + m * E ^ 2 * (1 - ct) / (m ^ 2 + 2 * m * E).
Proof.
  intros Ha Hc Hb Hd HE Hct H. cbv zeta. destruct ids as [[[ia ib] ic] id]. destruct qs as [[[qa qb] qc] qd].
  unfold two_two_scatter in H. rewrite Ha, Hc, Hd in H. set (m := k_mb k) in *.
  set (S := m ^ 2 + 2 * m * E). assert (HS : 0 < S) by (unfold S; nra).
  replace (0 * 0 + m * m + 2 * m * (E + 0)) with S in H by (unfold S; ring). pose proof (sqrt_lt_R0 S HS) as Hr. pose proof (sqrt_sqrt S ltac:(lra)) as Hq.
  set (r := sqrt S) in *. cbv zeta in H.
  assert (EEc : (S + 0 * 0 - m * m) / (2 * r) = m * E / r).
  { replace (S + 0 * 0 - m * m) with (2 * m * E) by (unfold S; ring). field. lra. }
  rewrite EEc in H.
  assert (PP : real_sqrt ((m * E / r) ^ 2 - 0 * 0) = m * E / r).
  { unfold real_sqrt. replace ((m * E / r) ^ 2 - 0 * 0) with ((m * E / r) ^ 2) by ring. destruct (Rlt_dec _ _) as [C|_]; [pose proof (pow2_ge_0 (m * E / r)); lra|].
    apply sqrt_pow2. apply Rmult_le_pos; [nra|left; apply Rinv_0_lt_compat; lra]. }
  rewrite PP in H.
  assert (ED : r - m * E / r = m * (E + m) / r).
  { apply Rmult_eq_reg_r with r; [|lra]. replace ((r - m * E / r) * r) with (r * r - m * E) by (field; lra). rewrite Hq. unfold S. field. lra. }
  rewrite ED in H.
  assert (GE : r <= E + m). { assert (r ^ 2 <= (E + m) ^ 2) by (replace (r ^ 2) with (r * r) by ring; rewrite Hq; unfold S; nra). apply sq_le; [lra|assumption]. }
  rewrite Rmax_left in H.
  2:{ apply Rmult_le_reg_r with r; [lra|]. replace (m * (E + m) / r * r) with (m * (E + m)) by (field; lra). nra. }
  injection H as <- <- <- <-.
  unfold make_event_object. cbv zeta. rewrite Ha. fold m.
  assert (PA : real_sqrt (E * (E + 2 * 0)) = E).
  { replace (E * (E + 2 * 0)) with (E ^ 2) by ring. unfold real_sqrt. destruct (Rlt_dec _ _) as [C|_]; [nra|]. apply sqrt_pow2. lra. }
  rewrite PA. replace (E + 0 + m) with (E + m) by ring. set (b := E / (E + m)).
  assert (Hb2 : 0 < 1 - b ^ 2 /\ 1 - b ^ 2 = (r / (E + m)) ^ 2).
  { assert (Q : 1 - b ^ 2 = (r / (E + m)) ^ 2).
    { unfold b. replace ((r / (E + m)) ^ 2) with (r * r / (E + m) ^ 2) by (field; lra). rewrite Hq. unfold S. field. lra. }
    split; [|exact Q]. rewrite Q. apply pow_lt. apply Rmult_lt_0_compat; [exact Hr|apply Rinv_0_lt_compat; lra]. }
  destruct Hb2 as [Hlt Hsq].
  assert (Bpos : 0 < b) by (unfold b; apply Rmult_lt_0_compat; [lra|apply Rinv_0_lt_compat; lra]).
  assert (GB : forall p, boost 0 0 (- b) p = Ok (
     let g := (E + m) / r in
     let bp := - b * pz p in
     let f := (g - 1) * bp / b ^ 2 in
     let e := g * (en p - bp) in
     set_p4 (if Rlt_dec e (mass p) then mass p else e) (px p) (py p) ((- g * en p + f) * - b + pz p) p)).
  { intros p. unfold boost, get_beta2. cbv zeta. replace (0 ^ 2 + 0 ^ 2 + (- b) ^ 2) with (b ^ 2) by ring.
    destruct (Req_EM_T (b ^ 2) 1) as [C|_]; [lra|]. destruct (Rlt_dec 1 (b ^ 2)) as [C|_]; [lra|]. cbn [bind].
    destruct (Req_EM_T (b ^ 2) 0) as [C|_]; [nra|]. rewrite Hsq, sqrt_pow2.
    2:{ apply Rmult_le_pos; [lra|left; apply Rinv_0_lt_compat; lra]. }
    replace (1 / (r / (E + m))) with ((E + m) / r) by (field; lra).
    replace (0 * px p + 0 * py p + - b * pz p) with (- b * pz p) by ring. f_equal. f_equal; ring. }
  rewrite !GB. cbn [bind]. eexists. split; [reflexivity|]. cbn [e_residue set_p4 en pz mass]. rewrite Hd. fold m. cbv zeta.
  assert (V : (E + m) / r * (m * (E + m) / r - - b * - (ct * (m * E / r))) = m + m * E ^ 2 * (1 - ct) / (m ^ 2 + 2 * m * E)).
  { fold S. transitivity (m * ((E + m) ^ 2 - E ^ 2 * ct) / (r * r)); [unfold b; field; split; lra|]. rewrite Hq. unfold S. field. unfold S in HS. lra. }
  rewrite V. destruct (Rlt_dec _ _) as [C|_]; [|reflexivity]. exfalso.
  assert (0 <= m * E ^ 2 * (1 - ct) / (m ^ 2 + 2 * m * E)).
  { apply Rmult_le_pos; [apply Rmult_le_pos; [nra|lra]|left; apply Rinv_0_lt_compat; exact HS]. }
  lra.
Qed.
Print Assumptions C45_recoil.

(** A two-level target to which C58_value applies: see C58_case. An electron of 5 MeV with
    a residue of nineteen protons meets the hypotheses of C59_value, with a potential
    below its energy. *)
Example C59_value_case : let n := mknuc (mkr NeutrinoCC 12 1000180400 11 1000190400 0 0 (-1) 1) 0 37 3 37 MEMA [] in
  0 < n_mc n /\ (5 : R) ^ 2 = n_mc n ^ 2 + 4 ^ 2 /\ (0 < code_A (r_d (n_r n)))%Z /\ code_Z (r_d (n_r n)) = 19%Z /\
  n_mc n <= 5 - - central_potential 19 40.
Proof.
  cbv zeta. cbn [n_mc n_r r_d]. split; [lra|]. split; [ring|]. split; [reflexivity|]. split; [reflexivity|].
  assert (0 <= central_potential 19 40); [|lra]. unfold central_potential.
  apply Rmult_le_pos; [apply Rmult_le_pos; [apply Rmult_le_pos; lra|lra]|]. left. apply Rinv_0_lt_compat.
  apply Rmult_lt_0_compat; [lra|]. unfold Rpower. apply exp_pos.
Qed.

(** Electron neutrinos on argon atoms meet the hypotheses of C46_recoil; the cross section
    is not zero. *)
Example C46_recoil_case : exists l, new_electron_reaction (fun i => if Z.eqb i 11 then 1 / 2 else 0) 12 18 = Ok l /\ el_diff_xs l 12 2 1 <> 0.
Proof.
  eexists. split; [reflexivity|].
  erewrite (C46_recoil (fun i => if Z.eqb i 11 then 1 / 2 else 0) 12 18); [|reflexivity|reflexivity|cbn [Z.eqb Pos.eqb ELECTRON]; lra|lra].
  change (if Z.eqb ELECTRON 11 then 1 / 2 else 0) with (1 / 2). unfold recoil_xs. cbv zeta. change (Z.ltb 0 12) with true. cbv iota beta.
  unfold left_coupling, right_coupling. change (Z.eqb (Z.abs 12) 12) with true. cbv iota. pose proof PI_RGT_0.
  apply Rgt_not_eq. apply Rmult_lt_0_compat; [lra|]. apply Rmult_lt_0_compat; [lra|]. apply Rmult_lt_0_compat.
  - apply Rmult_lt_0_compat; [|apply Rinv_0_lt_compat; assumption]. lra.
  - lra.
Qed.
