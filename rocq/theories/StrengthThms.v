(** Theorems about gamma-ray strength functions (Strength.v). *)
From Coq Require Import List ZArith Reals Bool Lia Lra.
From Verif Require Import Base Dbl Stream Pdg Mass XReal Strength.
Import ListNotations.
Open Scope R_scope.

(** ** C68: gamma-ray strength functions *)

Lemma pow2_gt_0 x : x <> 0 -> 0 < x ^ 2.
Proof. intros H. pose proof (pow2_ge_0 x). pose proof (pow_nonzero x 2 H). lra. Qed.

Lemma PI2_pos : 0 < PI ^ 2.
Proof. apply pow_lt. exact PI_RGT_0. Qed.

Lemma root3 A c : (0 < A)%Z -> 0 < c -> c ^ 3 = IZR A ->
  Rpower (IZR A) (1 / 3) = c /\ Rpower (IZR A) (- 1 / 3) = / c /\ Rpower (IZR A) (- 1 / 6) = / sqrt c.
Proof.
  intros HA Pc C3.
  assert (E : Rpower (IZR A) (1 / 3) = c).
  { rewrite <- C3, <- Rpower_pow by exact Pc. rewrite Rpower_mult. replace (INR 3 * (1 / 3)) with 1 by (cbn [INR]; lra). apply Rpower_1. exact Pc. }
  split; [exact E|]. split.
  - replace (- 1 / 3) with (- (1 / 3)) by lra. rewrite Rpower_Ropp, E. reflexivity.
  - replace (- 1 / 6) with (- (1 / 3 * / 2)) by lra. rewrite Rpower_Ropp, <- Rpower_mult, E, Rpower_sqrt by exact Pc. reflexivity.
Qed.

Lemma scaled_pow n : forall s, scaled s n = s * (8 / 10 ^ 4) ^ n.
Proof. induction n as [|n IH]; intros s; cbn [scaled]; [cbn [pow]; ring|]. rewrite IH. cbn [pow]. ring. Qed.

Lemma lorentz_denom gamma e eg : 0 < e -> gamma <> 0 -> 0 < (eg ^ 2 - e ^ 2) ^ 2 + eg ^ 2 * gamma ^ 2.
Proof.
  intros He Hg. assert (0 < gamma ^ 2) by (apply pow2_gt_0; exact Hg).
  destruct (Req_dec eg 0) as [->|N].
  - assert (0 < (0 ^ 2 - e ^ 2) ^ 2); [|lra]. apply pow2_gt_0. assert (0 < e ^ 2) by (apply pow_lt; exact He). lra.
  - assert (0 < eg ^ 2) by (apply pow2_gt_0; exact N). pose proof (pow2_ge_0 (eg ^ 2 - e ^ 2)).
    assert (0 < eg ^ 2 * gamma ^ 2) by (apply Rmult_lt_0_compat; assumption). lra.
Qed.

(** Transmission coefficients and strength functions are related as documented, in both
    models. *)
Theorem C68_relation m ty l eg f : slo_strength m ty l eg = Ok f -> eg <> 0 ->
  exists x, f = Fin x /\ slo_T m ty l eg = Ok (2 * PI * x * powerRZ eg (2 * l + 1)).
Proof.
  unfold slo_strength, slo_T. destruct (slo_coeff m ty l eg) as [c|]; [|discriminate]. cbn [bind]. intros H He. injection H as <-.
  unfold xpowz. destruct (Req_EM_T eg 0) as [N|_]; [contradiction|]. cbn [xmul]. exists (powerRZ eg (3 - 2 * l) * c). split; [reflexivity|]. f_equal.
  transitivity (2 * PI * c * (powerRZ eg (3 - 2 * l) * powerRZ eg (2 * l + 1))); [|generalize (powerRZ eg (3 - 2 * l)), (powerRZ eg (2 * l + 1)); intros; ring].
  rewrite <- powerRZ_add by exact He. replace (3 - 2 * l + (2 * l + 1))%Z with 4%Z by ring. reflexivity.
Qed.
Print Assumptions C68_relation.

Theorem C68_relation_weisskopf mp w ty l eg x : wsp_strength mp w ty l = Ok x ->
  wsp_T mp w ty l eg = Ok (2 * PI * x * powerRZ eg (2 * l + 1)) /\
  (w_D0 w <> 0 -> exists g, wsp_width mp w ty l eg = Ok g /\ wsp_T mp w ty l eg = Ok (2 * PI * g / w_D0 w)).
Proof.
  intros H. unfold wsp_T, wsp_width. rewrite H. cbn [bind]. split; [reflexivity|]. intros HD. eexists. split; [reflexivity|]. f_equal. field. exact HD.
Qed.
Print Assumptions C68_relation_weisskopf.

(** The documented giant resonance parameters, with [c] the cube root of the mass number. *)
Definition documented_E1 (Zn A : Z) (c : R) : R * R * R :=
  let E := 312 / 10 / c + 206 / 10 / sqrt c in
  let G := 26 / 10 ^ 3 * Rpower E (191 / 100) in
  (E, G, 12 / 10 * (120 * IZR (A - Zn) * IZR Zn / (PI * IZR A * G))).
Definition documented_E2 (Zn A : Z) (c : R) : R * R * R :=
  let E := 63 / c in
  let G := 611 / 100 - 12 / 10 ^ 3 * IZR A in
  (E, G, 14 / 10 ^ 5 * IZR Zn ^ 2 * E / (c * G)).

(** The documented strength, for a peak cross section in millibarns: 1 mb is
    (hbar c)^2 / (389379338 / 1000) MeV^2. *)
Definition brink_axel (p : R * R * R) (l : Z) (eg : R) : R :=
  let '(E, G, s) := p in
  s / (389379338 / 1000) / (IZR (2 * l + 1) * PI ^ 2) * (G ^ 2 * powerRZ eg (3 - 2 * l) / ((eg ^ 2 - E ^ 2) ^ 2 + eg ^ 2 * G ^ 2)).

Lemma E1_parts Zn A c (e g s : R) : (e, g, s) = documented_E1 Zn A c ->
  e = 312 / 10 / c + 206 / 10 / sqrt c /\ g = 26 / 10 ^ 3 * Rpower (312 / 10 / c + 206 / 10 / sqrt c) (191 / 100) /\
  s = 12 / 10 * (120 * IZR (A - Zn) * IZR Zn / (PI * IZR A * g)).
Proof. unfold documented_E1. cbv zeta. intros H. apply pair_equal_spec in H. destruct H as [H H3]. apply pair_equal_spec in H. destruct H as [H1 H2]. rewrite <- H2 in H3. auto. Qed.

Lemma E2_parts Zn A c (e g s : R) : (e, g, s) = documented_E2 Zn A c ->
  e = 63 / c /\ g = 611 / 100 - 12 / 10 ^ 3 * IZR A /\ s = 14 / 10 ^ 5 * IZR Zn ^ 2 * (63 / c) / (c * g).
Proof. unfold documented_E2. cbv zeta. intros H. apply pair_equal_spec in H. destruct H as [H H3]. apply pair_equal_spec in H. destruct H as [H1 H2]. rewrite <- H2 in H3. auto. Qed.

Lemma E1_energy_pos c : 0 < c -> 0 < 312 / 10 / c + 206 / 10 / sqrt c.
Proof.
  intros Pc. assert (0 < sqrt c) by (apply sqrt_lt_R0; exact Pc).
  apply Rplus_lt_0_compat; apply Rmult_lt_0_compat; try lra; apply Rinv_0_lt_compat; assumption.
Qed.

Lemma new_slo_form Zn A c : (0 < A)%Z -> 0 < c -> c ^ 3 = IZR A ->
  let m := new_slo Zn A in
  (e_E1 m, g_E1 m, s_E1 m / mb_unit) = documented_E1 Zn A c /\
  (e_E2 m, g_E2 m, s_E2 m / mb_unit) = documented_E2 Zn A c /\ e_M1 m = 41 / c /\ g_M1 m = 4 /\
  s_M1 m = ((7 ^ 2 - (41 / c) ^ 2) ^ 2 + 7 ^ 2 * 4 ^ 2) * (3 * PI ^ 2 * (7 * lorentzian (s_E1 m) (g_E1 m) (e_E1 m) 1 7 / (588 / 10 ^ 4 * Rpower (IZR A) (878 / 1000)))) / (7 * 4 ^ 2).
Proof.
  intros HA Pc C3 m. destruct (root3 A c HA Pc C3) as (R1 & R2 & R3).
  assert (PA : 0 < IZR A) by (apply IZR_lt; exact HA). pose proof PI_RGT_0 as PP.
  assert (PM : 0 < mb_unit) by (unfold mb_unit; lra).
  assert (E1 : e_E1 m = 312 / 10 / c + 206 / 10 / sqrt c) by (unfold m, new_slo; cbn [e_E1]; rewrite R2, R3; reflexivity).
  assert (G1 : g_E1 m = 26 / 10 ^ 3 * Rpower (312 / 10 / c + 206 / 10 / sqrt c) (191 / 100)).
  { rewrite <- E1. unfold m, new_slo. cbn [g_E1 e_E1]. f_equal. lra. }
  assert (PG : 0 < g_E1 m) by (rewrite G1; apply Rmult_lt_0_compat; [lra|unfold Rpower; apply exp_pos]).
  split; [|split; [|split; [|split]]].
  - unfold documented_E1. cbv zeta. rewrite <- G1, <- E1. f_equal. 
    transitivity (12 / 10 * 120 * IZR (A - Zn) * IZR Zn / (IZR A * PI * g_E1 m) * mb_unit / mb_unit); [reflexivity|]. field. repeat split; lra.
  - unfold documented_E2. cbv zeta. assert (E2 : e_E2 m = 63 / c) by (unfold m, new_slo; cbn [e_E2]; rewrite R2; reflexivity).
    assert (G2 : g_E2 m = 611 / 100 - 12 / 10 ^ 3 * IZR A) by (unfold m, new_slo; cbn [g_E2]; lra).
    rewrite <- G2, <- E2. f_equal. transitivity (14 / 10 ^ 5 * IZR Zn ^ 2 * e_E2 m / (Rpower (IZR A) (1 / 3) * g_E2 m) * mb_unit / mb_unit); [reflexivity|].
    rewrite R1. unfold Rdiv. rewrite (Rmult_assoc _ mb_unit), Rinv_r by lra. ring.
  - unfold m, new_slo. cbn [e_M1]. rewrite R2. reflexivity.
  - reflexivity.
  - assert (EM : e_M1 m = 41 / c) by (unfold m, new_slo; cbn [e_M1]; rewrite R2; reflexivity). rewrite <- EM. reflexivity.
Qed.

(** Electric transitions have the documented strength, those beyond quadrupole a factor of
    0.0008 less for each unit of multipolarity. *)
Theorem C68_electric Zn A c l eg : (0 < A)%Z -> 0 < c -> c ^ 3 = IZR A -> (1 <= l)%Z -> eg <> 0 ->
  slo_strength (new_slo Zn A) Electric l eg = Ok (Fin (
    if Z.eqb l 1 then brink_axel (documented_E1 Zn A c) 1 eg
    else (8 / 10 ^ 4) ^ Z.to_nat (l - 2) * brink_axel (documented_E2 Zn A c) l eg)).
Proof.
  intros HA Pc C3 Hl He. destruct (new_slo_form Zn A c HA Pc C3) as (F1 & F2 & _). cbv zeta in F1, F2.
  unfold slo_strength, slo_coeff, check_multipolarity. destruct (Z.ltb_spec l 1); [lia|]. cbn [bind].
  rewrite <- F1, <- F2. unfold brink_axel. assert (EM : mb_unit = / (389379338 / 1000)) by (unfold mb_unit; lra).
  assert (PM : 0 < mb_unit) by (unfold mb_unit; lra).
  destruct (Z.eqb_spec l 1) as [->|N]; cbn [bind]; unfold xpowz; (destruct (Req_EM_T eg 0); [contradiction|]); cbn [xmul]; do 2 f_equal; unfold lorentzian.
  - transitivity (s_E1 (new_slo Zn A) / mb_unit * mb_unit / (IZR (2 * 1 + 1) * PI ^ 2) * (g_E1 (new_slo Zn A) ^ 2 * powerRZ eg (3 - 2 * 1) / ((eg ^ 2 - e_E1 (new_slo Zn A) ^ 2) ^ 2 + eg ^ 2 * g_E1 (new_slo Zn A) ^ 2))).
    + unfold Rdiv. rewrite (Rmult_assoc _ (/ mb_unit)), Rinv_l, Rmult_1_r by lra. rewrite !Rinv_mult. ring.
    + rewrite EM at 2. reflexivity.
  - unfold scale_from. rewrite scaled_pow. set (k := (8 / 10 ^ 4) ^ _).
    transitivity (k * (s_E2 (new_slo Zn A) / mb_unit * mb_unit / (IZR (2 * l + 1) * PI ^ 2) * (g_E2 (new_slo Zn A) ^ 2 * powerRZ eg (3 - 2 * l) / ((eg ^ 2 - e_E2 (new_slo Zn A) ^ 2) ^ 2 + eg ^ 2 * g_E2 (new_slo Zn A) ^ 2)))).
    + unfold Rdiv. rewrite (Rmult_assoc _ (/ mb_unit)), Rinv_l, Rmult_1_r by lra. rewrite !Rinv_mult. ring.
    + rewrite EM at 2. reflexivity.
Qed.
Print Assumptions C68_electric.

(** Magnetic transitions: a resonance at 41 A^(-1/3) MeV, 4 MeV wide, whose dipole strength
    at 7 MeV is the electric dipole strength divided by 0.0588 A^0.878, and 0.0008 less for
    each further unit of multipolarity. *)
Theorem C68_magnetic Zn A c : (0 < A)%Z -> 0 < c -> c ^ 3 = IZR A ->
  exists s, (forall l eg, (1 <= l)%Z -> eg <> 0 ->
      slo_strength (new_slo Zn A) Magnetic l eg = Ok (Fin ((8 / 10 ^ 4) ^ Z.to_nat (l - 1) * brink_axel (41 / c, 4, s) l eg))) /\
    brink_axel (41 / c, 4, s) 1 7 = brink_axel (documented_E1 Zn A c) 1 7 / (588 / 10 ^ 4 * Rpower (IZR A) (878 / 1000)).
Proof.
  intros HA Pc C3. destruct (new_slo_form Zn A c HA Pc C3) as (F1 & _ & F3 & F4 & F5). cbv zeta in *.
  assert (EM : mb_unit = / (389379338 / 1000)) by (unfold mb_unit; lra). assert (PM : 0 < mb_unit) by (unfold mb_unit; lra).
  exists (s_M1 (new_slo Zn A) / mb_unit). split.
  - intros l eg Hl He. unfold slo_strength, slo_coeff, check_multipolarity. destruct (Z.ltb_spec l 1); [lia|]. cbn [bind].
    unfold xpowz. destruct (Req_EM_T eg 0); [contradiction|]. cbn [xmul]. do 2 f_equal. unfold lorentzian, scale_from, brink_axel. rewrite scaled_pow, F3, F4.
    set (k := (8 / 10 ^ 4) ^ _).
    transitivity (k * (s_M1 (new_slo Zn A) / mb_unit * mb_unit / (IZR (2 * l + 1) * PI ^ 2) * (4 ^ 2 * powerRZ eg (3 - 2 * l) / ((eg ^ 2 - (41 / c) ^ 2) ^ 2 + eg ^ 2 * 4 ^ 2)))).
    + unfold Rdiv. rewrite (Rmult_assoc _ (/ mb_unit)), Rinv_l, Rmult_1_r by lra. rewrite !Rinv_mult. ring.
    + rewrite EM at 2. reflexivity.
  - rewrite <- F1. unfold brink_axel. rewrite <- EM || idtac.
    assert (X : forall s g e, s / mb_unit / (389379338 / 1000) / (IZR (2 * 1 + 1) * PI ^ 2) * (g ^ 2 * powerRZ 7 (3 - 2 * 1) / ((7 ^ 2 - e ^ 2) ^ 2 + 7 ^ 2 * g ^ 2)) = 7 * lorentzian s g e 1 7).
    { intros s g e. unfold lorentzian. change (3 - 2 * 1)%Z with 1%Z. rewrite powerRZ_1.
      assert (Y : s / mb_unit / (389379338 / 1000) = s) by (unfold mb_unit; field). rewrite Y. unfold Rdiv. rewrite !Rinv_mult. ring. }
    rewrite !X. rewrite F5. set (q := 7 * lorentzian (s_E1 _) _ _ 1 7 / _).
    unfold lorentzian. pose proof (lorentz_denom 4 (41 / c) 7 ltac:(apply Rmult_lt_0_compat; [lra|apply Rinv_0_lt_compat; exact Pc]) ltac:(lra)) as D.
    set (d := (7 ^ 2 - (41 / c) ^ 2) ^ 2 + 7 ^ 2 * 4 ^ 2) in *. clearbody d q. pose proof PI_RGT_0. change (2 * 1 + 1)%Z with 3%Z. field. split; lra.
Qed.
Print Assumptions C68_magnetic.

(** Positive strengths: for nuclides with protons and neutrons and up to 509 nucleons, every
    strength function and transmission coefficient at a positive energy is a positive number. *)
Lemma slo_positive Zn A ty l eg : (0 < Zn < A)%Z -> (A <= 509)%Z -> (1 <= l)%Z -> ty <> Unphysical ->
  exists c, slo_coeff (new_slo Zn A) ty l eg = Ok c /\ 0 < c.
Proof.
  intros HZ HA Hl Ht. assert (PA : 0 < IZR A) by (apply IZR_lt; lia).
  assert (P3 : 0 < Rpower (IZR A) (1 / 3)) by (unfold Rpower; apply exp_pos).
  set (c := Rpower (IZR A) (1 / 3)) in *.
  assert (C3 : c ^ 3 = IZR A).
  { rewrite <- Rpower_pow by exact P3. unfold c. rewrite Rpower_mult. replace (1 / 3 * INR 3) with 1 by (cbn [INR]; lra). apply Rpower_1. exact PA. }
  destruct (new_slo_form Zn A c ltac:(lia) P3 C3) as (F1 & F2 & F3 & F4 & F5). cbv zeta in *. set (m := new_slo Zn A) in *.
  pose proof (E1_energy_pos c P3) as PE. assert (PM : 0 < mb_unit) by (unfold mb_unit; lra). pose proof PI_RGT_0 as PP.
  assert (PZ : 0 < IZR Zn) by (apply IZR_lt; lia). assert (PN : 0 < IZR (A - Zn)) by (apply IZR_lt; lia).
  apply E1_parts in F1. destruct F1 as (F1a & F1b & F1c). apply E2_parts in F2. destruct F2 as (F2a & F2b & F2c).
  assert (PG1 : 0 < g_E1 m) by (rewrite F1b; apply Rmult_lt_0_compat; [lra|unfold Rpower; apply exp_pos]).
  assert (PS1 : 0 < s_E1 m).
  { replace (s_E1 m) with (s_E1 m / mb_unit * mb_unit) by (field; lra). apply Rmult_lt_0_compat; [|exact PM]. rewrite F1c.
    apply Rmult_lt_0_compat; [lra|]. apply Rmult_lt_0_compat; [|apply Rinv_0_lt_compat; apply Rmult_lt_0_compat; [apply Rmult_lt_0_compat; assumption|assumption]].
    apply Rmult_lt_0_compat; [apply Rmult_lt_0_compat; [lra|exact PN]|exact PZ]. }
  assert (PG2 : 0 < g_E2 m). { rewrite F2b. assert (IZR A <= 509) by (apply IZR_le; exact HA). lra. }
  assert (PE2 : 0 < 63 / c) by (apply Rmult_lt_0_compat; [lra|apply Rinv_0_lt_compat; exact P3]).
  assert (PS2 : 0 < s_E2 m).
  { replace (s_E2 m) with (s_E2 m / mb_unit * mb_unit) by (field; lra). apply Rmult_lt_0_compat; [|exact PM]. rewrite F2c.
    apply Rmult_lt_0_compat; [|apply Rinv_0_lt_compat; apply Rmult_lt_0_compat; assumption].
    apply Rmult_lt_0_compat; [|exact PE2]. apply Rmult_lt_0_compat; [lra|apply pow_lt; exact PZ]. }
  assert (LP : forall s g e l0 x, 0 < s -> 0 < g -> 0 < e -> (1 <= l0)%Z -> 0 < lorentzian s g e l0 x).
  { intros s g e l0 x Ps Pg Pe Hl0. unfold lorentzian. apply Rmult_lt_0_compat; [apply Rmult_lt_0_compat; [exact Ps|apply pow_lt; exact Pg]|].
    apply Rinv_0_lt_compat. apply Rmult_lt_0_compat; [apply Rmult_lt_0_compat; [apply IZR_lt; lia|apply pow_lt; exact PP]|apply lorentz_denom; lra]. }
  assert (SP : forall s n, 0 < s -> 0 < scaled s n) by (intros s n Ps; rewrite scaled_pow; apply Rmult_lt_0_compat; [exact Ps|apply pow_lt; lra]).
  assert (PEM : 0 < 41 / c) by (apply Rmult_lt_0_compat; [lra|apply Rinv_0_lt_compat; exact P3]).
  assert (PSM : 0 < s_M1 m).
  { rewrite F5. apply Rmult_lt_0_compat; [|lra]. apply Rmult_lt_0_compat; [apply lorentz_denom; lra|].
    apply Rmult_lt_0_compat; [apply Rmult_lt_0_compat; [lra|apply pow_lt; exact PP]|].
    apply Rmult_lt_0_compat; [apply Rmult_lt_0_compat; [lra|apply LP; try assumption; [rewrite F1a; exact PE|lia]]|].
    apply Rinv_0_lt_compat. apply Rmult_lt_0_compat; [lra|unfold Rpower; apply exp_pos]. }
  unfold slo_coeff, check_multipolarity. destruct (Z.ltb_spec l 1); [lia|]. cbn [bind]. destruct ty; [| |congruence].
  - destruct (Z.eqb_spec l 1); (eexists; split; [reflexivity|]); apply LP; try assumption; [rewrite F1a; exact PE|apply SP; exact PS2|rewrite F2a; exact PE2].
  - eexists. split; [reflexivity|]. apply LP; [apply SP; exact PSM|rewrite F4; lra|rewrite F3; exact PEM|exact Hl].
Qed.

Theorem C68_positive Zn A ty l eg : (0 < Zn < A)%Z -> (A <= 509)%Z -> (1 <= l)%Z -> ty <> Unphysical -> 0 < eg ->
  exists f T, slo_strength (new_slo Zn A) ty l eg = Ok (Fin f) /\ 0 < f /\ slo_T (new_slo Zn A) ty l eg = Ok T /\ 0 < T.
Proof.
  intros HZ HA Hl Ht He. destruct (slo_positive Zn A ty l eg HZ HA Hl Ht) as (c & Ec & Pc). unfold slo_strength, slo_T. rewrite Ec. cbn [bind].
  unfold xpowz. destruct (Req_EM_T eg 0) as [E|_]; [lra|]. cbn [xmul]. eexists _, _. split; [reflexivity|].
  split; [apply Rmult_lt_0_compat; [apply powerRZ_lt; exact He|exact Pc]|]. split; [reflexivity|].
  pose proof PI_RGT_0. apply Rmult_lt_0_compat; [apply Rmult_lt_0_compat; [lra|exact Pc]|apply pow_lt; exact He].
Qed.
Print Assumptions C68_positive.

(** Transmission coefficients do not depend on the sign of the energy, and vanish at zero,
    for any nuclide. *)
Theorem C68_zero m ty l : (1 <= l)%Z -> slo_T m ty l 0 = Ok 0 /\ forall eg, slo_T m ty l (- eg) = slo_T m ty l eg.
Proof.
  intros Hl. unfold slo_T, slo_coeff, check_multipolarity. destruct (Z.ltb_spec l 1); [lia|]. cbn [bind]. split.
  - destruct ty; [destruct (Z.eqb l 1)| |]; cbn [bind]; f_equal; cbn [pow]; ring.
  - intros eg. assert (L : forall s g e, lorentzian s g e l (- eg) = lorentzian s g e l eg).
    { intros. unfold lorentzian. replace ((- eg) ^ 2) with (eg ^ 2) by ring. reflexivity. }
    destruct ty; [destruct (Z.eqb l 1)| |]; cbn [bind]; rewrite ?L; f_equal; ring.
Qed.
Print Assumptions C68_zero.

(** Each further unit of multipolarity multiplies the transmission coefficient by the same
    small factor, whatever the energy. *)
Theorem C68_multipoles m ty l eg T : slo_T m ty l eg = Ok T ->
  (match ty with Electric => 2 <= l | _ => 1 <= l end)%Z ->
  slo_T m ty (l + 1) eg = Ok (T * (8 / 10 ^ 4) * ((2 * IZR l + 1) / (2 * IZR l + 3))).
Proof.
  intros H Hl. assert (Hl1 : (1 <= l)%Z) by (destruct ty; lia). assert (PL : 1 <= IZR l) by (apply IZR_le; exact Hl1).
  unfold slo_T, slo_coeff, check_multipolarity in *. destruct (Z.ltb_spec l 1); [lia|]. destruct (Z.ltb_spec (l + 1) 1); [lia|]. cbn [bind] in *.
  assert (L : forall s g e n, lorentzian (scaled s (S n)) g e (l + 1) eg = lorentzian (scaled s n) g e l eg * (8 / 10 ^ 4) * ((2 * IZR l + 1) / (2 * IZR l + 3))).
  { intros s g e n. unfold lorentzian. rewrite !scaled_pow. cbn [pow]. set (d := (eg * (eg * 1) - e * (e * 1)) * _ + _).
    rewrite !plus_IZR, !mult_IZR, !plus_IZR. unfold Rdiv. rewrite !Rinv_mult. set (i := / d). set (p := / PI).
    replace (2 * (IZR l + 1) + 1) with (2 * IZR l + 3) by ring. field. split; lra. }
  destruct ty.
  - destruct (Z.eqb_spec l 1); [lia|]. destruct (Z.eqb_spec (l + 1) 1); [lia|]. cbn [bind] in *. injection H as <-. f_equal.
    unfold scale_from. replace (Z.to_nat (l + 1 - 2)) with (S (Z.to_nat (l - 2))) by lia. rewrite L. ring.
  - cbn [bind] in *. injection H as <-. f_equal. unfold scale_from. replace (Z.to_nat (l + 1 - 1)) with (S (Z.to_nat (l - 1))) by lia. rewrite L. ring.
  - cbn [bind] in *. injection H as <-. f_equal. ring.
Qed.
Print Assumptions C68_multipoles.

(** Beyond 509 nucleons the quadrupole width, and with it the strength, is negative. *)
Theorem C68_heavy_refuted Zn A eg : (0 < Zn)%Z -> (510 <= A)%Z -> exists T, slo_T (new_slo Zn A) Electric 2 eg = Ok T /\ (eg <> 0 -> T < 0).
Proof.
  intros HZ HA. assert (PA : 510 <= IZR A) by (apply IZR_le; exact HA).
  assert (P3 : 0 < Rpower (IZR A) (1 / 3)) by (unfold Rpower; apply exp_pos). set (c := Rpower (IZR A) (1 / 3)) in *.
  assert (C3 : c ^ 3 = IZR A).
  { rewrite <- Rpower_pow by exact P3. unfold c. rewrite Rpower_mult. replace (1 / 3 * INR 3) with 1 by (cbn [INR]; lra). apply Rpower_1. lra. }
  destruct (new_slo_form Zn A c ltac:(lia) P3 C3) as (_ & F2 & _). cbv zeta in *. set (m := new_slo Zn A) in *. apply E2_parts in F2. destruct F2 as (F2a & F2b & F2c).
  assert (PM : 0 < mb_unit) by (unfold mb_unit; lra). pose proof PI_RGT_0 as PP. assert (PZ : 0 < IZR Zn) by (apply IZR_lt; exact HZ).
  assert (PG2 : g_E2 m < 0) by (rewrite F2b; lra).
  assert (PE2 : 0 < 63 / c) by (apply Rmult_lt_0_compat; [lra|apply Rinv_0_lt_compat; exact P3]).
  assert (PS2 : s_E2 m < 0).
  { replace (s_E2 m) with (s_E2 m / mb_unit * mb_unit) by (field; lra). rewrite F2c.
    assert (0 < 14 / 10 ^ 5 * IZR Zn ^ 2 * (63 / c)) by (apply Rmult_lt_0_compat; [|exact PE2]; apply Rmult_lt_0_compat; [lra|apply pow_lt; exact PZ]).
    assert (/ (c * g_E2 m) < 0) by (apply Rinv_lt_0_compat; assert (0 < c * - g_E2 m) by (apply Rmult_lt_0_compat; lra); lra). set (x := 14 / 10 ^ 5 * IZR Zn ^ 2 * (63 / c)) in *. set (y := / (c * g_E2 m)) in *.
    change (x / (c * g_E2 m)) with (x * y). clearbody x y. assert (0 < x * - y) by (apply Rmult_lt_0_compat; lra). assert (0 < x * - y * mb_unit) by (apply Rmult_lt_0_compat; assumption). lra. }
  unfold slo_T, slo_coeff, check_multipolarity. change (Z.ltb 2 1) with false. change (Z.eqb 2 1) with false. cbn [bind]. eexists. split; [reflexivity|]. intros He.
  change (scale_from (s_E2 m) 2 2) with (s_E2 m). unfold lorentzian.
  assert (D : 0 < (eg ^ 2 - e_E2 m ^ 2) ^ 2 + eg ^ 2 * g_E2 m ^ 2) by (apply lorentz_denom; [rewrite F2a; exact PE2|lra]).
  assert (G : 0 < g_E2 m ^ 2) by (apply pow2_gt_0; lra). assert (E4 : 0 < eg ^ 4) by (replace (eg ^ 4) with ((eg ^ 2) ^ 2) by ring; apply pow2_gt_0; assert (0 < eg ^ 2) by (apply pow2_gt_0; exact He); lra).
  assert (I : 0 < / (IZR (2 * 2 + 1) * PI ^ 2 * ((eg ^ 2 - e_E2 m ^ 2) ^ 2 + eg ^ 2 * g_E2 m ^ 2))).
  { apply Rinv_0_lt_compat. apply Rmult_lt_0_compat; [apply Rmult_lt_0_compat; [apply IZR_lt; lia|apply pow_lt; exact PP]|exact D]. }
  set (i := / _) in I. unfold Rdiv. fold i.
  assert (Q : 0 < 2 * PI * (g_E2 m ^ 2 * i) * eg ^ 4) by (apply Rmult_lt_0_compat; [apply Rmult_lt_0_compat; [lra|apply Rmult_lt_0_compat; assumption]|exact E4]).
  replace (2 * PI * (s_E2 m * g_E2 m ^ 2 * i) * eg ^ 4) with (s_E2 m * (2 * PI * (g_E2 m ^ 2 * i) * eg ^ 4)) by ring. set (q := _ * eg ^ 4) in *. clearbody q. nra.
Qed.
Print Assumptions C68_heavy_refuted.

(** Wrong arguments: monopole radiation and the like are errors in all functions of both
    models, unphysical transitions have no strength, and level spacings must be positive. *)
Theorem C68_arguments m mp w ty l eg : 
  ((l < 1)%Z -> slo_strength m ty l eg = Er MarleyErr /\ slo_T m ty l eg = Er MarleyErr /\
     wsp_strength mp w ty l = Er MarleyErr /\ wsp_T mp w ty l eg = Er MarleyErr /\ wsp_width mp w ty l eg = Er MarleyErr) /\
  ((1 <= l)%Z -> slo_T m Unphysical l eg = Ok 0 /\ (eg <> 0 -> slo_strength m Unphysical l eg = Ok (Fin 0))).
Proof.
  unfold slo_strength, slo_T, wsp_T, wsp_width, wsp_strength, slo_coeff, check_multipolarity. split; intros Hl; destruct (Z.ltb_spec l 1); try lia; cbn [bind].
  - repeat split.
  - split; [f_equal; ring|]. intros He. unfold xpowz. destruct (Req_EM_T eg 0); [contradiction|]. cbn [xmul]. do 2 f_equal. ring.
Qed.
Print Assumptions C68_arguments.

Theorem C68_spacing A D : (D <= 0 -> new_wsp A D = Er MarleyErr) /\ (0 < D -> new_wsp A D = Ok (mkwsp A D)).
Proof. unfold new_wsp. destruct (Rle_dec D 0); split; intros; try reflexivity; lra. Qed.
Print Assumptions C68_spacing.

(** The Weisskopf estimates for multipolarities up to nine; beyond, the double factorial
    leaves the range of int. *)
Fixpoint odd_product (l : nat) : Z := match l with O => 1%Z | S k => ((2 * Z.of_nat l + 1) * odd_product k)%Z end.

Lemma dfact_small l : (1 <= l <= 9)%Z -> dfact_loop (Z.to_nat l + 3) (2 * l + 1) 1 = Ok (odd_product (Z.to_nat l)).
Proof.
  intros H. assert (D : (l = 1 \/ l = 2 \/ l = 3 \/ l = 4 \/ l = 5 \/ l = 6 \/ l = 7 \/ l = 8 \/ l = 9)%Z) by lia.
  repeat (destruct D as [->|D]; [vm_compute; reflexivity|]). subst. vm_compute. reflexivity.
Qed.

Theorem C68_weisskopf mp A D w l c : new_wsp A D = Ok w -> (0 < A)%Z -> 0 < c -> c ^ 3 = IZR A -> 0 < mp -> (1 <= l <= 9)%Z ->
  let B := 2 * (72973525698 / 10 ^ 13) * (IZR l + 1) / (IZR l * IZR (odd_product (Z.to_nat l)) ^ 2) * (3 / (IZR l + 3)) ^ 2
           * ((12 / 10 * c) / (1973269718 / 10 ^ 7)) ^ (2 * Z.to_nat l) / D in
  wsp_strength mp w Electric l = Ok B /\ 0 < B /\
  wsp_strength mp w Magnetic l = Ok (10 * B * ((1973269718 / 10 ^ 7) / (mp * (12 / 10 * c))) ^ 2) /\
  wsp_strength mp w Unphysical l = Ok 0.
Proof.
  intros Hw HA Pc C3 Pm Hl B. unfold new_wsp in Hw. destruct (Rle_dec D 0) as [|ND]; [discriminate Hw|]. injection Hw as <-. assert (PD : 0 < D) by lra.
  destruct (root3 A c HA Pc C3) as (R1 & _). assert (PL : 1 <= IZR l) by (apply IZR_le; lia).
  unfold wsp_strength, check_multipolarity. destruct (Z.ltb_spec l 1); [lia|]. cbn [bind]. rewrite (dfact_small l Hl). cbn [bind w_A w_D0]. rewrite R1.
  assert (PO : 0 < IZR (odd_product (Z.to_nat l))).
  { apply IZR_lt. generalize (Z.to_nat l). intros j. clear. induction j as [|k IH]; cbn [odd_product]; nia. }
  set (o := IZR (odd_product (Z.to_nat l))) in *.
  assert (EP : forall x, powerRZ x (2 * l) = x ^ (2 * Z.to_nat l)).
  { intros x. rewrite pow_powerRZ. f_equal. rewrite Nat2Z.inj_mul, Z2Nat.id by lia. reflexivity. }
  rewrite EP. fold radius0. unfold fine_structure, hbar_c, radius0.
  assert (EB : 2 * (72973525698 / 10 ^ 13) * ((IZR l + 1) / (IZR l * o ^ 2) * (3 / (IZR l + 3)) ^ 2) * (12 / 10 * c / (1973269718 / 10 ^ 7)) ^ (2 * Z.to_nat l) / D = B).
  { unfold B. set (k := (_) ^ (2 * Z.to_nat l)). clearbody k. field. repeat split; lra. }
  rewrite EB. split; [reflexivity|]. split; [|split; reflexivity].
  unfold B. assert (0 < (12 / 10 * c / (1973269718 / 10 ^ 7)) ^ (2 * Z.to_nat l)) by (apply pow_lt; apply Rmult_lt_0_compat; [lra|apply Rinv_0_lt_compat; lra]).
  assert (0 < o ^ 2) by (apply pow_lt; exact PO). assert (0 < (3 / (IZR l + 3)) ^ 2) by (apply pow_lt; apply Rmult_lt_0_compat; [lra|apply Rinv_0_lt_compat; lra]).
  apply Rmult_lt_0_compat; [|apply Rinv_0_lt_compat; exact PD]. apply Rmult_lt_0_compat; [|assumption]. apply Rmult_lt_0_compat; [|assumption].
  apply Rmult_lt_0_compat; [lra|apply Rinv_0_lt_compat; apply Rmult_lt_0_compat; lra].
Qed.
Print Assumptions C68_weisskopf.

(** From multipolarity ten on, computing the double factorial is undefined behaviour. *)
Theorem C68_overflow_refuted mp w ty l eg : (10 <= l)%Z ->
  wsp_strength mp w ty l = Er Undefined /\ wsp_T mp w ty l eg = Er Undefined /\ wsp_width mp w ty l eg = Er Undefined.
Proof.
  intros Hl. assert (D : forall fuel n d, (1 <= d)%Z -> (int_max < d * n * (n - 2))%Z -> (3 < n)%Z -> dfact_loop (S (S fuel)) n d = Er Undefined).
  { intros fuel n d Hd Hp Hn. cbn [dfact_loop]. destruct (Z.ltb_spec 0 n); [|lia]. destruct (Z.leb_spec (d * n) int_max); [|reflexivity].
    destruct (Z.ltb_spec 0 (n - 2)); [|lia]. destruct (Z.leb_spec (d * n * (n - 2)) int_max); [lia|reflexivity]. }
  assert (S9 : forall k fuel n d, (1 <= d)%Z -> (2 * Z.of_nat k + 1 < n)%Z -> (int_max < d * odd_product k)%Z -> dfact_loop (fuel + k + 2) n d = Er Undefined).
  { induction k as [|k IH]; intros fuel n d Hd Hn Hp.
    - cbn [odd_product] in Hp. replace (fuel + 0 + 2)%nat with (S (fuel + 1)) by lia. cbn [dfact_loop].
      destruct (Z.ltb_spec 0 n); [|lia]. destruct (Z.leb_spec (d * n) int_max); [nia|reflexivity].
    - replace (fuel + S k + 2)%nat with (S (fuel + k + 2)) by lia. cbn [dfact_loop]. destruct (Z.ltb_spec 0 n); [|lia].
      destruct (Z.leb_spec (d * n) int_max); [|reflexivity]. apply IH; [nia|lia|].
      cbn [odd_product] in Hp. assert (PO : (1 <= odd_product k)%Z) by (clear; induction k as [|k IH]; cbn [odd_product]; nia). nia. }
  assert (E : dfact_loop (Z.to_nat l + 3) (2 * l + 1) 1 = Er Undefined).
  { destruct (Z.eq_dec l 10) as [->|N]; [vm_compute; reflexivity|].
    replace (Z.to_nat l + 3)%nat with ((Z.to_nat l - 9) + 10 + 2)%nat by lia. apply S9; [lia|lia|]. vm_compute. reflexivity. }
  unfold wsp_T, wsp_width, wsp_strength, check_multipolarity. destruct (Z.ltb_spec l 1); [lia|]. cbn [bind]. rewrite E. cbn [bind]. repeat split.
Qed.
Print Assumptions C68_overflow_refuted.

(** The unit conversion agrees with the value used for hbar c: 1 fm^2 is 10 mb. *)
Theorem C68_units : Rabs (10 * mb_unit * hbar_c ^ 2 - 1) < 1 / 10 ^ 8.
Proof. unfold mb_unit, hbar_c. apply Rabs_def1; lra. Qed.
Print Assumptions C68_units.

(** ** A case *)
Example C68_example : exists c w, 0 < c /\ c ^ 3 = IZR 40 /\ new_wsp 40 1 = Ok w /\ (0 < 19 < 40)%Z.
Proof.
  exists (Rpower 40 (1 / 3)), (mkwsp 40 1). split; [unfold Rpower; apply exp_pos|]. split; [|split; [|lia]].
  - rewrite <- Rpower_pow by (unfold Rpower; apply exp_pos). rewrite Rpower_mult. replace (1 / 3 * INR 3) with 1 by (cbn [INR]; lra). apply Rpower_1. lra.
  - apply C68_spacing. lra.
Qed.
