(** C78: the incident neutrinos of the sources, sampled with the search for the maximum. *)
From Coq Require Import List ZArith Reals Lra Lia.
From Verif Require Import Base XReal Sample SampleProofs SampleThms Source SourceThms Brent BrentProofs BrentThms BrentSpectra.
Import ListNotations.
Local Open Scope R_scope.

(** Exact sampling from a density [f] on [lo, hi]: a point tried is kept exactly when the
    second draw is at most the ratio of the density there and the fixed number [top]. *)
Definition exact (f : R -> R) (lo hi top : R) (draws : nat -> R * R) (fuel : nat) (E : R) : Prop :=
  exists n, (n < fuel)%nat /\ E = lo + fst (draws n) * (hi - lo) /\ snd (draws n) <= f E / top /\
    forall k, (k < n)%nat -> f (lo + fst (draws k) * (hi - lo)) / top < snd (draws k).

(** Whatever the static maximum is, the energy is one of the source's range and the particle
    is the source's. *)
Theorem C78_range s smax draws sfuel fuel p E m lo hi : source_Emin s = Ok lo -> source_Emax s = Ok hi -> lo <= hi ->
  (forall k, good_pair (draws k)) ->
  sample_incident s smax draws sfuel fuel = Ok (p, E, m) -> p = source_pid s /\ lo <= E <= hi /\ exists q, m = Some q.
Proof.
  intros A B H Hd HS. unfold sample_incident in HS. rewrite A in HS. cbn [bind] in HS. rewrite B in HS. cbn [bind] in HS.
  match type of HS with context [sample_search ?F _ _ _ _ _ _ _ _] => set (f := F) in * end.
  destruct (sample_search f lo hi smax usual_safety usual_tol draws sfuel fuel) as [[E0 m0]|] eqn:S; cbn [bind] in HS; [|discriminate].
  injection HS as <- <- <-. split; [reflexivity|]. split; [|exists m0; reflexivity].
  assert (R : exists M, rejection f lo hi M usual_safety draws 0 fuel = Ok (E0, m0)).
  { unfold sample_search in S. destruct smax as [q|]; [exists q; exact S|].
    destruct (maximize f lo hi usual_tol sfuel) as [r|]; cbn [bind] in S; [|discriminate]. eexists. exact S. }
  destruct R as [M R]. apply rejection_spec in R. destruct R as (n & _ & _ & X & _). rewrite X. apply uniform_in; [exact H|apply Hd].
Qed.
Print Assumptions C78_range.

Lemma tol_pos : 0 < usual_tol.
Proof. unfold usual_tol. apply Rinv_0_lt_compat, pow_lt. lra. Qed.

(** The first neutrino that a program samples from a Fermi-Dirac source of any temperature
    of at least 1 keV, on a range whose upper end is at least 1 keV and at most a thousand
    temperatures, follows the density of the source exactly. *)
Theorem C78_fermi pid lo hi T eta C sfuel : 0 <= lo -> lo < hi -> 1 / 1000 <= T -> 1 / 1000 <= hi <= 1000 * T -> 0 < C ->
  hi - lo < INR sfuel * usual_tol ->
  exists top, (forall E, lo <= E <= hi -> fermi_pdf lo hi T eta C E <= top) /\
  forall draws fuel, (forall k, good_pair (draws k)) -> forall p E m,
  sample_incident (FermiDirac pid lo hi T eta C) None draws sfuel fuel = Ok (p, E, m) <->
  p = pid /\ m = Some top /\ exact (fermi_pdf lo hi T eta C) lo hi top draws fuel E.
Proof.
  intros Hl H HT Hh HC HF. destruct (fermi_peak lo hi T eta C ltac:(lra) ltac:(lra) HC) as (z & P & Z).
  assert (Zr : lo <= z <= hi) by apply P.
  assert (Fz : 0 < fermi_pdf lo hi T eta C z).
  { rewrite fermi_shape by lra. apply Rmult_lt_0_compat; [apply Rdiv_lt_0_compat; [exact HC|apply pow_lt; lra]|].
    unfold fshape. apply Rdiv_lt_0_compat; [|pose proof (exp_pos (z / T - eta)); lra].
    apply Rsqr_pos_lt. apply Rgt_not_eq. apply Rdiv_lt_0_compat; lra. }
  destruct (C78_sampling (fermi_pdf lo hi T eta C) lo hi usual_safety usual_tol z sfuel ltac:(lra) tol_pos ltac:(unfold usual_safety; lra) P Fz
    (fun x Hx D => fermi_flat lo hi T eta C z x Hl HT HC (proj1 Hh) (proj2 Hh) Zr Z Hx D) HF) as (top & [T1 T2] & K).
  exists top. split; [intros E HE; pose proof (peak_top _ lo hi z E P HE); lra|].
  intros draws fuel Hd p E m. specialize (K draws fuel Hd). unfold sample_incident. cbn [source_Emin source_Emax bind pdf source_pid].
  change (fun E0 : R => fermi_pdf lo hi T eta C E0) with (fermi_pdf lo hi T eta C).
  destruct (sample_search _ lo hi None usual_safety usual_tol draws sfuel fuel) as [[E0 m0]|e] eqn:S; cbn [bind].
  - split.
    + intros Q. injection Q as <- <- <-. destruct (proj1 (K E0 m0) eq_refl) as [-> X]. split; [reflexivity|]. split; [reflexivity|exact X].
    + intros (-> & -> & X). assert (Q := proj2 (K E top) (conj eq_refl X)). injection Q as -> ->. reflexivity.
  - split; [discriminate|]. intros (-> & -> & X). assert (Q := proj2 (K E top) (conj eq_refl X)). discriminate.
Qed.
Print Assumptions C78_fermi.

(** The same for muon decay at rest. *)
Theorem C78_dar pid sfuel : dar_max < INR sfuel * usual_tol ->
  exists top, (forall E, 0 <= E <= dar_max -> dar_pdf pid E <= top) /\
  forall draws fuel, (forall k, good_pair (draws k)) -> forall p E m,
  sample_incident (DecayAtRest pid) None draws sfuel fuel = Ok (p, E, m) <->
  p = pid /\ m = Some top /\ exact (dar_pdf pid) 0 dar_max top draws fuel E.
Proof.
  intros HF. pose proof m_mu_bounds as HM.
  destruct (C78_sampling (dar_pdf pid) 0 dar_max usual_safety usual_tol (dar_peak_at pid) sfuel ltac:(unfold dar_max; lra) tol_pos ltac:(unfold usual_safety; lra)
    (dar_peak pid) (dar_top pid) (fun x Hx D => dar_flat pid x Hx D) ltac:(lra)) as (top & [T1 T2] & K).
  exists top. split; [intros E HE; pose proof (peak_top _ 0 dar_max _ E (dar_peak pid) HE); lra|].
  intros draws fuel Hd p E m. specialize (K draws fuel Hd). unfold sample_incident. cbn [source_Emin source_Emax bind pdf source_pid].
  change (fun E0 : R => dar_pdf pid E0) with (dar_pdf pid).
  destruct (sample_search _ 0 dar_max None usual_safety usual_tol draws sfuel fuel) as [[E0 m0]|e] eqn:S; cbn [bind].
  - split.
    + intros Q. injection Q as <- <- <-. destruct (proj1 (K E0 m0) eq_refl) as [-> X]. split; [reflexivity|]. split; [reflexivity|exact X].
    + intros (-> & -> & X). assert (Q := proj2 (K E top) (conj eq_refl X)). injection Q as -> ->. reflexivity.
  - split; [discriminate|]. intros (-> & -> & X). assert (Q := proj2 (K E top) (conj eq_refl X)). discriminate.
Qed.
Print Assumptions C78_dar.

(** For a beta fit source the search ends within twice the tolerance of the highest point of
    the spectrum on its range, which is the mean energy times 1 - 1 / beta, or the end of the
    range next to it. *)
Theorem C78_beta lo hi Em beta C fuel r : 0 <= lo <= hi -> 0 < Em -> 1 <= beta -> 0 < C ->
  maximize (beta_pdf lo hi Em beta C) lo hi usual_tol fuel = Ok r ->
  let z := Rmax lo (Rmin hi (Em * (1 - / beta))) in
  Rabs (at_x r - z) <= 2 * (sqrt_eps * Rabs (at_x r) + usual_tol) /\
  forall E, lo <= E <= hi -> beta_pdf lo hi Em beta C E <= beta_pdf lo hi Em beta C z.
Proof.
  intros H HE Hb HC HM z. pose proof (beta_peak lo hi Em beta C H HE Hb HC) as P. fold z in P.
  split; [apply (C78_peak _ lo hi usual_tol z fuel r ltac:(lra) tol_pos P HM)|].
  intros E HEE. apply (peak_top _ lo hi); assumption.
Qed.
Print Assumptions C78_beta.

(** The static maximum belongs to the program and not to the source: after one neutrino
    from a source of a single energy, every energy that is tried for a second source is
    kept, whatever the second draw is, although its density grows from 2 to 6 over its
    range. *)
Theorem C78_shared_refuted : exists s1 s2 m,
  (exists draws, (forall k, good_pair (draws k)) /\ sample_incident s1 None draws 1 1 = Ok (12%Z, 10, Some m)) /\
  pdf s2 0 = Ok (Fin 2) /\ pdf s2 (1 / 4) = Ok (Fin 6) /\ source_Emin s2 = Ok 0 /\ source_Emax s2 = Ok (1 / 4) /\
  forall draws, (forall k, good_pair (draws k)) ->
    exists m', sample_incident s2 (Some m) draws 1 1 = Ok (12%Z, fst (draws O) * (1 / 4), m').
Proof.
  exists (Mono 12 10), (FunctionSource 12 0 (1 / 4) (fun x => 2 + 16 * x)), (101 / 100).
  split; [|split; [cbn [pdf]; rewrite within_in by lra; do 2 f_equal; lra|split; [cbn [pdf]; rewrite within_in by lra; do 2 f_equal; lra|split; [reflexivity|split; [reflexivity|]]]]].
  - exists (fun _ => (0, 0)). split; [intros k; unfold good_pair; cbn [fst snd]; lra|].
    unfold sample_incident. cbn [source_Emin source_Emax bind source_pid pdf]. unfold sample_search.
    set (f := fun E : R => if Req_EM_T 10 E then 1 else 0).
    assert (F10 : f 10 = 1) by (unfold f; destruct (Req_EM_T 10 10); [reflexivity|congruence]).
    unfold maximize, minimize. rewrite bstart_point by exact tol_pos. cbn [bind at_f at_x calls]. unfold rejection_sample. cbn [rejection fst snd]. cbv zeta.
    assert (U : uniform 10 10 0 = 10) by (unfold uniform; ring). rewrite U, F10.
    replace (-1 * (-1 * 1) * usual_safety) with (101 / 100) by (unfold usual_safety; field).
    unfold uniform. rewrite Rmult_0_l, Rplus_0_l. destruct (Rlt_dec 1 0); [lra|]. destruct (Rlt_dec (101 / 100) 1); [lra|]. reflexivity.
  - intros draws Hd. unfold sample_incident. cbn [source_Emin source_Emax bind source_pid pdf]. unfold sample_search, rejection_sample. cbn [rejection]. cbv zeta.
    destruct (Hd O) as [D1 D2].
    assert (U : uniform 0 (1 / 4) (fst (draws O)) = fst (draws O) * (1 / 4)) by (unfold uniform; ring). rewrite !U, !within_in by lra.
    unfold uniform. destruct (Rlt_dec (2 + 16 * (fst (draws O) * (1 / 4))) (snd (draws O) * (101 / 100 - 0) + 0)); [exfalso; lra|].
    cbn [bind]. eexists. reflexivity.
Qed.
Print Assumptions C78_shared_refuted.

(** Non-vacuity: the spectrum of a supernova (5 MeV, up to 60 MeV) meets the hypotheses, and
    its first neutrino can be sampled. *)
Example C78_case : exists sfuel top, 60 - 0 < INR sfuel * usual_tol /\ 0 < top /\
  sample_incident (FermiDirac 12 0 60 5 0 1) None (fun _ => (1 / 4, 0)) sfuel 1 = Ok (12%Z, 15, Some top).
Proof.
  set (sfuel := Z.to_nat (up (60 * 10 ^ 8))). exists sfuel.
  assert (F : 60 - 0 < INR sfuel * usual_tol).
  { unfold sfuel, usual_tol. destruct (archimed (60 * 10 ^ 8)) as [A _]. rewrite INR_IZR_INZ, Z2Nat.id by (apply le_IZR; lra).
    apply Rmult_lt_reg_r with (10 ^ 8); [lra|]. rewrite Rmult_assoc, Rinv_l by lra. lra. }
  destruct (C78_fermi 12 0 60 5 0 1 sfuel ltac:(lra) ltac:(lra) ltac:(lra) ltac:(lra) ltac:(lra) F) as (top & T & K).
  assert (P : 0 < fermi_pdf 0 60 5 0 1 15).
  { rewrite fermi_shape by lra. apply Rmult_lt_0_compat; [lra|]. unfold fshape, Rsqr. apply Rdiv_lt_0_compat; [lra|]. pose proof (exp_pos (15 / 5 - 0)). lra. }
  exists top. assert (T0 : 0 < top) by (specialize (T 15 ltac:(lra)); lra). split; [exact F|]. split; [exact T0|].
  apply K; [intros k; unfold good_pair; cbn [fst snd]; lra|]. split; [reflexivity|]. split; [reflexivity|].
  exists O. split; [lia|]. cbn [fst snd]. split; [lra|]. split; [|intros k Hk; lia]. apply Rlt_le, Rdiv_lt_0_compat; assumption.
Qed.
