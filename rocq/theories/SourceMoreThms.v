(** Properties C35, C39 and C40, continued: numbers a user meets. *)
From Coq Require Import List ZArith Reals Bool Lia Lra Psatz.
From Coq Require Import Floats.SpecFloat.
From Flocq Require Import Core BinarySingleNaN.
From Verif Require Import Base Mass Sample XReal Grid Quad Source SourceThms Target Gen GenThms.
Import ListNotations.
Open Scope R_scope.

(** The decay-at-rest spectra end at half the mass of the muon, 52.82919 MeV. *)
Theorem C39_endpoint pid s : make_dar pid = Ok s ->
  source_Emin s = Ok 0 /\ exists hi, source_Emax s = Ok hi /\ Rabs (hi - 52.82919) < 0.00001 /\ Rabs (2 * hi - 105.65837) < 0.00001.
Proof.
  intros H. unfold make_dar in H. destruct (check_pid pid); [|discriminate]. cbn [bind] in H. destruct (_ && _)%bool; [discriminate|]. injection H as <-.
  split; [reflexivity|]. exists dar_max. split; [reflexivity|]. unfold dar_max, m_mu, micro_amu. split; apply Rabs_def1; lra.
Qed.
Print Assumptions C39_endpoint.
Example C39_endpoint_case : make_dar 12 = Ok (DecayAtRest 12) /\ make_dar (-14) = Ok (DecayAtRest (-14)). Proof. split; reflexivity. Qed.

Lemma half_pow n : (/ 2) ^ n = bpow radix2 (- Z.of_nat n).
Proof.
  induction n as [|n IH]; [reflexivity|]. rewrite <- tech_pow_Rmult, IH, Nat2Z.inj_succ. replace (- Z.succ (Z.of_nat n))%Z with (-1 + - Z.of_nat n)%Z by lia. rewrite bpow_plus. reflexivity.
Qed.

(** A point at energy zero is moved to the smallest positive double. *)
Theorem C40_zero pid g s i y : make_grid_source pid g = Ok s -> nth_error (g_pts g) i = Some (0, y) ->
  exists g' x, s = GridSource pid g' /\ nth_error (g_pts g') i = Some (x, y) /\ 0 < x /\
    (exists d, valid_binary 53 1024 d = true /\ SF2R radix2 d = x) /\
    forall d, valid_binary 53 1024 d = true -> 0 < SF2R radix2 d -> x <= SF2R radix2 d.
Proof.
  intros H Hi. apply (proj1 (C40_accepts pid g)) in H. destruct H as (-> & _). eexists. exists tiny. split; [reflexivity|]. cbn [g_pts].
  split. { rewrite nth_error_map, Hi. unfold lift_zero. cbn [option_map fst snd]. destruct (Req_EM_T 0 0); [reflexivity|congruence]. }
  split; [apply tiny_pos|].
  assert (T : tiny = bpow radix2 (-1074)).
  { unfold tiny. rewrite half_pow. f_equal. }
  rewrite T. split.
  - exists (S754_finite false 1 (-1074)). split; [reflexivity|]. unfold SF2R, F2R. cbn [Fnum Fexp cond_Zopp]. ring.
  - intros d V P. destruct d as [s0|s0| |s0 m e]; cbn [SF2R] in P; try lra. cbn [SF2R].
    assert (S : s0 = false). { destruct s0; [|reflexivity]. exfalso. pose proof (F2R_lt_0 radix2 (Float radix2 (cond_Zopp true (Z.pos m)) e)) as Q. cbn [Fnum cond_Zopp] in Q. specialize (Q ltac:(lia)). cbn [cond_Zopp] in P. lra. }
    subst s0. cbn [cond_Zopp] in *. unfold valid_binary, bounded in V. apply andb_true_iff in V. destruct V as [V _]. apply Zeq_bool_eq in V.
    unfold fexp, SpecFloat.emin in V. assert (E : (-1074 <= e)%Z) by lia.
    apply Rle_trans with (bpow radix2 e); [apply bpow_le; exact E|]. unfold F2R. cbn [Fnum Fexp]. pose proof (bpow_gt_0 radix2 e). pose proof (IZR_le 1 (Z.pos m) ltac:(lia)). nra.
Qed.
Print Assumptions C40_zero.
Example C40_zero_case : exists s, make_grid_source 12 (mkgrid ILinLin EZero [(0, 1); (10, 2)]) = Ok s.
Proof.
  eexists. apply (proj1 (C40_accepts _ _)). split; [reflexivity|]. split; [unfold neutrino; tauto|]. cbn [g_pts length map snd sumR]. split; [lia|]. split; [|lra].
  repeat (constructor; [cbn [fst snd]; lra|]). constructor.
Qed.

(** When the flux is not weighted with the cross section there is no flux-averaged cross
    section: zero is reported, whatever was done before. *)
Theorem C35_unweighted ops : flux_averaged (fold_left gstep (ops ++ [OWeight false]) new_generator) = 0.
Proof. rewrite fold_left_app. reflexivity. Qed.
Print Assumptions C35_unweighted.

