(** Conversion between MeV and GeV in HEPEVT records: the value changes by at
    most two roundings. *)
From Coq Require Import List Ascii String ZArith Bool Lia Reals Lra.
From Coq Require Import Floats.SpecFloat.
From Flocq Require Import Core BinarySingleNaN Relative.
From Verif Require Import Base Dbl DigitsProofs DblProofs Json JsonSpec JsonExpProofs Stream StreamProofs Pdg Event EventSpec.
Import ListNotations.
Local Open Scope Z_scope.

(** Zero, or a double of magnitude between 1e-300 and 1e300. *)
Definition hep_dbl (x : spec_float) : Prop :=
  match x with
  | S754_zero _ => True
  | S754_finite _ m e => valid_dbl x = true /\
      dden e <= 10 ^ 300 * dnum m e /\ dnum m e <= 10 ^ 300 * dden e
  | _ => False
  end.

Lemma near_of_real : forall s m e my ey,
  (Rabs (dmag (S754_finite s my ey) - dmag (S754_finite s m e))
   <= 4 * bpow radix2 (-53) * dmag (S754_finite s m e))%R ->
  near_dbl (S754_finite s m e) (S754_finite s my ey).
Proof.
  intros s m e my ey H. cbn [near_dbl dmag] in *. split; [reflexivity|].
  rewrite <- (Qr_dbl m e), <- (Qr_dbl my ey) in H.
  pose proof (dden_pos e) as Hde. pose proof (dden_pos ey) as Hdy.
  apply le_IZR. rewrite mult_IZR, abs_IZR, minus_IZR, !mult_IZR.
  assert (K1 : (0 < IZR (dden e))%R) by (apply IZR_lt; exact Hde).
  assert (K2 : (0 < IZR (dden ey))%R) by (apply IZR_lt; exact Hdy).
  assert (E4 : (4 * bpow radix2 (-53) = / IZR (2 ^ 51))%R).
  { change 4%R with (bpow radix2 2). rewrite <- bpow_plus. reflexivity. }
  rewrite E4 in H. unfold Qr in H.
  assert (K3 : (0 < IZR (2 ^ 51))%R) by (apply IZR_lt; reflexivity).
  replace (IZR (dnum my ey) / IZR (dden ey) - IZR (dnum m e) / IZR (dden e))%R
    with ((IZR (dnum my ey) * IZR (dden e) - IZR (dnum m e) * IZR (dden ey)) / (IZR (dden ey) * IZR (dden e)))%R
    in H by (field; lra).
  unfold Rdiv in H at 1. rewrite Rabs_mult, (Rabs_pos_eq (/ _)) in H
    by (left; apply Rinv_0_lt_compat; nra).
  apply (Rmult_le_compat_r (IZR (2 ^ 51) * (IZR (dden ey) * IZR (dden e)))) in H; [|nra].
  set (A := Rabs (IZR (dnum my ey) * IZR (dden e) - IZR (dnum m e) * IZR (dden ey))) in *.
  replace (A * / (IZR (dden ey) * IZR (dden e)) * (IZR (2 ^ 51) * (IZR (dden ey) * IZR (dden e))))%R
    with (IZR (2 ^ 51) * A)%R in H by (field; lra).
  replace (/ IZR (2 ^ 51) * (IZR (dnum m e) / IZR (dden e)) * (IZR (2 ^ 51) * (IZR (dden ey) * IZR (dden e))))%R
    with (IZR (dnum m e) * IZR (dden ey))%R in H by (field; lra).
  exact H.
Qed.

Lemma gev_finite : exists m e, GEV_TO_MEV = S754_finite false m e /\ Qr (dnum m e) (dden e) = 1000%R.
Proof.
  exists (Z.to_pos (1000 * 2 ^ 43)), (-43). split; [vm_compute; reflexivity|].
  rewrite Qr_dbl. change (Z.pos (Z.to_pos (1000 * 2 ^ 43))) with (1000 * 2 ^ 43).
  rewrite mult_IZR, Rmult_assoc. replace (IZR (2 ^ 43)) with (bpow radix2 43) by reflexivity.
  rewrite <- bpow_plus. change (bpow radix2 (43 + -43)) with 1%R. lra.
Qed.

Lemma Qr_div : forall m e m' e',
  Qr (dnum m e * dden e') (dden e * dnum m' e') = (Qr (dnum m e) (dden e) / Qr (dnum m' e') (dden e'))%R.
Proof.
  intros. unfold Qr. rewrite !mult_IZR. field.
  pose proof (dden_pos e). pose proof (dden_pos e'). pose proof (dnum_pos m' e').
  repeat split; apply not_eq_sym, Rlt_not_eq, IZR_lt; assumption.
Qed.

(** 10^300 lies between powers of two that leave room for a factor 1000. *)
Lemma range_real : forall m e, dden e <= 10 ^ 300 * dnum m e -> dnum m e <= 10 ^ 300 * dden e ->
  (bpow radix2 (-1000) <= Qr (dnum m e) (dden e) <= bpow radix2 998)%R.
Proof.
  intros m e H1 H2. pose proof (dden_pos e). pose proof (dnum_pos m e). split.
  - replace (bpow radix2 (-1000)) with (Qr 1 (2 ^ 1000))
      by (unfold Qr, bpow; change (Z.pow_pos radix2 1000) with (2 ^ 1000); unfold Rdiv; lra).
    apply Qr_le; [reflexivity|assumption|].
    assert (10 ^ 300 <= 2 ^ 1000) by (vm_compute; discriminate). nia.
  - replace (bpow radix2 998) with (Qr (2 ^ 998) 1)
      by (unfold Qr, Rdiv; rewrite Rinv_1, Rmult_1_r; reflexivity).
    apply Qr_le; [assumption|reflexivity|].
    assert (10 ^ 300 <= 2 ^ 998) by (vm_compute; discriminate). nia.
Qed.

Lemma two_roundings : forall u x y z, (0 < u <= / 1000000)%R -> (0 < x)%R ->
  (Rabs (y - x) <= u * x)%R -> (Rabs (z - y) <= u * y)%R -> (Rabs (z - x) <= 4 * u * x)%R.
Proof.
  intros u x y z Hu Hx H1 H2. apply Rabs_le_inv in H1, H2. apply Rabs_le.
  assert (x * (1 - u) <= y <= x * (1 + u))%R by (split; lra).
  assert (u * y <= 2 * u * x)%R by nra. split; lra.
Qed.

Lemma u_small : (0 < bpow radix2 (-53) <= / 1000000)%R.
Proof.
  split; [apply bpow_gt_0|]. unfold bpow. change (Z.pow_pos radix2 53) with (2 ^ 53).
  apply Rinv_le; [lra|]. apply IZR_le. vm_compute. discriminate.
Qed.

Lemma bpow_facts : (bpow radix2 (-1022) * 4096 <= bpow radix2 (-1000))%R /\
  (bpow radix2 (-1000) * 4 = bpow radix2 (-998))%R /\
  (0 < bpow radix2 (-1022))%R /\ (bpow radix2 998 * 4 = bpow radix2 1000)%R /\ (0 < bpow radix2 998)%R.
Proof.
  split; [|split; [|split; [|split]]].
  - change 4096%R with (bpow radix2 12). rewrite <- bpow_plus. apply bpow_le. lia.
  - change 4%R with (bpow radix2 2). rewrite <- bpow_plus. reflexivity.
  - apply bpow_gt_0.
  - change 4%R with (bpow radix2 2). rewrite <- bpow_plus. reflexivity.
  - apply bpow_gt_0.
Qed.

(** To GeV and back to MeV: momenta, energies and masses of real particles. *)
Lemma gev_mev : forall x, hep_dbl x ->
  finite_dbl (dbl_div x GEV_TO_MEV) /\ near_dbl x (dbl_mul (dbl_div x GEV_TO_MEV) GEV_TO_MEV).
Proof.
  intros x Hx. destruct gev_finite as (mg & eg & EG & QG). rewrite EG.
  destruct x as [s|s| |s m e]; try contradiction.
  - cbn [dbl_div dbl_mul near_dbl]. split; [split; reflexivity|exact I].
  - destruct Hx as (HV & H1 & H2). pose proof (range_real m e H1 H2) as HR.
    destruct bpow_facts as (F1 & F2 & F3 & F4 & F5).
    set (X := Qr (dnum m e) (dden e)) in *.
    assert (HQ : Qr (dnum m e * dden eg) (dden e * dnum mg eg) = (X / 1000)%R).
    { rewrite Qr_div, QG. reflexivity. }
    cbn [dbl_div]. rewrite xorb_false_r.
    destruct (rnd64_finite s (dnum m e * dden eg) (dden e * dnum mg eg)) as (m1 & e1 & E1 & B1 & N1 & M1).
    { apply Z.mul_pos_pos; [apply dnum_pos|apply dden_pos]. }
    { apply Z.mul_pos_pos; [apply dden_pos|apply dnum_pos]. }
    { rewrite HQ. lra. } { rewrite HQ. lra. }
    rewrite E1. split; [split; [reflexivity|exact B1]|].
    rewrite HQ in M1. cbn [dbl_mul]. rewrite xorb_false_r.
    pose proof (rnd_rel (X / 1000)%R ltac:(lra)) as R1. rewrite <- M1 in R1. cbn [dmag] in R1.
    rewrite <- Qr_dbl in R1. set (Y := Qr (dnum m1 e1) (dden e1)) in *.
    pose proof u_small as Hu. set (u := bpow radix2 (-53)) in *.
    pose proof (Rabs_le_inv _ _ R1) as R1'.
    assert (HY : (X / 1000 * (1 - u) <= Y <= X / 1000 * (1 + u))%R) by lra.
    assert (HX0 : (0 < X)%R) by lra.
    assert (HY2 : (X / 2000 <= Y <= X / 500)%R) by nra.
    assert (HQ2 : Qr (dnum m1 e1 * dnum mg eg) (dden e1 * dden eg) = (Y * 1000)%R).
    { rewrite Qr_mul, <- !Qr_dbl, QG. reflexivity. }
    destruct (rnd64_finite s (dnum m1 e1 * dnum mg eg) (dden e1 * dden eg)) as (m2 & e2 & E2 & B2 & N2 & M2).
    { apply Z.mul_pos_pos; apply dnum_pos. } { apply Z.mul_pos_pos; apply dden_pos. }
    { rewrite HQ2. lra. } { rewrite HQ2. lra. }
    rewrite E2. apply near_of_real. rewrite M2, HQ2. cbn [dmag]. rewrite <- Qr_dbl. fold X. fold u.
    apply (two_roundings u X (Y * 1000)%R); [exact Hu|exact HX0| |].
    + apply Rabs_le. lra.
    + apply rnd_rel. lra.
Qed.

(** Excitation energy and cross section: multiplied by 1000, then written
    divided by 1000. *)
Lemma mev_gev : forall x, hep_dbl x ->
  finite_dbl (dbl_div (dbl_mul x GEV_TO_MEV) GEV_TO_MEV) /\
  near_dbl x (dbl_div (dbl_mul x GEV_TO_MEV) GEV_TO_MEV).
Proof.
  intros x Hx. destruct gev_finite as (mg & eg & EG & QG). rewrite EG.
  destruct x as [s|s| |s m e]; try contradiction.
  - cbn [dbl_div dbl_mul near_dbl]. split; [split; reflexivity|exact I].
  - destruct Hx as (HV & H1 & H2).
    destruct bpow_facts as (F1 & F2 & F3 & F4 & F5).
    assert (HR : (bpow radix2 (-1000) <= Qr (dnum m e) (dden e) /\ Qr (dnum m e) (dden e) * 1024 <= bpow radix2 1008)%R).
    { pose proof (range_real m e H1 H2) as HR. split; [apply HR|].
      change 1024%R with (bpow radix2 10). change (bpow radix2 1008) with (bpow radix2 (998 + 10)).
      rewrite bpow_plus. apply Rmult_le_compat_r; [apply bpow_ge_0|apply HR]. }
    set (X := Qr (dnum m e) (dden e)) in *.
    assert (HX0 : (0 < X)%R) by lra.
    (* 10^300 * 1000 = 10^303 < 2^1007 may exceed 2^1000; use the precise bound *)
    assert (HU : (X * 1000 <= bpow radix2 1007)%R).
    { replace (bpow radix2 1007) with (Qr (2 ^ 1007) 1)
        by (unfold Qr, Rdiv; rewrite Rinv_1, Rmult_1_r; reflexivity).
      replace (X * 1000)%R with (Qr (dnum m e * 1000) (dden e)).
      - apply Qr_le; [apply dden_pos|reflexivity|].
        assert (HH : 10 ^ 300 * 1000 <= 2 ^ 1007) by (vm_compute; discriminate).
        pose proof (dden_pos e). pose proof (dnum_pos m e). nia.
      - unfold X, Qr. rewrite mult_IZR. unfold Rdiv. ring. }
    assert (HG : forall s n d, 0 < n -> 0 < d ->
      (bpow radix2 (-1022) <= Qr n d)%R -> (Qr n d <= bpow radix2 1008)%R ->
      exists m e, rnd64 s n d = S754_finite s m e /\ bounded 53 1024 m e = true /\
        dmag (S754_finite s m e) = rnd (Qr n d)).
    { clear. intros s n d Hn Hd H1 H2.
      assert (HF : Valid_exp fexp64) by (apply FLT_exp_valid; unfold Prec_gt_0; lia).
      assert (Hg : forall k, -1074 <= k -> generic_format radix2 fexp64 (bpow radix2 k)).
      { intros k Hk. apply generic_format_FLT_bpow; [unfold Prec_gt_0; lia|lia]. }
      assert (R1 : (bpow radix2 (-1022) <= rnd (Qr n d))%R).
      { apply round_ge_generic; [exact HF|apply valid_rnd_N|apply Hg; lia|exact H1]. }
      assert (R2 : (rnd (Qr n d) <= bpow radix2 1008)%R).
      { apply round_le_generic; [exact HF|apply valid_rnd_N|apply Hg; lia|exact H2]. }
      destruct (rnd64_correct s n d ltac:(lia) Hd) as (C1 & C2 & C3).
      { apply Rle_lt_trans with (1 := R2). apply bpow_lt. lia. }
      pose proof (rnd64_valid s n d Hd) as V.
      pose proof (bpow_gt_0 radix2 (-1022)) as Hb0.
      destruct (rnd64 s n d) as [t|t| |t m e]; try discriminate.
      - exfalso. cbn in C1. destruct s; cbn in C1; lra.
      - cbn [sign_SF] in C3. subst t. exists m, e. split; [reflexivity|].
        change (bounded 53 1024 m e = true) in V. split; [exact V|].
        rewrite SF2R_finite in C1. destruct s; cbn in C1; cbn [dmag]; lra. }
    assert (HQ : Qr (dnum m e * dnum mg eg) (dden e * dden eg) = (X * 1000)%R).
    { rewrite Qr_mul, <- !Qr_dbl, QG. reflexivity. }
    cbn [dbl_mul]. rewrite xorb_false_r.
    destruct (HG s (dnum m e * dnum mg eg) (dden e * dden eg)) as (m1 & e1 & E1 & B1 & M1).
    { apply Z.mul_pos_pos; apply dnum_pos. } { apply Z.mul_pos_pos; apply dden_pos. }
    { rewrite HQ. lra. }
    { rewrite HQ. apply Rle_trans with (1 := HU). apply bpow_le. lia. }
    rewrite E1. rewrite HQ in M1. cbn [dbl_div]. rewrite xorb_false_r.
    pose proof (rnd_rel (X * 1000)%R ltac:(lra)) as R1. rewrite <- M1 in R1. cbn [dmag] in R1.
    rewrite <- Qr_dbl in R1. set (Y := Qr (dnum m1 e1) (dden e1)) in *.
    pose proof u_small as Hu. set (u := bpow radix2 (-53)) in *.
    pose proof (Rabs_le_inv _ _ R1) as R1'.
    assert (HY2 : (X * 500 <= Y <= X * 2000)%R) by nra.
    assert (HQ2 : Qr (dnum m1 e1 * dden eg) (dden e1 * dnum mg eg) = (Y / 1000)%R).
    { rewrite Qr_div, QG. reflexivity. }
    destruct (HG s (dnum m1 e1 * dden eg) (dden e1 * dnum mg eg)) as (m2 & e2 & E2 & B2 & M2).
    { apply Z.mul_pos_pos; [apply dnum_pos|apply dden_pos]. }
    { apply Z.mul_pos_pos; [apply dden_pos|apply dnum_pos]. }
    { rewrite HQ2. lra. } { rewrite HQ2. lra. }
    rewrite E2. split; [split; [reflexivity|exact B2]|].
    apply near_of_real. rewrite M2, HQ2. cbn [dmag]. rewrite <- Qr_dbl. fold X. fold u.
    apply (two_roundings u X (Y / 1000)%R); [exact Hu|exact HX0| |].
    + apply Rabs_le. lra.
    + apply rnd_rel. lra.
Qed.
