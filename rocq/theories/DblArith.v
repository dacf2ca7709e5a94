(** Sums, differences and quotients of finite doubles, as Coq's [spec_float] computes them,
    are the rounded real ones (Flocq's rounding to nearest, ties to even). *)
From Coq Require Import ZArith Reals Lra Lia Bool.
From Coq Require Import Floats.SpecFloat.
From Flocq Require Import Core BinarySingleNaN.
From Verif Require Import Base Dbl EventSpec.
Local Open Scope R_scope.

Local Notation prec := 53%Z.
Local Notation emax := 1024%Z.
Local Instance Hprec : Prec_gt_0 prec := eq_refl.
Local Instance Hmax : Prec_lt_emax prec emax := eq_refl.

(** The real number a double stands for, and the double nearest to a real. *)
Definition val (x : spec_float) : R := SF2R radix2 x.
Definition fexp : Z -> Z := SpecFloat.fexp prec emax.
Definition rnd (x : R) : R := round radix2 fexp ZnearestE x.
Definition huge : R := bpow radix2 1023.

Lemma fexp_FLT : forall e, fexp e = FLT_exp (-1074) 53 e.
Proof. intros e. unfold fexp, SpecFloat.fexp, FLT_exp, SpecFloat.emin. reflexivity. Qed.

#[global] Instance fexp_valid : Valid_exp fexp := FLT_exp_valid (-1074) 53.

Lemma finite_float x : finite_dbl x -> exists f : binary_float prec emax, B2SF f = x /\ is_finite f = true /\ B2R f = val x.
Proof.
  intros [HF HV]. unfold valid_dbl in HV. exists (SF2B x HV). split; [apply B2SF_SF2B|].
  split; [|apply B2R_SF2B]. rewrite is_finite_SF2B. destruct x; cbn in HF |- *; congruence.
Qed.

Lemma float_finite (f : binary_float prec emax) : is_finite f = true -> finite_dbl (B2SF f) /\ val (B2SF f) = B2R f.
Proof.
  intros H. split; [|unfold val; apply SF2R_B2SF]. split; [|apply valid_binary_B2SF].
  destruct f; cbn in H |- *; congruence.
Qed.

Lemma round_aux_equiv sx mx ex lx :
  SpecFloat.binary_round_aux prec emax sx mx ex lx = binary_round_aux prec emax mode_NE sx mx ex lx.
Proof.
  unfold SpecFloat.binary_round_aux, binary_round_aux. set (mrse' := shr_fexp _ _ _ _ _). destruct mrse' as [mrs' e'].
  assert (E : forall m l, round_nearest_even m l = choice_mode mode_NE sx m l).
  { intros m [|c]; [reflexivity|]. destruct c; try reflexivity. cbn. unfold Round.cond_incr. destruct (Z.even m); reflexivity. }
  rewrite E. reflexivity.
Qed.

Lemma normalize_equiv m e szero :
  SpecFloat.binary_normalize prec emax m e szero = B2SF (binary_normalize prec emax Hprec Hmax mode_NE m e szero).
Proof.
  destruct m as [|p|p]; [reflexivity| |]; cbn [SpecFloat.binary_normalize binary_normalize]; rewrite B2SF_SF2B;
    unfold SpecFloat.binary_round, binary_round, shl_align_fexp;
    set (mez := shl_align _ _ _); destruct mez as [mz ez]; apply round_aux_equiv.
Qed.

Lemma add_equiv (f g : binary_float prec emax) : SFadd prec emax (B2SF f) (B2SF g) = B2SF (Bplus mode_NE f g).
Proof.
  destruct f as [s|s| |s m e B], g as [s'|s'| |s' m' e' B']; try reflexivity; try (cbn; destruct (Bool.eqb _ _); reflexivity).
  apply normalize_equiv.
Qed.

Lemma sub_equiv (f g : binary_float prec emax) : SFsub prec emax (B2SF f) (B2SF g) = B2SF (Bminus mode_NE f g).
Proof.
  destruct f as [s|s| |s m e B], g as [s'|s'| |s' m' e' B']; try reflexivity; try (cbn; destruct (Bool.eqb _ _); reflexivity).
  cbn [SFsub B2SF Bminus]. unfold Zminus. rewrite <- cond_Zopp_negb. apply normalize_equiv.
Qed.

Lemma div_equiv (f g : binary_float prec emax) : SFdiv prec emax (B2SF f) (B2SF g) = B2SF (Bdiv mode_NE f g).
Proof.
  destruct f as [s|s| |s m e B], g as [s'|s'| |s' m' e' B']; try reflexivity.
  cbn [SFdiv B2SF Bdiv]. rewrite B2SF_SF2B. set (melz := SFdiv_core_binary _ _ _ _ _ _). destruct melz as [[mz ez] lz].
  apply round_aux_equiv.
Qed.

Lemma mul_equiv (f g : binary_float prec emax) : SFmul prec emax (B2SF f) (B2SF g) = B2SF (Bmult mode_NE f g).
Proof.
  destruct f as [s|s| |s m e B], g as [s'|s'| |s' m' e' B']; try reflexivity.
  cbn [SFmul B2SF Bmult]. rewrite B2SF_SF2B. apply round_aux_equiv.
Qed.

(** ** Results in range *)

Lemma rnd_bound x : Rabs x <= huge -> Rabs (rnd x) < bpow radix2 emax.
Proof.
  intros H. apply Rle_lt_trans with huge; [|apply bpow_lt; reflexivity]. unfold rnd.
  rewrite <- (round_NE_abs radix2 fexp).
  rewrite <- (round_generic radix2 fexp ZnearestE huge); [apply round_le; [typeclasses eauto|typeclasses eauto|exact H]|].
  apply generic_format_bpow. vm_compute. discriminate.
Qed.

Lemma add_finite x y : finite_dbl x -> finite_dbl y -> Rabs (val x + val y) <= huge ->
  finite_dbl (SFadd prec emax x y) /\ val (SFadd prec emax x y) = rnd (val x + val y).
Proof.
  intros Hx Hy HB. destruct (finite_float _ Hx) as (f & <- & Ff & Vf). destruct (finite_float _ Hy) as (g & <- & Fg & Vg).
  rewrite add_equiv. pose proof (Bplus_correct prec emax Hprec Hmax mode_NE f g Ff Fg) as C. rewrite Vf, Vg in C.
  rewrite Rlt_bool_true in C by (apply rnd_bound; exact HB). destruct C as (C1 & C2 & _).
  destruct (float_finite _ C2) as [H1 H2]. split; [exact H1|]. rewrite H2, C1. reflexivity.
Qed.

Lemma sub_finite x y : finite_dbl x -> finite_dbl y -> Rabs (val x - val y) <= huge ->
  finite_dbl (SFsub prec emax x y) /\ val (SFsub prec emax x y) = rnd (val x - val y).
Proof.
  intros Hx Hy HB. destruct (finite_float _ Hx) as (f & <- & Ff & Vf). destruct (finite_float _ Hy) as (g & <- & Fg & Vg).
  rewrite sub_equiv. pose proof (Bminus_correct prec emax Hprec Hmax mode_NE f g Ff Fg) as C. rewrite Vf, Vg in C.
  rewrite Rlt_bool_true in C by (apply rnd_bound; exact HB). destruct C as (C1 & C2 & _).
  destruct (float_finite _ C2) as [H1 H2]. split; [exact H1|]. rewrite H2, C1. reflexivity.
Qed.

Lemma div_finite x y : finite_dbl x -> finite_dbl y -> val y <> 0 -> Rabs (val x / val y) <= huge ->
  finite_dbl (SFdiv prec emax x y) /\ val (SFdiv prec emax x y) = rnd (val x / val y).
Proof.
  intros Hx Hy N HB. destruct (finite_float _ Hx) as (f & <- & Ff & Vf). destruct (finite_float _ Hy) as (g & <- & Fg & Vg).
  rewrite div_equiv. pose proof (Bdiv_correct prec emax Hprec Hmax mode_NE f g) as C. rewrite Vf, Vg in C. specialize (C N).
  rewrite Rlt_bool_true in C by (apply rnd_bound; exact HB). destruct C as (C1 & C2 & _).
  rewrite Ff in C2. destruct (float_finite _ C2) as [H1 H2]. split; [exact H1|]. rewrite H2, C1. reflexivity.
Qed.

Lemma mul_finite x y : finite_dbl x -> finite_dbl y -> Rabs (val x * val y) <= huge ->
  finite_dbl (SFmul prec emax x y) /\ val (SFmul prec emax x y) = rnd (val x * val y).
Proof.
  intros Hx Hy HB. destruct (finite_float _ Hx) as (f & <- & Ff & Vf). destruct (finite_float _ Hy) as (g & <- & Fg & Vg).
  rewrite mul_equiv. pose proof (Bmult_correct prec emax Hprec Hmax mode_NE f g) as C. rewrite Vf, Vg in C.
  rewrite Rlt_bool_true in C by (apply rnd_bound; exact HB). destruct C as (C1 & C2 & _).
  rewrite Ff, Fg in C2. destruct (float_finite _ C2) as [H1 H2]. split; [exact H1|]. rewrite H2, C1. reflexivity.
Qed.

(** A sum that is finite is the rounded one, without a condition on the terms' size. *)
Lemma add_finite_inv x y : finite_dbl x -> finite_dbl y -> finite_dbl (SFadd prec emax x y) ->
  val (SFadd prec emax x y) = rnd (val x + val y).
Proof.
  intros Hx Hy HS. destruct (finite_float _ Hx) as (f & <- & Ff & Vf). destruct (finite_float _ Hy) as (g & <- & Fg & Vg).
  rewrite add_equiv in *. pose proof (Bplus_correct prec emax Hprec Hmax mode_NE f g Ff Fg) as C. rewrite Vf, Vg in C.
  destruct (Rlt_bool _ _).
  - destruct C as (C1 & C2 & _). destruct (float_finite _ C2) as [H1 H2]. rewrite H2, C1. reflexivity.
  - destruct C as (C1 & _). rewrite C1 in HS. exfalso. destruct HS as [HS _]. destruct (Bsign f); discriminate.
Qed.

Lemma ltb_finite x y : finite_dbl x -> finite_dbl y -> SFltb x y = true <-> val x < val y.
Proof.
  intros Hx Hy. destruct (finite_float _ Hx) as (f & <- & Ff & Vf). destruct (finite_float _ Hy) as (g & <- & Fg & Vg).
  pose proof (Bltb_correct prec emax f g Ff Fg) as C. unfold Bltb in C. rewrite C, Vf, Vg.
  destruct (Rlt_bool_spec (val (B2SF f)) (val (B2SF g))); split; intros; (reflexivity || discriminate || lra).
Qed.

Lemma val_format x : finite_dbl x -> generic_format radix2 fexp (val x).
Proof. intros Hx. destruct (finite_float _ Hx) as (f & <- & Ff & <-). apply (generic_format_B2R prec emax). Qed.

Lemma rnd_id x : generic_format radix2 fexp x -> rnd x = x.
Proof. intros H. apply round_generic; [typeclasses eauto|exact H]. Qed.

Lemma rnd_le x y : x <= y -> rnd x <= rnd y.
Proof. intros H. apply round_le; [typeclasses eauto|typeclasses eauto|exact H]. Qed.

(** Twice a double below the largest ones is a double. *)
Lemma format_double x : generic_format radix2 fexp x -> generic_format radix2 fexp (2 * x).
Proof.
  intros H. change fexp with (FLT_exp (-1074) 53) in *. apply generic_format_FLT. apply FLT_format_generic in H; [|reflexivity].
  destruct H as [f E M L]. exists (Float radix2 (Fnum f) (Fexp f + 1)).
  - rewrite E. unfold F2R. cbn [Fnum Fexp]. rewrite bpow_plus, bpow_1. cbn [radix_val radix2]. ring.
  - exact M.
  - cbn [Fexp]. lia.
Qed.

(** Half a double is a double, unless it is tiny. *)
Lemma rnd_half x : generic_format radix2 fexp x -> Rabs (rnd (x / 2) - x / 2) <= bpow radix2 (-1022).
Proof.
  intros H. destruct (Rle_or_lt (bpow radix2 (-1021)) (Rabs x)) as [L|L].
  - rewrite rnd_id; [rewrite Rminus_diag_eq by reflexivity; rewrite Rabs_R0; apply bpow_ge_0|].
    change fexp with (FLT_exp (-1074) 53) in *. apply generic_format_FLT. apply FLT_format_generic in H; [|reflexivity].
    destruct H as [f E M L']. exists (Float radix2 (Fnum f) (Fexp f - 1)).
    + rewrite E. unfold F2R. cbn [Fnum Fexp]. unfold Zminus. rewrite bpow_plus. change (bpow radix2 (- (1))) with (/ IZR 2). field.
    + exact M.
    + cbn [Fexp]. destruct (Z_lt_le_dec (-1074) (Fexp f)); [lia|]. exfalso. assert (Fexp f = (-1074)%Z) as EF by lia.
      rewrite E in L. unfold F2R in L. rewrite EF, Rabs_mult, (Rabs_pos_eq (bpow radix2 (-1074))) in L by apply bpow_ge_0.
      assert (IZR (Z.abs (Fnum f)) < IZR (2 ^ 53)) by (apply IZR_lt; exact M). rewrite <- abs_IZR in *.
      change (IZR (2 ^ 53)) with (bpow radix2 53) in *.
      pose proof (Rmult_lt_compat_r (bpow radix2 (-1074)) _ _ (bpow_gt_0 radix2 (-1074)) H) as Q. rewrite <- bpow_plus in Q.
      change (53 + -1074)%Z with (-1021)%Z in Q. lra.
  - assert (E : Rabs (rnd (x / 2) - x / 2) <= / 2 * ulp radix2 fexp (x / 2)) by (apply error_le_half_ulp; typeclasses eauto).
    assert (U : ulp radix2 fexp (x / 2) <= bpow radix2 (-1022)).
    { apply Rle_trans with (ulp radix2 fexp (bpow radix2 (-1022))).
      - change fexp with (FLT_exp (-1074) 53). apply ulp_le; [apply (FLT_exp_valid (-1074) 53)|apply FLT_exp_monotone|].
        unfold Rdiv. rewrite Rabs_mult, (Rabs_pos_eq (/ 2)) by lra. rewrite (Rabs_pos_eq (bpow radix2 (-1022))) by apply bpow_ge_0.
        change (-1022)%Z with (-1021 + -1)%Z. rewrite bpow_plus. change (bpow radix2 (-1)) with (/ IZR 2).
        apply Rmult_le_compat_r; lra.
      - rewrite ulp_bpow. apply bpow_le. vm_compute. discriminate. }
    pose proof (ulp_ge_0 radix2 fexp (x / 2)). lra.
Qed.
