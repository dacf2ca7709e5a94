(** Draws on doubles (C76). *)
From Coq Require Import ZArith Reals Lra Lia Bool List.
Import ListNotations.
From Coq Require Import Floats.SpecFloat.
From Flocq Require Import Core BinarySingleNaN Relative Plus_error.
From Verif Require Import Base Dbl EventSpec DblArith SampleDbl.
Local Open Scope R_scope.

(** ** The next double *)

Lemma finite_bits s m e : finite_dbl (S754_finite s m e) <->
  (Z.pos m < 2 ^ 53)%Z /\ (-1074 <= e <= 971)%Z /\ (e = -1074 \/ 2 ^ 52 <= Z.pos m)%Z.
Proof.
  unfold finite_dbl, valid_dbl. cbn [is_finite_dbl valid_binary]. unfold SpecFloat.bounded, SpecFloat.canonical_mantissa.
  rewrite andb_true_iff, Z.leb_le. change (1024 - 53)%Z with 971%Z.
  rewrite <- (Zeq_is_eq_bool (SpecFloat.fexp 53 1024 (Z.pos (SpecFloat.digits2_pos m) + e)) e).
  change (SpecFloat.fexp 53 1024 (Z.pos (SpecFloat.digits2_pos m) + e)) with (Z.max (Z.pos (SpecFloat.digits2_pos m) + e - 53) (-1074)).
  rewrite Digits.Zpos_digits2_pos. pose proof (Digits.Zdigits_correct radix2 (Z.pos m)) as [L U].
  rewrite Z.abs_eq in L, U by lia. change (radix_val radix2) with 2%Z in *. set (d := Digits.Zdigits radix2 (Z.pos m)) in *.
  assert (D : (0 < d)%Z) by (apply Digits.Zdigits_gt_0; discriminate).
  assert (A : (d <= 53 <-> Z.pos m < 2 ^ 53)%Z).
  { split; intros H.
    - apply Z.lt_le_trans with (2 ^ d)%Z; [exact U|]. apply Z.pow_le_mono_r; lia.
    - apply Z.nlt_ge. intros C. assert (2 ^ 53 <= 2 ^ (d - 1))%Z by (apply Z.pow_le_mono_r; lia). lia. }
  assert (B : (53 <= d <-> 2 ^ 52 <= Z.pos m)%Z).
  { split; intros H.
    - apply Z.le_trans with (2 ^ (d - 1))%Z; [|exact L]. apply Z.pow_le_mono_r; lia.
    - apply Z.nlt_ge. intros C. assert (2 ^ d <= 2 ^ 52)%Z by (apply Z.pow_le_mono_r; lia). lia. }
  rewrite <- A, <- B. clearbody d. intuition lia.
Qed.

Lemma canonical_of s m e : finite_dbl (S754_finite s m e) -> canonical radix2 fexp (Float radix2 (Zpos m) e).
Proof.
  intros [_ H]. unfold valid_dbl, valid_binary, SpecFloat.bounded in H. apply andb_prop in H. destruct H as [H1 H2].
  apply (canonical_canonical_mantissa 53 1024 false m e). exact H1.
Qed.

Lemma val_pos m e : val (S754_finite false m e) = IZR (Z.pos m) * bpow radix2 e.
Proof. reflexivity. Qed.
Lemma val_neg m e : val (S754_finite true m e) = - (IZR (Z.pos m) * bpow radix2 e).
Proof. unfold val, SF2R, F2R. cbn [Fnum Fexp cond_Zopp]. rewrite opp_IZR. ring. Qed.

(** The next double is the next real number that is one. *)
Lemma next_spec x : finite_dbl x -> val x < huge -> finite_dbl (next_up x) /\ val (next_up x) = succ radix2 fexp (val x).
Proof.
  intros Hx Hh. destruct x as [s|s| |s m e]; try (destruct Hx; discriminate).
  - cbn [next_up]. split; [split; reflexivity|]. change (val (S754_zero s)) with 0. rewrite succ_0.
    change fexp with (FLT_exp (-1074) 53). rewrite ulp_FLT_0 by reflexivity. unfold val, SF2R, F2R. cbn [Fnum Fexp cond_Zopp]. lra.
  - pose proof (canonical_of _ _ _ Hx) as HC. pose proof (proj1 (finite_bits _ _ _) Hx) as (B1 & B2 & B3).
    pose proof (ulp_canonical radix2 fexp (Z.pos m) e ltac:(discriminate) HC) as HU.
    change (F2R {| Fnum := Z.pos m; Fexp := e |}) with (IZR (Z.pos m) * bpow radix2 e) in HU.
    assert (P : 0 < bpow radix2 e) by apply bpow_gt_0. assert (PM : 1 <= IZR (Z.pos m)) by (apply IZR_le; lia).
    assert (PP : 0 < IZR (Z.pos m) * bpow radix2 e) by (apply Rmult_lt_0_compat; lra).
    destruct s; cbn [next_up].
    + destruct (Pos.eqb_spec m 4503599627370496) as [EM|NM]; cbn [andb].
      * destruct (Z.eqb_spec e (-1074)) as [EE|NE]; cbn [negb].
        { subst. cbn [Pos.eqb]. replace (4503599627370496 =? 1)%positive with false by reflexivity.
          split; [apply finite_bits; cbn; lia|].
          rewrite !val_neg, succ_opp, pred_eq_pos by lra. unfold pred_pos. rewrite HU.
          assert (MG : (mag radix2 (4503599627370496 * bpow radix2 (-1074)) : Z) = (-1021)%Z).
          { change 4503599627370496 with (bpow radix2 52). rewrite <- bpow_plus. rewrite mag_bpow. reflexivity. }
          rewrite MG. rewrite Req_bool_true.
          2:{ change 4503599627370496 with (bpow radix2 52). rewrite <- bpow_plus. reflexivity. }
          change (fexp (-1021 - 1)) with (-1074)%Z. change (Z.pos (4503599627370496 - 1)) with 4503599627370495%Z. lra. }
        subst. split; [apply finite_bits; cbn; lia|].
        rewrite !val_neg, succ_opp, pred_eq_pos by lra. unfold pred_pos.
        assert (MG : (mag radix2 (4503599627370496 * bpow radix2 e) : Z) = (e + 53)%Z).
        { change 4503599627370496 with (bpow radix2 52). rewrite <- bpow_plus. rewrite mag_bpow. lia. }
        rewrite MG. rewrite Req_bool_true.
        2:{ change 4503599627370496 with (bpow radix2 52). rewrite <- bpow_plus. f_equal. lia. }
        replace (fexp (e + 53 - 1)) with (e - 1)%Z by (rewrite fexp_FLT; unfold FLT_exp; lia).
        replace e with ((e - 1) + 1)%Z at 2 by ring. rewrite bpow_plus, bpow_1. change (IZR radix2) with 2. lra.
      * destruct (Pos.eqb_spec m 1) as [E1|N1].
        { subst m. assert (e = (-1074)%Z) as -> by lia. split; [split; reflexivity|]. rewrite val_neg, succ_opp.
          change (val (S754_zero true)) with 0. replace (IZR 1 * bpow radix2 (-1074)) with (bpow radix2 (-1074)) by lra.
          rewrite pred_bpow. change (fexp (-1074)) with (-1074)%Z. lra. }
        assert (EP : Z.pos (m - 1) = (Z.pos m - 1)%Z) by lia.
        split; [apply finite_bits; rewrite EP; split; [lia|]; split; [lia|]; destruct B3; [left; lia|right; lia]|].
        rewrite !val_neg, succ_opp, pred_eq_pos by lra. unfold pred_pos. rewrite HU, EP, minus_IZR.
        assert (MG : (mag radix2 (IZR (Z.pos m) * bpow radix2 e) : Z) = (Digits.Zdigits radix2 (Z.pos m) + e)%Z).
        { change (IZR (Z.pos m) * bpow radix2 e) with (F2R (Float radix2 (Z.pos m) e)). apply mag_F2R_Zdigits. discriminate. }
        rewrite MG. pose proof (Digits.Zdigits_correct radix2 (Z.pos m)) as [L U].
        rewrite Z.abs_eq in L, U by lia. change (radix_val radix2) with 2%Z in *.
        assert (D : (0 < Digits.Zdigits radix2 (Z.pos m))%Z) by (apply Digits.Zdigits_gt_0; discriminate).
        set (d := Digits.Zdigits radix2 (Z.pos m)) in *.
        assert (D53 : (d <= 53)%Z).
        { apply Z.nlt_ge. intros C. assert (2 ^ 53 <= 2 ^ (d - 1))%Z by (apply Z.pow_le_mono_r; lia). lia. }
        destruct (Req_bool_spec (IZR (Z.pos m) * bpow radix2 e) (bpow radix2 (d + e - 1))) as [C|C]; [|lra].
        replace (fexp (d + e - 1)) with e; [lra|]. rewrite fexp_FLT. unfold FLT_exp.
        destruct B3 as [B3|B3]; [lia|]. exfalso. apply NM.
        assert (d = 53)%Z.
        { enough (53 <= d)%Z by lia. apply Z.nlt_ge. intros Cd. assert (2 ^ d <= 2 ^ 52)%Z by (apply Z.pow_le_mono_r; lia). lia. }
        replace (d + e - 1)%Z with (52 + e)%Z in C by lia. rewrite bpow_plus in C. apply Rmult_eq_reg_r in C; [|lra].
        change (bpow radix2 52) with (IZR 4503599627370496) in C. apply eq_IZR in C. lia.
    + rewrite val_pos in Hh. assert (SU : succ radix2 fexp (val (S754_finite false m e)) = (IZR (Z.pos m) + 1) * bpow radix2 e).
      { rewrite val_pos, succ_eq_pos, HU by lra. ring. }
      rewrite SU. destruct (Pos.eqb_spec m 9007199254740991) as [EM|NM].
      * destruct (Z.eqb_spec e 971) as [EE|NE].
        { exfalso. subst. unfold huge in Hh. change 1023%Z with (52 + 971)%Z in Hh. rewrite bpow_plus in Hh.
          apply Rmult_lt_reg_r in Hh; [|exact P]. change (bpow radix2 52) with (IZR 4503599627370496) in Hh. apply lt_IZR in Hh. discriminate. }
        subst. split; [apply finite_bits; cbn; lia|]. rewrite val_pos, bpow_plus, bpow_1. change (IZR radix2) with 2. lra.
      * assert (EP : Z.pos (m + 1) = (Z.pos m + 1)%Z) by lia.
        split; [apply finite_bits; rewrite EP; split; [lia|]; split; [lia|]; destruct B3; [left; lia|right; lia]|].
        rewrite val_pos, EP, plus_IZR. reflexivity.
Qed.

Lemma val_one : val dbl_one = 1.
Proof. unfold dbl_one. rewrite val_pos. change (bpow radix2 (-52)) with (/ IZR 4503599627370496). lra. Qed.

Lemma below_one u : finite_dbl u -> val u < 1 -> val u <= 1 - bpow radix2 (-53).
Proof.
  intros Hu L. replace (1 - bpow radix2 (-53)) with (pred radix2 fexp 1).
  - apply pred_ge_gt; try typeclasses eauto; try (apply val_format; exact Hu); [|exact L].
    change 1 with (bpow radix2 0). apply generic_format_bpow. vm_compute. discriminate.
  - change 1 with (bpow radix2 0) at 1. rewrite pred_bpow. reflexivity.
Qed.

(** A factor below one takes a normal double to one below it. *)
Lemma scale_below u d : generic_format radix2 fexp d -> bpow radix2 (-1022) < d -> 0 <= u <= 1 - bpow radix2 (-53) ->
  rnd (u * d) <= pred radix2 fexp d.
Proof.
  intros Hd Ld Hu. unfold rnd. apply round_N_le_midp; [typeclasses eauto|apply generic_format_pred; [typeclasses eauto|exact Hd]|].
  rewrite succ_pred by (try typeclasses eauto; exact Hd). pose proof (bpow_gt_0 radix2 (-1022)) as P0.
  apply Rle_lt_trans with ((1 - bpow radix2 (-53)) * d); [apply Rmult_le_compat_r; lra|].
  enough (d - pred radix2 fexp d < bpow radix2 (-52) * d).
  { change (-52)%Z with (-53 + 1)%Z in *. rewrite bpow_plus, bpow_1 in *. change (IZR radix2) with 2 in *. lra. }
  rewrite pred_eq_pos by lra. unfold pred_pos.
  pose proof (bpow_mag_le radix2 d ltac:(lra)) as M1. pose proof (bpow_mag_gt radix2 d) as M2. rewrite Rabs_pos_eq in M1, M2 by lra.
  rewrite ulp_neq_0 by lra. unfold cexp. set (M := (mag radix2 d : Z)) in *. clearbody M.
  assert (G : (-1022 < M)%Z) by (apply (lt_bpow radix2); lra).
  destruct (Req_bool_spec d (bpow radix2 (M - 1))) as [E|N].
  - assert (G' : (-1022 < M - 1)%Z) by (apply (lt_bpow radix2); lra).
    replace (fexp (M - 1)) with (M - 54)%Z by (rewrite fexp_FLT; unfold FLT_exp; lia).
    replace (d - (d - bpow radix2 (M - 54))) with (bpow radix2 (M - 54)) by ring. rewrite E, <- bpow_plus. apply bpow_lt. lia.
  - replace (fexp M) with (M - 53)%Z by (rewrite fexp_FLT; unfold FLT_exp; lia).
    replace (d - (d - bpow radix2 (M - 53))) with (bpow radix2 (M - 53)) by ring.
    replace (M - 53)%Z with (-52 + (M - 1))%Z by lia. rewrite bpow_plus. apply Rmult_lt_compat_l; [apply bpow_gt_0|lra].
Qed.

Lemma rnd_0 : rnd 0 = 0.
Proof. apply rnd_id, generic_format_0. Qed.

Lemma rnd_error z : Rabs (rnd z - z) <= bpow radix2 (-53) * Rabs z + bpow radix2 (-1075).
Proof.
  destruct (Rle_or_lt (bpow radix2 (-1022)) (Rabs z)) as [L|L].
  - assert (RE : Rabs (rnd z - z) <= / 2 * bpow radix2 (-53 + 1) * Rabs z)
      by (apply (relative_error_N_FLT radix2 (-1074) 53 eq_refl (fun n => negb (Z.even n))); exact L).
    rewrite bpow_plus, bpow_1 in RE. change (IZR radix2) with 2 in RE. pose proof (bpow_ge_0 radix2 (-1075)). lra.
  - assert (E : Rabs (rnd z - z) <= / 2 * ulp radix2 fexp z) by (apply error_le_half_ulp; typeclasses eauto).
    assert (U : ulp radix2 fexp z = bpow radix2 (-1074)).
    { change fexp with (FLT_exp (-1074) 53). apply ulp_FLT_small; [reflexivity|].
      apply Rlt_le_trans with (1 := L). apply bpow_le. lia. }
    rewrite U in E. change (-1074)%Z with (-1075 + 1)%Z in E. rewrite bpow_plus, bpow_1 in E. change (IZR radix2) with 2 in E.
    assert (0 <= bpow radix2 (-53) * Rabs z) by (apply Rmult_le_pos; [apply bpow_ge_0|apply Rabs_pos]). lra.
Qed.

Lemma next_bounds x : finite_dbl x -> val x < huge ->
  val x < val (next_up x) <= val x + bpow radix2 (-52) * Rabs (val x) + bpow radix2 (-1074).
Proof.
  intros Hx Hh. destruct (next_spec x Hx Hh) as [_ ->]. split.
  - destruct (Req_dec (val x) 0) as [->|N]; [|apply succ_gt_id; exact N].
    rewrite succ_0. change fexp with (FLT_exp (-1074) 53). rewrite ulp_FLT_0 by reflexivity. apply bpow_gt_0.
  - assert (U : forall z, ulp radix2 fexp z <= bpow radix2 (-52) * Rabs z + bpow radix2 (-1074)).
    { intros z. destruct (Rle_or_lt (bpow radix2 (-1022)) (Rabs z)) as [L|L].
      - assert (ulp radix2 fexp z <= Rabs z * bpow radix2 (-52)) by (apply (ulp_FLT_le radix2 (-1074) 53); exact L).
        pose proof (bpow_ge_0 radix2 (-1074)). lra.
      - change fexp with (FLT_exp (-1074) 53). rewrite ulp_FLT_small; [|reflexivity|].
        2:{ apply Rlt_le_trans with (1 := L). apply bpow_le. lia. }
        assert (0 <= bpow radix2 (-52) * Rabs z) by (apply Rmult_le_pos; [apply bpow_ge_0|apply Rabs_pos]). lra. }
    apply Rle_trans with (val x + ulp radix2 fexp (val x)); [apply succ_le_plus_ulp; change fexp with (FLT_exp (-1074) 53); typeclasses eauto|specialize (U (val x)); lra].
Qed.

(** ** Uniform draws *)

Lemma tiny_facts : bpow radix2 (-1074) = 2 * bpow radix2 (-1075) /\ bpow radix2 (-1070) = 32 * bpow radix2 (-1075) /\ 0 < bpow radix2 (-1075) /\
  bpow radix2 (-52) = / 4503599627370496 /\ bpow radix2 (-53) = / 9007199254740992 /\ bpow radix2 (-50) = / 1125899906842624 /\
  bpow radix2 (-1075) <= / 1024 /\ bpow radix2 1000 * 4 <= huge /\ 1 <= bpow radix2 1000.
Proof.
  split; [change (-1074)%Z with (1 + -1075)%Z; rewrite bpow_plus; reflexivity|].
  split; [change (-1070)%Z with (5 + -1075)%Z; rewrite bpow_plus; reflexivity|].
  split; [apply bpow_gt_0|]. split; [reflexivity|]. split; [reflexivity|]. split; [reflexivity|].
  split; [change (/ 1024) with (bpow radix2 (-10)); apply bpow_le; lia|].
  split; [change 4 with (bpow radix2 2); rewrite <- bpow_plus; unfold huge; apply bpow_le; lia|].
  change 1 with (bpow radix2 0) at 1. apply bpow_le. lia.
Qed.

Definition top_of (hi : spec_float) (incl : bool) := if incl then next_up hi else hi.

Lemma uniform_steps lo hi incl u M : finite_dbl lo -> finite_dbl hi -> finite_dbl u ->
  0 <= val u < 1 -> val lo <= val hi -> Rabs (val lo) <= M -> Rabs (val hi) <= M -> M <= bpow radix2 1000 ->
  let top := top_of hi incl in let d := rnd (val top - val lo) in let p := rnd (val u * d) in
  finite_dbl top /\ (val hi <= val top <= val hi + bpow radix2 (-52) * M + bpow radix2 (-1074)) /\
  val top = (if incl then succ radix2 fexp (val hi) else val hi) /\
  0 <= d /\ 0 <= p <= d /\ finite_dbl (dbl_uniform lo hi incl u) /\ val (dbl_uniform lo hi incl u) = rnd (p + val lo) /\
  d <= 5 * M + 1 /\ Rabs (d - (val top - val lo)) <= bpow radix2 (-53) * (val top - val lo) + bpow radix2 (-1075).
Proof.
  intros Hl Hh Hu U L ML MH MM. cbv zeta. destruct tiny_facts as (T1 & T2 & T3 & T4 & T5 & T6 & T7 & T8 & T9).
  pose proof (Rabs_pos (val lo)) as A0.
  assert (N : forall x y, Rabs x <= y -> - y <= x <= y) by (intros; apply Rabs_le_inv; assumption).
  pose proof (N _ _ ML) as ML'. pose proof (N _ _ MH) as MH'.
  assert (HT : finite_dbl (top_of hi incl) /\ (val hi <= val (top_of hi incl) <= val hi + bpow radix2 (-52) * M + bpow radix2 (-1074)) /\
    val (top_of hi incl) = (if incl then succ radix2 fexp (val hi) else val hi)).
  { assert (Q : 0 <= bpow radix2 (-52) * M) by (apply Rmult_le_pos; [apply bpow_ge_0|lra]).
    destruct incl; cbn [top_of]; [|split; [exact Hh|split; [lra|reflexivity]]].
    destruct (next_spec hi Hh ltac:(lra)) as [F V]. pose proof (next_bounds hi Hh ltac:(lra)) as B.
    split; [exact F|]. split; [|exact V].
    assert (bpow radix2 (-52) * Rabs (val hi) <= bpow radix2 (-52) * M) by (apply Rmult_le_compat_l; [apply bpow_ge_0|exact MH]). lra. }
  destruct HT as (FT & BT & VT). set (top := top_of hi incl) in *. split; [exact FT|]. split; [exact BT|]. split; [exact VT|].
  assert (D0 : 0 <= val top - val lo) by lra.
  assert (DH : val top - val lo <= 3 * M + 1 / 2) by (rewrite T4 in *; lra).
  destruct (sub_finite top lo FT Hl) as [FD VD]; [rewrite Rabs_pos_eq by lra; lra|].
  pose proof (rnd_error (val top - val lo)) as ED. rewrite (Rabs_pos_eq (val top - val lo)) in ED by exact D0.
  set (d := rnd (val top - val lo)) in *.
  assert (Dn : 0 <= d) by (rewrite <- rnd_0; apply rnd_le; exact D0).
  pose proof (N _ _ ED) as ED'.
  assert (DM : d <= 5 * M + 1).
  { assert (bpow radix2 (-53) * (val top - val lo) <= 1 * (val top - val lo)) by (apply Rmult_le_compat_r; [exact D0|rewrite T5; lra]).
    assert (d <= 6 * M + 2) by lra. rewrite T5 in ED'. lra. }
  split; [exact Dn|].
  assert (UD : 0 <= val u * d <= d).
  { split; [apply Rmult_le_pos; lra|]. rewrite <- (Rmult_1_l d) at 2. apply Rmult_le_compat_r; lra. }
  assert (FmtD : generic_format radix2 fexp d) by (apply generic_format_round; typeclasses eauto).
  destruct (mul_finite u (SFsub 53 1024 top lo) Hu FD) as [FP VP].
  { rewrite VD. rewrite Rabs_pos_eq by lra. assert (5 * bpow radix2 1000 + 1 <= huge); [|lra].
    apply Rle_trans with (bpow radix2 1003); [|unfold huge; apply bpow_le; lia].
    change 1003%Z with (3 + 1000)%Z. rewrite bpow_plus. change (bpow radix2 3) with 8. lra. }
  rewrite VD in VP. set (p := rnd (val u * d)) in *.
  assert (P : 0 <= p <= d).
  { split; [rewrite <- rnd_0; apply rnd_le; lra|]. rewrite <- (rnd_id d FmtD). apply rnd_le. lra. }
  split; [exact P|].
  destruct (add_finite (SFmul 53 1024 u (SFsub 53 1024 top lo)) lo FP Hl) as [FX VX].
  { rewrite VP. apply Rabs_le. assert (6 * bpow radix2 1000 + 1 <= huge); [|lra].
    apply Rle_trans with (bpow radix2 1003); [|unfold huge; apply bpow_le; lia].
    change 1003%Z with (3 + 1000)%Z. rewrite bpow_plus. change (bpow radix2 3) with 8. lra. }
  rewrite VP in VX. split; [exact FX|]. split; [exact VX|]. split; [exact DM|exact ED].
Qed.

(** Whatever the interval and the draw, the number is finite and not below the lower end, and
    if it is above the upper end then only by rounding: by at most 2^-50 of the larger end. *)
Theorem C76_uniform lo hi incl u M : finite_dbl lo -> finite_dbl hi -> finite_dbl u -> 0 <= val u < 1 -> val lo <= val hi ->
  Rabs (val lo) <= M -> Rabs (val hi) <= M -> M <= bpow radix2 1000 ->
  let x := dbl_uniform lo hi incl u in
  finite_dbl x /\ val lo <= val x <= val hi + M / 2 ^ 50 + bpow radix2 (-1070).
Proof.
  intros Hl Hh Hu U L ML MH MM. cbv zeta.
  destruct (uniform_steps lo hi incl u M) as (FT & BT & VT & Dn & P & FX & VX & DM & ED); try assumption.
  set (top := top_of hi incl) in *. set (d := rnd (val top - val lo)) in *. set (p := rnd (val u * d)) in *.
  split; [exact FX|]. rewrite VX. destruct tiny_facts as (T1 & T2 & T3 & T4 & T5 & T6 & T7 & T8 & T9).
  pose proof (Rabs_pos (val lo)) as A0. apply Rabs_le_inv in ML. apply Rabs_le_inv in MH. apply Rabs_le_inv in ED.
  split; [rewrite <- (rnd_id (val lo) (val_format lo Hl)) at 1; apply rnd_le; lra|].
  apply Rle_trans with (rnd (d + val lo)); [apply rnd_le; lra|].
  pose proof (rnd_error (d + val lo)) as EX. apply Rabs_le_inv in EX.
  assert (B : Rabs (d + val lo) <= 7 * M + 1 + 0) by (apply Rabs_le; lra).
  assert (B2 : Rabs (d + val lo) <= 2 * M + 8 * bpow radix2 (-1075)) by (rewrite T4, T5, T1 in *; apply Rabs_le; lra).
  rewrite T2. rewrite T4, T5, T1 in *. lra.
Qed.
Print Assumptions C76_uniform.

(** From zero to a normal number the closed interval is kept exactly, and so is the half-open one. *)
Theorem C76_from_zero lo hi u : finite_dbl lo -> finite_dbl hi -> finite_dbl u -> 0 <= val u < 1 -> val lo = 0 -> val hi <= bpow radix2 1000 ->
  (bpow radix2 (-1022) <= val hi -> 0 <= val (dbl_uniform lo hi true u) <= val hi) /\
  (bpow radix2 (-1022) < val hi -> 0 <= val (dbl_uniform lo hi false u) < val hi).
Proof.
  intros Hl Hh Hu U L0 HM. pose proof (bpow_gt_0 radix2 (-1022)) as P0.
  assert (G : forall incl, bpow radix2 (-1022) <= val hi -> bpow radix2 (-1022) < val (top_of hi incl) ->
    0 <= val (dbl_uniform lo hi incl u) <= pred radix2 fexp (val (top_of hi incl)) /\
    val (top_of hi incl) = (if incl then succ radix2 fexp (val hi) else val hi)).
  { intros incl LB LT. destruct (uniform_steps lo hi incl u (val hi)) as (FT & BT & VT & Dn & P & FX & VX & DM & ED); try assumption.
    - lra.
    - rewrite L0, Rabs_R0. lra.
    - rewrite Rabs_pos_eq; lra.
    - rewrite VX. split; [|exact VT]. set (top := top_of hi incl) in *. rewrite L0, Rplus_0_r, Rminus_0_r in *.
      rewrite (rnd_id (val top)) in * by (apply val_format; exact FT).
      rewrite (rnd_id (rnd (val u * val top))) by (apply generic_format_round; typeclasses eauto).
      split; [lra|]. apply scale_below; [apply val_format; exact FT|exact LT|]. split; [lra|]. apply below_one; [exact Hu|lra]. }
  assert (FH : generic_format radix2 fexp (val hi)) by (apply val_format; exact Hh).
  split; intros LB.
  - assert (LT : bpow radix2 (-1022) < val (top_of hi true)).
    { cbn [top_of]. destruct tiny_facts as (T1 & T2 & T3 & T4 & T5 & T6 & T7 & T8 & T9). pose proof (next_bounds hi Hh ltac:(lra)). lra. }
    destruct (G true LB LT) as [B V]. rewrite V in B. rewrite pred_succ in B by (try typeclasses eauto; exact FH). exact B.
  - destruct (G false ltac:(lra) LB) as [B V]. rewrite V in B. split; [apply B|]. apply Rle_lt_trans with (1 := proj2 B).
    apply pred_lt_id. lra.
Qed.
Print Assumptions C76_from_zero.

(** Cosines, from the closed interval from -1 to 1: they lie in it, and 1 is never reached. *)
Definition dbl_minus_one : spec_float := S754_finite true 4503599627370496 (-52).
Theorem C76_cosine u : finite_dbl u -> 0 <= val u < 1 ->
  let x := dbl_uniform dbl_minus_one dbl_one true u in finite_dbl x /\ -1 <= val x <= 1 - / 2 ^ 52.
Proof.
  intros Hu U. cbv zeta.
  assert (VM : val dbl_minus_one = -1) by (unfold dbl_minus_one; rewrite val_neg; change (bpow radix2 (-52)) with (/ IZR 4503599627370496); lra).
  destruct (uniform_steps dbl_minus_one dbl_one true u 1) as (FT & BT & VT & Dn & P & FX & VX & DM & ED); try assumption.
  1,2: split; reflexivity.
  1: rewrite VM, val_one; lra.
  1: rewrite VM; unfold Rabs; destruct (Rcase_abs _); lra.
  1: rewrite val_one, Rabs_R1; lra.
  1: destruct tiny_facts as (T1 & T2 & T3 & T4 & T5 & T6 & T7 & T8 & T9); exact T9.
  split; [exact FX|]. rewrite VX, VM.
  assert (ED2 : rnd (val (top_of dbl_one true) - -1) = 2).
  { assert (S : SFsub 53 1024 (next_up dbl_one) dbl_minus_one = dbl_two) by (vm_compute; reflexivity).
    destruct (sub_finite (next_up dbl_one) dbl_minus_one) as [_ V]; [split; reflexivity|split; reflexivity| |].
    - apply Rabs_le. rewrite VM. cbn [top_of] in BT. rewrite val_one in BT.
      destruct tiny_facts as (T1 & T2 & T3 & T4 & T5 & T6 & T7 & T8 & T9). rewrite T4 in BT. lra.
    - rewrite S, VM in V. cbn [top_of]. rewrite <- V. unfold dbl_two. rewrite val_pos. change (bpow radix2 (-51)) with (/ IZR 2251799813685248). lra. }
  rewrite VM in *. rewrite ED2 in *.
  assert (F2 : rnd (val u * 2) = 2 * val u) by (rewrite Rmult_comm; apply rnd_id, format_double, val_format; exact Hu).
  rewrite F2 in *. pose proof (below_one u Hu ltac:(lra)) as B1. change (bpow radix2 (-53)) with (/ IZR 9007199254740992) in B1.
  assert (F1 : rnd (-1) = -1) by (rewrite <- VM; apply rnd_id, val_format; split; reflexivity).
  assert (F3 : rnd (1 - / 2 ^ 52) = 1 - / 2 ^ 52).
  { apply rnd_id. replace (1 - / 2 ^ 52) with (val (S754_finite false 9007199254740990 (-53))); [apply val_format; split; reflexivity|].
    rewrite val_pos. change (bpow radix2 (-53)) with (/ IZR 9007199254740992). lra. }
  split; [rewrite <- F1 at 1|rewrite <- F3]; apply rnd_le; lra.
Qed.
Print Assumptions C76_cosine.

(** Elsewhere rounding can leave the interval: a closed draw can exceed the upper end, and a half-open
    one can return it. The closed interval from 0 to 0 contains a positive number. *)
Definition last_draw : spec_float := S754_finite false 9007199254740991 (-53).
Definition d125 : spec_float := S754_finite false 5629499534213120 (-52).
Theorem C76_upper_refuted : exists lo hi u, finite_dbl lo /\ finite_dbl hi /\ finite_dbl u /\ 0 <= val u < 1 /\ val lo < val hi /\
  val hi < val (dbl_uniform lo hi true u) /\ val (dbl_uniform lo hi false u) = val hi.
Proof.
  exists dbl_one, d125, last_draw. repeat (split; [split; reflexivity|]).
  assert (A : dbl_uniform dbl_one d125 true last_draw = S754_finite false 5629499534213121 (-52)) by (vm_compute; reflexivity).
  assert (B : dbl_uniform dbl_one d125 false last_draw = d125) by (vm_compute; reflexivity).
  rewrite A, B, val_one. unfold last_draw, d125. rewrite !val_pos. change (bpow radix2 (-53)) with (/ IZR 9007199254740992).
  change (bpow radix2 (-52)) with (/ IZR 4503599627370496). repeat split; lra.
Qed.
Print Assumptions C76_upper_refuted.

(** Non-vacuity: the last draw below one takes the closed interval from 0 to 1 to its end. *)
Example C76_uniform_case : finite_dbl last_draw /\ 0 <= val last_draw < 1 /\
  dbl_uniform (S754_zero false) dbl_one true last_draw = dbl_one /\
  dbl_uniform (S754_zero false) dbl_one false last_draw = last_draw /\
  dbl_uniform dbl_minus_one dbl_one true last_draw = S754_finite false 9007199254740990 (-53) /\
  dbl_uniform (S754_zero false) (S754_zero false) true last_draw = S754_finite false 1 (-1074).
Proof.
  split; [split; reflexivity|]. split; [unfold last_draw; rewrite val_pos; change (bpow radix2 (-53)) with (/ IZR 9007199254740992); lra|].
  repeat split; vm_compute; reflexivity.
Qed.

(** ** Weighted choices *)

Lemma lower_bound_spec less fuel first len : (len <= fuel)%nat -> let r := lower_bound less first len fuel in
  (first <= r <= first + len)%nat /\ (r = (first + len)%nat \/ less r = false) /\ (r = first \/ less (r - 1)%nat = true).
Proof.
  revert first len. induction fuel as [|fuel IH]; intros first len H; cbv zeta; cbn [lower_bound].
  - assert (len = 0)%nat as -> by lia. repeat split; try lia; left; lia.
  - destruct len as [|len]; [repeat split; try lia; left; lia|].
    set (half := Nat.div2 (S len)). assert (HB : (half < S len)%nat) by (apply Nat.lt_div2; lia).
    destruct (less (first + half)%nat) eqn:E.
    + specialize (IH (S (first + half)) (S len - half - 1)%nat ltac:(lia)). cbv zeta in IH.
      set (r := lower_bound less (S (first + half)) (S len - half - 1) fuel) in *. destruct IH as (A & B & C).
      split; [lia|]. split; [destruct B as [B|B]; [left; lia|right; exact B]|].
      right. destruct C as [C|C]; [|exact C]. rewrite C. replace (S (first + half) - 1)%nat with (first + half)%nat by lia. exact E.
    + specialize (IH first half ltac:(lia)). cbv zeta in IH. set (r := lower_bound less first half fuel) in *. destruct IH as (A & B & C).
      split; [lia|]. split; [|exact C]. right. destruct B as [B|B]; [rewrite B; exact E|exact B].
Qed.

Lemma sums_length acc l : length (dbl_sums acc l) = length l.
Proof. revert acc. induction l as [|x l IH]; intros acc; [reflexivity|]. cbn. f_equal. apply IH. Qed.
Lemma partial_length l : length (dbl_partial_sums l) = length l.
Proof. destruct l; [reflexivity|]. cbn. f_equal. apply sums_length. Qed.
Lemma removelast_length {A} (l : list A) : length (removelast l) = (length l - 1)%nat.
Proof. rewrite removelast_firstn_len, firstn_length. lia. Qed.

Lemma table_length ws : ws <> [] -> length (dbl_table ws) = length ws.
Proof.
  intros N. unfold dbl_table. rewrite app_length, removelast_length, partial_length, map_length. cbn [length].
  destruct ws; [congruence|cbn [length]; lia].
Qed.

Lemma table_last ws : ws <> [] -> nth (length ws - 1) (dbl_table ws) (S754_zero false) = dbl_one.
Proof.
  intros N. unfold dbl_table. rewrite app_nth2; rewrite removelast_length, partial_length, map_length; [|lia].
  rewrite Nat.sub_diag. reflexivity.
Qed.

Lemma sums_nth acc l k d : (k < length l)%nat -> nth k (dbl_sums acc l) d = fold_left (SFadd 53 1024) (firstn (S k) l) acc.
Proof.
  revert acc k. induction l as [|x l IH]; intros acc k H; [cbn in H; lia|]. destruct k as [|k]; [reflexivity|].
  cbn [length] in H. cbn [dbl_sums nth]. rewrite IH by lia. reflexivity.
Qed.

Definition shares (ws : list spec_float) : list spec_float :=
  map (fun w => SFdiv 53 1024 w (fold_left (SFadd 53 1024) ws (S754_zero false))) ws.

Lemma table_nth ws k : (S k < length ws)%nat -> nth k (dbl_table ws) (S754_zero false) =
  match shares ws with [] => S754_zero false | x :: r => fold_left (SFadd 53 1024) (firstn k r) x end.
Proof.
  intros H. unfold dbl_table. fold (shares ws).
  assert (LS : length (shares ws) = length ws) by apply map_length.
  rewrite app_nth1 by (rewrite removelast_length, partial_length, LS; lia).
  destruct (shares ws) as [|x r] eqn:E; [cbn in LS; lia|]. cbn [length] in LS.
  rewrite removelast_firstn_len, partial_length. cbn [length Nat.pred].
  assert (NF : forall (l : list spec_float) n j d, (j < n)%nat -> nth j (firstn n l) d = nth j l d).
  { induction l as [|y l IHl]; intros n j d Hj; [rewrite firstn_nil; reflexivity|]. destruct n as [|n]; [lia|].
    destruct j as [|j]; [reflexivity|]. cbn [firstn nth]. apply IHl. lia. }
  rewrite NF by lia. cbn [dbl_partial_sums]. destruct k as [|k]; [reflexivity|]. cbn [nth]. rewrite sums_nth by lia. reflexivity.
Qed.

Lemma choice_spec ws u : ws <> [] -> SFltb dbl_one u = false -> (1 < length ws)%nat ->
  let i := dbl_choice ws u in let cp := dbl_table ws in
  (i < length ws)%nat /\ SFltb (nth i cp (S754_zero false)) u = false /\ (i = 0%nat \/ SFltb (nth (i - 1) cp (S754_zero false)) u = true).
Proof.
  intros N HU HL. cbv zeta. destruct ws as [|w0 [|w1 ws]]; [congruence|cbn in HL; lia|]. unfold dbl_choice.
  set (l := w0 :: w1 :: ws) in *. pose proof (lower_bound_spec (fun i => SFltb (nth i (dbl_table l) (S754_zero false)) u) (length (dbl_table l)) 0 (length (dbl_table l)) (le_n _)) as H.
  cbv zeta in H. rewrite table_length in * by exact N. set (r := lower_bound _ _ _ _) in *. destruct H as (A & B & C).
  assert (R : r <> length l).
  { intros E. destruct C as [C|C]; [lia|]. rewrite E, (table_last l N) in C. congruence. }
  split; [lia|]. split; [destruct B as [B|B]; [lia|exact B]|]. exact C.
Qed.

(** A choice is always the position of a weight, whatever the weights are. *)
Theorem C76_choice ws u : ws <> [] -> SFltb dbl_one u = false -> (dbl_choice ws u < length ws)%nat.
Proof.
  intros N HU. destruct ws as [|w0 [|w1 ws]]; [congruence|cbn; lia|]. apply (choice_spec (w0 :: w1 :: ws) u); [discriminate|exact HU|cbn; lia].
Qed.
Print Assumptions C76_choice.

Lemma add_zero x s u : SFltb x u = true -> SFltb (SFadd 53 1024 x (S754_zero s)) u = true.
Proof. destruct x as [s'|s'| |s' m e]; cbn [SFadd]; try (intros; assumption). destruct s', s; cbn [Bool.eqb]; destruct u as [t|t| |t m' e']; intros H; exact H. Qed.

(** A weight of zero is not chosen by a positive draw, unless it is the last one. The other weights
    can be anything that has a sum other than zero. *)
Theorem C76_choice_weight ws u i s : SFltb dbl_one u = false -> SFltb (S754_zero false) u = true ->
  (forall t, fold_left (SFadd 53 1024) ws (S754_zero false) <> S754_zero t) -> fold_left (SFadd 53 1024) ws (S754_zero false) <> S754_nan ->
  (S i < length ws)%nat -> nth_error ws i = Some (S754_zero s) -> dbl_choice ws u <> i.
Proof.
  intros HU H0 NZ NN HL HI E. assert (NE : ws <> []) by (intros ->; cbn in HL; lia).
  destruct (choice_spec ws u NE HU ltac:(lia)) as (_ & A & B). rewrite E in A, B.
  assert (Z : exists t, nth_error (shares ws) i = Some (S754_zero t)).
  { unfold shares. rewrite nth_error_map, HI. cbn [option_map]. destruct (fold_left (SFadd 53 1024) ws (S754_zero false)) as [t|t| |t m e].
    - exfalso. exact (NZ t eq_refl).
    - eexists. reflexivity.
    - congruence.
    - eexists. reflexivity. }
  destruct Z as [t Z]. rewrite table_nth in A by exact HL. destruct (shares ws) as [|x r] eqn:ES; [destruct i; discriminate|].
  destruct i as [|i].
  - cbn in Z. injection Z as ->. cbn [firstn fold_left] in A. destruct t; [|congruence].
    destruct u as [t'|t'| |t' m' e']; cbn in H0, A |- *; try discriminate; destruct t'; discriminate.
  - destruct B as [B|B]; [discriminate|]. replace (S i - 1)%nat with i in B by lia. rewrite table_nth, ES in B by lia.
    cbn [nth_error] in Z. assert (F : firstn (S i) r = firstn i r ++ [S754_zero t]).
    { clear -Z. revert i Z. induction r as [|y r IH]; intros i Z; [destruct i; discriminate|]. destruct i as [|i]; [cbn in *; congruence|].
      cbn [nth_error] in Z. change (firstn (S (S i)) (y :: r)) with (y :: firstn (S i) r). rewrite (IH _ Z). reflexivity. }
    rewrite F, fold_left_app in A. cbn [fold_left] in A. rewrite add_zero in A by exact B. discriminate.
Qed.
Print Assumptions C76_choice_weight.

(** The last one can be chosen although its weight is zero: the quotients of the others need not sum up to one. *)
Definition dint (z : Z) : spec_float := SpecFloat.binary_normalize 53 1024 z 0 false.
Theorem C76_last_weight_refuted : exists ws u, Forall finite_dbl ws /\ finite_dbl u /\ 0 < val u < 1 /\
  Forall (fun w => 0 <= val w) ws /\ fold_right (fun w a => val w + a) 0 ws = 7 /\
  nth_error ws (dbl_choice ws u) = Some (S754_zero false).
Proof.
  exists [dint 2; dint 3; dint 1; dint 1; S754_zero false], last_draw.
  assert (E : dint 2 = dbl_two /\ dint 3 = S754_finite false 6755399441055744 (-51) /\ dint 1 = dbl_one) by (vm_compute; repeat split; reflexivity).
  destruct E as (E2 & E3 & E1). rewrite E1, E2, E3.
  assert (V2 : val dbl_two = 2) by (unfold dbl_two; rewrite val_pos; change (bpow radix2 (-51)) with (/ IZR 2251799813685248); lra).
  assert (V3 : val (S754_finite false 6755399441055744 (-51)) = 3) by (rewrite val_pos; change (bpow radix2 (-51)) with (/ IZR 2251799813685248); lra).
  split; [repeat constructor|]. split; [split; reflexivity|].
  split; [unfold last_draw; rewrite val_pos; change (bpow radix2 (-53)) with (/ IZR 9007199254740992); lra|].
  split; [repeat constructor; rewrite ?V2, ?V3, ?val_one; try lra; change (val (S754_zero false)) with 0; lra|].
  split; [cbn [fold_right]; rewrite V2, V3, val_one; change (val (S754_zero false)) with 0; lra|]. vm_compute. reflexivity.
Qed.
Print Assumptions C76_last_weight_refuted.

(** *** How the weights divide the draws *)

Definition total (ws : list spec_float) : R := fold_right (fun w a => val w + a) 0 ws.
Definition weight (w : spec_float) : Prop := finite_dbl w /\ 0 <= val w.

Lemma total_app l k : total (l ++ k) = total l + total k.
Proof.
  induction l as [|x l IH]; cbn [app]; [change (total []) with 0; lra|].
  change (total (x :: l ++ k)) with (val x + total (l ++ k)). change (total (x :: l)) with (val x + total l). rewrite IH. lra.
Qed.
Lemma total_nonneg l : Forall weight l -> 0 <= total l.
Proof. induction 1 as [|x l [_ H] _ IH]; cbn [total fold_right]; [lra|]. fold (total l). lra. Qed.
Lemma total_firstn l k : Forall weight l -> 0 <= total (firstn k l) <= total l.
Proof.
  intros H. assert (A : Forall weight (firstn k l)) by (apply Forall_forall; intros x Hx; apply (proj1 (Forall_forall _ _) H); apply (firstn_In _ _ _ Hx) || (rewrite <- (firstn_skipn k l); apply in_or_app; left; exact Hx)).
  assert (B : Forall weight (skipn k l)) by (apply Forall_forall; intros x Hx; apply (proj1 (Forall_forall _ _) H); rewrite <- (firstn_skipn k l); apply in_or_app; right; exact Hx).
  pose proof (total_nonneg _ A). pose proof (total_nonneg _ B). rewrite <- (firstn_skipn k l) at 3. rewrite total_app. lra.
Qed.

Definition eps : R := bpow radix2 (-53).
Definition eta : R := bpow radix2 (-1075).

Lemma eps_small : 0 < eps /\ eps = / 9007199254740992 /\ 0 < eta.
Proof. unfold eps, eta. split; [apply bpow_gt_0|]. split; [reflexivity|apply bpow_gt_0]. Qed.

Local Instance prec53 : Prec_gt_0 53 := eq_refl.

(** Sums of doubles have a relative error only. *)
Lemma plus_error x y : generic_format radix2 fexp x -> generic_format radix2 fexp y -> Rabs (rnd (x + y) - (x + y)) <= eps * Rabs (x + y).
Proof.
  intros Hx Hy. destruct (Rle_or_lt (bpow radix2 (-1022)) (Rabs (x + y))) as [L|L].
  - assert (RE : Rabs (rnd (x + y) - (x + y)) <= / 2 * bpow radix2 (-53 + 1) * Rabs (x + y))
      by (apply (relative_error_N_FLT radix2 (-1074) 53 eq_refl (fun n => negb (Z.even n))); exact L).
    rewrite bpow_plus, bpow_1 in RE. change (IZR radix2) with 2 in RE. unfold eps. lra.
  - rewrite rnd_id.
    + rewrite Rminus_diag_eq by reflexivity. rewrite Rabs_R0. apply Rmult_le_pos; [apply bpow_ge_0|apply Rabs_pos].
    + apply (FLT_format_plus_small radix2 (-1074) 53); [exact Hx|exact Hy|]. apply Rlt_le, Rlt_le_trans with (1 := L). apply bpow_le. lia.
Qed.

(** Adding up nonnegative doubles. *)
Lemma sum_spec l acc P : Forall weight l -> weight acc -> val acc + total l <= P -> P <= bpow radix2 1000 -> INR (length l) * eps <= / 4 ->
  let s := fold_left (SFadd 53 1024) l acc in
  weight s /\ Rabs (val s - (val acc + total l)) <= 2 * INR (length l) * (eps * P).
Proof.
  intros HL [Fa Pa]. revert HL. induction l as [|x l IH] using rev_ind; intros HL HP PM HN; cbv zeta.
  - cbn [fold_left length INR total fold_right]. split; [split; assumption|]. rewrite Rplus_0_r, Rminus_diag_eq by reflexivity. rewrite Rabs_R0. lra.
  - apply Forall_app in HL. destruct HL as [HL Hx]. apply Forall_inv in Hx. destruct Hx as [Fx Px].
    rewrite fold_left_app. cbn [fold_left]. rewrite app_length, plus_INR in *. cbn [length INR] in *.
    rewrite total_app in *. cbn [total fold_right] in HP |- *. fold (total l) in *.
    pose proof (total_nonneg l HL) as TL. destruct eps_small as (E0 & E1 & H0). pose proof (pos_INR (length l)) as PN.
    destruct IH as [[Fs Ps] Es]; [exact HL|lra|exact PM|lra|].
    set (s := fold_left (SFadd 53 1024) l acc) in *. set (n := INR (length l)) in *.
    assert (P0 : 0 <= P) by lra. assert (EP : 0 <= eps * P) by (apply Rmult_le_pos; lra).
    apply Rabs_le_inv in Es.
    assert (NE : n * (eps * P) <= / 4 * P) by (rewrite <- Rmult_assoc; apply Rmult_le_compat_r; lra).
    destruct tiny_facts as (T1 & T2 & T3 & T4 & T5 & T6 & T7 & T8 & T9).
    assert (B : 0 <= val s + val x <= 2 * P) by lra.
    destruct (add_finite s x Fs Fx) as [F V]; [rewrite Rabs_pos_eq; lra|].
    pose proof (plus_error (val s) (val x) (val_format s Fs) (val_format x Fx)) as PE. rewrite (Rabs_pos_eq (val s + val x)) in PE by lra.
    split; [split; [exact F|]; rewrite V, <- rnd_0; apply rnd_le; lra|]. rewrite V. apply Rabs_le_inv in PE.
    assert (Q : eps * (val s + val x) <= eps * (P + 2 * n * (eps * P))) by (apply Rmult_le_compat_l; lra).
    assert (Q2 : eps * (n * (eps * P)) <= / 4 * (eps * P)).
    { replace (eps * (n * (eps * P))) with ((n * eps) * (eps * P)) by ring. apply Rmult_le_compat_r; lra. }
    apply Rabs_le. lra.
Qed.

Lemma total_cons x l : total (x :: l) = val x + total l.
Proof. reflexivity. Qed.

Lemma in_weight l x : Forall weight l -> In x l -> weight x /\ val x <= total l.
Proof.
  induction 1 as [|y l Hy HL IH]; intros Hi; [contradiction|]. destruct Hi as [->|Hx].
  - split; [exact Hy|]. rewrite total_cons. pose proof (total_nonneg l HL). lra.
  - destruct (IH Hx) as [A B]. split; [exact A|]. rewrite total_cons. destruct Hy. lra.
Qed.

Lemma div_nonneg a b : 0 <= a -> 0 < b -> 0 <= a / b.
Proof. intros. apply Rmult_le_pos; [lra|]. apply Rlt_le, Rinv_0_lt_compat. lra. Qed.

(** The shares, and their exact sums. *)
Lemma share_sums S W n e l : finite_dbl S -> 0 < W -> Rabs (val S - W) <= e * W -> 0 <= e <= / 2 ->
  Forall weight l -> total l <= W -> (length l <= n)%nat ->
  Forall weight (map (fun w => SFdiv 53 1024 w S) l) /\
  Rabs (total (map (fun w => SFdiv 53 1024 w S) l) - total l / W) <= (2 * e + 2 * eps) * (total l / W) + INR (length l) * eta.
Proof.
  intros FS HW HS He HL. revert HL. induction l as [|w l IH]; intros HL HT HN.
  - split; [constructor|]. cbn [map length INR]. change (total []) with 0. unfold Rdiv. rewrite Rmult_0_l, Rminus_diag_eq by reflexivity.
    rewrite Rabs_R0. lra.
  - inversion HL as [|? ? [Fw Pw] HL']; subst. rewrite total_cons in *. pose proof (total_nonneg l HL') as TL. cbn [length] in HN.
    destruct IH as [A B]; [exact HL'|lra|lia|]. cbn [map]. rewrite total_cons. cbn [length]. rewrite S_INR.
    apply Rabs_le_inv in HS. assert (EW : e * W <= / 2 * W) by (apply Rmult_le_compat_r; lra).
    assert (PS : / 2 * W <= val S) by lra. assert (PS0 : 0 < val S) by lra.
    set (q := val w / W). set (t := total l / W) in *.
    assert (Eq : (val w + total l) / W = q + t) by (unfold q, t; field; lra). rewrite Eq.
    assert (Q0 : 0 <= q) by (unfold q; apply div_nonneg; lra).
    assert (Ew : val w = q * W) by (unfold q; field; lra).
    (* the exact quotient *)
    assert (R1 : Rabs (val w / val S - q) <= 2 * e * q).
    { assert (H1 : val w / val S - q = q * ((W - val S) / val S)) by (rewrite Ew; field; lra).
      rewrite H1, Rabs_mult, (Rabs_pos_eq q) by exact Q0. rewrite (Rmult_comm (2 * e)). apply Rmult_le_compat_l; [exact Q0|].
      assert (HM : forall z, Rabs z <= e * W -> Rabs (z / val S) <= 2 * e).
      { intros z Hz. unfold Rdiv. rewrite Rabs_mult, (Rabs_pos_eq (/ val S)) by (apply Rlt_le, Rinv_0_lt_compat; lra).
        apply Rmult_le_reg_r with (val S); [lra|]. rewrite Rmult_assoc, Rinv_l, Rmult_1_r by lra.
        apply Rle_trans with (1 := Hz). assert (e * W <= e * (2 * val S)) by (apply Rmult_le_compat_l; lra). lra. }
      apply HM. apply Rabs_le. lra. }
    apply Rabs_le_inv in R1. assert (q1 : q <= 1) by (unfold q; apply Rmult_le_reg_r with W; [lra|]; unfold Rdiv; rewrite Rmult_assoc, Rinv_l; lra).
    assert (e2 : 2 * e * q <= 1 * q) by (apply Rmult_le_compat_r; lra).
    assert (R0 : 0 <= val w / val S) by (apply div_nonneg; lra).
    destruct tiny_facts as (T1 & T2 & T3 & T4 & T5 & T6 & T7 & T8 & T9).
    destruct (div_finite w S Fw FS) as [F V]; [lra|rewrite Rabs_pos_eq by exact R0; lra|].
    pose proof (rnd_error (val w / val S)) as RE. rewrite (Rabs_pos_eq _ R0) in RE. fold eps eta in RE. apply Rabs_le_inv in RE.
    destruct eps_small as (E0 & E1 & H0).
    assert (RB : eps * (val w / val S) <= eps * (2 * q)) by (apply Rmult_le_compat_l; lra).
    split; [constructor; [split; [exact F|]; rewrite V, <- rnd_0; apply rnd_le; exact R0|exact A]|].
    rewrite V. apply Rabs_le_inv in B. apply Rabs_le. lra.
Qed.

Lemma table_close ws k : Forall weight ws -> bpow radix2 (-1000) <= total ws <= bpow radix2 1000 -> (S k < length ws)%nat ->
  INR (length ws) * eps <= / 64 ->
  finite_dbl (nth k (dbl_table ws) (S754_zero false)) /\
  Rabs (val (nth k (dbl_table ws) (S754_zero false)) - total (firstn (S k) ws) / total ws) <= 16 * INR (length ws) * eps.
Proof.
  intros HW [WL WU] HK HN. set (W := total ws) in *. set (n := INR (length ws)) in *.
  destruct eps_small as (E0 & E1 & H0). destruct tiny_facts as (T1 & T2 & T3 & T4 & T5 & T6 & T7 & T8 & T9).
  assert (W0 : 0 < W) by (pose proof (bpow_gt_0 radix2 (-1000)); lra).
  assert (N1 : 2 <= n) by (unfold n; change 2 with (INR 2); apply le_INR; lia).
  (* the sum *)
  destruct (sum_spec ws (S754_zero false) W) as [[FS PS] ES]; [exact HW|split; [split; reflexivity|change (val (S754_zero false)) with 0; lra]|change (val (S754_zero false)) with 0; fold W; lra|exact WU|fold n; lra|].
  change (val (S754_zero false)) with 0 in ES. rewrite Rplus_0_l in ES. fold W n in ES.
  rewrite table_nth by exact HK. unfold shares. set (S := fold_left (SFadd 53 1024) ws (S754_zero false)) in *.
  destruct ws as [|w0 ws']; [cbn in HK; lia|]. cbn [map].
  set (e := 2 * n * eps) in *. assert (He : 0 <= e <= / 32) by (unfold e; split; [apply Rmult_le_pos; lra|lra]).
  assert (ES' : Rabs (val S - W) <= e * W) by (unfold e; lra).
  (* the shares up to position k *)
  pose proof (total_firstn (w0 :: ws') (Datatypes.S k) HW) as TF. fold W in TF.
  assert (LF : length (firstn (Datatypes.S k) (w0 :: ws')) = Datatypes.S k) by (apply firstn_length_le; cbn [length] in *; lia).
  assert (HF : Forall weight (firstn (Datatypes.S k) (w0 :: ws'))).
  { apply Forall_forall. intros x Hx. apply (proj1 (Forall_forall _ _) HW). rewrite <- (firstn_skipn (Datatypes.S k)). apply in_or_app. left. exact Hx. }
  destruct (share_sums S W (Datatypes.S k) e (firstn (Datatypes.S k) (w0 :: ws')) FS W0 ES' ltac:(lra) HF ltac:(lra) ltac:(lia)) as [HQ EQ].
  rewrite LF in EQ. set (T := total (firstn (Datatypes.S k) (w0 :: ws')) / W) in *.
  assert (T0 : 0 <= T <= 1).
  { unfold T. split; [apply div_nonneg; lra|]. apply Rmult_le_reg_r with W; [lra|]. unfold Rdiv. rewrite Rmult_assoc, Rinv_l by lra. lra. }
  cbn [firstn map] in HQ, EQ. rewrite total_cons in EQ. inversion HQ as [|? ? HQ0 HQ1]; subst.
  rewrite <- firstn_map in HQ1, EQ. set (qs := map (fun w => SFdiv 53 1024 w S) ws') in *. set (q0 := SFdiv 53 1024 w0 S) in *.
  assert (KN : INR (Datatypes.S k) <= n) by (apply le_INR; lia).
  assert (LQ : length (firstn k qs) = k) by (unfold qs; rewrite firstn_length_le; [reflexivity|rewrite map_length; cbn [length] in HK; lia]).
  assert (ETA : INR (Datatypes.S k) * eta <= eps).
  { apply Rle_trans with (n * eta); [apply Rmult_le_compat_r; lra|]. apply Rle_trans with (bpow radix2 53 * eta).
    - apply Rmult_le_compat_r; [lra|]. change (bpow radix2 53) with 9007199254740992. rewrite E1 in HN. lra.
    - unfold eta, eps. rewrite <- bpow_plus. apply bpow_le. lia. }
  assert (QB : val q0 + total (firstn k qs) <= 2).
  { apply Rabs_le_inv in EQ. assert ((2 * e + 2 * eps) * T <= (2 * e + 2 * eps) * 1) by (apply Rmult_le_compat_l; lra). rewrite E1 in *. lra. }
  destruct (sum_spec (firstn k qs) q0 2 HQ1 HQ0 QB) as [[FX PX] EX].
  { apply Rle_trans with (bpow radix2 1); [change (bpow radix2 1) with 2; lra|apply bpow_le; lia]. }
  { rewrite LQ. apply Rle_trans with (n * eps); [|lra]. apply Rmult_le_compat_r; [lra|]. rewrite S_INR in KN. lra. }
  split; [exact FX|]. rewrite LQ in EX.
  assert (KE : INR k * eps <= (n - 1) * eps) by (apply Rmult_le_compat_r; [lra|rewrite S_INR in KN; lra]).
  assert (EE : (2 * e + 2 * eps) * T <= (2 * e + 2 * eps) * 1) by (apply Rmult_le_compat_l; lra).
  assert (EN : eps <= / 2 * (n * eps)) by (assert (2 * eps <= n * eps) by (apply Rmult_le_compat_r; lra); lra).
  apply Rabs_le_inv in EQ. apply Rabs_le_inv in EX. apply Rabs_le. unfold e in *. lra.
Qed.

(** A choice divides the draws in proportion to the weights, up to rounding: with [n] weights, the draw lies in the interval
    belonging to the weight chosen if this is widened by [n] times 2^-49 on both sides. *)
Theorem C76_choice_share ws u i : Forall weight ws -> bpow radix2 (-1000) <= total ws <= bpow radix2 1000 ->
  (length ws <= 2 ^ 20)%nat -> finite_dbl u -> 0 <= val u < 1 -> dbl_choice ws u = i ->
  total (firstn i ws) / total ws - INR (length ws) / 2 ^ 49 <= val u <= total (firstn (S i) ws) / total ws + INR (length ws) / 2 ^ 49.
Proof.
  intros HW HT HL Hu U HI. assert (W0 : 0 < total ws) by (pose proof (bpow_gt_0 radix2 (-1000)); lra).
  assert (NE : ws <> []) by (intros ->; change (total []) with 0 in W0; lra).
  destruct eps_small as (E0 & E1 & H0). pose proof (pos_INR (length ws)) as PN.
  assert (EB : 16 * INR (length ws) * eps = INR (length ws) / 2 ^ 49) by (rewrite E1; field).
  assert (T1 : forall k, 0 <= total (firstn k ws) / total ws <= 1).
  { intros k. pose proof (total_firstn ws k HW). split; [apply div_nonneg; lra|].
    apply Rmult_le_reg_r with (total ws); [lra|]. unfold Rdiv. rewrite Rmult_assoc, Rinv_l by lra. lra. }
  assert (P : 0 <= INR (length ws) / 2 ^ 49) by (apply div_nonneg; lra).
  destruct ws as [|w0 [|w1 ws']] eqn:EW; [congruence| |].
  { cbn [dbl_choice] in HI. subst i. cbn [firstn]. change (total []) with 0. unfold Rdiv in *. rewrite Rmult_0_l. rewrite Rinv_r by lra. lra. }
  rewrite <- EW in *. assert (L2 : (1 < length ws)%nat) by (rewrite EW; cbn; lia). clear EW w0 w1 ws'.
  assert (HN : INR (length ws) * eps <= / 64).
  { apply le_INR in HL. rewrite pow_INR in HL. change (INR 2) with 2 in HL. rewrite E1. lra. }
  assert (U1 : SFltb dbl_one u = false).
  { destruct (SFltb dbl_one u) eqn:C; [|reflexivity]. exfalso. apply ltb_finite in C; [|split; reflexivity|exact Hu]. rewrite val_one in C. lra. }
  destruct (choice_spec ws u NE U1 L2) as (A & B & C). rewrite HI in *. split.
  - destruct C as [->|C]; [cbn [firstn]; change (total []) with 0; unfold Rdiv at 1; rewrite Rmult_0_l; lra|].
    destruct i as [|i]; [cbn [firstn]; change (total []) with 0; unfold Rdiv at 1; rewrite Rmult_0_l; lra|].
    replace (S i - 1)%nat with i in C by lia. destruct (table_close ws i HW HT A HN) as [F V].
    apply ltb_finite in C; [|exact F|exact Hu]. apply Rabs_le_inv in V. lra.
  - destruct (Nat.eq_dec (S i) (length ws)) as [EL|NL].
    + rewrite EL, firstn_all. unfold Rdiv at 1. rewrite Rinv_r by lra. lra.
    + destruct (table_close ws i HW HT ltac:(lia) HN) as [F V].
      assert (D : ~ val (nth i (dbl_table ws) (S754_zero false)) < val u) by (intros Q; apply ltb_finite in Q; [congruence|exact F|exact Hu]).
      apply Rabs_le_inv in V. lra.
Qed.
Print Assumptions C76_choice_share.

(** Non-vacuity: the weights 1, 2 and 1, and the draw one half. *)
Example C76_choice_case : Forall weight [dbl_one; dbl_two; dbl_one] /\
  bpow radix2 (-1000) <= total [dbl_one; dbl_two; dbl_one] <= bpow radix2 1000 /\
  finite_dbl (S754_finite false 4503599627370496 (-53)) /\ 0 <= val (S754_finite false 4503599627370496 (-53)) < 1 /\
  dbl_choice [dbl_one; dbl_two; dbl_one] (S754_finite false 4503599627370496 (-53)) = 1%nat /\
  dbl_choice [dbl_one; S754_zero false; dbl_one] (S754_finite false 4503599627370496 (-53)) = 0%nat /\
  dbl_choice [dbl_one; S754_zero false; dbl_one] (S754_finite false 4503599627370497 (-53)) = 2%nat.
Proof.
  assert (V2 : val dbl_two = 2) by (unfold dbl_two; rewrite val_pos; change (bpow radix2 (-51)) with (/ IZR 2251799813685248); lra).
  assert (ET : total [dbl_one; dbl_two; dbl_one] = 4) by (unfold total; cbn [fold_right]; rewrite V2, val_one; lra).
  assert (W : Forall weight [dbl_one; dbl_two; dbl_one]) by (repeat constructor; rewrite ?V2, ?val_one; lra).
  split; [exact W|]. rewrite ET. split.
  { change 4 with (bpow radix2 2). split; apply bpow_le; lia. }
  split; [split; reflexivity|]. split; [rewrite val_pos; change (bpow radix2 (-53)) with (/ IZR 9007199254740992); lra|].
  repeat split; vm_compute; reflexivity.
Qed.
