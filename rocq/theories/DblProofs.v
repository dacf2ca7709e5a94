(** Correctness of the binary64 conversions of Dbl.v with respect to Flocq's
    definition of rounding, and the decimal round trip. *)
From Coq Require Import List Ascii String ZArith Bool Lia Reals Lra.
From Coq Require Import Floats.SpecFloat.
From Flocq Require Import Core BinarySingleNaN.
From Verif Require Import Base Dbl DigitsProofs.
Import ListNotations.
Local Open Scope Z_scope.

Notation fexp64 := (FLT_exp (-1074) 53).
Notation rnd := (round radix2 fexp64 ZnearestE).

Definition radix10 : radix := Build_radix 10 eq_refl.

Local Instance prec53 : Prec_gt_0 53 := eq_refl.

(** ** Fractions *)

Definition Qr (n d : Z) : R := (IZR n / IZR d)%R.

Lemma Qr_pos : forall n d, 0 < n -> 0 < d -> (0 < Qr n d)%R.
Proof.
  intros. unfold Qr. apply Rdiv_lt_0_compat; apply IZR_lt; assumption.
Qed.

Lemma scale_den_pos : forall k d e, 0 < k -> 0 < d -> 0 < scale_den k d e.
Proof.
  intros k d e Hk Hd. unfold scale_den. destruct (e <=? 0) eqn:E; [assumption|].
  apply Z.leb_gt in E. apply Z.mul_pos_pos; [assumption|]. apply Z.pow_pos_nonneg; lia.
Qed.

Lemma scale_num_pos : forall k n e, 0 < k -> 0 < n -> 0 < scale_num k n e.
Proof.
  intros k n e Hk Hd. unfold scale_num. destruct (e <=? 0) eqn:E; [|assumption].
  apply Z.leb_le in E. apply Z.mul_pos_pos; [assumption|]. apply Z.pow_pos_nonneg; lia.
Qed.

Lemma scale_num_nonneg : forall k n e, 0 < k -> 0 <= n -> 0 <= scale_num k n e.
Proof.
  intros k n e Hk Hd. unfold scale_num. destruct (e <=? 0) eqn:E; [|assumption].
  apply Z.leb_le in E. apply Z.mul_nonneg_nonneg; [assumption|].
  apply Z.pow_nonneg; lia.
Qed.

Lemma scale_Qr : forall (r : radix) n d e, 0 < d ->
  Qr (scale_num r n e) (scale_den r d e) = (Qr n d * bpow r (- e))%R.
Proof.
  intros r n d e Hd. unfold Qr, scale_num, scale_den.
  pose proof (radix_gt_0 r) as Hr.
  assert (IZR d <> 0%R) by (apply IZR_neq; lia).
  destruct (e <=? 0) eqn:E.
  - apply Z.leb_le in E. rewrite mult_IZR, IZR_Zpower by lia. field. assumption.
  - apply Z.leb_gt in E. rewrite mult_IZR, IZR_Zpower by lia.
    rewrite bpow_opp. field. split; [|assumption].
    apply Rgt_not_eq, bpow_gt_0.
Qed.

Lemma Qr_lt : forall n d n' d', 0 < d -> 0 < d' ->
  (Qr n d < Qr n' d')%R <-> n * d' < n' * d.
Proof.
  intros n d n' d' Hd Hd'. unfold Qr.
  assert (0 < IZR d)%R by (apply IZR_lt; assumption).
  assert (0 < IZR d')%R by (apply IZR_lt; assumption).
  split; intros Hlt.
  - apply lt_IZR. rewrite !mult_IZR.
    apply (Rmult_lt_compat_r (IZR d * IZR d')%R) in Hlt; [|nra].
    replace (IZR n / IZR d * (IZR d * IZR d'))%R with (IZR n * IZR d')%R in Hlt by (field; lra).
    replace (IZR n' / IZR d' * (IZR d * IZR d'))%R with (IZR n' * IZR d)%R in Hlt by (field; lra).
    exact Hlt.
  - apply IZR_lt in Hlt. rewrite !mult_IZR in Hlt.
    apply (Rmult_lt_reg_r (IZR d * IZR d')%R); [nra|].
    replace (IZR n / IZR d * (IZR d * IZR d'))%R with (IZR n * IZR d')%R by (field; lra).
    replace (IZR n' / IZR d' * (IZR d * IZR d'))%R with (IZR n' * IZR d)%R by (field; lra).
    exact Hlt.
Qed.

Lemma Qr_le : forall n d n' d', 0 < d -> 0 < d' ->
  (Qr n d <= Qr n' d')%R <-> n * d' <= n' * d.
Proof.
  intros n d n' d' Hd Hd'. split; intros H.
  - apply Z.nlt_ge. intros H'. apply (Qr_lt n' d' n d Hd' Hd) in H'. lra.
  - apply Rnot_lt_le. intros H'. apply (Qr_lt n' d' n d Hd' Hd) in H'. lia.
Qed.

(** ** Nearest integer *)

Lemma rne_div_nearest : forall n d, 0 < d -> rne_div n d = ZnearestE (Qr n d).
Proof.
  intros n d Hd. unfold rne_div.
  pose proof (Z.div_mod n d ltac:(lia)) as Hdm.
  pose proof (Z.mod_pos_bound n d Hd) as Hr.
  set (q := n / d) in *. set (r := n mod d) in *.
  assert (Hd' : (0 < IZR d)%R) by (apply IZR_lt; assumption).
  assert (Hx : Qr n d = (IZR q + IZR r / IZR d)%R).
  { unfold Qr. rewrite Hdm, plus_IZR, mult_IZR. field. lra. }
  assert (Hr0 : (0 <= IZR r / IZR d)%R).
  { apply Rmult_le_pos; [apply IZR_le; lia|]. apply Rlt_le, Rinv_0_lt_compat; assumption. }
  assert (Hr1 : (IZR r / IZR d < 1)%R).
  { apply (Rmult_lt_reg_r (IZR d)); [assumption|].
    replace (IZR r / IZR d * IZR d)%R with (IZR r) by (field; lra).
    rewrite Rmult_1_l. apply IZR_lt; lia. }
  assert (Hfl : Zfloor (Qr n d) = q).
  { apply Zfloor_imp. rewrite Hx, plus_IZR. lra. }
  unfold Znearest. rewrite Hfl.
  assert (Hc : Rcompare (Qr n d - IZR q) (/ 2) = Z.compare (2 * r) d).
  { replace (Qr n d - IZR q)%R with (IZR r / IZR d)%R by lra.
    assert (E2 : (IZR r / IZR d * (2 * IZR d) = 2 * IZR r)%R) by (field; lra).
    destruct (Z.compare_spec (2 * r) d) as [H|H|H].
    - apply Rcompare_Eq. apply (f_equal IZR) in H. rewrite mult_IZR in H.
      apply (Rmult_eq_reg_r (2 * IZR d)); [|lra]. rewrite E2. lra.
    - apply Rcompare_Lt. apply IZR_lt in H. rewrite mult_IZR in H.
      apply (Rmult_lt_reg_r (2 * IZR d)); [lra|]. rewrite E2. lra.
    - apply Rcompare_Gt. apply IZR_lt in H. rewrite mult_IZR in H.
      apply (Rmult_lt_reg_r (2 * IZR d)); [lra|]. rewrite E2. lra. }
  rewrite Hc.
  assert (Hceil : Zceil (Qr n d) = if r =? 0 then q else q + 1).
  { destruct (r =? 0) eqn:E.
    - apply Z.eqb_eq in E. apply Zceil_imp. rewrite Hx, E, minus_IZR.
      unfold Rdiv. rewrite Rmult_0_l. lra.
    - apply Z.eqb_neq in E. apply Zceil_imp. rewrite Hx.
      replace (q + 1 - 1) with q by lia. rewrite plus_IZR.
      assert (0 < IZR r / IZR d)%R.
      { apply Rdiv_lt_0_compat; [apply IZR_lt; lia|assumption]. }
      lra. }
  destruct (Z.compare_spec (2 * r) d) as [H|H|H].
  - replace (2 * r <? d) with false by lia. replace (d <? 2 * r) with false by lia.
    rewrite Hceil. replace (r =? 0) with false by lia.
    destruct (Z.even q); reflexivity.
  - replace (2 * r <? d) with true by lia. reflexivity.
  - replace (2 * r <? d) with false by lia. replace (d <? 2 * r) with true by lia.
    rewrite Hceil. replace (r =? 0) with false by lia. reflexivity.
Qed.

Lemma rne_div_nonneg : forall n d, 0 < d -> 0 <= n -> 0 <= rne_div n d.
Proof.
  intros n d Hd Hn. unfold rne_div.
  pose proof (Z.div_pos n d Hn Hd).
  destruct (2 * (n mod d) <? d); [assumption|].
  destruct (d <? 2 * (n mod d)); [lia|].
  destruct (Z.even (n / d)); lia.
Qed.

(** ** Binary logarithm of a fraction *)

Lemma flog2_spec : forall n d, 0 < n -> 0 < d ->
  (bpow radix2 (flog2 n d) <= Qr n d < bpow radix2 (flog2 n d + 1))%R.
Proof.
  intros n d Hn Hd. unfold flog2.
  destruct (Z.log2_spec n Hn) as [N1 N2]. destruct (Z.log2_spec d Hd) as [D1 D2].
  set (a := Z.log2 n) in *. set (c := Z.log2 d) in *.
  assert (Ha : 0 <= a) by apply Z.log2_nonneg.
  assert (Hc : 0 <= c) by apply Z.log2_nonneg.
  assert (HN1 : (bpow radix2 a <= IZR n)%R).
  { rewrite <- IZR_Zpower by lia. apply IZR_le. exact N1. }
  assert (HN2 : (IZR n < bpow radix2 (a + 1))%R).
  { rewrite <- IZR_Zpower by lia. apply IZR_lt. exact N2. }
  assert (HD1 : (bpow radix2 c <= IZR d)%R).
  { rewrite <- IZR_Zpower by lia. apply IZR_le. exact D1. }
  assert (HD2 : (IZR d < bpow radix2 (c + 1))%R).
  { rewrite <- IZR_Zpower by lia. apply IZR_lt. exact D2. }
  assert (Hd' : (0 < IZR d)%R) by (apply IZR_lt; assumption).
  assert (Hlow : (bpow radix2 (a - c - 1) < Qr n d)%R).
  { unfold Qr. apply (Rmult_lt_reg_r (IZR d)); [assumption|].
    replace (IZR n / IZR d * IZR d)%R with (IZR n) by (field; lra).
    apply Rlt_le_trans with (2 := HN1).
    replace (bpow radix2 a) with (bpow radix2 (a - c - 1) * bpow radix2 (c + 1))%R
      by (rewrite <- bpow_plus; f_equal; lia).
    apply Rmult_lt_compat_l; [apply bpow_gt_0|exact HD2]. }
  assert (Hup : (Qr n d < bpow radix2 (a - c + 1))%R).
  { unfold Qr. apply (Rmult_lt_reg_r (IZR d)); [assumption|].
    replace (IZR n / IZR d * IZR d)%R with (IZR n) by (field; lra).
    apply Rlt_le_trans with (1 := HN2).
    replace (bpow radix2 (a + 1)) with (bpow radix2 (a - c + 1) * bpow radix2 c)%R
      by (rewrite <- bpow_plus; f_equal; lia).
    apply Rmult_le_compat_l; [apply bpow_ge_0|exact HD1]. }
  assert (Hcmp : (scale_num 2 n (a - c) <? scale_den 2 d (a - c)) = true
                 <-> (Qr n d < bpow radix2 (a - c))%R).
  { pose proof (scale_Qr radix2 n d (a - c) Hd) as HS. change (radix_val radix2) with 2 in HS.
    pose proof (scale_den_pos 2 d (a - c) ltac:(lia) Hd) as Hden.
    assert (Hone : (Qr 1 1 = 1)%R) by (unfold Qr; field).
    rewrite Z.ltb_lt.
    assert (Hb : (bpow radix2 (- (a - c)) * bpow radix2 (a - c) = 1)%R).
    { rewrite <- bpow_plus. replace (- (a - c) + (a - c)) with 0 by lia. reflexivity. }
    pose proof (bpow_gt_0 radix2 (a - c)) as Hp. pose proof (bpow_gt_0 radix2 (- (a - c))) as Hp'.
    transitivity (Qr (scale_num 2 n (a - c)) (scale_den 2 d (a - c)) < Qr 1 1)%R.
    - rewrite Qr_lt by lia. lia.
    - rewrite HS, Hone. split; intros H.
      + apply (Rmult_lt_reg_r (bpow radix2 (- (a - c)))); [assumption|].
        rewrite (Rmult_comm (bpow radix2 (a - c))), Hb. exact H.
      + apply (Rmult_lt_compat_r (bpow radix2 (- (a - c)))) in H; [|assumption].
        rewrite (Rmult_comm (bpow radix2 (a - c))), Hb in H. exact H. }
  destruct (scale_num 2 n (a - c) <? scale_den 2 d (a - c)) eqn:E.
  - split; [apply Rlt_le; exact Hlow|].
    replace (a - c - 1 + 1) with (a - c) by lia. apply Hcmp. reflexivity.
  - split; [|exact Hup]. apply Rnot_lt_le. intros H. apply Hcmp in H. discriminate.
Qed.

Lemma mag_Qr : forall n d, 0 < n -> 0 < d -> mag radix2 (Qr n d) = flog2 n d + 1 :> Z.
Proof.
  intros n d Hn Hd. apply mag_unique_pos.
  replace (flog2 n d + 1 - 1) with (flog2 n d) by lia.
  apply flog2_spec; assumption.
Qed.

Lemma cexp_Qr : forall n d, 0 < n -> 0 < d ->
  cexp radix2 fexp64 (Qr n d) = Z.max (flog2 n d - 52) (-1074).
Proof.
  intros n d Hn Hd. unfold cexp. rewrite mag_Qr by assumption. unfold FLT_exp. lia.
Qed.

(** ** [rnd64] is Flocq's rounding *)

Definition cond_R (s : bool) (x : R) : R := if s then (- x)%R else x.

Lemma SF2R_finite : forall s m e,
  SF2R radix2 (S754_finite s m e) = cond_R s (IZR (Zpos m) * bpow radix2 e)%R.
Proof.
  intros s m e. unfold SF2R, F2R. destruct s; cbn [cond_Zopp Fnum Fexp cond_R].
  - change (- Zpos m) with (Zneg m). rewrite <- Pos2Z.opp_pos, opp_IZR. ring.
  - reflexivity.
Qed.

Lemma rnd_Qr : forall n d, 0 < n -> 0 < d ->
  rnd (Qr n d) =
  (IZR (rne_div (scale_num 2 n (Z.max (flog2 n d - 52) (-1074)))
                (scale_den 2 d (Z.max (flog2 n d - 52) (-1074))))
   * bpow radix2 (Z.max (flog2 n d - 52) (-1074)))%R.
Proof.
  intros n d Hn Hd. unfold round, F2R, scaled_mantissa. cbn [Fnum Fexp].
  rewrite cexp_Qr by assumption.
  set (e := Z.max (flog2 n d - 52) (-1074)).
  rewrite rne_div_nearest by (apply scale_den_pos; lia).
  pose proof (scale_Qr radix2 n d e Hd) as HS. change (radix_val radix2) with 2 in HS.
  rewrite HS. reflexivity.
Qed.

Lemma Znearest_le : forall x y, (x <= y)%R -> ZnearestE x <= ZnearestE y.
Proof. intros x y H. apply (valid_rnd_N (fun x => negb (Z.even x))). exact H. Qed.

(** Size of the rounded mantissa. *)
Lemma rnd64_mant : forall n d, 0 < n -> 0 < d ->
  let e := Z.max (flog2 n d - 52) (-1074) in
  let m := rne_div (scale_num 2 n e) (scale_den 2 d e) in
  0 <= m <= 2 ^ 53 /\ (e <> -1074 -> 2 ^ 52 <= m).
Proof.
  intros n d Hn Hd e m.
  assert (Hden : 0 < scale_den 2 d e) by (apply scale_den_pos; lia).
  assert (Hm0 : 0 <= m) by (apply rne_div_nonneg; [assumption|apply scale_num_nonneg; lia]).
  pose proof (scale_Qr radix2 n d e Hd) as HS. change (radix_val radix2) with 2 in HS.
  destruct (flog2_spec n d Hn Hd) as [F1 F2].
  assert (Hm : m = ZnearestE (Qr n d * bpow radix2 (- e))).
  { unfold m. rewrite rne_div_nearest by assumption. rewrite HS. reflexivity. }
  assert (Hup : (Qr n d * bpow radix2 (- e) <= IZR (2 ^ 53))%R).
  { change (IZR (2 ^ 53)) with (bpow radix2 53).
    apply Rle_trans with (bpow radix2 (flog2 n d + 1) * bpow radix2 (- e))%R.
    - apply Rmult_le_compat_r; [apply bpow_ge_0|lra].
    - rewrite <- bpow_plus. apply bpow_le. unfold e. lia. }
  split; [split; [exact Hm0|]|].
  - rewrite Hm. rewrite <- (Znearest_imp (fun x => negb (Z.even x)) (IZR (2^53)) (2^53)).
    + apply Znearest_le. exact Hup.
    + rewrite Rminus_diag_eq by reflexivity. rewrite Rabs_R0. lra.
  - intros He. assert (He' : e = flog2 n d - 52) by (unfold e in *; lia).
    rewrite Hm. rewrite <- (Znearest_imp (fun x => negb (Z.even x)) (IZR (2^52)) (2^52)).
    + apply Znearest_le. change (IZR (2 ^ 52)) with (bpow radix2 52).
      apply Rle_trans with (bpow radix2 (flog2 n d) * bpow radix2 (- e))%R.
      * rewrite <- bpow_plus. apply bpow_le. lia.
      * apply Rmult_le_compat_r; [apply bpow_ge_0|exact F1].
    + rewrite Rminus_diag_eq by reflexivity. rewrite Rabs_R0. lra.
Qed.

Lemma digits2_pos_size : forall p, Zpos (digits2_pos p) = Z.log2 (Zpos p) + 1.
Proof.
  induction p as [p IH|p IH|]; cbn [digits2_pos].
  - rewrite Pos2Z.inj_succ, IH. change (Zpos p~1) with (2 * Zpos p + 1).
    rewrite Z.log2_succ_double by lia. lia.
  - rewrite Pos2Z.inj_succ, IH. change (Zpos p~0) with (2 * Zpos p).
    rewrite Z.log2_double by lia. lia.
  - reflexivity.
Qed.

Lemma bounded_intro : forall m e, 0 < m -> m < 2 ^ 53 -> -1074 <= e <= 971 ->
  (e <> -1074 -> 2 ^ 52 <= m) -> bounded 53 1024 (Z.to_pos m) e = true.
Proof.
  intros m e Hm Hlt He Hc. unfold bounded, canonical_mantissa.
  rewrite digits2_pos_size. rewrite Z2Pos.id by assumption.
  unfold fexp, SpecFloat.fexp, emin.
  assert (Hl : Z.log2 m <= 52).
  { assert (Z.log2 m < 53) by (apply Z.log2_lt_pow2; assumption). lia. }
  pose proof (Z.log2_nonneg m).
  apply andb_true_intro. split.
  - apply Zeq_bool_true. destruct (Z.eq_dec e (-1074)) as [->|Hne].
    + lia.
    + assert (52 <= Z.log2 m) by (apply Z.log2_le_pow2; [assumption|auto]). lia.
  - apply Zle_imp_le_bool. lia.
Qed.

Lemma rnd64_valid : forall s n d, 0 < d -> valid_binary 53 1024 (rnd64 s n d) = true.
Proof.
  intros s n d Hd. unfold rnd64. destruct (n <=? 0) eqn:En; [reflexivity|].
  apply Z.leb_gt in En.
  destruct (rnd64_mant n d En Hd) as [[H0 H1] H2].
  set (e := Z.max (flog2 n d - 52) (-1074)) in *.
  set (m := rne_div (scale_num 2 n e) (scale_den 2 d e)) in *.
  destruct (m =? 2 ^ 53) eqn:E.
  - change (2 ^ 52 <=? 0) with false. cbv iota.
    destruct (971 <? e + 1) eqn:E2; [reflexivity|]. apply Z.ltb_ge in E2.
    cbn [valid_binary]. apply bounded_intro; lia.
  - apply Z.eqb_neq in E. destruct (m <=? 0) eqn:E3; [reflexivity|].
    apply Z.leb_gt in E3. destruct (971 <? e) eqn:E2; [reflexivity|].
    apply Z.ltb_ge in E2. cbn [valid_binary]. apply bounded_intro; try lia.
Qed.

(** The model's rounding agrees with Flocq's round-to-nearest-even in the
    binary64 format, for every non-negative rational below the overflow
    threshold. *)
Lemma rnd64_correct : forall s n d, 0 <= n -> 0 < d ->
  (rnd (Qr n d) < bpow radix2 1024)%R ->
  SF2R radix2 (rnd64 s n d) = cond_R s (rnd (Qr n d))
  /\ is_finite_SF (rnd64 s n d) = true
  /\ sign_SF (rnd64 s n d) = s.
Proof.
  intros s n d Hn Hd Hov. unfold rnd64.
  destruct (n <=? 0) eqn:En.
  - apply Z.leb_le in En. assert (n = 0) by lia. subst n.
    cbn. unfold Qr, Rdiv. rewrite Rmult_0_l, round_0 by apply valid_rnd_N.
    destruct s; cbn; repeat split; lra.
  - apply Z.leb_gt in En. rewrite (rnd_Qr n d En Hd) in Hov |- *.
    destruct (rnd64_mant n d En Hd) as [[H0 H1] H2].
    set (e := Z.max (flog2 n d - 52) (-1074)) in *.
    set (m := rne_div (scale_num 2 n e) (scale_den 2 d e)) in *.
    destruct (m =? 2 ^ 53) eqn:E.
    + apply Z.eqb_eq in E. change (2 ^ 52 <=? 0) with false. cbv iota.
      assert (He : e + 1 <= 971).
      { rewrite E in Hov. change (IZR (2 ^ 53)) with (bpow radix2 53) in Hov.
        rewrite <- bpow_plus in Hov. apply lt_bpow in Hov. lia. }
      replace (971 <? e + 1) with false by lia.
      rewrite SF2R_finite. split; [|split; reflexivity].
      rewrite E. f_equal.
      change (IZR (Z.pos (Z.to_pos (2 ^ 52)))) with (bpow radix2 52).
      change (IZR (2 ^ 53)) with (bpow radix2 53).
      rewrite <- !bpow_plus. f_equal. lia.
    + apply Z.eqb_neq in E. destruct (m <=? 0) eqn:E3.
      * apply Z.leb_le in E3. assert (Em : m = 0) by lia. rewrite Em.
        cbn. rewrite Rmult_0_l. destruct s; cbn; repeat split; lra.
      * apply Z.leb_gt in E3.
        assert (He : e <= 971).
        { destruct (Z.eq_dec e (-1074)) as [->|Hne]; [lia|].
          assert (Hb : (bpow radix2 (52 + e) < bpow radix2 1024)%R).
          { apply Rle_lt_trans with (2 := Hov). rewrite bpow_plus.
            apply Rmult_le_compat_r; [apply bpow_ge_0|].
            change (bpow radix2 52) with (IZR (2 ^ 52)). apply IZR_le. auto. }
          apply lt_bpow in Hb. lia. }
        replace (971 <? e) with false by lia.
        rewrite SF2R_finite. split; [|split; reflexivity].
        rewrite Z2Pos.id by lia. reflexivity.
Qed.

(** ** Doubles as fractions *)

Lemma dden_pos : forall e, 0 < dden e.
Proof. intros. unfold dden. apply scale_den_pos; lia. Qed.

Lemma dnum_pos : forall m e, 0 < dnum m e.
Proof. intros. unfold dnum. apply scale_num_pos; lia. Qed.

Lemma Qr_dbl : forall m e, Qr (dnum m e) (dden e) = (IZR (Zpos m) * bpow radix2 e)%R.
Proof.
  intros. unfold dnum, dden.
  pose proof (scale_Qr radix2 (Zpos m) 1 (- e) ltac:(lia)) as HS.
  change (radix_val radix2) with 2 in HS. rewrite HS.
  rewrite Z.opp_involutive. unfold Qr. field.
Qed.

Lemma bounded_bounds : forall m e, bounded 53 1024 m e = true ->
  Zpos m < 2 ^ 53 /\ -1074 <= e <= 971 /\ (e <> -1074 -> 2 ^ 52 <= Zpos m).
Proof.
  intros m e H. unfold bounded, canonical_mantissa in H.
  apply andb_prop in H as [H1 H2]. apply Zeq_bool_eq in H1. apply Zle_bool_imp_le in H2.
  rewrite digits2_pos_size in H1. unfold SpecFloat.fexp, emin in H1.
  destruct (Z.log2_spec (Zpos m) eq_refl) as [L1 L2].
  assert (Z.log2 (Zpos m) <= 52) by lia.
  split.
  - apply Z.lt_le_trans with (1 := L2). apply Z.pow_le_mono_r; lia.
  - split; [lia|]. intros Hne. assert (52 = Z.log2 (Zpos m)) by lia.
    rewrite H0. exact L1.
Qed.

Lemma format_finite : forall m e, bounded 53 1024 m e = true ->
  generic_format radix2 fexp64 (IZR (Zpos m) * bpow radix2 e)%R.
Proof.
  intros m e H. apply bounded_bounds in H as (H1 & H2 & H3).
  apply generic_format_FLT. exists (Float radix2 (Zpos m) e); cbn.
  - unfold F2R. reflexivity.
  - exact H1.
  - lia.
Qed.

Lemma lt_emax_finite : forall m e, bounded 53 1024 m e = true ->
  (IZR (Zpos m) * bpow radix2 e < bpow radix2 1024)%R.
Proof.
  intros m e H. apply bounded_bounds in H as (H1 & H2 & H3).
  apply Rlt_le_trans with (bpow radix2 53 * bpow radix2 e)%R.
  - apply Rmult_lt_compat_r; [apply bpow_gt_0|].
    change (bpow radix2 53) with (IZR (2 ^ 53)). apply IZR_lt. exact H1.
  - rewrite <- bpow_plus. apply bpow_le. lia.
Qed.

(** Equal finite doubles: same sign and same real value. *)
Lemma SF_eq_of_real : forall x y,
  valid_binary 53 1024 x = true -> valid_binary 53 1024 y = true ->
  is_finite_SF x = true -> is_finite_SF y = true ->
  sign_SF x = sign_SF y -> SF2R radix2 x = SF2R radix2 y -> x = y.
Proof.
  intros x y Vx Vy Fx Fy Hs Hr.
  rewrite <- (B2SF_SF2B 53 1024 x Vx), <- (B2SF_SF2B 53 1024 y Vy). f_equal.
  apply B2R_Bsign_inj; rewrite ?is_finite_SF2B, ?B2R_SF2B, ?Bsign_SF2B; assumption.
Qed.

(** A fraction that rounds to a double's value rounds to that double. *)
Lemma rnd64_eq : forall s m e n d, bounded 53 1024 m e = true -> 0 <= n -> 0 < d ->
  rnd (Qr n d) = (IZR (Zpos m) * bpow radix2 e)%R ->
  rnd64 s n d = S754_finite s m e.
Proof.
  intros s m e n d Hb Hn Hd Hr.
  destruct (rnd64_correct s n d Hn Hd) as (H1 & H2 & H3).
  { rewrite Hr. apply lt_emax_finite. exact Hb. }
  apply SF_eq_of_real.
  - apply rnd64_valid. exact Hd.
  - exact Hb.
  - exact H2.
  - reflexivity.
  - exact H3.
  - rewrite H1, SF2R_finite, Hr. reflexivity.
Qed.

(** The double's own value rounds to itself. *)
Lemma rnd64_self : forall s m e, bounded 53 1024 m e = true ->
  rnd64 s (dnum m e) (dden e) = S754_finite s m e.
Proof.
  intros s m e Hb. apply rnd64_eq; [exact Hb|pose proof (dnum_pos m e); lia|apply dden_pos|].
  rewrite Qr_dbl. apply round_generic; [apply valid_rnd_N|apply format_finite; exact Hb].
Qed.

Lemma rnd64_cross : forall s n d n' d', 0 < n -> 0 < d -> 0 < d' -> n * d' = n' * d ->
  rnd64 s n d = rnd64 s n' d'.
Proof.
  intros s n d n' d' Hn Hd Hd' H.
  assert (Hn' : 0 < n') by nia.
  assert (HQ : Qr n d = Qr n' d').
  { apply Rle_antisym; apply Qr_le; lia. }
  assert (HF : flog2 n d = flog2 n' d').
  { pose proof (mag_Qr n d Hn Hd) as M1. pose proof (mag_Qr n' d' Hn' Hd') as M2.
    rewrite HQ in M1. lia. }
  unfold rnd64. replace (n <=? 0) with false by lia. replace (n' <=? 0) with false by lia.
  rewrite HF. set (e := Z.max (flog2 n' d' - 52) (-1074)).
  replace (rne_div (scale_num 2 n e) (scale_den 2 d e))
    with (rne_div (scale_num 2 n' e) (scale_den 2 d' e)); [reflexivity|].
  rewrite !rne_div_nearest by (apply scale_den_pos; lia).
  pose proof (scale_Qr radix2 n d e Hd) as S1. pose proof (scale_Qr radix2 n' d' e Hd') as S2.
  change (radix_val radix2) with 2 in S1, S2. rewrite S1, S2, HQ. reflexivity.
Qed.

(** ** Numbers close to a double round to it *)

Lemma close_rounds : forall m e (y : R), bounded 53 1024 m e = true ->
  let x := (IZR (Zpos m) * bpow radix2 e)%R in
  (Rabs (y - x) < x * bpow radix2 (-54))%R -> rnd y = x.
Proof.
  intros m e y Hb x Hy.
  assert (Fx : generic_format radix2 fexp64 x) by (apply format_finite; exact Hb).
  assert (Hx : (0 < x)%R).
  { apply Rmult_lt_0_compat; [apply IZR_lt; lia|apply bpow_gt_0]. }
  assert (Hmag : (bpow radix2 (mag radix2 x - 1) <= x < bpow radix2 (mag radix2 x))%R).
  { destruct (mag radix2 x) as [k Hk]. cbn. specialize (Hk ltac:(lra)).
    rewrite Rabs_pos_eq in Hk by lra. exact Hk. }
  assert (Hb54 : forall k, (bpow radix2 k * bpow radix2 (-54) = / 2 * bpow radix2 (k - 53))%R).
  { intros k. rewrite <- bpow_plus. replace (k + -54) with (k - 53 + -1) by lia.
    rewrite bpow_plus. change (bpow radix2 (-1)) with (/ 2)%R. lra. }
  assert (Hsucc : (x + bpow radix2 (mag radix2 x - 53) <= succ radix2 fexp64 x)%R).
  { rewrite succ_eq_pos by lra. apply Rplus_le_compat_l.
    rewrite ulp_neq_0 by lra. apply bpow_le. unfold cexp, FLT_exp. lia. }
  assert (Hpred : (pred radix2 fexp64 x <= x - x * bpow radix2 (-53))%R).
  { rewrite pred_eq_pos by lra. unfold pred_pos.
    destruct (Req_bool_spec x (bpow radix2 (mag radix2 x - 1))) as [He|He].
    - apply Rplus_le_compat_l, Ropp_le_contravar.
      rewrite He at 1. rewrite <- bpow_plus. apply bpow_le. unfold FLT_exp. lia.
    - apply Rplus_le_compat_l, Ropp_le_contravar.
      rewrite ulp_neq_0 by lra.
      apply Rle_trans with (bpow radix2 (mag radix2 x) * bpow radix2 (-53))%R.
      + apply Rmult_le_compat_r; [apply bpow_ge_0|lra].
      + rewrite <- bpow_plus. apply bpow_le. unfold cexp, FLT_exp. lia. }
  assert (H5354 : (x * bpow radix2 (-53) = 2 * (x * bpow radix2 (-54)))%R).
  { change (-53) with (1 + -54). rewrite bpow_plus. change (bpow radix2 1) with 2%R. ring. }
  assert (Hd : (x * bpow radix2 (-54) <= / 2 * bpow radix2 (mag radix2 x - 53))%R).
  { rewrite <- Hb54. apply Rmult_le_compat_r; [apply bpow_ge_0|lra]. }
  apply Rabs_def2 in Hy as [Hy1 Hy2].
  apply Rle_antisym.
  - apply round_N_le_midp; [apply FLT_exp_valid; exact eq_refl|exact Fx|]. lra.
  - apply round_N_ge_midp; [apply FLT_exp_valid; exact eq_refl|exact Fx|]. lra.
Qed.

(** ** Decimal logarithm and decimal rounding *)

Lemma flog10_spec : forall n d, 0 < n -> 0 < d ->
  (bpow radix10 (flog10 n d) <= Qr n d < bpow radix10 (flog10 n d + 1))%R.
Proof.
  intros n d Hn Hd. unfold flog10.
  assert (Hd' : (0 < IZR d)%R) by (apply IZR_lt; assumption).
  assert (Hn' : (0 < IZR n)%R) by (apply IZR_lt; assumption).
  destruct (d <=? n) eqn:E.
  - apply Z.leb_le in E.
    assert (Hq : 0 < n / d) by (apply Z.div_str_pos; lia).
    destruct (digits_len_bounds (n / d) Hq) as [L1 L2].
    set (L := Z.of_nat (List.length (digits (n / d)))) in *.
    assert (HL : 0 < L).
    { pose proof (digits_nonempty (n / d) ltac:(lia)). lia. }
    replace (L - 1 + 1) with L by lia.
    rewrite <- !IZR_Zpower by lia. change (radix_val radix10) with 10.
    pose proof (Z.div_mod n d ltac:(lia)) as Hdm. pose proof (Z.mod_pos_bound n d Hd) as Hr.
    assert (Hq1 : forall a, Qr a 1 = IZR a) by (intros; unfold Qr; field).
    rewrite <- !Hq1. split.
    + apply Qr_le; nia.
    + apply Qr_lt; nia.
  - apply Z.leb_gt in E.
    set (c := (d + n - 1) / n).
    assert (Hc1 : c * n >= d).
    { unfold c. pose proof (Z.div_mod (d + n - 1) n ltac:(lia)) as Hdm.
      pose proof (Z.mod_pos_bound (d + n - 1) n Hn). nia. }
    assert (Hc2 : (c - 1) * n < d).
    { unfold c. pose proof (Z.div_mod (d + n - 1) n ltac:(lia)) as Hdm.
      pose proof (Z.mod_pos_bound (d + n - 1) n Hn). nia. }
    assert (Hc : 2 <= c) by nia.
    destruct (digits_len_bounds (c - 1) ltac:(lia)) as [L1 L2].
    set (L := Z.of_nat (List.length (digits (c - 1)))) in *.
    assert (HL : 0 < L).
    { pose proof (digits_nonempty (c - 1) ltac:(lia)). lia. }
    assert (Hp : forall k, 0 <= k -> bpow radix10 (- k) = Qr 1 (10 ^ k)).
    { intros k Hk. rewrite bpow_opp, <- IZR_Zpower by lia. change (radix_val radix10) with 10.
      unfold Qr. field. apply IZR_neq. pose proof (Z.pow_pos_nonneg 10 k); lia. }
    replace (- L + 1) with (- (L - 1)) by lia.
    rewrite !Hp by lia.
    pose proof (Z.pow_pos_nonneg 10 L ltac:(lia) ltac:(lia)).
    pose proof (Z.pow_pos_nonneg 10 (L - 1) ltac:(lia) ltac:(lia)).
    split.
    + apply Qr_le; [lia|lia|]. nia.
    + apply Qr_lt; [lia|lia|]. nia.
Qed.

Lemma to_dec_spec : forall p n d, 0 < p -> 0 < n -> 0 < d ->
  let '(D, X) := to_dec p n d in
  10 ^ (p - 1) <= D < 10 ^ p /\
  (Rabs (IZR D * bpow radix10 (X - p + 1) - Qr n d) <= / 2 * (Qr n d * bpow radix10 (1 - p)))%R.
Proof.
  intros p n d Hp Hn Hd. unfold to_dec.
  destruct (flog10_spec n d Hn Hd) as [F1 F2].
  set (x := flog10 n d) in *. set (k := x - p + 1).
  set (D := rne_div (scale_num 10 n k) (scale_den 10 d k)).
  pose proof (scale_Qr radix10 n d k Hd) as HS. change (radix_val radix10) with 10 in HS.
  assert (HD : D = ZnearestE (Qr n d * bpow radix10 (- k))).
  { unfold D. rewrite rne_div_nearest by (apply scale_den_pos; lia). rewrite HS. reflexivity. }
  pose proof (bpow_gt_0 radix10 k) as Hk. pose proof (bpow_gt_0 radix10 (- k)) as Hk'.
  assert (Hkk : (bpow radix10 (- k) * bpow radix10 k = 1)%R).
  { rewrite <- bpow_plus. replace (- k + k) with 0 by lia. reflexivity. }
  assert (Hhalf : (Rabs (IZR D * bpow radix10 k - Qr n d) <= / 2 * (Qr n d * bpow radix10 (1 - p)))%R).
  { pose proof (Znearest_half (fun x => negb (Z.even x)) (Qr n d * bpow radix10 (- k))) as Hh.
    rewrite <- HD in Hh.
    replace (IZR D * bpow radix10 k - Qr n d)%R
      with (- ((Qr n d * bpow radix10 (- k) - IZR D) * bpow radix10 k))%R.
    2: { replace (Qr n d) with (Qr n d * (bpow radix10 (- k) * bpow radix10 k))%R at 2
           by (rewrite Hkk; ring). ring. }
    rewrite Rabs_Ropp, Rabs_mult, (Rabs_pos_eq (bpow radix10 k)) by lra.
    apply Rle_trans with (/ 2 * bpow radix10 k)%R.
    - apply Rmult_le_compat_r; lra.
    - apply Rmult_le_compat_l; [lra|].
      replace k with (x + (1 - p)) by (unfold k; lia). rewrite bpow_plus.
      apply Rmult_le_compat_r; [apply bpow_ge_0|exact F1]. }
  assert (Hlo : 10 ^ (p - 1) <= D).
  { rewrite HD. rewrite <- (Znearest_imp (fun x => negb (Z.even x)) (IZR (10^(p-1))) (10^(p-1)))
      by (rewrite Rminus_diag_eq by reflexivity; rewrite Rabs_R0; lra).
    apply Znearest_le. change 10 with (radix_val radix10). rewrite IZR_Zpower by lia.
    replace (bpow radix10 (p - 1)) with (bpow radix10 x * bpow radix10 (- k))%R
      by (rewrite <- bpow_plus; f_equal; unfold k; lia).
    apply Rmult_le_compat_r; lra. }
  assert (Hup : D <= 10 ^ p).
  { rewrite HD. rewrite <- (Znearest_imp (fun x => negb (Z.even x)) (IZR (10^p)) (10^p))
      by (rewrite Rminus_diag_eq by reflexivity; rewrite Rabs_R0; lra).
    apply Znearest_le. change 10 with (radix_val radix10). rewrite IZR_Zpower by lia.
    replace (bpow radix10 p) with (bpow radix10 (x + 1) * bpow radix10 (- k))%R
      by (rewrite <- bpow_plus; f_equal; unfold k; lia).
    apply Rmult_le_compat_r; lra. }
  destruct (D =? 10 ^ p) eqn:E.
  - apply Z.eqb_eq in E. split.
    + split; [lia|]. apply Z.pow_lt_mono_r; lia.
    + replace (IZR (10 ^ (p - 1)) * bpow radix10 (x + 1 - p + 1))%R
        with (IZR D * bpow radix10 k)%R; [exact Hhalf|].
      rewrite E. change 10 with (radix_val radix10). rewrite !IZR_Zpower by lia.
      rewrite <- !bpow_plus. f_equal. unfold k. lia.
  - apply Z.eqb_neq in E. split; [lia|]. exact Hhalf.
Qed.

(** ** The round trip: at least 17 significant digits identify a double *)

Lemma Qr_dec : forall D k,
  Qr (scale_num 10 D (- k)) (scale_den 10 1 (- k)) = (IZR D * bpow radix10 k)%R.
Proof.
  intros D k. pose proof (scale_Qr radix10 D 1 (- k) ltac:(lia)) as HS.
  change (radix_val radix10) with 10 in HS. rewrite HS, Z.opp_involutive.
  unfold Qr. field.
Qed.

Lemma dec_roundtrip : forall p s m e, 17 <= p -> bounded 53 1024 m e = true ->
  let '(D, X) := to_dec p (dnum m e) (dden e) in
  dec_to_dbl s D (X - p + 1) = S754_finite s m e.
Proof.
  intros p s m e Hp Hb.
  pose proof (to_dec_spec p (dnum m e) (dden e) ltac:(lia) (dnum_pos m e) (dden_pos e)) as HT.
  destruct (to_dec p (dnum m e) (dden e)) as [D X]. destruct HT as [[HD1 HD2] HT].
  assert (HD0 : 0 < D) by (pose proof (Z.pow_pos_nonneg 10 (p - 1)); lia).
  unfold dec_to_dbl.
  apply rnd64_eq; [exact Hb|apply scale_num_nonneg; lia|apply scale_den_pos; lia|].
  rewrite Qr_dec. rewrite Qr_dbl in HT.
  apply close_rounds; [exact Hb|].
  set (x := (IZR (Z.pos m) * bpow radix2 e)%R) in *.
  assert (Hx : (0 < x)%R).
  { apply Rmult_lt_0_compat; [apply IZR_lt; lia|apply bpow_gt_0]. }
  apply Rle_lt_trans with (1 := HT).
  apply Rle_lt_trans with (/ 2 * (x * bpow radix10 (-16)))%R.
  - apply Rmult_le_compat_l; [lra|]. apply Rmult_le_compat_l; [lra|].
    apply bpow_le. lia.
  - replace (/ 2 * (x * bpow radix10 (-16)))%R with (x * (/ 2 * bpow radix10 (-16)))%R by ring.
    apply Rmult_lt_compat_l; [exact Hx|].
    change (bpow radix10 (-16)) with (/ IZR (Z.pow_pos 10 16))%R.
    change (bpow radix2 (-54)) with (/ IZR (Z.pow_pos 2 54))%R.
    rewrite <- Rinv_mult.
    rewrite <- mult_IZR. apply Rinv_lt_contravar.
    + rewrite <- mult_IZR. apply IZR_lt. reflexivity.
    + apply IZR_lt. reflexivity.
Qed.
