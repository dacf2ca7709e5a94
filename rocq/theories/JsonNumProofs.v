(** Numbers in JSON texts: what parse_number makes of them, and of the output of
    the printer. *)
From Coq Require Import List Ascii String ZArith Bool Lia Reals Lra.
From Coq Require Import Floats.SpecFloat.
From Flocq Require Import Core BinarySingleNaN.
From Verif Require Import Base Dbl DigitsProofs DblProofs Json JsonSpec JsonProofs.
Import ListNotations.
Local Open Scope Z_scope.

Lemma rnd64_Qr_eq : forall s n d n' d', 0 < n -> 0 < d -> 0 < n' -> 0 < d' ->
  Qr n d = Qr n' d' -> rnd64 s n d = rnd64 s n' d'.
Proof.
  intros s n d n' d' Hn Hd Hn' Hd' H. apply rnd64_cross; try assumption.
  apply Z.le_antisymm; [apply (proj1 (Qr_le n d n' d' Hd Hd'))|
                        apply (proj1 (Qr_le n' d' n d Hd' Hd))]; lra.
Qed.

Lemma dbl_mul_one : forall x, valid_dbl x = true -> dbl_mul x (dbl_pow10 0) = x.
Proof.
  intros x Hx. rewrite dbl_one_eq. destruct x as [s|s| |s m e]; cbn [dbl_mul];
    rewrite ?xorb_false_r; try reflexivity.
  rewrite <- (rnd64_self s m e Hx). symmetry. apply rnd64_cross.
  - apply dnum_pos.
  - apply dden_pos.
  - pose proof (dden_pos e). pose proof (dden_pos (-52)). lia.
  - change (dnum 4503599627370496 (-52)) with 4503599627370496.
    change (dden (-52)) with 4503599627370496. ring.
Qed.

Lemma strtod_val_valid : forall s D k x, strtod_val s D k = Ok x -> valid_dbl x = true.
Proof.
  intros s D k x H. unfold strtod_val in H.
  pose proof (rnd64_valid s (scale_num 10 D (- k)) (scale_den 10 1 (- k))
                (scale_den_pos 10 1 (- k) ltac:(lia) ltac:(lia))) as V.
  destruct (rnd64 _ _ _); try discriminate.
  - destruct (D =? 0); [|discriminate]. injection H as <-. reflexivity.
  - destruct (_ && _); [discriminate|]. injection H as <-. exact V.
Qed.

Lemma existsb_dot3 : forall a p q,
  existsb (fun c => ceq c "."%char) (a ++ p ++ "."%char :: q) = true.
Proof. intros. rewrite app_assoc. apply existsb_dot. Qed.

(** A number text is read as its value, up to the delimiter. *)
Lemma parse_number_text : forall v t rest, num_text v t -> delim_next rest = true ->
  parse_number (t ++ rest) = Ok (v, rest).
Proof.
  intros v t rest H Hr. destruct rest as [|c rest]; [discriminate|]. cbn [delim_next] in Hr.
  destruct (is_delim_not_num c Hr) as (Hn & HE & He & Hd).
  unfold parse_number. destruct H.
  - rewrite span_num_app; [|apply num_chars_int; assumption|exact Hn].
    rewrite existsb_dot_digits by assumption. rewrite HE, He. cbn [orb]. rewrite Hr.
    rewrite stol_text by assumption. reflexivity.
  - rewrite span_num_app; [|apply num_chars_dec; assumption|exact Hn].
    rewrite existsb_dot3. rewrite HE, He. cbn [orb]. rewrite Hr.
    rewrite stod_text by assumption. rewrite H2. cbn [bind].
    rewrite dbl_mul_one; [reflexivity|]. exact (strtod_val_valid _ _ _ _ H2).
  - rewrite app_assoc, <- app_assoc. cbn [app].
    assert (HEn : is_num_char E = false) by (destruct H2; subst E; reflexivity).
    rewrite span_num_app; [|apply num_chars_int; assumption|exact HEn].
    rewrite existsb_dot_digits by assumption.
    replace (ceq E "E"%char || ceq E "e"%char) with true by (destruct H2; subst E; reflexivity).
    rewrite <- app_assoc, take_minus_sign_gen by assumption.
    rewrite span_digits_app; [|apply all_digits_forallb; assumption|exact Hd].
    cbn [delim_next]. rewrite Hr.
    replace (if eneg then "-"%char :: es else es) with (sign_str eneg ++ es)
      by (destruct eneg; reflexivity).
    rewrite stol_text by assumption. cbn [bind]. rewrite stol_text by assumption. reflexivity.
  - assert (HEn : is_num_char E = false) by (destruct H3; subst E; reflexivity).
    replace ((sign_str neg ++ ip ++ "."%char :: fp ++ E :: sign_str eneg ++ es) ++ c :: rest)
      with ((sign_str neg ++ ip ++ "."%char :: fp) ++ E :: sign_str eneg ++ es ++ c :: rest)
      by (rewrite <- !app_assoc; cbn [app]; rewrite <- !app_assoc; cbn [app];
          rewrite <- !app_assoc; reflexivity).
    rewrite span_num_app; [|apply num_chars_dec; assumption|exact HEn].
    rewrite existsb_dot3.
    replace (ceq E "E"%char || ceq E "e"%char) with true by (destruct H3; subst E; reflexivity).
    rewrite take_minus_sign_gen by assumption.
    rewrite span_digits_app; [|apply all_digits_forallb; assumption|exact Hd].
    cbn [delim_next]. rewrite Hr.
    replace (if eneg then "-"%char :: es else es) with (sign_str eneg ++ es)
      by (destruct eneg; reflexivity).
    rewrite stol_text by assumption. cbn [bind]. rewrite stod_text by assumption.
    rewrite H2. reflexivity.
Qed.

Lemma forallb_all_digits : forall ds, forallb is_digit ds = true -> all_digits ds.
Proof. intros ds H. unfold all_digits. apply forallb_forall. exact H. Qed.

(** ** Printed integers *)

Lemma show_int_text : forall z, is_long z -> num_text (JInt z) (show_int z).
Proof.
  intros z Hz. unfold show_int.
  assert (Hv : digits_val (digits (Z.abs z)) = Z.abs z) by (apply digits_val_digits; lia).
  assert (Hn : digits (Z.abs z) <> []).
  { pose proof (digits_nonempty (Z.abs z) ltac:(lia)). destruct (digits (Z.abs z)); [cbn in *; lia|discriminate]. }
  assert (Ha : all_digits (digits (Z.abs z))).
  { apply forallb_all_digits, digits_all. lia. }
  destruct (z <? 0) eqn:E.
  - replace (- z) with (Z.abs z) by lia.
    replace z with (signed true (digits_val (digits (Z.abs z)))) at 1 by (rewrite Hv; cbn; lia).
    apply (nt_int true); [exact Hn|exact Ha|].
    rewrite Hv. unfold signed. replace (- Z.abs z) with z by lia. exact Hz.
  - replace z with (Z.abs z) at 2 by lia.
    replace z with (signed false (digits_val (digits (Z.abs z)))) at 1 by (rewrite Hv; cbn; lia).
    apply (nt_int false); [exact Hn|exact Ha|].
    rewrite Hv. unfold signed. replace (Z.abs z) with z by lia. exact Hz.
Qed.

(** ** Printed doubles in the fixed range *)

(** The decimal exponent of a double of magnitude in [1e-4, 1e17). *)
Lemma fixed_exp : forall m e, bounded 53 1024 m e = true -> fixed_range m e ->
  -4 <= snd (to_dec 17 (dnum m e) (dden e)) < 17.
Proof.
  intros m e Hb [H1 H2]. destruct (bounded_bounds m e Hb) as (B1 & B2 & B3).
  pose proof (dnum_pos m e) as Hn. pose proof (dden_pos e) as Hd.
  destruct (flog10_spec (dnum m e) (dden e) Hn Hd) as [F1 F2].
  assert (L1 : (bpow radix10 (-4) <= Qr (dnum m e) (dden e))%R).
  { replace (bpow radix10 (-4)) with (Qr 1 10000) by (unfold Qr, Rdiv; rewrite Rmult_1_l; reflexivity).
    apply Qr_le; lia. }
  assert (L2 : (Qr (dnum m e) (dden e) < bpow radix10 17)%R).
  { replace (bpow radix10 17) with (Qr (10 ^ 17) 1)
      by (unfold Qr, Rdiv; rewrite Rinv_1, Rmult_1_r; reflexivity).
    apply Qr_lt; lia. }
  assert (K1 : -4 < flog10 (dnum m e) (dden e) + 1) by (apply (lt_bpow radix10); lra).
  assert (K2 : flog10 (dnum m e) (dden e) < 17) by (apply (lt_bpow radix10); lra).
  unfold to_dec. set (x := flog10 (dnum m e) (dden e)) in *.
  destruct (rne_div _ _ =? 10 ^ 17) eqn:E; cbn [snd]; [|lia].
  destruct (Z.eq_dec x 16) as [Ex|Ex]; [|lia]. exfalso.
  apply Z.eqb_eq in E. rewrite Ex in E.
  change (16 - 17 + 1) with 0 in E. unfold scale_num, scale_den in E. cbn [Z.leb Z.compare Z.opp] in E.
  rewrite Z.pow_0_r, Z.mul_1_r in E.
  assert (He : 0 <= e).
  { apply Z.nlt_ge. intros He. rewrite Ex in F1. rewrite Qr_dbl in F1.
    assert (IZR (Z.pos m) * bpow radix2 e < bpow radix10 16)%R; [|lra].
    apply Rle_lt_trans with (IZR (Z.pos m) * 1)%R.
    - apply Rmult_le_compat_l; [apply IZR_le; lia|].
      change 1%R with (bpow radix2 0). apply bpow_le. lia.
    - rewrite Rmult_1_r. change (bpow radix10 16) with (IZR (10 ^ 16)). apply IZR_lt.
      apply Z.lt_trans with (1 := B1). reflexivity. }
  assert (Hd1 : dden e = 1).
  { unfold dden, scale_den. replace (- e <=? 0) with true by lia. reflexivity. }
  rewrite Hd1 in *. unfold rne_div in E. rewrite Z.mod_1_r, Z.div_1_r in E.
  change (2 * 0 <? 1) with true in E. cbv iota in E. lia.
Qed.

Lemma fixed_normal : forall m e, bounded 53 1024 m e = true -> fixed_range m e ->
  2 ^ 52 <= Zpos m.
Proof.
  intros m e Hb [Hf _]. destruct (bounded_bounds m e Hb) as (H1 & H2 & H3).
  destruct (Z.eq_dec e (-1074)) as [He|He]; [|auto]. exfalso. subst e.
  unfold dden, dnum, scale_num, scale_den in Hf. cbn [Z.leb Z.compare Z.opp] in Hf.
  assert (10000 * 2 ^ 53 < 2 ^ 1074) by reflexivity. lia.
Qed.

(** Reading N * 10^k where N * 10^k = D * 10^(X-16) gives the double back. *)
Lemma strtod_dec : forall s m e D X N k, bounded 53 1024 m e = true -> 2 ^ 52 <= Zpos m ->
  to_dec 17 (dnum m e) (dden e) = (D, X) -> 0 <= k - (X - 16) ->
  N * 10 ^ (k - (X - 16)) = D ->
  strtod_val s N k = Ok (S754_finite s m e) /\
  (0 <= k -> rnd64 s (N * 10 ^ k) 1 = S754_finite s m e).
Proof.
  intros s m e D X N k Hb Hf HT Hk HN.
  pose proof (dec_roundtrip 17 s m e ltac:(lia) Hb) as HR. rewrite HT in HR.
  pose proof (to_dec_spec 17 (dnum m e) (dden e) ltac:(lia) (dnum_pos m e) (dden_pos e)) as HS.
  rewrite HT in HS. destruct HS as [[HD1 HD2] _].
  assert (HD0 : 0 < D) by lia.
  pose proof (Z.pow_pos_nonneg 10 (k - (X - 16)) ltac:(lia) Hk) as Hp.
  assert (HN0 : 0 < N) by (apply (proj1 (Z.mul_pos_cancel_r N _ Hp)); lia).
  assert (HQ : (IZR N * bpow radix10 k = IZR D * bpow radix10 (X - 17 + 1))%R).
  { rewrite <- HN, mult_IZR. change 10 with (radix_val radix10). rewrite IZR_Zpower by exact Hk.
    rewrite Rmult_assoc, <- bpow_plus. do 2 f_equal. lia. }
  unfold dec_to_dbl in HR.
  assert (HE : rnd64 s (scale_num 10 N (- k)) (scale_den 10 1 (- k)) = S754_finite s m e).
  { rewrite <- HR. apply rnd64_Qr_eq; try (apply scale_num_pos; lia); try (apply scale_den_pos; lia).
    rewrite !Qr_dec. exact HQ. }
  split.
  - unfold strtod_val. rewrite HE.
    replace (Zpos m <? 2 ^ 52) with false by lia. reflexivity.
  - intros Hk0. rewrite <- HE. apply rnd64_Qr_eq;
      try (apply scale_num_pos; lia); try (apply scale_den_pos; lia); try lia.
    rewrite Qr_dec. unfold Qr. rewrite mult_IZR. change 10 with (radix_val radix10) at 1.
      rewrite IZR_Zpower by exact Hk0. field.
Qed.

Lemma firstn_skipn_digits : forall n l, forallb is_digit l = true ->
  forallb is_digit (firstn n l) = true /\ forallb is_digit (skipn n l) = true.
Proof.
  intros n l H. rewrite <- (firstn_skipn n l), forallb_app in H. apply andb_prop. exact H.
Qed.

Lemma show_g17_zero : forall s,
  exists j, num_text j (show_g17 (S754_zero s)) /\ same_num (S754_zero s) j.
Proof.
  intros s. exists (JInt 0). split.
  - cbn [show_g17].
    replace 0 with (signed s (digits_val (b "0"))) by (destruct s; reflexivity).
    apply nt_int.
    + discriminate.
    + apply forallb_all_digits. reflexivity.
    + destruct s; unfold is_long; split; vm_compute; discriminate.
  - right. split; [exists s; reflexivity|exists false; reflexivity].
Qed.

(** A normal double whose decimal exponent is in [-4, 17). *)
Lemma show_g17_fixed : forall s m e, bounded 53 1024 m e = true -> 2 ^ 52 <= Zpos m ->
  -4 <= snd (to_dec 17 (dnum m e) (dden e)) < 17 ->
  exists j, num_text j (show_g17 (S754_finite s m e)) /\ same_num (S754_finite s m e) j.
Proof.
  intros s m e Hv Hf Hf2.
    cbn [show_g17].
    pose proof (to_dec_spec 17 (dnum m e) (dden e) ltac:(lia) (dnum_pos m e) (dden_pos e)) as HS.
    destruct (to_dec 17 (dnum m e) (dden e)) as [D X] eqn:HT. cbn [snd] in Hf2.
    destruct HS as [[HD1 HD2] _].
    assert (HD0 : 0 < D) by lia.
    pose proof (digits_length D 17 ltac:(lia) (conj HD1 HD2)) as HL.
    pose proof (digits_val_digits D ltac:(lia)) as HV.
    pose proof (digits_all D ltac:(lia)) as HA.
    replace ((X <? -4) || (17 <=? X)) with false by lia.
    set (ds := digits D) in *.
    destruct (X <? 0) eqn:EX.
    + (* 0.000ddd *)
      set (l := repeat "0"%char (Z.to_nat (- X - 1)) ++ ds).
      assert (HlV : digits_val l = D).
      { unfold l. rewrite digits_val_app2, digits_val_zeros, HV. lia. }
      assert (HlA : forallb is_digit l = true).
      { unfold l. rewrite forallb_app, HA, andb_true_r. clear. induction (Z.to_nat _); [reflexivity|].
        cbn [repeat forallb]. rewrite IHn. reflexivity. }
      assert (HlL : Z.of_nat (List.length l) = 16 - X).
      { unfold l. rewrite app_length, repeat_length, HL. lia. }
      destruct (strip0_spec l) as (n & Hl & _). set (fp := strip0 l) in *.
      assert (HfpA : forallb is_digit fp = true) by (apply strip0_digits; exact HlA).
      assert (HfpV : digits_val fp * 10 ^ Z.of_nat n = D).
      { rewrite Hl, digits_val_app2, digits_val_zeros, repeat_length in HlV. lia. }
      assert (HfpL : Z.of_nat (List.length fp) + Z.of_nat n = 16 - X).
      { rewrite Hl, app_length, repeat_length in HlL. lia. }
      assert (Hne : fp <> []).
      { intros E0. rewrite E0 in HfpV. cbn in HfpV. lia. }
      replace (frac_str fp) with ("."%char :: fp) by (destruct fp; [congruence|reflexivity]).
      exists (JFlt (S754_finite s m e)). split.
      * change ("0"%char :: "."%char :: fp) with (b "0" ++ "."%char :: fp).
        apply nt_dec; [discriminate|apply forallb_all_digits; reflexivity|
                       apply forallb_all_digits; exact HfpA|].
        replace (digits_val (b "0" ++ fp)) with (digits_val fp)
          by (rewrite digits_val_app2; reflexivity).
        apply (proj1 (strtod_dec s m e D X (digits_val fp) (- Z.of_nat (List.length fp))
                 Hv Hf HT ltac:(lia) ltac:(replace (- Z.of_nat (List.length fp) - (X - 16)) with (Z.of_nat n) by lia; exact HfpV))).
      * left. reflexivity.
    + (* ddd.ddd *)
      set (ip := firstn (Z.to_nat (X + 1)) ds). set (l := skipn (Z.to_nat (X + 1)) ds).
      destruct (firstn_skipn_digits (Z.to_nat (X + 1)) ds HA) as [HipA HlA].
      fold ip in HipA. fold l in HlA.
      assert (HipL : Z.of_nat (List.length ip) = X + 1).
      { unfold ip. rewrite firstn_length, HL. lia. }
      assert (HlL : Z.of_nat (List.length l) = 16 - X).
      { unfold l. rewrite skipn_length, HL. lia. }
      assert (Hip : ip <> []) by (intros E0; rewrite E0 in HipL; cbn in HipL; lia).
      destruct (strip0_spec l) as (n & Hl & _).
      assert (HfpA : forallb is_digit (strip0 l) = true) by (apply strip0_digits; exact HlA).
      set (fp := strip0 l) in *.
      assert (HfpL : Z.of_nat (List.length fp) + Z.of_nat n = 16 - X).
      { rewrite Hl, app_length, repeat_length in HlL. lia. }
      assert (HfpV : digits_val (ip ++ fp) * 10 ^ Z.of_nat n = D).
      { rewrite <- HV, <- (firstn_skipn (Z.to_nat (X + 1)) ds). fold ip l. rewrite Hl, app_assoc.
        rewrite (digits_val_app2 (ip ++ fp)), digits_val_zeros, repeat_length. lia. }
      destruct fp as [|c fp'] eqn:Efp.
      * (* integer *)
        cbn [frac_str]. rewrite app_nil_r. rewrite app_nil_r in HfpV.
        change (Z.of_nat (List.length (@nil ascii))) with 0 in HfpL.
        assert (Hvl : 0 < digits_val ip < 10 ^ 17).
        { pose proof (digits_val_bound ip HipA) as Hbd. split.
          - pose proof (Z.pow_pos_nonneg 10 (Z.of_nat n)). nia.
          - apply Z.lt_le_trans with (1 := proj2 Hbd). apply Z.pow_le_mono_r; lia. }
        exists (JInt (signed s (digits_val ip))). split.
        -- apply nt_int; [exact Hip|apply forallb_all_digits; exact HipA|].
           unfold is_long, long_min, long_max, signed. destruct s; lia.
        -- left. unfold dbl_of_int.
           assert (HN : digits_val ip * 10 ^ (0 - (X - 16)) = D).
           { replace (0 - (X - 16)) with (Z.of_nat n) by lia. exact HfpV. }
           pose proof (proj2 (strtod_dec s m e D X (digits_val ip) 0 Hv Hf HT ltac:(lia) HN)) as HR.
           specialize (HR ltac:(lia)). rewrite Z.mul_1_r in HR.
           assert (E1 : (signed s (digits_val ip) <? 0) = s) by (destruct s; unfold signed; lia).
           assert (E2 : Z.abs (signed s (digits_val ip)) = digits_val ip)
             by (destruct s; unfold signed; lia).
           rewrite E1, E2. symmetry. exact HR.
      * (* decimal *)
        cbn [frac_str]. exists (JFlt (S754_finite s m e)). split.
        -- apply nt_dec; [exact Hip|apply forallb_all_digits; exact HipA|
                          apply forallb_all_digits; exact HfpA|].
           apply (proj1 (strtod_dec s m e D X (digits_val (ip ++ c :: fp'))
                    (- Z.of_nat (List.length (c :: fp'))) Hv Hf HT ltac:(lia)
                    ltac:(replace (- Z.of_nat (List.length (c :: fp')) - (X - 16)) with (Z.of_nat n) by lia; exact HfpV))).
        -- left. reflexivity.
Qed.

Lemma show_g17_text : forall x, fixed_dbl x ->
  exists j, num_text j (show_g17 x) /\ same_num x j.
Proof.
  intros x Hx. destruct x as [s|s| |s m e]; cbn [normal_dbl small_dbl fixed_dbl] in Hx; try contradiction.
  - apply show_g17_zero.
  - destruct Hx as [Hv Hf]. change (bounded 53 1024 m e = true) in Hv.
    apply show_g17_fixed; [exact Hv|exact (fixed_normal m e Hv Hf)|exact (fixed_exp m e Hv Hf)].
Qed.
