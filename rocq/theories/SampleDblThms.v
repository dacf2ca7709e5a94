(** Inverse transform sampling on doubles (C37). *)
From Coq Require Import ZArith Reals Lra Lia Bool.
From Coq Require Import Floats.SpecFloat.
From Flocq Require Import Core BinarySingleNaN Relative.
From Verif Require Import Base Dbl EventSpec DblArith SampleDbl.
Local Open Scope R_scope.

Definition limit : R := 8192.

Lemma two_finite : finite_dbl dbl_two /\ val dbl_two = 2.
Proof.
  split; [split; reflexivity|]. unfold val, dbl_two, SF2R, F2R. cbn [Fnum Fexp cond_Zopp].
  change (bpow radix2 (-51)) with (/ IZR 2251799813685248). lra.
Qed.

Lemma sum_error s : Rabs s <= 2 * limit -> Rabs (rnd s - s) <= bpow radix2 (-40).
Proof.
  intros H. unfold limit in H. destruct (Req_dec (Rabs s) (bpow radix2 14)) as [E|N].
  - rewrite rnd_id; [rewrite Rminus_diag_eq by reflexivity; rewrite Rabs_R0; apply bpow_ge_0|].
    apply generic_format_abs_inv. rewrite E. apply generic_format_bpow. vm_compute. discriminate.
  - assert (L : Rabs s < bpow radix2 14) by (change (bpow radix2 14) with 16384 in *; lra).
    assert (E : Rabs (rnd s - s) <= / 2 * ulp radix2 fexp s) by (apply error_le_half_ulp; typeclasses eauto).
    destruct (Req_dec s 0) as [->|NZ].
    { rewrite rnd_id by apply generic_format_0. rewrite Rminus_diag_eq by reflexivity. rewrite Rabs_R0. apply bpow_ge_0. }
    rewrite ulp_neq_0 in E by exact NZ. unfold cexp in E.
    assert (M : (mag radix2 s <= 14)%Z) by (apply mag_le_bpow; assumption).
    assert (U : bpow radix2 (fexp (mag radix2 s)) <= bpow radix2 (-39)).
    { apply bpow_le. rewrite fexp_FLT. unfold FLT_exp. lia. }
    change (-39)%Z with (-40 + 1)%Z in U. rewrite bpow_plus, bpow_1 in U. change (IZR radix2) with 2 in U. lra.
Qed.

Definition slack : R := bpow radix2 (-41) + bpow radix2 (-1022).

Lemma mid_spec a b : finite_dbl a -> finite_dbl b -> val a <= val b -> - limit <= val a -> val b <= limit ->
  finite_dbl (dbl_mid a b) /\ val a <= val (dbl_mid a b) <= val b /\ Rabs (val (dbl_mid a b) - (val a + val b) / 2) <= slack.
Proof.
  intros Ha Hb L La Lb. unfold limit in *. set (s := val a + val b).
  assert (B : Rabs s <= 16384) by (apply Rabs_le; unfold s; lra).
  assert (HH : 16384 <= huge) by (change 16384 with (bpow radix2 14); apply bpow_le; lia).
  destruct (add_finite a b Ha Hb ltac:(fold s; lra)) as [FS VS]. fold s in VS.
  pose proof (sum_error s ltac:(unfold limit; lra)) as ES.
  assert (R1 : 2 * val a <= rnd s).
  { rewrite <- (rnd_id (2 * val a)) by (apply format_double, val_format; exact Ha). apply rnd_le. unfold s. lra. }
  assert (R2 : rnd s <= 2 * val b).
  { rewrite <- (rnd_id (2 * val b)) by (apply format_double, val_format; exact Hb). apply rnd_le. unfold s. lra. }
  destruct two_finite as [F2 V2].
  destruct (div_finite (SFadd 53 1024 a b) dbl_two FS F2) as [FM VM].
  { rewrite V2. lra. }
  { rewrite V2, VS. apply Rabs_le. lra. }
  rewrite V2, VS in VM. change (SFdiv 53 1024 (SFadd 53 1024 a b) dbl_two) with (dbl_mid a b) in *.
  split; [exact FM|]. rewrite VM. split; [split|].
  - rewrite <- (rnd_id (val a)) by (apply val_format; exact Ha). apply rnd_le. lra.
  - rewrite <- (rnd_id (val b)) by (apply val_format; exact Hb). apply rnd_le. lra.
  - pose proof (rnd_half (rnd s) ltac:(apply generic_format_round; typeclasses eauto)) as EH.
    unfold slack. change (-41)%Z with (-40 + -1)%Z. rewrite bpow_plus. change (bpow radix2 (-1)) with (/ IZR 2).
    apply Rabs_le. apply Rabs_le_inv in ES. apply Rabs_le_inv in EH. lra.
Qed.

Lemma sub_spec a b : finite_dbl a -> finite_dbl b -> val a <= val b -> - limit <= val a -> val b <= limit ->
  finite_dbl (SFsub 53 1024 b a) /\ val (SFsub 53 1024 b a) = rnd (val b - val a).
Proof.
  intros Ha Hb L La Lb. unfold limit in *. apply sub_finite; try assumption.
  assert (HH : 16384 <= huge) by (change 16384 with (bpow radix2 14); apply bpow_le; lia). apply Rabs_le. lra.
Qed.

Lemma slack_small : 99 / 10 ^ 14 - 2 * slack >= bpow radix2 (-44).
Proof.
  unfold slack. assert (T : bpow radix2 (-1022) <= bpow radix2 (-50)) by (apply bpow_le; lia).
  change (bpow radix2 (-50)) with (/ IZR 1125899906842624) in T. change (bpow radix2 (-41)) with (/ IZR 2199023255552).
  change (bpow radix2 (-44)) with (/ IZR 17592186044416). lra.
Qed.

Section Loop.
  Variables (F : spec_float -> spec_float) (norm prob tol : spec_float).
  Hypothesis Htol : finite_dbl tol.

  Lemma bisect_stops n a b : 0 <= val tol - 2 * slack -> finite_dbl a -> finite_dbl b -> val a <= val b -> - limit <= val a -> val b <= limit ->
    val b - val a <= (val tol - 2 * slack) * 2 ^ n + 2 * slack -> exists x, dbl_bisect F norm prob tol a b (S n) = Ok x.
  Proof.
    intros HT. revert a b. induction n as [|n IH]; intros a b Ha Hb L La Lb W.
    - cbn [dbl_bisect]. destruct (SFltb tol (SFsub 53 1024 b a)) eqn:E; [|eexists; reflexivity]. exfalso.
      destruct (sub_spec a b) as [FD VD]; try assumption. apply ltb_finite in E; try assumption. rewrite VD in E.
      cbn [pow] in W. assert (Q : rnd (val b - val a) <= rnd (val tol)) by (apply rnd_le; lra).
      rewrite (rnd_id (val tol)) in Q by (apply val_format; assumption). lra.
    - rewrite <- (Nat.add_1_r n) in W. rewrite pow_add in W.
      cbn [dbl_bisect]. destruct (SFltb tol _); [|eexists; reflexivity]. cbv zeta.
      destruct (mid_spec a b) as (FM & BM & EM); try assumption. apply Rabs_le_inv in EM.
      destruct (SFeqb _ _); [eexists; reflexivity|]. destruct (SFltb prob _); apply IH; try assumption; lra.
  Qed.

  Lemma bisect_bracket lo hi fuel a b x : finite_dbl a -> finite_dbl b -> val lo <= val a -> val a <= val b -> val b <= val hi -> - limit <= val a -> val b <= limit ->
    (a = lo \/ (SFeqb (SFdiv 53 1024 (F a) norm) prob = false /\ SFltb prob (SFdiv 53 1024 (F a) norm) = false)) ->
    (b = hi \/ SFltb prob (SFdiv 53 1024 (F b) norm) = true) ->
    dbl_bisect F norm prob tol a b fuel = Ok x ->
    finite_dbl x /\ val lo <= val x <= val hi /\
    (SFeqb (SFdiv 53 1024 (F x) norm) prob = true \/
     exists a' b', finite_dbl a' /\ finite_dbl b' /\ val lo <= val a' <= val x /\ val x <= val b' <= val hi /\ rnd (val b' - val a') <= val tol /\
      (a' = lo \/ (SFeqb (SFdiv 53 1024 (F a') norm) prob = false /\ SFltb prob (SFdiv 53 1024 (F a') norm) = false)) /\
      (b' = hi \/ SFltb prob (SFdiv 53 1024 (F b') norm) = true)).
  Proof.
    revert a b. induction fuel as [|fuel IH]; intros a b Ha Hb L1 L L2 La Lb Ba Bb H; [discriminate|].
    cbn [dbl_bisect] in H. destruct (mid_spec a b) as (FM & BM & EM); try assumption.
    destruct (SFltb tol (SFsub 53 1024 b a)) eqn:E.
    - cbv zeta in H. destruct (SFeqb (SFdiv 53 1024 (F (dbl_mid a b)) norm) prob) eqn:EQ.
      { injection H as <-. split; [exact FM|]. split; [lra|]. left. exact EQ. }
      destruct (SFltb prob (SFdiv 53 1024 (F (dbl_mid a b)) norm)) eqn:EL; apply IH in H; try assumption; try lra; try (right; (split || idtac); assumption).
    - injection H as <-. split; [exact FM|]. split; [lra|]. right. exists a, b.
      destruct (sub_spec a b) as [FD VD]; try assumption.
      assert (rnd (val b - val a) <= val tol).
      { rewrite <- VD. apply Rnot_lt_le. intros C. apply ltb_finite in C; [congruence|assumption|assumption]. }
      split; [exact Ha|]. split; [exact Hb|]. split; [lra|]. split; [lra|]. split; [assumption|]. split; assumption.
  Qed.
End Loop.

(** With doubles the sampling ends too, whatever the function, the draw and the interval, as
    long as the interval lies within 8192 (MeV) of zero, in at most 59 turns of the loop: for
    every tolerance of at least 0.99e-12 (the default is 1e-12). *)
Theorem C37_double_ends F lo hi tol prob : finite_dbl lo -> finite_dbl hi -> finite_dbl tol ->
  -8192 <= val lo -> val lo <= val hi -> val hi <= 8192 -> 99 / 10 ^ 14 <= val tol ->
  exists x, dbl_inverse F lo hi tol prob 59 = Ok x.
Proof.
  intros Hl Hh Ht L1 L2 L3 HT. unfold dbl_inverse. destruct (SFeqb prob _); [eexists; reflexivity|]. destruct (SFeqb prob _); [eexists; reflexivity|].
  pose proof slack_small as SS. pose proof (bpow_gt_0 radix2 (-44)) as P.
  apply (bisect_stops F (F hi) prob tol Ht 58); try assumption; try (unfold limit; lra).
  assert (G : 0 <= 2 * slack).
  { unfold slack. pose proof (bpow_ge_0 radix2 (-41)). pose proof (bpow_ge_0 radix2 (-1022)). lra. }
  assert (Q : bpow radix2 (-44) * 2 ^ 58 = 16384).
  { change (bpow radix2 (-44)) with (/ IZR 17592186044416). lra. }
  assert (bpow radix2 (-44) * 2 ^ 58 <= (val tol - 2 * slack) * 2 ^ 58) by (apply Rmult_le_compat_r; [apply pow_le; lra|lra]).
  lra.
Qed.
Print Assumptions C37_double_ends.

(** What it returns is a double in the interval: an end for the draws 0 and 1; otherwise a point where
    the normalised function equals the draw, or one between two doubles at most the tolerance apart, up to rounding of their difference,
    at the lower of which (unless it is the lower end) the normalised function does not reach the draw, while at the upper (unless
    it is the upper end) it exceeds it. *)
Theorem C37_double_bracket F lo hi tol prob fuel x : finite_dbl lo -> finite_dbl hi -> finite_dbl tol ->
  -8192 <= val lo -> val lo <= val hi -> val hi <= 8192 -> 99 / 10 ^ 14 <= val tol ->
  dbl_inverse F lo hi tol prob fuel = Ok x ->
  let share y := SFdiv 53 1024 (F y) (F hi) in
  finite_dbl x /\ val lo <= val x <= val hi /\
  (SFeqb prob (S754_zero false) = true -> x = lo) /\ (SFeqb prob (S754_finite false 4503599627370496 (-52)) = true -> x = hi) /\
  (SFeqb prob (S754_zero false) = false -> SFeqb prob (S754_finite false 4503599627370496 (-52)) = false ->
     SFeqb (share x) prob = true \/
     exists a b, finite_dbl a /\ finite_dbl b /\ val lo <= val a <= val x /\ val x <= val b <= val hi /\
       (val b - val a) * (1 - / 2 ^ 53) <= val tol /\
       (a = lo \/ (SFeqb (share a) prob = false /\ SFltb prob (share a) = false)) /\
       (b = hi \/ SFltb prob (share b) = true)).
Proof.
  intros Hl Hh Ht L1 L2 L3 HT H share. unfold dbl_inverse in H.
  destruct (SFeqb prob (S754_zero false)) eqn:E0.
  { injection H as <-. split; [exact Hl|]. split; [lra|]. split; [reflexivity|]. split; [|discriminate].
    intros E1. exfalso. destruct prob as [s|s| |s m e]; try discriminate; destruct s; discriminate. }
  destruct (SFeqb prob dbl_one) eqn:E1.
  { injection H as <-. split; [exact Hh|]. split; [lra|]. split; [discriminate|]. split; [reflexivity|].
    intros _ C. unfold dbl_one in E1. congruence. }
  apply (bisect_bracket F (F hi) prob tol Ht lo hi) in H; try assumption; try (unfold limit; lra); try (left; reflexivity).
  destruct H as (H1 & H2 & H3). split; [exact H1|]. split; [exact H2|]. split; [discriminate|].
  split; [intros C; unfold dbl_one in E1; congruence|]. intros _ _. destruct H3 as [H3|(a & b & A1 & A2 & A3 & A4 & A5 & A6)]; [left; exact H3|right].
  exists a, b. repeat (split; [assumption|]). split; [|exact A6].
  set (z := val b - val a) in *. assert (Hz : 0 <= z) by (unfold z; lra).
  assert (P53 : / 2 ^ 53 = bpow radix2 (-53)) by (change (bpow radix2 (-53)) with (/ IZR 9007199254740992); lra).
  assert (B53 : 0 < bpow radix2 (-53) <= / 2) by (change (bpow radix2 (-53)) with (/ IZR 9007199254740992); lra).
  rewrite P53. destruct (Rle_or_lt (bpow radix2 (-1022)) z) as [Lz|Lz].
  - assert (RE : Rabs (rnd z - z) <= / 2 * bpow radix2 (-53 + 1) * Rabs z).
    { apply (relative_error_N_FLT radix2 (-1074) 53 eq_refl (fun n => negb (Z.even n))). rewrite Rabs_pos_eq by exact Hz. exact Lz. }
    rewrite bpow_plus, bpow_1, (Rabs_pos_eq z Hz) in RE. change (IZR radix2) with 2 in RE. apply Rabs_le_inv in RE. lra.
  - assert (bpow radix2 (-1022) <= bpow radix2 (-50)) by (apply bpow_le; lia). change (bpow radix2 (-50)) with (/ IZR 1125899906842624) in *.
    assert (z * bpow radix2 (-53) >= 0) by (apply Rle_ge, Rmult_le_pos; lra). lra.
Qed.
Print Assumptions C37_double_bracket.

(** The default tolerance, 1e-12 (Generator.hh 101 and 110). *)
Definition dbl_tol : spec_float := S754_finite false 4951760157141521 (-92).
Definition d8192 : spec_float := S754_finite false 4503599627370496 (-39).
Definition d_half : spec_float := S754_finite false 4503599627370496 (-53).

(** Non-vacuity: the identity on [0, 8192], the draw one half and the default tolerance. *)
Example C37_double_case : finite_dbl (S754_zero false) /\ finite_dbl d8192 /\ finite_dbl dbl_tol /\
  (-8192 <= val (S754_zero false) /\ val (S754_zero false) <= val d8192 /\ val d8192 <= 8192 /\ 99 / 10 ^ 14 <= val dbl_tol) /\
  dbl_inverse (fun x => x) (S754_zero false) d8192 dbl_tol d_half 2 = Ok (S754_finite false 4503599627370496 (-40)) /\
  dbl_inverse (fun x => x) (S754_zero false) d8192 dbl_tol (S754_finite false 6004799503160661 (-54)) 59 =
    Ok (S754_finite false 6004799503160661 (-41)).
Proof.
  split; [split; reflexivity|]. split; [split; reflexivity|]. split; [split; reflexivity|].
  split; [|split; vm_compute; reflexivity].
  assert (V : val d8192 = 8192).
  { unfold val, d8192, SF2R, F2R. cbn [Fnum Fexp cond_Zopp]. change (bpow radix2 (-39)) with (/ IZR 549755813888). lra. }
  assert (V0 : val (S754_zero false) = 0) by reflexivity.
  assert (VT : val dbl_tol = 4951760157141521 * / IZR 4951760157141521099596496896).
  { unfold val, dbl_tol, SF2R, F2R. cbn [Fnum Fexp cond_Zopp]. change (bpow radix2 (-92)) with (/ IZR 4951760157141521099596496896). reflexivity. }
  rewrite V, V0, VT. repeat split; lra.
Qed.

(** Beyond 8192 the loop can run for ever with the default tolerance: neighbouring doubles
    are further apart than the tolerance there. Here all the weight of the distribution lies just above 8192. *)
Definition d16384 : spec_float := S754_finite false 4503599627370496 (-38).
Definition step_cdf (x : spec_float) : spec_float := if SFleb x d8192 then S754_zero false else dbl_one.

Definition share8192 (m : spec_float) : spec_float := SFdiv 53 1024 (step_cdf m) dbl_one.
Fixpoint walk (n : nat) (a b : spec_float) : option (spec_float * spec_float) :=
  match n with
  | O => Some (a, b)
  | S k => let m := dbl_mid a b in
           if SFltb dbl_tol (SFsub 53 1024 b a) && negb (SFeqb (share8192 m) d_half) then
             if SFltb d_half (share8192 m) then walk k a m else walk k m b
           else None
  end.

Lemma walk_bisect n a b a' b' : walk n a b = Some (a', b') ->
  (forall k, dbl_bisect step_cdf dbl_one d_half dbl_tol a b (n + k) = dbl_bisect step_cdf dbl_one d_half dbl_tol a' b' k) /\
  (forall k, (k <= n)%nat -> dbl_bisect step_cdf dbl_one d_half dbl_tol a b k = Er NoFuel).
Proof.
  revert a b. induction n as [|n IH]; intros a b H.
  - cbn [walk] in H. injection H as -> ->. split; [reflexivity|]. intros k Hk. replace k with O by lia. reflexivity.
  - cbn [walk] in H. cbv zeta in H. destruct (SFltb dbl_tol _) eqn:E1; [|discriminate]. cbn [andb] in H.
    destruct (SFeqb _ d_half) eqn:E2; [discriminate|]. cbn [negb] in H. unfold share8192 in *.
    split.
    + intros k. cbn [Nat.add dbl_bisect]. rewrite E1. cbv zeta. rewrite E2. destruct (SFltb d_half _); apply (IH _ _ H).
    + intros [|k] Hk; [reflexivity|]. cbn [dbl_bisect]. rewrite E1. cbv zeta. rewrite E2. destruct (SFltb d_half _); apply (IH _ _ H); lia.
Qed.

Theorem C37_double_loop_refuted : forall fuel,
  dbl_inverse step_cdf (S754_zero false) d16384 dbl_tol d_half fuel = Er NoFuel.
Proof.
  set (d1 := S754_finite false 4503599627370497 (-39)).
  assert (H53 : walk 53 (S754_zero false) d16384 = Some (d8192, d1)) by (vm_compute; reflexivity).
  assert (Hfix : forall k, dbl_bisect step_cdf dbl_one d_half dbl_tol d8192 d1 k = Er NoFuel).
  { assert (H1 : walk 1 d8192 d1 = Some (d8192, d1)) by (vm_compute; reflexivity).
    induction k as [|k IH]; [reflexivity|]. rewrite <- IH. apply (proj1 (walk_bisect _ _ _ _ _ H1) k). }
  intros fuel. assert (E : dbl_inverse step_cdf (S754_zero false) d16384 dbl_tol d_half fuel =
    dbl_bisect step_cdf dbl_one d_half dbl_tol (S754_zero false) d16384 fuel).
  { unfold dbl_inverse. assert (N : step_cdf d16384 = dbl_one) by (vm_compute; reflexivity). rewrite N.
    assert (N0 : SFeqb d_half (S754_zero false) = false) by (vm_compute; reflexivity). rewrite N0.
    assert (N1 : SFeqb d_half dbl_one = false) by (vm_compute; reflexivity). rewrite N1. reflexivity. }
  rewrite E. destruct (walk_bisect _ _ _ _ _ H53) as [W1 W2]. destruct (Compare_dec.le_lt_dec fuel 53) as [L|L]; [apply W2; exact L|].
  replace fuel with (53 + (fuel - 53))%nat by lia. rewrite W1. apply Hfix.
Qed.
Print Assumptions C37_double_loop_refuted.
