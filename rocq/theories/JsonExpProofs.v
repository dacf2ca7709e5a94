(** Printed doubles below 1e-4: the exponent form. *)
From Coq Require Import List Ascii String ZArith Bool Lia Reals Lra.
From Coq Require Import Floats.SpecFloat.
From Flocq Require Import Core BinarySingleNaN Relative.
From Verif Require Import Base Dbl DigitsProofs DblProofs Json JsonSpec JsonProofs JsonNumProofs.
Import ListNotations.
Local Open Scope Z_scope.

(** Magnitude of a double. *)
Definition dmag (x : spec_float) : R :=
  match x with S754_finite _ m e => (IZR (Zpos m) * bpow radix2 e)%R | _ => 0%R end.

Lemma rnd_pos_lt : forall x, (0 <= x)%R -> (0 <= rnd x)%R.
Proof.
  intros x Hx. replace 0%R with (rnd 0) by (apply round_0; apply valid_rnd_N).
  apply round_le; [apply FLT_exp_valid; unfold Prec_gt_0; lia|apply valid_rnd_N|exact Hx].
Qed.

(** rnd64 of a positive value that is neither too small nor too large. *)
Lemma rnd64_finite : forall s n d, 0 < n -> 0 < d ->
  (bpow radix2 (-1022) <= Qr n d)%R -> (Qr n d <= bpow radix2 1000)%R ->
  exists m e, rnd64 s n d = S754_finite s m e /\ bounded 53 1024 m e = true /\
    2 ^ 52 <= Zpos m /\ dmag (S754_finite s m e) = rnd (Qr n d).
Proof.
  intros s n d Hn Hd H1 H2.
  assert (HF : Valid_exp fexp64) by (apply FLT_exp_valid; unfold Prec_gt_0; lia).
  assert (Hg : forall k, -1074 <= k -> generic_format radix2 fexp64 (bpow radix2 k)).
  { intros k Hk. apply generic_format_FLT_bpow; [unfold Prec_gt_0; lia|lia]. }
  assert (R1 : (bpow radix2 (-1022) <= rnd (Qr n d))%R).
  { apply round_ge_generic; [exact HF|apply valid_rnd_N|apply Hg; lia|exact H1]. }
  assert (R2 : (rnd (Qr n d) <= bpow radix2 1000)%R).
  { apply round_le_generic; [exact HF|apply valid_rnd_N|apply Hg; lia|exact H2]. }
  destruct (rnd64_correct s n d ltac:(lia) Hd) as (C1 & C2 & C3).
  { apply Rle_lt_trans with (1 := R2). apply bpow_lt. lia. }
  pose proof (rnd64_valid s n d Hd) as V.
  pose proof (bpow_gt_0 radix2 (-1022)) as Hb0.
  destruct (rnd64 s n d) as [t|t| |t m e]; try discriminate.
  - exfalso. cbn in C1. destruct s; cbn in C1; lra.
  - cbn [sign_SF] in C3. subst t. exists m, e. split; [reflexivity|].
    change (bounded 53 1024 m e = true) in V. split; [exact V|].
    rewrite SF2R_finite in C1.
    assert (C1' : (IZR (Z.pos m) * bpow radix2 e)%R = rnd (Qr n d)) by (destruct s; cbn in C1; lra).
    split; [|exact C1'].
    destruct (bounded_bounds m e V) as (B1 & B2 & B3).
    destruct (Z.eq_dec e (-1074)) as [->|He]; [|auto].
    apply Z.nlt_ge. intros Hlt.
    assert (IZR (Z.pos m) * bpow radix2 (-1074) < bpow radix2 52 * bpow radix2 (-1074))%R.
    { apply Rmult_lt_compat_r; [apply bpow_gt_0|].
      change (bpow radix2 52) with (IZR (2 ^ 52)). apply IZR_lt. exact Hlt. }
    rewrite <- bpow_plus in H. change (52 + -1074) with (-1022) in H. lra.
Qed.

Lemma Qr_mul : forall m e m' e',
  Qr (dnum m e * dnum m' e') (dden e * dden e') =
  (IZR (Zpos m) * bpow radix2 e * (IZR (Zpos m') * bpow radix2 e'))%R.
Proof.
  intros. rewrite <- !Qr_dbl. unfold Qr. rewrite !mult_IZR. field.
  pose proof (dden_pos e). pose proof (dden_pos e').
  split; apply not_eq_sym, Rlt_not_eq, IZR_lt; assumption.
Qed.

Lemma rnd_rel : forall x, (bpow radix2 (-1022) <= x)%R ->
  (Rabs (rnd x - x) <= bpow radix2 (-53) * x)%R.
Proof.
  intros x Hx. pose proof (bpow_gt_0 radix2 (-1022)).
  pose proof (relative_error_N_FLT radix2 (-1074) 53 ltac:(lia) (fun x => negb (Z.even x)) x) as H1.
  rewrite (Rabs_pos_eq x) in H1 by lra.
  apply Rle_trans with (/ 2 * bpow radix2 (-53 + 1) * x)%R; [apply H1; exact Hx|].
  right. rewrite bpow_plus. cbn [bpow]. change (IZR (Z.pow_pos radix2 1)) with 2%R. field.
  apply IZR_neq. discriminate.
Qed.

Lemma bpow10_range : forall X, -323 <= X -> X < 0 -> (0 < bpow radix10 X <= 1)%R.
Proof.
  intros X H1 H2. split; [apply bpow_gt_0|]. change 1%R with (bpow radix10 0). apply bpow_le. lia.
Qed.

Lemma four_roundings : forall u, (0 < u <= / 1000000)%R ->
  (1 - 4 * u <= (1 - / 2 * u) * ((1 - u) * (1 - u)) * (1 - u))%R /\
  ((1 + / 2 * u) * ((1 + u) * (1 + u)) * (1 + u) <= 1 + 4 * u)%R.
Proof.
  intros u Hu. split.
  - assert (A : (1 - 2 * u <= (1 - u) * (1 - u))%R) by nra.
    assert (B : (1 - 3 * u <= (1 - u) * (1 - u) * (1 - u))%R) by nra.
    rewrite Rmult_assoc. set (w := ((1 - u) * (1 - u) * (1 - u))%R) in *. clearbody w. nra.
  - assert (A : ((1 + u) * (1 + u) <= 1 + 2 * u + u * / 1000000)%R) by nra.
    assert (B : ((1 + u) * (1 + u) * (1 + u) <= 1 + 3 * u + u * / 100000)%R) by nra.
    rewrite Rmult_assoc. set (w := ((1 + u) * (1 + u) * (1 + u))%R) in *. clearbody w. nra.
Qed.

(** The exponent text read back. v = N * 10^k is the printed mantissa. *)
Lemma exp_value_near : forall s m e D X N k n,
  bounded 53 1024 m e = true ->
  dden e <= 10 ^ 300 * dnum m e ->
  to_dec 17 (dnum m e) (dden e) = (D, X) -> X < 0 ->
  0 <= n -> N * 10 ^ n = D -> k = n - 16 ->
  exists mv ev, dec_to_dbl s N k = S754_finite s mv ev /\ 2 ^ 52 <= Zpos mv /\
    bounded 53 1024 mv ev = true /\
    near_dbl (S754_finite s m e) (dbl_mul (S754_finite s mv ev) (dbl_pow10 X)).
Proof.
  intros s m e D X N k n Hb Hsm HT HX Hn HN ->.
  pose proof (to_dec_spec 17 (dnum m e) (dden e) ltac:(lia) (dnum_pos m e) (dden_pos e)) as HS.
  rewrite HT in HS. destruct HS as [[HD1 HD2] HA]. change (17 - 1) with 16 in HD1.
  change (1 - 17) with (-16) in HA. replace (X - 17 + 1) with (X - 16) in HA by lia.
  pose proof (Z.pow_pos_nonneg 10 n ltac:(lia) Hn) as Hp.
  assert (HN0 : 0 < N) by (apply (proj1 (Z.mul_pos_cancel_r N _ Hp)); lia).
  set (x := Qr (dnum m e) (dden e)) in *.
  assert (Hx0 : (bpow radix10 (-300) <= x)%R).
  { replace (bpow radix10 (-300)) with (Qr 1 (10 ^ 300)).
    - apply Qr_le; [reflexivity|apply dden_pos|lia].
    - unfold Qr, bpow. change (Z.pow_pos radix10 300) with (10 ^ 300). unfold Rdiv. lra. }
  set (v := (IZR N * bpow radix10 (n - 16))%R).
  assert (Hv : v = (IZR D * bpow radix10 (-16))%R).
  { unfold v. rewrite <- HN, mult_IZR. change 10 with (radix_val radix10).
    rewrite IZR_Zpower by exact Hn. rewrite Rmult_assoc, <- bpow_plus. do 2 f_equal; lia. }
  assert (Hv1 : (1 <= v <= 10)%R).
  { rewrite Hv. pose proof (bpow_gt_0 radix10 (-16)) as Hb16.
    assert (E16 : (IZR (10 ^ 16) * bpow radix10 (-16) = 1)%R).
    { change 10 with (radix_val radix10). rewrite IZR_Zpower, <- bpow_plus by lia. reflexivity. }
    split.
    - rewrite <- E16. apply Rmult_le_compat_r; [lra|]. apply IZR_le. exact HD1.
    - replace 10%R with (IZR (10 ^ 17) * bpow radix10 (-16))%R.
      + apply Rmult_le_compat_r; [lra|]. apply IZR_le. lia.
      + replace (10 ^ 17) with (10 * 10 ^ 16) by reflexivity. rewrite mult_IZR, Rmult_assoc, E16. lra. }
  set (p := bpow radix10 X).
  assert (Hvp : (v * p = IZR D * bpow radix10 (X - 16))%R).
  { rewrite Hv. unfold p. rewrite Rmult_assoc, <- bpow_plus. do 2 f_equal. lia. }
  rewrite <- Hvp in HA.
  assert (E16 : (bpow radix10 (-16) <= bpow radix2 (-53))%R).
  { unfold bpow. change (Z.pow_pos radix10 16) with (10 ^ 16). change (Z.pow_pos radix2 53) with (2 ^ 53).
    apply Rinv_le; [apply IZR_lt; reflexivity|]. apply IZR_le. vm_compute. discriminate. }
  set (u := bpow radix2 (-53)) in *.
  assert (Hu : (0 < u <= / 1000000)%R).
  { split; [apply bpow_gt_0|]. unfold u, bpow. change (Z.pow_pos radix2 53) with (2 ^ 53).
    apply Rinv_le; [lra|]. apply IZR_le. vm_compute. discriminate. }
  pose proof (bpow_gt_0 radix10 (-300)) as Hb300.
  assert (Hx1 : (0 < x)%R) by lra.
  assert (HA2 : (Rabs (v * p - x) <= / 2 * u * x)%R).
  { apply Rle_trans with (1 := HA).
    rewrite (Rmult_comm x), <- Rmult_assoc. apply Rmult_le_compat_r; [lra|]. lra. }
  assert (Hp0 : (0 < p)%R) by apply bpow_gt_0.
  (* bounds of p *)
  assert (Hvp2 : (x * (1 - u) <= v * p)%R).
  { apply Rabs_le_inv in HA2. nra. }
  assert (HpL : (bpow radix10 (-302) <= p)%R).
  { assert (E : (bpow radix10 (-300) = 100 * bpow radix10 (-302))%R).
    { change 100%R with (bpow radix10 2). rewrite <- bpow_plus. reflexivity. }
    nra. }
  assert (Hmin : (bpow radix2 (-1022) * 1000 <= bpow radix10 (-302))%R).
  { unfold bpow. change (Z.pow_pos radix10 302) with (10 ^ 302). change (Z.pow_pos radix2 1022) with (2 ^ 1022).
    assert (HH : (IZR (10 ^ 302) * 1000 <= IZR (2 ^ 1022))%R).
    { rewrite <- mult_IZR. apply IZR_le. vm_compute. discriminate. }
    assert (K1 : (0 < IZR (10 ^ 302))%R) by (apply IZR_lt; reflexivity).
    assert (K2 : (0 < IZR (2 ^ 1022))%R) by (apply IZR_lt; reflexivity).
    apply (Rmult_le_reg_r (IZR (2 ^ 1022) * IZR (10 ^ 302))); [nra|].
    replace (/ IZR (2 ^ 1022) * 1000 * (IZR (2 ^ 1022) * IZR (10 ^ 302)))%R
      with (IZR (10 ^ 302) * 1000)%R by (field; lra).
    replace (/ IZR (10 ^ 302) * (IZR (2 ^ 1022) * IZR (10 ^ 302)))%R with (IZR (2 ^ 1022)) by (field; lra).
    exact HH. }
  assert (HpU : (p <= 1)%R).
  { unfold p. change 1%R with (bpow radix10 0). apply bpow_le. lia. }
  pose proof (bpow_gt_0 radix2 (-1022)) as Hb1022.
  assert (Hbig : (100 <= bpow radix2 1000)%R).
  { apply Rle_trans with (bpow radix2 7); [change (bpow radix2 7) with 128%R; lra|apply bpow_le; lia]. }
  assert (Hmin1 : (bpow radix2 (-1022) <= 1)%R).
  { change 1%R with (bpow radix2 0). apply bpow_le. lia. }
  (* the mantissa *)
  destruct (rnd64_finite s (scale_num 10 N (- (n - 16))) (scale_den 10 1 (- (n - 16))))
    as (mv & ev & EV & BV & NV & MV).
  { apply scale_num_pos; lia. } { apply scale_den_pos; lia. }
  { rewrite Qr_dec. fold v. lra. } { rewrite Qr_dec. fold v. lra. }
  rewrite Qr_dec in MV. fold v in MV. cbn [dmag] in MV.
  (* the power of ten *)
  destruct (rnd64_finite false (scale_num 10 1 (- X)) (scale_den 10 1 (- X)))
    as (mp & ep & EP & BP & NP & MP).
  { apply scale_num_pos; lia. } { apply scale_den_pos; lia. }
  { rewrite Qr_dec, Rmult_1_l. fold p. lra. } { rewrite Qr_dec, Rmult_1_l. fold p. lra. }
  rewrite Qr_dec, Rmult_1_l in MP. fold p in MP. cbn [dmag] in MP.
  pose proof (rnd_rel v ltac:(lra)) as Rv. pose proof (rnd_rel p ltac:(lra)) as Rp. fold u in Rv, Rp.
  apply Rabs_le_inv in Rv, Rp.
  set (v' := rnd v) in *. set (p' := rnd p) in *.
  exists mv, ev. split; [exact EV|]. split; [exact NV|]. split; [exact BV|].
  unfold dbl_pow10, dec_to_dbl. rewrite EP. cbn [dbl_mul]. rewrite xorb_false_r.
  assert (HQ : Qr (dnum mv ev * dnum mp ep) (dden ev * dden ep) = (v' * p')%R)
    by (rewrite Qr_mul, MV, MP; reflexivity).
  assert (HvpL : (v * (1 - u) * (p * (1 - u)) <= v' * p' <= v * (1 + u) * (p * (1 + u)))%R).
  { split; apply Rmult_le_compat; nra. }
  assert (HL : (bpow radix2 (-1022) <= v' * p')%R).
  { apply Rle_trans with (2 := proj1 HvpL). nra. }
  assert (HU : (v' * p' <= bpow radix2 1000)%R).
  { apply Rle_trans with (1 := proj2 HvpL). apply Rle_trans with (2 := Hbig).
    assert (v * (1 + u) <= 11)%R by nra. assert (p * (1 + u) <= 2)%R by nra.
    apply Rle_trans with (11 * 2)%R; [apply Rmult_le_compat; nra|lra]. }
  destruct (rnd64_finite s (dnum mv ev * dnum mp ep) (dden ev * dden ep))
    as (my & ey & EY & BY & NY & MY).
  { apply Z.mul_pos_pos; apply dnum_pos. } { apply Z.mul_pos_pos; apply dden_pos. }
  { rewrite HQ. exact HL. } { rewrite HQ. exact HU. }
  rewrite EY. cbn [near_dbl]. split; [reflexivity|].
  rewrite HQ in MY. cbn [dmag] in MY.
  pose proof (rnd_rel (v' * p')%R HL) as Ry. fold u in Ry. apply Rabs_le_inv in Ry, HA2.
  set (y := rnd (v' * p')) in *.
  assert (Hfin : (Rabs (y - x) <= 4 * u * x)%R).
  { assert (HP1 : (x * (1 - / 2 * u) <= v * p <= x * (1 + / 2 * u))%R) by (split; nra).
    assert (HvpE : forall c d, (v * c * (p * d) = v * p * (c * d))%R) by (intros; ring).
    rewrite !HvpE in HvpL.
    assert (Hvp0 : (0 < v * p)%R) by nra.
    assert (A1 : (x * (1 - / 2 * u) * ((1 - u) * (1 - u)) <= v' * p')%R) by nra.
    assert (A2 : (v' * p' <= x * (1 + / 2 * u) * ((1 + u) * (1 + u)))%R) by nra.
    assert (A3 : (v' * p' * (1 - u) <= y <= v' * p' * (1 + u))%R) by (split; nra).
    assert (B1 : (x * (1 - / 2 * u) * ((1 - u) * (1 - u)) * (1 - u) <= y)%R)
      by (apply Rle_trans with (2 := proj1 A3); apply Rmult_le_compat_r; [lra|exact A1]).
    assert (B2 : (y <= x * (1 + / 2 * u) * ((1 + u) * (1 + u)) * (1 + u))%R)
      by (apply Rle_trans with (1 := proj2 A3); apply Rmult_le_compat_r; [lra|exact A2]).
    destruct (four_roundings u Hu) as [C1 C2].
    clear - B1 B2 C1 C2 Hx1.
    set (f := ((1 - / 2 * u) * ((1 - u) * (1 - u)) * (1 - u))%R) in *.
    set (g := ((1 + / 2 * u) * ((1 + u) * (1 + u)) * (1 + u))%R) in *.
    replace (x * (1 - / 2 * u) * ((1 - u) * (1 - u)) * (1 - u))%R with (x * f)%R in B1 by (unfold f; ring).
    replace (x * (1 + / 2 * u) * ((1 + u) * (1 + u)) * (1 + u))%R with (x * g)%R in B2 by (unfold g; ring).
    clearbody f g. apply Rabs_le. split; nra. }
  assert (Ex : x = Qr (dnum m e) (dden e)) by reflexivity.
  assert (Ey : y = Qr (dnum my ey) (dden ey)) by (rewrite Qr_dbl; symmetry; exact MY).
  rewrite Ex, Ey in Hfin.
  pose proof (dden_pos e) as Hde. pose proof (dden_pos ey) as Hdy.
  apply le_IZR. rewrite mult_IZR, abs_IZR, minus_IZR, !mult_IZR.
  assert (K1 : (0 < IZR (dden e))%R) by (apply IZR_lt; exact Hde).
  assert (K2 : (0 < IZR (dden ey))%R) by (apply IZR_lt; exact Hdy).
  assert (E4 : (4 * u = / IZR (2 ^ 51))%R).
  { unfold u. change 4%R with (bpow radix2 2). rewrite <- bpow_plus. reflexivity. }
  rewrite E4 in Hfin. unfold Qr in Hfin.
  assert (K3 : (0 < IZR (2 ^ 51))%R) by (apply IZR_lt; reflexivity).
  replace (IZR (dnum my ey) / IZR (dden ey) - IZR (dnum m e) / IZR (dden e))%R
    with ((IZR (dnum my ey) * IZR (dden e) - IZR (dnum m e) * IZR (dden ey)) / (IZR (dden ey) * IZR (dden e)))%R
    in Hfin by (field; lra).
  unfold Rdiv in Hfin at 1. rewrite Rabs_mult, (Rabs_pos_eq (/ _)) in Hfin
    by (left; apply Rinv_0_lt_compat; nra).
  apply (Rmult_le_compat_r (IZR (2 ^ 51) * (IZR (dden ey) * IZR (dden e)))) in Hfin; [|nra].
  set (A := Rabs (IZR (dnum my ey) * IZR (dden e) - IZR (dnum m e) * IZR (dden ey))) in *.
  replace (A * / (IZR (dden ey) * IZR (dden e)) * (IZR (2 ^ 51) * (IZR (dden ey) * IZR (dden e))))%R
    with (IZR (2 ^ 51) * A)%R in Hfin by (field; lra).
  replace (/ IZR (2 ^ 51) * (IZR (dnum m e) / IZR (dden e)) * (IZR (2 ^ 51) * (IZR (dden ey) * IZR (dden e))))%R
    with (IZR (dnum m e) * IZR (dden ey))%R in Hfin by (field; lra).
  exact Hfin.
Qed.

(** The mantissa alone. *)
Lemma exp_mant : forall s N n, 0 <= n -> 10 ^ 16 <= N * 10 ^ n < 10 ^ 17 ->
  exists mv ev, dec_to_dbl s N (n - 16) = S754_finite s mv ev /\ 2 ^ 52 <= Zpos mv.
Proof.
  intros s N n Hn HD.
  pose proof (Z.pow_pos_nonneg 10 n ltac:(lia) Hn) as Hp.
  assert (HN0 : 0 < N) by nia.
  assert (Hv : (IZR N * bpow radix10 (n - 16) = IZR (N * 10 ^ n) * bpow radix10 (-16))%R).
  { rewrite mult_IZR. change 10 with (radix_val radix10).
    rewrite IZR_Zpower by exact Hn. rewrite Rmult_assoc, <- bpow_plus. do 2 f_equal; lia. }
  assert (Hv1 : (1 <= IZR N * bpow radix10 (n - 16) <= 10)%R).
  { rewrite Hv. pose proof (bpow_gt_0 radix10 (-16)) as Hb16.
    assert (E16 : (IZR (10 ^ 16) * bpow radix10 (-16) = 1)%R).
    { change 10 with (radix_val radix10). rewrite IZR_Zpower, <- bpow_plus by lia. reflexivity. }
    split.
    - rewrite <- E16. apply Rmult_le_compat_r; [lra|]. apply IZR_le. apply HD.
    - replace 10%R with (IZR (10 ^ 17) * bpow radix10 (-16))%R.
      + apply Rmult_le_compat_r; [lra|]. apply IZR_le. lia.
      + replace (10 ^ 17) with (10 * 10 ^ 16) by reflexivity. rewrite mult_IZR, Rmult_assoc, E16. lra. }
  destruct (rnd64_finite s (scale_num 10 N (- (n - 16))) (scale_den 10 1 (- (n - 16))))
    as (mv & ev & EV & BV & NV & MV).
  { apply scale_num_pos; lia. } { apply scale_den_pos; lia. }
  { rewrite Qr_dec. apply Rle_trans with 1%R; [|lra]. change 1%R with (bpow radix2 0). apply bpow_le. lia. }
  { rewrite Qr_dec. apply Rle_trans with 16%R; [lra|]. change 16%R with (bpow radix2 4). apply bpow_le. lia. }
  exists mv, ev. split; [exact EV|exact NV].
Qed.

Lemma exp_lower : forall m e, bounded 53 1024 m e = true ->
  -324 <= snd (to_dec 17 (dnum m e) (dden e)).
Proof.
  intros m e Hb. destruct (bounded_bounds m e Hb) as (B1 & B2 & B3).
  destruct (flog10_spec (dnum m e) (dden e) (dnum_pos m e) (dden_pos e)) as [F1 F2].
  assert (H : (bpow radix10 (-324) <= Qr (dnum m e) (dden e))%R).
  { rewrite Qr_dbl. apply Rle_trans with (1 * bpow radix2 (-1074))%R.
    - rewrite Rmult_1_l. unfold bpow.
      change (Z.pow_pos radix10 324) with (10 ^ 324). change (Z.pow_pos radix2 1074) with (2 ^ 1074).
      apply Rinv_le; [apply IZR_lt; reflexivity|]. apply IZR_le. vm_compute. discriminate.
    - apply Rmult_le_compat; [lra|apply bpow_ge_0|apply IZR_le; lia|apply bpow_le; lia]. }
  assert (-324 < flog10 (dnum m e) (dden e) + 1) by (apply (lt_bpow radix10); lra).
  unfold to_dec. destruct (_ =? 10 ^ 17); cbn [snd]; lia.
Qed.

(** The text of a double printed with a negative exponent. *)
Lemma show_g17_exp : forall s m e, bounded 53 1024 m e = true ->
  snd (to_dec 17 (dnum m e) (dden e)) < -4 ->
  exists y, num_text (JFlt y) (show_g17 (S754_finite s m e)) /\
    (dden e <= 10 ^ 300 * dnum m e -> near_dbl (S754_finite s m e) y).
Proof.
  intros s m e Hv HX. pose proof (exp_lower m e Hv) as HX2. cbn [show_g17].
  pose proof (to_dec_spec 17 (dnum m e) (dden e) ltac:(lia) (dnum_pos m e) (dden_pos e)) as HS.
  destruct (to_dec 17 (dnum m e) (dden e)) as [D X] eqn:HT. cbn [snd] in HX, HX2.
  destruct HS as [[HD1 HD2] _]. change (17 - 1) with 16 in HD1.
  pose proof (digits_length D 17 ltac:(lia) (conj HD1 HD2)) as HL.
  pose proof (digits_val_digits D ltac:(lia)) as HV.
  pose proof (digits_all D ltac:(lia)) as HA.
  replace ((X <? -4) || (17 <=? X)) with true by lia.
  destruct (digits D) as [|c r]; [discriminate|]. cbn [firstn skipn].
  cbn [List.length] in HL. cbn [forallb] in HA. apply andb_prop in HA as [Hc HA].
  destruct (strip0_spec r) as (n & Hl & _).
  pose proof (strip0_digits r HA) as HfA. set (fp := strip0 r) in *.
  assert (HfpL : Z.of_nat (List.length fp) + Z.of_nat n = 16).
  { rewrite Hl, app_length, repeat_length in HL. lia. }
  assert (HfpV : digits_val (c :: fp) * 10 ^ Z.of_nat n = D).
  { rewrite <- HV, Hl. change (c :: fp ++ repeat "0"%char n) with ((c :: fp) ++ repeat "0"%char n).
    rewrite (digits_val_app2 (c :: fp)), digits_val_zeros, repeat_length. lia. }
  set (es := if Z.abs X <? 10 then "0"%char :: digits (Z.abs X) else digits (Z.abs X)).
  assert (HesV : digits_val es = - X).
  { unfold es. destruct (Z.abs X <? 10).
    - change ("0"%char :: digits (Z.abs X)) with (b "0" ++ digits (Z.abs X)).
      rewrite digits_val_app2, digits_val_digits by lia. change (digits_val (b "0")) with 0. lia.
    - rewrite digits_val_digits by lia. lia. }
  assert (HesA : all_digits es).
  { apply forallb_all_digits. pose proof (digits_all (Z.abs X) ltac:(lia)) as HdX.
    unfold es. destruct (Z.abs X <? 10); [cbn [forallb]; rewrite HdX; reflexivity|exact HdX]. }
  assert (HesN : es <> []).
  { intros E. rewrite E in HesV. cbn in HesV. lia. }
  assert (Eexp : show_exp X = sign_str true ++ es).
  { unfold show_exp. replace (X <? 0) with true by lia. reflexivity. }
  rewrite Eexp.
  assert (HsX : signed true (digits_val es) = X) by (cbn [signed]; lia).
  assert (HlX : is_long (signed true (digits_val es))).
  { rewrite HsX. unfold is_long, long_min, long_max. lia. }
  destruct (exp_mant s (digits_val (c :: fp)) (Z.of_nat n) ltac:(lia)) as (mv & ev & EM & NM).
  { rewrite HfpV. split; assumption. }
  assert (HnearM : dden e <= 10 ^ 300 * dnum m e ->
     near_dbl (S754_finite s m e) (dbl_mul (S754_finite s mv ev) (dbl_pow10 X))).
  { intros Hd. destruct (exp_value_near s m e D X (digits_val (c :: fp)) (Z.of_nat n - 16) (Z.of_nat n)
      Hv Hd HT ltac:(lia) ltac:(lia) HfpV eq_refl) as (mv' & ev' & E1 & _ & _ & E2).
    rewrite EM in E1. injection E1 as <- <-. exact E2. }
  destruct fp as [|d fp'] eqn:Efp.
  - cbn [frac_str app]. change (List.length (@nil ascii)) with O in HfpL.
    assert (Hn16 : Z.of_nat n = 16) by lia. rewrite Hn16 in *.
    unfold digits_val in HfpV. cbn [fold_left] in HfpV.
    assert (Hdv : 0 < digits_val [c] < 10).
    { unfold digits_val. cbn [fold_left]. lia. }
    exists (dbl_mul (S754_finite s mv ev) (dbl_pow10 X)). split; [|exact HnearM].
    replace (S754_finite s mv ev) with (dbl_of_int (signed s (digits_val [c]))).
    + rewrite <- HsX. change (sign_str s ++ c :: "e"%char :: sign_str true ++ es)
        with (sign_str s ++ [c] ++ "e"%char :: sign_str true ++ es).
      apply nt_int_exp; [discriminate| | |left; reflexivity|exact HesN|exact HesA|exact HlX].
      * intros c0 [<-|[]]. exact Hc.
      * unfold is_long, long_min, long_max. destruct s; cbn [signed]; lia.
    + rewrite <- EM. change (16 - 16) with 0. unfold dbl_of_int, dec_to_dbl.
      change (scale_den 10 1 (- 0)) with 1. unfold scale_num. cbn [Z.leb Z.compare Z.opp].
      rewrite Z.pow_0_r, Z.mul_1_r.
      replace (signed s (digits_val [c]) <? 0) with s by (destruct s; unfold signed; lia).
      replace (Z.abs (signed s (digits_val [c]))) with (digits_val [c]) by (destruct s; unfold signed; lia).
      reflexivity.
  - cbn [frac_str]. rewrite <- Efp in *.
    exists (dbl_mul (S754_finite s mv ev) (dbl_pow10 X)). split; [|exact HnearM].
    rewrite <- HsX at 1.
    replace (sign_str s ++ [c] ++ ("."%char :: fp) ++ "e"%char :: sign_str true ++ es)
      with (sign_str s ++ [c] ++ "."%char :: fp ++ "e"%char :: sign_str true ++ es) by reflexivity.
    apply nt_dec_exp; [discriminate| | | |left; reflexivity|exact HesN|exact HesA|exact HlX].
    + intros c0 [<-|[]]. exact Hc.
    + apply forallb_all_digits. exact HfA.
    + unfold strtod_val. unfold dec_to_dbl in EM.
      change ([c] ++ fp) with (c :: fp).
      replace (- Z.of_nat (List.length fp)) with (Z.of_nat n - 16) by lia. rewrite EM.
      replace (Zpos mv <? 2 ^ 52) with false by lia. reflexivity.
Qed.

(** A double below 1e17 whose decimal exponent is at least -4 is normal. *)
Lemma exp_normal : forall m e, bounded 53 1024 m e = true ->
  -4 <= snd (to_dec 17 (dnum m e) (dden e)) -> 2 ^ 52 <= Zpos m.
Proof.
  intros m e Hb HX. destruct (bounded_bounds m e Hb) as (H1 & H2 & H3).
  destruct (Z.eq_dec e (-1074)) as [->|He]; [|auto]. exfalso.
  destruct (flog10_spec (dnum m (-1074)) (dden (-1074)) (dnum_pos m _) (dden_pos _)) as [F1 F2].
  assert (HF : -5 <= flog10 (dnum m (-1074)) (dden (-1074))).
  { unfold to_dec in HX. destruct (_ =? 10 ^ 17); cbn [snd] in HX; lia. }
  rewrite Qr_dbl in F1.
  assert (bpow radix10 (-5) <= bpow radix10 (flog10 (dnum m (-1074)) (dden (-1074))))%R by (apply bpow_le; lia).
  assert (IZR (Z.pos m) * bpow radix2 (-1074) <= bpow radix2 53 * bpow radix2 (-1074))%R.
  { apply Rmult_le_compat_r; [apply bpow_ge_0|]. change (bpow radix2 53) with (IZR (2 ^ 53)).
    apply IZR_le. lia. }
  rewrite <- bpow_plus in H0. change (53 + -1074) with (-1021) in H0.
  assert (bpow radix2 (-1021) < bpow radix10 (-5))%R; [|lra].
  unfold bpow. change (Z.pow_pos radix10 5) with 100000. change (Z.pow_pos radix2 1021) with (2 ^ 1021).
  apply Rinv_lt_contravar; [|apply IZR_lt; reflexivity].
  rewrite <- mult_IZR. apply IZR_lt. reflexivity.
Qed.

(** The decimal exponent of a double below 1e17. *)
Lemma exp_upper : forall m e, bounded 53 1024 m e = true -> dnum m e < 10 ^ 17 * dden e ->
  snd (to_dec 17 (dnum m e) (dden e)) < 17.
Proof.
  intros m e Hb H. destruct (Z_le_gt_dec (dden e) (10000 * dnum m e)) as [L|L].
  - apply (fixed_exp m e Hb). split; assumption.
  - destruct (flog10_spec (dnum m e) (dden e) (dnum_pos m e) (dden_pos e)) as [F1 F2].
    assert (Qr (dnum m e) (dden e) < bpow radix10 0)%R.
    { replace (bpow radix10 0) with (Qr 1 1) by (unfold Qr, Rdiv; rewrite Rinv_1, Rmult_1_r; reflexivity).
      pose proof (dnum_pos m e). apply Qr_lt; [apply dden_pos|lia|lia]. }
    assert (flog10 (dnum m e) (dden e) < 0) by (apply (lt_bpow radix10); lra).
    unfold to_dec. destruct (_ =? 10 ^ 17); cbn [snd]; lia.
Qed.

Lemma near_refl : forall s m e, near_dbl (S754_finite s m e) (S754_finite s m e).
Proof.
  intros. cbn [near_dbl]. split; [reflexivity|]. rewrite Z.sub_diag.
  cbn [Z.abs]. rewrite Z.mul_0_r. pose proof (dnum_pos m e). pose proof (dden_pos e).
  apply Z.mul_nonneg_nonneg; lia.
Qed.

Lemma show_g17_near : forall x, normal_dbl x ->
  exists j, num_text j (show_g17 x) /\ near_num x j.
Proof.
  intros x Hx. destruct x as [s|s| |s m e]; cbn [normal_dbl small_dbl fixed_dbl] in Hx; try contradiction.
  - destruct (show_g17_zero s) as (j & H1 & H2). exists j. split; [exact H1|].
    destruct j as [| |z|y| | |]; try contradiction; destruct H2 as [H2|[_ (t & H2)]]; cbn [near_num];
      [rewrite <- H2|rewrite H2|rewrite <- H2|rewrite H2]; exact I.
  - destruct Hx as (Hv & Hl & Hu). change (bounded 53 1024 m e = true) in Hv.
    destruct (Z_lt_ge_dec (snd (to_dec 17 (dnum m e) (dden e))) (-4)) as [L|L].
    + destruct (show_g17_exp s m e Hv L) as (y & H1 & H2). exists (JFlt y). split; [exact H1|].
      exact (H2 Hl).
    + assert (L' : -4 <= snd (to_dec 17 (dnum m e) (dden e))) by (clear - L; lia).
      destruct (show_g17_fixed s m e Hv (exp_normal m e Hv L') (conj L' (exp_upper m e Hv Hu))) as (j & H1 & H2).
      exists j. split; [exact H1|].
      destruct j as [| |z|y| | |]; try contradiction; destruct H2 as [H2|[(t & H2) _]]; try discriminate;
        cbn [near_num]; rewrite <- H2; apply near_refl.
Qed.

Lemma show_g17_some : forall x, small_dbl x ->
  exists j, num_text j (show_g17 x) /\ some_num x j.
Proof.
  intros x Hx. destruct x as [s|s| |s m e]; cbn [normal_dbl small_dbl fixed_dbl] in Hx; try contradiction.
  - destruct (show_g17_zero s) as (j & H1 & H2). exists j. split; [exact H1|].
    destruct j; try contradiction; exact I.
  - destruct Hx as (Hv & Hu). change (bounded 53 1024 m e = true) in Hv.
    destruct (Z_lt_ge_dec (snd (to_dec 17 (dnum m e) (dden e))) (-4)) as [L|L].
    + destruct (show_g17_exp s m e Hv L) as (y & H1 & _). exists (JFlt y). split; [exact H1|exact I].
    + assert (L' : -4 <= snd (to_dec 17 (dnum m e) (dden e))) by (clear - L; lia).
      destruct (show_g17_fixed s m e Hv (exp_normal m e Hv L') (conj L' (exp_upper m e Hv Hu))) as (j & H1 & H2).
      exists j. split; [exact H1|]. destruct j; try contradiction; exact I.
Qed.
