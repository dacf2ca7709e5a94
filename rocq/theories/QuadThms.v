(** Property C61: numerical integration. *)
From Coq Require Import List Reals Bool Arith Lia Lra Ranalysis.
From Verif Require Import Base Sample SampleProofs Quad.
Import ListNotations.
Open Scope R_scope.

(** ** Finite sums *)

Fixpoint sumn (f : nat -> R) (n : nat) : R := match n with O => 0 | S m => sumn f m + f m end.

Lemma sumn_ext f g n : (forall i, (i < n)%nat -> f i = g i) -> sumn f n = sumn g n.
Proof. induction n as [|n IH]; intros H; cbn [sumn]; [reflexivity|]. rewrite IH, (H n); [reflexivity|lia|]. intros i Hi. apply H. lia. Qed.
Lemma sumn_plus f g n : sumn (fun i => f i + g i) n = sumn f n + sumn g n.
Proof. induction n as [|n IH]; cbn [sumn]; lra. Qed.
Lemma sumn_scal c f n : sumn (fun i => c * f i) n = c * sumn f n.
Proof. induction n as [|n IH]; cbn [sumn]; lra. Qed.
Lemma sumn_zero f n : (forall i, (i < n)%nat -> f i = 0) -> sumn f n = 0.
Proof. intros H. rewrite (sumn_ext f (fun i => 0 * 0) n); [rewrite sumn_scal; lra|]. intros i Hi. rewrite (H i Hi). lra. Qed.
Lemma sumn_le f g n : (forall i, (i < n)%nat -> f i <= g i) -> sumn f n <= sumn g n.
Proof. induction n as [|n IH]; intros H; cbn [sumn]; [lra|]. assert (f n <= g n) by (apply H; lia). assert (sumn f n <= sumn g n) by (apply IH; intros; apply H; lia). lra. Qed.
Lemma sumn_swap (f : nat -> nat -> R) n m : sumn (fun i => sumn (f i) m) n = sumn (fun j => sumn (fun i => f i j) n) m.
Proof.
  induction n as [|n IH]; cbn [sumn]; [symmetry; apply sumn_zero; reflexivity|]. rewrite IH, <- sumn_plus. reflexivity.
Qed.
Lemma sumn_first f n : sumn f (S n) = f 0%nat + sumn (fun i => f (S i)) n.
Proof. induction n as [|n IH]; [cbn [sumn]; lra|]. change (sumn f (S (S n))) with (sumn f (S n) + f (S n)). rewrite IH. cbn [sumn]. lra. Qed.
Lemma sumn_single f n j : (j < n)%nat -> (forall i, (i < n)%nat -> i <> j -> f i = 0) -> sumn f n = f j.
Proof.
  induction n as [|n IH]; intros L H; [lia|]. cbn [sumn]. destruct (Nat.eq_dec j n) as [->|N].
  - rewrite sumn_zero; [lra|]. intros i Hi. apply H; lia.
  - rewrite IH; [rewrite (H n); [lra|lia|lia]|lia|]. intros i Hi Hj. apply H; lia.
Qed.

Lemma sumR_app l m : sumR (l ++ m) = sumR l + sumR m.
Proof. induction l as [|a l IH]; cbn [app sumR]; lra. Qed.
Lemma sumR_seq f s n : sumR (map f (seq s n)) = sumn (fun i => f (s + i)%nat) n.
Proof. induction n as [|n IH]; [reflexivity|]. rewrite seq_S, map_app, sumR_app, IH. cbn [map sumR sumn]. lra. Qed.

(** The two end terms count half. *)
Definition ends (N n : nat) : R := if (Nat.eqb n 0 || Nat.eqb n N)%bool then 1 / 2 else 1.

Lemma sum_ends N f : (1 <= N)%nat -> sumn (fun n => ends N n * f n) (S N) = (f 0%nat + f N) / 2 + sumn (fun n => f (S n)) (N - 1).
Proof.
  intros HN. destruct N as [|M]; [lia|]. change (sumn (fun n => ends (S M) n * f n) (S (S M))) with (sumn (fun n => ends (S M) n * f n) (S M) + ends (S M) (S M) * f (S M)).
  rewrite sumn_first. replace (S M - 1)%nat with M by lia.
  rewrite (sumn_ext (fun i => ends (S M) (S i) * f (S i)) (fun i => f (S i)) M).
  - unfold ends. rewrite !Nat.eqb_refl, orb_true_r. cbn [orb]. lra.
  - intros i Hi. unfold ends. destruct (Nat.eqb_spec (S i) (S M)); [lia|]. cbn [Nat.eqb orb]. lra.
Qed.

(** ** Weights *)

Definition ck (N n k : nat) : R := cos (INR n * INR k * PI / INR N).

Lemma weight_sum N n : weight N n = 2 / INR N * sumn (fun k => ends N k * (ck N n k / (1 - (2 * INR k) ^ 2))) (S N).
Proof.
  unfold weight. rewrite sumR_seq. rewrite (sumn_ext _ (fun k => 2 * (ends N k * (ck N n k / (1 - (2 * INR k) ^ 2))))).
  - rewrite sumn_scal. unfold Rdiv. lra.
  - intros k _. cbn [Nat.add]. unfold weight_piece, ends. fold (ck N n k). cbv zeta. destruct (Nat.eqb k 0); cbn [orb]; [lra|]. destruct (Nat.eqb k N); lra.
Qed.

Lemma odd_square k : (1 <= k)%nat -> 3 <= (2 * INR k) ^ 2 - 1.
Proof. intros H. apply le_INR in H. change (INR 1) with 1 in H. nra. Qed.

Lemma denominator k : 1 - (2 * INR k) ^ 2 <> 0.
Proof.
  destruct k as [|k]; [cbn [INR]; lra|]. pose proof (odd_square (S k) ltac:(lia)). lra.
Qed.

(** 2/3 + 2/15 + ... telescopes. *)
Lemma telescope n : sumn (fun k => 2 / ((2 * INR (S k)) ^ 2 - 1)) n = 1 - 1 / (2 * INR n + 1).
Proof.
  induction n as [|n IH]; [cbn [sumn INR]; lra|]. cbn [sumn]. rewrite IH, !S_INR. pose proof (pos_INR n). field. split; [|split]; nra.
Qed.

(** Every weight is positive. *)
Lemma weight_positive N n : (1 <= N)%nat -> 0 < weight N n.
Proof.
  intros HN. assert (PN : 1 <= INR N) by (apply (le_INR 1); exact HN). rewrite weight_sum. apply Rmult_lt_0_compat; [apply Rdiv_lt_0_compat; lra|].
  rewrite (sum_ends N (fun k => ck N n k / (1 - (2 * INR k) ^ 2)) HN).
  assert (C0 : ck N n 0 = 1) by (unfold ck; cbn [INR]; replace (INR n * 0 * PI / INR N) with 0 by (unfold Rdiv; lra); apply cos_0). rewrite C0. change (INR 0) with 0.
  assert (B : forall k, (1 <= k)%nat -> - (1 / ((2 * INR k) ^ 2 - 1)) <= ck N n k / (1 - (2 * INR k) ^ 2)).
  { intros k Hk. pose proof (odd_square k Hk) as O. assert (I : 0 < / ((2 * INR k) ^ 2 - 1)) by (apply Rinv_0_lt_compat; lra).
    replace (ck N n k / (1 - (2 * INR k) ^ 2)) with (- ck N n k * / ((2 * INR k) ^ 2 - 1)) by (field; split; lra).
    pose proof (COS_bound (INR n * INR k * PI / INR N)) as [_ CB]. fold (ck N n k) in CB. nra. }
  assert (S1 : - (1 - 1 / (2 * INR (N - 1) + 1)) <= 2 * sumn (fun k => ck N n (S k) / (1 - (2 * INR (S k)) ^ 2)) (N - 1)).
  { rewrite <- (telescope (N - 1)). replace (- sumn (fun k => 2 / ((2 * INR (S k)) ^ 2 - 1)) (N - 1)) with (sumn (fun k => 2 * - (1 / ((2 * INR (S k)) ^ 2 - 1))) (N - 1)).
    - rewrite <- sumn_scal. apply sumn_le. intros i Hi. pose proof (B (S i) ltac:(lia)). lra.
    - replace (- sumn (fun k => 2 / ((2 * INR (S k)) ^ 2 - 1)) (N - 1)) with (-1 * sumn (fun k => 2 / ((2 * INR (S k)) ^ 2 - 1)) (N - 1)) by lra.
      rewrite <- sumn_scal. apply sumn_ext. intros i _. unfold Rdiv. lra. }
  pose proof (B N HN) as BN. rewrite minus_INR in S1 by lia. change (INR 1) with 1 in S1.
  pose proof (odd_square N HN) as O.
  assert (K : 1 / ((2 * INR N) ^ 2 - 1) < 1 / (2 * (INR N - 1) + 1)).
  { replace ((2 * INR N) ^ 2 - 1) with ((2 * (INR N - 1) + 1) * (2 * INR N + 1)) by ring.
    assert (P : 0 < / (2 * (INR N - 1) + 1)) by (apply Rinv_0_lt_compat; lra). assert (Q : / (2 * INR N + 1) < 1) by (rewrite <- Rinv_1; apply Rinv_lt_contravar; lra).
    unfold Rdiv. rewrite Rinv_mult. nra. }
  replace (1 / (1 - (2 * 0) ^ 2)) with 1 by field. lra.
Qed.

(** ** Orthogonality of cosines *)

Lemma cos_pi_nat n : cos (INR n * PI) * cos (INR n * PI) = 1 /\ sin (INR n * PI) = 0.
Proof.
  induction n as [|n [I1 I2]]; [cbn [INR]; rewrite Rmult_0_l, cos_0, sin_0; lra|]. rewrite S_INR.
  replace ((INR n + 1) * PI) with (INR n * PI + PI) by ring. rewrite cos_plus, sin_plus, cos_PI, sin_PI, I2. split; nra.
Qed.

(** Sum of cos(n alpha) with half ends, for alpha = l pi / N. *)
Lemma cos_sum N alpha : (1 <= N)%nat -> sin (INR N * alpha) = 0 -> sin (alpha / 2) <> 0 ->
  sumn (fun n => ends N n * cos (INR n * alpha)) (S N) = 0.
Proof.
  intros HN H0 H1. rewrite (sum_ends N (fun n => cos (INR n * alpha)) HN).
  assert (T : forall m, 2 * sin (alpha / 2) * sumn (fun n => cos (INR (S n) * alpha)) m = sin (INR m * alpha + alpha / 2) - sin (alpha / 2)).
  { induction m as [|m IH]; [cbn [sumn INR]; replace (0 * alpha + alpha / 2) with (alpha / 2) by lra; lra|]. cbn [sumn]. rewrite Rmult_plus_distr_l, IH.
    rewrite S_INR. set (u := (INR m + 1) * alpha). replace (INR m * alpha + alpha / 2) with (u - alpha / 2) by (unfold u; field).
    rewrite sin_minus, sin_plus. lra. }
  specialize (T (N - 1)%nat). rewrite minus_INR in T by lia. change (INR 1) with 1 in T.
  replace ((INR N - 1) * alpha + alpha / 2) with (INR N * alpha - alpha / 2) in T by field. rewrite sin_minus, H0 in T.
  change (INR 0) with 0. rewrite Rmult_0_l, cos_0. apply (Rmult_eq_reg_l (2 * sin (alpha / 2))); [|lra]. rewrite Rmult_plus_distr_l, T. lra.
Qed.

Lemma sum_ones N : (1 <= N)%nat -> sumn (fun n => ends N n * 1) (S N) = INR N.
Proof.
  intros HN. rewrite (sum_ends N (fun _ => 1) HN).
  assert (E : forall m, sumn (fun _ => 1) m = INR m) by (induction m as [|m IH]; [reflexivity|]; cbn [sumn]; rewrite IH, S_INR; reflexivity).
  rewrite E, minus_INR by lia. change (INR 1) with 1. lra.
Qed.

Lemma sin_pi_int N m : (1 <= N)%nat -> sin (INR N * (INR m * PI / INR N)) = 0.
Proof.
  intros HN. assert (PN : 1 <= INR N) by (apply (le_INR 1); exact HN).
  replace (INR N * (INR m * PI / INR N)) with (INR m * PI) by (field; lra). apply cos_pi_nat.
Qed.

Lemma sin_half_nonzero N m : (1 <= N)%nat -> (0 < m < 2 * N)%nat -> sin (INR m * PI / INR N / 2) <> 0.
Proof.
  intros HN [H1 H2]. assert (PN : 1 <= INR N) by (apply (le_INR 1); exact HN). apply lt_INR in H1, H2. rewrite mult_INR in H2. cbn [INR] in H1. change (INR 2) with 2 in H2.
  pose proof PI_RGT_0 as HP. apply Rgt_not_eq. apply sin_gt_0.
  - apply Rdiv_lt_0_compat; [|lra]. apply Rdiv_lt_0_compat; [|lra]. apply Rmult_lt_0_compat; lra.
  - apply (Rmult_lt_reg_r (INR N * 2)); [lra|]. replace (INR m * PI / INR N / 2 * (INR N * 2)) with (INR m * PI) by (field; lra). nra.
Qed.

Definition cosum N m : R := sumn (fun n => ends N n * cos (INR n * (INR m * PI / INR N))) (S N).

Lemma cosum_zero N : (1 <= N)%nat -> cosum N 0 = INR N.
Proof.
  intros HN. unfold cosum. transitivity (sumn (fun n => ends N n * 1) (S N)); [|apply sum_ones; exact HN]. apply sumn_ext. intros i _. change (INR 0) with 0. replace (INR i * (0 * PI / INR N)) with 0 by (unfold Rdiv; ring). rewrite cos_0. reflexivity.
Qed.

Lemma cosum_mid N m : (1 <= N)%nat -> (0 < m < 2 * N)%nat -> cosum N m = 0.
Proof. intros HN Hm. apply cos_sum; [exact HN|apply sin_pi_int; exact HN|]. apply sin_half_nonzero; assumption. Qed.

Lemma cosum_full N : (1 <= N)%nat -> cosum N (2 * N) = INR N.
Proof.
  intros HN. assert (PN : 1 <= INR N) by (apply (le_INR 1); exact HN). unfold cosum. transitivity (sumn (fun n => ends N n * 1) (S N)); [|apply sum_ones; exact HN]. apply sumn_ext. intros i _. f_equal.
  rewrite mult_INR. change (INR 2) with 2. replace (INR i * (2 * INR N * PI / INR N)) with (0 + 2 * INR i * PI) by (field; lra). rewrite cos_period. apply cos_0.
Qed.

Lemma orthogonal N k j : (1 <= N)%nat -> (k <= N)%nat -> (j <= N)%nat ->
  sumn (fun n => ends N n * (ck N n k * ck N n j)) (S N) =
  if Nat.eqb k j then (if (Nat.eqb j 0 || Nat.eqb j N)%bool then INR N else INR N / 2) else 0.
Proof.
  intros HN.
  assert (G : forall k j, (j <= k)%nat -> (k <= N)%nat -> sumn (fun n => ends N n * (ck N n k * ck N n j)) (S N) = (cosum N (k - j) + cosum N (k + j)) / 2).
  { clear k j. intros k j Hkj Hk. unfold cosum. rewrite <- sumn_plus.
    rewrite (sumn_ext _ (fun n => 1 / 2 * (ends N n * cos (INR n * (INR (k - j) * PI / INR N)) + ends N n * cos (INR n * (INR (k + j) * PI / INR N))))); [rewrite sumn_scal; lra|].
    intros i _. unfold ck. rewrite minus_INR, plus_INR by exact Hkj. set (u := INR i * INR k * PI / INR N). set (v := INR i * INR j * PI / INR N).
    replace (INR i * ((INR k - INR j) * PI / INR N)) with (u - v) by (unfold u, v, Rdiv; ring).
    replace (INR i * ((INR k + INR j) * PI / INR N)) with (u + v) by (unfold u, v, Rdiv; ring). rewrite cos_minus, cos_plus. lra. }
  assert (V : forall k j, (j <= k)%nat -> (k <= N)%nat -> (cosum N (k - j) + cosum N (k + j)) / 2 = if Nat.eqb k j then (if (Nat.eqb j 0 || Nat.eqb j N)%bool then INR N else INR N / 2) else 0).
  { clear k j. intros k j Hkj Hk. destruct (Nat.eqb_spec k j) as [->|NE].
    - rewrite Nat.sub_diag, (cosum_zero N HN). destruct (Nat.eqb_spec j 0) as [->|N0]; cbn [orb]; [cbn [Nat.add]; rewrite (cosum_zero N HN); lra|].
      destruct (Nat.eqb_spec j N) as [->|N1]; [replace (N + N)%nat with (2 * N)%nat by lia; rewrite (cosum_full N HN); lra|].
      rewrite cosum_mid by lia. lra.
    - rewrite !cosum_mid by lia. lra. }
  intros Hk Hj. destruct (le_lt_dec j k) as [L|L].
  - rewrite (G k j L Hk). apply V; assumption.
  - rewrite (sumn_ext _ (fun n => ends N n * (ck N n j * ck N n k))) by (intros i _; lra). rewrite (G j k ltac:(lia) Hj), (V j k ltac:(lia) Hj).
    destruct (Nat.eqb_spec j k), (Nat.eqb_spec k j); try lia. reflexivity.
Qed.

(** ** Chebyshev polynomials *)

Fixpoint T2 (m : nat) (x : R) : R * R := match m with O => (1, x) | S k => let (a, c) := T2 k x in (c, 2 * x * c - a) end.
Definition T (m : nat) (x : R) : R := fst (T2 m x).

Lemma T_0 x : T 0 x = 1. Proof. reflexivity. Qed.
Lemma T_1 x : T 1 x = x. Proof. reflexivity. Qed.
Lemma T_SS m x : T (S (S m)) x = 2 * x * T (S m) x - T m x.
Proof. unfold T. cbn [T2]. destruct (T2 m x) as [a c]. reflexivity. Qed.

Lemma two_step (P : nat -> Prop) : P 0%nat -> P 1%nat -> (forall m, P m -> P (S m) -> P (S (S m))) -> forall m, P m.
Proof. intros H0 H1 HS m. enough (P m /\ P (S m)) by tauto. induction m as [|m [I1 I2]]; auto. Qed.

Lemma T_cos m theta : T m (cos theta) = cos (INR m * theta).
Proof.
  induction m as [| |m I1 I2] using two_step; [rewrite T_0; cbn [INR]; rewrite Rmult_0_l, cos_0; reflexivity|rewrite T_1; cbn [INR]; rewrite Rmult_1_l; reflexivity|].
  rewrite T_SS, I2, I1, !S_INR. replace ((INR m + 1 + 1) * theta) with ((INR m + 1) * theta + theta) by ring. replace (INR m * theta) with ((INR m + 1) * theta - theta) by ring.
  rewrite cos_plus, cos_minus. lra.
Qed.

Lemma T_parity m x : T (2 * m) (- x) = T (2 * m) x /\ T (S (2 * m)) (- x) = - T (S (2 * m)) x.
Proof.
  induction m as [|m [I1 I2]]; [split; [reflexivity|rewrite Nat.mul_0_r, !T_1; reflexivity]|].
  replace (2 * S m)%nat with (S (S (2 * m))) by lia. assert (E : T (S (S (2 * m))) (- x) = T (S (S (2 * m))) x) by (rewrite !T_SS, I1, I2; ring).
  split; [exact E|]. rewrite T_SS, (T_SS (S (2 * m)) x), E, I2. ring.
Qed.

(** ** The quadrature on the standard interval *)

Definition Q (N : nat) (f : R -> R) : R :=
  weight N 0 * ((f (-1) + f 1) / 2) + weight N N * f 0 + sumn (fun i => weight N (S i) * (f (offset N (S i)) + f (- offset N (S i)))) (N - 1).

Lemma num_Q N f a b : num_integrate N f a b = (b - a) / 2 * Q N (fun t => f ((b + a) / 2 + (b - a) / 2 * t)).
Proof.
  unfold num_integrate, Q. cbv zeta. f_equal. rewrite sumR_seq.
  replace ((b + a) / 2 + (b - a) / 2 * -1) with a by field. replace ((b + a) / 2 + (b - a) / 2 * 1) with b by field. replace ((b + a) / 2 + (b - a) / 2 * 0) with ((b + a) / 2) by field.
  f_equal. apply sumn_ext. intros i _. cbn [Nat.add]. do 2 f_equal. f_equal. unfold Rminus. f_equal. ring.
Qed.

Lemma Q_ext N f g : (forall t, f t = g t) -> Q N f = Q N g.
Proof. intros H. unfold Q. rewrite !H. f_equal. apply sumn_ext. intros i _. rewrite !H. reflexivity. Qed.
Lemma Q_plus N f g : Q N (fun t => f t + g t) = Q N f + Q N g.
Proof.
  unfold Q. rewrite (sumn_ext _ (fun i => weight N (S i) * (f (offset N (S i)) + f (- offset N (S i))) + weight N (S i) * (g (offset N (S i)) + g (- offset N (S i))))) by (intros i _; ring).
  rewrite sumn_plus. lra.
Qed.
Lemma Q_scal N c f : Q N (fun t => c * f t) = c * Q N f.
Proof.
  unfold Q. rewrite (sumn_ext _ (fun i => c * (weight N (S i) * (f (offset N (S i)) + f (- offset N (S i)))))) by (intros i _; ring).
  rewrite sumn_scal. lra.
Qed.

Lemma offset_cos N n : (1 <= N)%nat -> offset N n = cos (INR n * PI / (2 * INR N)).
Proof.
  intros HN. assert (PN : 1 <= INR N) by (apply (le_INR 1); exact HN). unfold offset. f_equal.
  induction n as [|n IH]; [cbn [offset_arg INR]; field; lra|]. cbn [offset_arg]. rewrite IH, S_INR. field. lra.
Qed.

Lemma Q_odd N m : Q N (T (S (2 * m))) = 0.
Proof.
  unfold Q. replace (-1) with (- (1)) by lra. destruct (T_parity m 1) as [_ E1]. rewrite E1.
  assert (E0 : T (S (2 * m)) 0 = 0) by (destruct (T_parity m 0) as [_ E]; rewrite Ropp_0 in E; lra). rewrite E0.
  rewrite sumn_zero; [lra|]. intros i _. destruct (T_parity m (offset N (S i))) as [_ E]. rewrite E. lra.
Qed.

Lemma Q_even N j : (1 <= N)%nat -> (j <= N)%nat -> Q N (T (2 * j)) = 2 / (1 - (2 * INR j) ^ 2).
Proof.
  intros HN Hj. assert (PN : 1 <= INR N) by (apply (le_INR 1); exact HN).
  assert (TV : forall n, T (2 * j) (offset N n) = ck N n j).
  { intros n. rewrite (offset_cos N n HN), T_cos. unfold ck. f_equal. rewrite mult_INR. change (INR 2) with 2. field. lra. }
  assert (E : Q N (T (2 * j)) = 2 * sumn (fun n => ends N n * (weight N n * ck N n j)) (S N)).
  { rewrite (sum_ends N (fun n => weight N n * ck N n j) HN). unfold Q. rewrite <- !TV.
    assert (O0 : offset N 0 = 1) by (rewrite (offset_cos N 0 HN); cbn [INR]; replace (0 * PI / (2 * INR N)) with 0 by (field; lra); apply cos_0).
    assert (ON : offset N N = 0) by (rewrite (offset_cos N N HN); replace (INR N * PI / (2 * INR N)) with (PI / 2) by (field; lra); apply cos_PI2).
    rewrite O0, ON. replace (-1) with (- (1)) by lra. destruct (T_parity j 1) as [E1 _]. rewrite E1.
    rewrite (sumn_ext (fun i => weight N (S i) * (T (2 * j) (offset N (S i)) + T (2 * j) (- offset N (S i)))) (fun i => 2 * (weight N (S i) * ck N (S i) j))).
    - rewrite sumn_scal. lra.
    - intros i _. destruct (T_parity j (offset N (S i))) as [E2 _]. rewrite E2, TV. ring. }
  rewrite E. clear E TV.
  assert (S1 : sumn (fun n => ends N n * (weight N n * ck N n j)) (S N) =
               2 / INR N * sumn (fun k => ends N k / (1 - (2 * INR k) ^ 2) * sumn (fun n => ends N n * (ck N n k * ck N n j)) (S N)) (S N)).
  { rewrite (sumn_ext (fun n => ends N n * (weight N n * ck N n j)) (fun n => 2 / INR N * sumn (fun k => ends N k / (1 - (2 * INR k) ^ 2) * (ends N n * (ck N n k * ck N n j))) (S N))).
    - rewrite sumn_scal. f_equal. rewrite sumn_swap. apply sumn_ext. intros k _. apply sumn_scal.
    - intros n _. rewrite weight_sum. rewrite (sumn_ext (fun k => ends N k / (1 - (2 * INR k) ^ 2) * (ends N n * (ck N n k * ck N n j)))
        (fun k => ends N n * ck N n j * (ends N k * (ck N n k / (1 - (2 * INR k) ^ 2))))); [rewrite sumn_scal; ring|].
      intros k _. unfold Rdiv. ring. }
  rewrite S1. clear S1.
  rewrite (sumn_single _ (S N) j ltac:(lia)).
  - rewrite (orthogonal N j j HN Hj Hj), Nat.eqb_refl. unfold ends. pose proof (denominator j) as D. destruct (Nat.eqb j 0 || Nat.eqb j N)%bool; field; split; lra.
  - intros k Hk NE. rewrite (orthogonal N k j HN ltac:(lia) Hj). destruct (Nat.eqb_spec k j); [contradiction|]. ring.
Qed.

(** ** Antiderivatives of Chebyshev polynomials *)

(** Second kind, and the derivative of the first kind. *)
Fixpoint V2 (m : nat) (x : R) : R * R := match m with O => (1, 2 * x) | S k => let (a, c) := V2 k x in (c, 2 * x * c - a) end.
Definition V (m : nat) (x : R) : R := fst (V2 m x).
Lemma V_SS m x : V (S (S m)) x = 2 * x * V (S m) x - V m x.
Proof. unfold V. cbn [V2]. destruct (V2 m x) as [a c]. reflexivity. Qed.

Lemma V_T m x : V (S (S m)) x - V m x = 2 * T (S (S m)) x.
Proof.
  induction m as [| |m I1 I2] using two_step.
  - rewrite V_SS, T_SS, T_0, T_1. change (V 0 x) with 1. change (V 1 x) with (2 * x). ring.
  - rewrite !V_SS, !T_SS, T_0, T_1. change (V 0 x) with 1. change (V 1 x) with (2 * x). ring.
  - rewrite (V_SS (S (S m))), (T_SS (S (S m))). replace (V (S (S m)) x) with (2 * x * V (S m) x - V m x) at 2 by (rewrite V_SS; ring). nra.
Qed.

Lemma T_deriv m x : derivable_pt_lim (T (S m)) x (INR (S m) * V m x).
Proof.
  assert (G : forall m, derivable_pt_lim (T m) x (match m with O => 0 | S k => INR (S k) * V k x end)).
  { clear m. induction m as [| |m I1 I2] using two_step.
    - apply (derivable_pt_lim_const 1).
    - replace (INR 1 * V 0 x) with 1 by (cbn [INR]; change (V 0 x) with 1; ring). apply derivable_pt_lim_id.
    - assert (D : derivable_pt_lim (fun t => 2 * t * T (S m) t - T m t) x
                   ((2 * 1 * T (S m) x + 2 * x * (INR (S m) * V m x)) - match m with O => 0 | S k => INR (S k) * V k x end)).
      { apply (derivable_pt_lim_minus (fun t => 2 * t * T (S m) t) (T m)); [|exact I1].
        apply (derivable_pt_lim_mult (fun t => 2 * t) (T (S m))); [|exact I2]. apply derivable_pt_lim_scal. apply derivable_pt_lim_id. }
      assert (EV : (2 * 1 * T (S m) x + 2 * x * (INR (S m) * V m x)) - match m with O => 0 | S k => INR (S k) * V k x end = INR (S (S m)) * V (S m) x).
      { destruct m as [|[|k]].
        - cbn [INR]. rewrite T_1. change (V 0 x) with 1. change (V 1 x) with (2 * x). ring.
        - rewrite (T_SS 0), T_0, T_1, (V_SS 0). change (V 0 x) with 1. change (V 1 x) with (2 * x). cbn [INR]. ring.
        - pose proof (V_T (S k) x) as VT. replace (T (S (S (S k))) x) with ((V (S (S (S k))) x - V (S k) x) / 2) by lra. rewrite (V_SS (S k)). rewrite !S_INR. field. }
      rewrite EV in D. intros eps Heps. destruct (D eps Heps) as [delta Hd]. exists delta. intros h Hh Hd'. rewrite !T_SS. exact (Hd h Hh Hd'). }
  exact (G (S m)).
Qed.

(** The integral of T m over [-1, 1]. *)
Definition TI (m : nat) : R := if Nat.even m then 2 / (1 - INR m ^ 2) else 0.

Lemma T_at_1 m : T m 1 = 1.
Proof. induction m as [| |m I1 I2] using two_step; [reflexivity|reflexivity|]. rewrite T_SS, I1, I2. ring. Qed.

Lemma even_cases m : exists k, m = (2 * k)%nat /\ Nat.even m = true \/ m = S (2 * k) /\ Nat.even m = false.
Proof.
  destruct (Nat.even m) eqn:E.
  - apply Nat.even_spec in E. destruct E as [k E]. exists k. left. split; [exact E|reflexivity].
  - assert (O : Nat.odd m = true) by (unfold Nat.odd; rewrite E; reflexivity). apply Nat.odd_spec in O. destruct O as [k O]. exists k. right. split; [lia|reflexivity].
Qed.

Lemma T_at_m1 m : T m (-1) = if Nat.even m then 1 else -1.
Proof.
  replace (-1) with (- (1)) by lra. destruct (even_cases m) as [k [[-> E]|[-> E]]]; rewrite E; destruct (T_parity k 1) as [P1 P2]; [rewrite P1|rewrite P2]; rewrite T_at_1; lra.
Qed.

Lemma T_anti m : exists U, (forall x, derivable_pt_lim U x (T m x)) /\ U 1 - U (-1) = TI m.
Proof.
  destruct m as [|[|m]].
  - exists (fun x => x). split; [intros x; rewrite T_0; apply derivable_pt_lim_id|]. unfold TI. cbn. lra.
  - exists (fun x => 1 / 2 * x ^ 2). split; [|unfold TI; cbn; lra]. intros x. rewrite T_1. replace x with (1 / 2 * (INR 2 * x ^ 1)) at 2 by (cbn [INR pow]; field).
    apply derivable_pt_lim_scal. apply (derivable_pt_lim_pow x 2).
  - exists (fun x => / (2 * INR (S (S (S m)))) * T (S (S (S m))) x - / (2 * INR (S m)) * T (S m) x).
    assert (P1 : INR (S m) <> 0) by (apply not_0_INR; lia). assert (P3 : INR (S (S (S m))) <> 0) by (apply not_0_INR; lia). split.
    + intros x. replace (T (S (S m)) x) with (/ (2 * INR (S (S (S m)))) * (INR (S (S (S m))) * V (S (S m)) x) - / (2 * INR (S m)) * (INR (S m) * V m x)).
      * apply (derivable_pt_lim_minus (fun x => / (2 * INR (S (S (S m)))) * T (S (S (S m))) x) (fun x => / (2 * INR (S m)) * T (S m) x)); apply derivable_pt_lim_scal; apply T_deriv.
      * pose proof (V_T m x) as VT. replace (T (S (S m)) x) with ((V (S (S m)) x - V m x) / 2) by lra. field. split; assumption.
    + rewrite !T_at_1, !T_at_m1. unfold TI. cbn [Nat.even]. destruct (even_cases m) as [k [[EM E]|[EM E]]]; rewrite E.
      * destruct m as [|m']; [cbn; field|]. cbn [Nat.even] in E |- *.
        assert (E1 : Nat.even m' = false). { rewrite <- Nat.negb_odd. destruct (Nat.odd m') eqn:O; [reflexivity|]. exfalso. destruct (even_cases m') as [q [[Q1 Q2]|[Q1 Q2]]]; [lia|]. unfold Nat.odd in O. rewrite Q2 in O. discriminate. }
        rewrite E1. rewrite !S_INR in *. pose proof (pos_INR m'). field. split; [|split]; nra.
      * destruct m as [|m']; [discriminate E|]. cbn [Nat.even] in E |- *.
        assert (E1 : Nat.even m' = true). { destruct (even_cases m') as [q [[Q1 Q2]|[Q1 Q2]]]; [exact Q2|lia]. }
        rewrite E1. lra.
Qed.

Lemma Q_T N m : (1 <= N)%nat -> (m <= 2 * N + 1)%nat -> Q N (T m) = TI m.
Proof.
  intros HN Hm. unfold TI. destruct (even_cases m) as [k [[-> E]|[-> E]]]; rewrite E.
  - rewrite Q_even by lia. rewrite mult_INR. reflexivity.
  - apply Q_odd.
Qed.

(** ** Polynomials *)

(** Value of a polynomial given by its coefficients, constant first. *)
Fixpoint poly (cs : list R) (x : R) : R := match cs with [] => 0 | c :: r => c + x * poly r x end.

(** Combinations of the first d Chebyshev polynomials. *)
Definition tcomb (cs : nat -> R) (d : nat) (x : R) : R := sumn (fun i => cs i * T i x) d.
Definition tspan (d : nat) (f : R -> R) : Prop := exists cs, forall x, f x = tcomb cs d x.

Lemma tspan_plus d f g : tspan d f -> tspan d g -> tspan d (fun x => f x + g x).
Proof. intros [c Hc] [e He]. exists (fun i => c i + e i). intros x. rewrite Hc, He. unfold tcomb. rewrite <- sumn_plus. apply sumn_ext. intros; ring. Qed.
Lemma tspan_scal d k f : tspan d f -> tspan d (fun x => k * f x).
Proof. intros [c Hc]. exists (fun i => k * c i). intros x. rewrite Hc. unfold tcomb. rewrite <- sumn_scal. apply sumn_ext. intros; ring. Qed.
Lemma tspan_ext d f g : (forall x, f x = g x) -> tspan d f -> tspan d g.
Proof. intros H [c Hc]. exists c. intros x. rewrite <- H. apply Hc. Qed.
Lemma tspan_more d f : tspan d f -> tspan (S d) f.
Proof.
  intros [c Hc]. exists (fun i => if Nat.ltb i d then c i else 0). intros x. rewrite Hc. unfold tcomb. cbn [sumn]. rewrite Nat.ltb_irrefl.
  rewrite (sumn_ext (fun i => (if Nat.ltb i d then c i else 0) * T i x) (fun i => c i * T i x)); [ring|]. intros i Hi. destruct (Nat.ltb_spec i d); [reflexivity|lia].
Qed.
Lemma tspan_T d m : (m < d)%nat -> tspan d (T m).
Proof.
  intros H. exists (fun i => if Nat.eqb i m then 1 else 0). intros x. unfold tcomb. rewrite (sumn_single _ d m H); [rewrite Nat.eqb_refl; ring|].
  intros i _ N. destruct (Nat.eqb_spec i m); [contradiction|ring].
Qed.
Lemma tspan_zero d : tspan d (fun _ => 0).
Proof. exists (fun _ => 0). intros x. unfold tcomb. symmetry. apply sumn_zero. intros; ring. Qed.
Lemma tspan_const d c : (1 <= d)%nat -> tspan d (fun _ => c).
Proof. intros H. apply (tspan_ext d (fun x => c * T 0 x)); [intros x; rewrite T_0; ring|]. apply tspan_scal, tspan_T. lia. Qed.

Lemma tspan_sum d (f : nat -> R -> R) n : (forall i, (i < n)%nat -> tspan d (f i)) -> tspan d (fun x => sumn (fun i => f i x) n).
Proof.
  induction n as [|n IH]; intros H; [apply tspan_zero|]. cbn [sumn]. apply (tspan_plus d (fun x => sumn (fun i => f i x) n) (f n)); [apply IH; intros; apply H; lia|apply H; lia].
Qed.

Lemma tspan_times_x d f : tspan d f -> tspan (S d) (fun x => x * f x).
Proof.
  intros [c Hc]. apply (tspan_ext (S d) (fun x => sumn (fun i => c i * (x * T i x)) d)).
  { intros x. rewrite Hc. unfold tcomb. rewrite <- sumn_scal. apply sumn_ext. intros; ring. }
  apply (tspan_sum (S d) (fun i x => c i * (x * T i x))). intros i Hi. apply (tspan_scal (S d) (c i) (fun x => x * T i x)).
  destruct i as [|i].
  - apply (tspan_ext (S d) (T 1)); [intros x; rewrite T_0, T_1; ring|]. apply tspan_T. lia.
  - apply (tspan_ext (S d) (fun x => 1 / 2 * T (S (S i)) x + 1 / 2 * T i x)); [intros x; rewrite T_SS; lra|].
    apply (tspan_plus (S d) (fun x => 1 / 2 * T (S (S i)) x) (fun x => 1 / 2 * T i x)); apply tspan_scal, tspan_T; lia.
Qed.

Lemma tspan_poly cs A B : tspan (length cs) (fun t => poly cs (B + A * t)).
Proof.
  induction cs as [|c r IH]; [apply tspan_zero|]. cbn [length poly].
  apply (tspan_plus (S (length r)) (fun _ => c) (fun t => (B + A * t) * poly r (B + A * t))); [apply tspan_const; lia|].
  apply (tspan_ext (S (length r)) (fun t => B * poly r (B + A * t) + A * (t * poly r (B + A * t)))); [intros; ring|].
  apply (tspan_plus (S (length r)) (fun t => B * poly r (B + A * t)) (fun t => A * (t * poly r (B + A * t)))).
  - apply (tspan_scal (S (length r)) B (fun t => poly r (B + A * t))). apply tspan_more. exact IH.
  - apply (tspan_scal (S (length r)) A (fun t => t * poly r (B + A * t))). apply (tspan_times_x (length r) (fun t => poly r (B + A * t))). exact IH.
Qed.

Lemma Q_sum N (f : nat -> R -> R) n : Q N (fun x => sumn (fun i => f i x) n) = sumn (fun i => Q N (f i)) n.
Proof.
  induction n as [|n IH]; cbn [sumn].
  - rewrite (Q_ext N _ (fun t => 0 * 0)) by (intros; ring). rewrite (Q_scal N 0 (fun _ => 0)). ring.
  - rewrite (Q_plus N (fun x => sumn (fun i => f i x) n) (f n)), IH. reflexivity.
Qed.

(** The quadrature of a combination of Chebyshev polynomials is exact. *)
Lemma tspan_exact N d f : (1 <= N)%nat -> (d <= 2 * N + 2)%nat -> tspan d f ->
  exists U, (forall x, derivable_pt_lim U x (f x)) /\ Q N f = U 1 - U (-1).
Proof.
  intros HN Hd [c Hc].
  assert (G : forall n, (n <= d)%nat -> exists U, (forall x, derivable_pt_lim U x (tcomb c n x)) /\ sumn (fun i => c i * TI i) n = U 1 - U (-1)).
  { induction n as [|n IH]; intros Hn.
    - exists (fun _ => 0). split; [intros x; apply (derivable_pt_lim_const 0)|]. cbn. lra.
    - destruct (IH ltac:(lia)) as (U & HU & EU). destruct (T_anti n) as (W & HW & EW). exists (fun x => U x + c n * W x). split.
      + intros x. apply (derivable_pt_lim_plus U (fun x => c n * W x)); [apply HU|]. apply (derivable_pt_lim_scal W). apply HW.
      + cbn [sumn]. rewrite EU, <- EW. ring. }
  destruct (G d (Nat.le_refl _)) as (U & HU & EU). exists U. split; [intros x; rewrite Hc; apply HU|].
  rewrite (Q_ext N f (fun x => sumn (fun i => c i * T i x) d)) by exact Hc. rewrite (Q_sum N (fun i x => c i * T i x)). rewrite <- EU. apply sumn_ext.
  intros i Hi. rewrite (Q_scal N (c i) (T i)), (Q_T N i HN) by lia. reflexivity.
Qed.

Lemma same_deriv (F G f : R -> R) a b : (forall x, derivable_pt_lim F x (f x)) -> (forall x, derivable_pt_lim G x (f x)) -> F b - F a = G b - G a.
Proof.
  intros HF HG. assert (D : forall x, derivable_pt_lim (fun t => F t - G t) x 0).
  { intros x. replace 0 with (f x - f x) by ring. apply (derivable_pt_lim_minus F G); [apply HF|apply HG]. }
  assert (pr : derivable (fun t => F t - G t)) by (intros x; exists 0; apply D).
  assert (C : constant (fun t => F t - G t)). { apply (null_derivative_1 _ pr). intros x. apply derive_pt_eq_0. apply D. }
  specialize (C a b). cbv beta in C. lra.
Qed.

(** ** Theorems *)

(** Every sampling point lies in the interval, so only the values of the function there
    matter. *)
Lemma offset_range N n : -1 <= offset N n <= 1.
Proof. unfold offset. pose proof (COS_bound (offset_arg N n)). lra. Qed.

Theorem C61_inside N f g a b : a <= b -> (forall x, a <= x <= b -> f x = g x) -> num_integrate N f a b = num_integrate N g a b.
Proof.
  intros Hab H. rewrite !num_Q. f_equal. unfold Q.
  assert (P : forall t, -1 <= t <= 1 -> f ((b + a) / 2 + (b - a) / 2 * t) = g ((b + a) / 2 + (b - a) / 2 * t)) by (intros t Ht; apply H; nra).
  rewrite !P by lra. f_equal. apply sumn_ext. intros i _. pose proof (offset_range N (S i)). rewrite !P by lra. reflexivity.
Qed.
Print Assumptions C61_inside.

(** Linear in the function; changes sign with the limits; vanishes on an empty interval. *)
Theorem C61_linear N f g c d a b :
  num_integrate N (fun x => c * f x + d * g x) a b = c * num_integrate N f a b + d * num_integrate N g a b /\
  num_integrate N f b a = - num_integrate N f a b /\ num_integrate N f a a = 0.
Proof.
  rewrite !num_Q. split; [|split].
  - rewrite (Q_plus N (fun t => c * f ((b + a) / 2 + (b - a) / 2 * t)) (fun t => d * g ((b + a) / 2 + (b - a) / 2 * t))).
    rewrite (Q_scal N c (fun t => f ((b + a) / 2 + (b - a) / 2 * t))), (Q_scal N d (fun t => g ((b + a) / 2 + (b - a) / 2 * t))). ring.
  - replace ((a - b) / 2) with (- ((b - a) / 2)) by field. rewrite Ropp_mult_distr_l_reverse. do 2 f_equal. replace ((a + b) / 2) with ((b + a) / 2) by field.
    set (A := (b - a) / 2). set (B := (b + a) / 2). unfold Q. replace (B + - A * -1) with (B + A * 1) by ring. replace (B + - A * 1) with (B + A * -1) by ring. replace (B + - A * 0) with (B + A * 0) by ring.
    f_equal; [lra|]. apply sumn_ext. intros i _. replace (B + - A * offset N (S i)) with (B + A * - offset N (S i)) by ring. replace (B + - A * - offset N (S i)) with (B + A * offset N (S i)) by ring. ring.
  - unfold Rminus. rewrite Rplus_opp_r. unfold Rdiv. ring.
Qed.
Print Assumptions C61_linear.

(** Larger functions have larger integrals; in particular the integral of a non-negative
    function is not negative, and it is positive if the function is positive inside. *)
Theorem C61_monotone N f g a b : (1 <= N)%nat -> a <= b -> (forall x, a <= x <= b -> f x <= g x) ->
  num_integrate N f a b <= num_integrate N g a b /\
  (a < b -> (forall x, a < x < b -> f x < g x) -> num_integrate N f a b < num_integrate N g a b).
Proof.
  intros HN Hab H. rewrite !num_Q.
  assert (P : forall t, -1 <= t <= 1 -> f ((b + a) / 2 + (b - a) / 2 * t) <= g ((b + a) / 2 + (b - a) / 2 * t)) by (intros t Ht; apply H; nra).
  pose proof (weight_positive N 0 HN) as W0. pose proof (weight_positive N N HN) as WN.
  assert (S : sumn (fun i => weight N (S i) * (f ((b + a) / 2 + (b - a) / 2 * offset N (S i)) + f ((b + a) / 2 + (b - a) / 2 * - offset N (S i)))) (N - 1) <=
              sumn (fun i => weight N (S i) * (g ((b + a) / 2 + (b - a) / 2 * offset N (S i)) + g ((b + a) / 2 + (b - a) / 2 * - offset N (S i)))) (N - 1)).
  { apply sumn_le. intros i _. pose proof (offset_range N (Datatypes.S i)) as O. apply Rmult_le_compat_l; [apply Rlt_le, weight_positive; exact HN|]. apply Rplus_le_compat; apply P; lra. }
  pose proof (P (-1) ltac:(lra)) as P1. pose proof (P 1 ltac:(lra)) as P2. pose proof (P 0 ltac:(lra)) as P3. unfold Q.
  assert (E1 : weight N 0 * ((f ((b + a) / 2 + (b - a) / 2 * -1) + f ((b + a) / 2 + (b - a) / 2 * 1)) / 2) <= weight N 0 * ((g ((b + a) / 2 + (b - a) / 2 * -1) + g ((b + a) / 2 + (b - a) / 2 * 1)) / 2))
    by (apply Rmult_le_compat_l; lra).
  assert (E2 : weight N N * f ((b + a) / 2 + (b - a) / 2 * 0) <= weight N N * g ((b + a) / 2 + (b - a) / 2 * 0)) by (apply Rmult_le_compat_l; lra).
  split; [apply Rmult_le_compat_l; lra|]. intros Hlt HS. apply Rmult_lt_compat_l; [lra|].
  assert (E3 : weight N N * f ((b + a) / 2 + (b - a) / 2 * 0) < weight N N * g ((b + a) / 2 + (b - a) / 2 * 0)) by (apply Rmult_lt_compat_l; [exact WN|]; apply HS; lra).
  lra.
Qed.
Print Assumptions C61_monotone.

(** Exact for polynomials up to degree 2 N + 1 (that is, with at most 2 N + 2 coefficients):
    the result is the change of any antiderivative, and the Riemann integral. *)
Theorem C61_exact N cs a b : (1 <= N)%nat -> (length cs <= 2 * N + 2)%nat ->
  (forall F, (forall x, derivable_pt_lim F x (poly cs x)) -> num_integrate N (poly cs) a b = F b - F a) /\
  (a <= b -> forall pr : Riemann_integrable (poly cs) a b, num_integrate N (poly cs) a b = RiemannInt pr).
Proof.
  intros HN HL.
  assert (G : forall F, (forall x, derivable_pt_lim F x (poly cs x)) -> num_integrate N (poly cs) a b = F b - F a).
  { intros F HF. rewrite num_Q. set (A := (b - a) / 2). set (B := (b + a) / 2).
    destruct (tspan_exact N (length cs) (fun t => poly cs (B + A * t)) HN HL (tspan_poly cs A B)) as (U & HU & EQ). rewrite EQ.
    assert (D : (fun t => A * U t) 1 - (fun t => A * U t) (-1) = (fun t => F (B + A * t)) 1 - (fun t => F (B + A * t)) (-1)).
    { apply (same_deriv (fun t => A * U t) (fun t => F (B + A * t)) (fun t => A * poly cs (B + A * t))).
      - intros x. apply (derivable_pt_lim_scal U). apply HU.
      - intros x. replace (A * poly cs (B + A * x)) with (poly cs (B + A * x) * (0 + A * 1)) by ring.
        apply (derivable_pt_lim_comp (fun t => B + A * t) F); [|apply HF]. apply (derivable_pt_lim_plus (fun _ => B) (fun t => A * t)); [apply derivable_pt_lim_const|].
        apply (derivable_pt_lim_scal (fun t => t)). apply derivable_pt_lim_id. }
    cbv beta in D. replace (B + A * 1) with b in D by (unfold A, B; field). replace (B + A * -1) with a in D by (unfold A, B; field). lra. }
  split; [exact G|]. intros Hab pr.
  assert (AD : forall cs, exists F, forall x, derivable_pt_lim F x (poly cs x)).
  { clear. intros cs. 
    assert (X : forall cs k, exists F, forall x, derivable_pt_lim F x (x ^ k * poly cs x)).
    { clear. induction cs as [|c r IH]; intros k.
      - exists (fun _ => 0). intros x. cbn [poly]. rewrite Rmult_0_r. apply (derivable_pt_lim_const 0).
      - destruct (IH (S k)) as [F HF]. exists (fun x => c / INR (S k) * x ^ (S k) + F x). intros x. cbn [poly].
        replace (x ^ k * (c + x * poly r x)) with (c / INR (S k) * (INR (S k) * x ^ k) + x ^ S k * poly r x).
        + apply (derivable_pt_lim_plus (fun x => c / INR (S k) * x ^ S k) F); [|apply HF]. apply (derivable_pt_lim_scal (fun x => x ^ S k)). apply (derivable_pt_lim_pow x (S k)).
        + cbn [pow]. field. apply not_0_INR. lia. }
    destruct (X cs 0%nat) as [F HF]. exists F. intros x. specialize (HF x). rewrite pow_O, Rmult_1_l in HF. exact HF. }
  destruct (AD cs) as [F HF]. rewrite (G F HF).
  assert (D : derivable F) by (intros x; exists (poly cs x); apply HF).
  assert (E : forall x, derive F D x = poly cs x) by (intros x; unfold derive; apply derive_pt_eq_0; apply HF).
  assert (PC : continuity (poly cs)).
  { clear. induction cs as [|c r IH]; cbn [poly]; [apply continuity_const; intros x y; reflexivity|].
    apply (continuity_plus (fun _ => c) (fun x => x * poly r x)); [apply continuity_const; intros x y; reflexivity|].
    apply (continuity_mult (fun x => x) (poly r)); [apply derivable_continuous, derivable_id|exact IH]. }
  assert (C : continuity (derive F D)).
  { intros x. apply continuity_pt_locally_ext with (f := poly cs) (a := 1); [lra| |apply PC]. intros y _. symmetry. apply E. }
  pose (H := mkC1 C). assert (P : Riemann_integrable (derive H (diff0 H)) a b) by (apply continuity_implies_RiemannInt; [exact Hab|]; intros x _; apply C).
  pose proof (FTC_Riemann H P) as HFTC. assert (X : RiemannInt pr = RiemannInt P).
  { apply RiemannInt_P18; [exact Hab|]. intros x Hx. symmetry. change (derive H (diff0 H) x) with (derive F D x). apply E. }
  rewrite X, HFTC. reflexivity.
Qed.
Print Assumptions C61_exact.

(** The number of points suffices and is needed: with N = 1 the integral of x^4 is wrong. *)
Theorem C61_degree_refuted : ~ (forall N cs a b F, (1 <= N)%nat -> (forall x, derivable_pt_lim F x (poly cs x)) -> num_integrate N (poly cs) a b = F b - F a).
Proof.
  intros H. pose proof (H 1%nat [0; 0; 0; 0; 1] (-1) 1 (fun x => 1 / 5 * x ^ 5) (Nat.le_refl _)) as E.
  assert (D : forall x, derivable_pt_lim (fun x => 1 / 5 * x ^ 5) x (poly [0; 0; 0; 0; 1] x)).
  { intros x. replace (poly [0; 0; 0; 0; 1] x) with (1 / 5 * (INR 5 * x ^ 4)) by (cbn [poly INR pow]; field). apply (derivable_pt_lim_scal (fun x => x ^ 5)). apply (derivable_pt_lim_pow x 5). }
  specialize (E D). unfold num_integrate, weight, weight_piece in E. cbn [seq map sumR Nat.eqb Nat.sub INR poly] in E.
  replace (1 * 0 * PI / 1) with 0 in E by field. replace (0 * 0 * PI / 1) with 0 in E by field. replace (0 * 1 * PI / 1) with 0 in E by field. replace (1 * 1 * PI / 1) with PI in E by field.
  rewrite cos_0, cos_PI in E. lra.
Qed.
Print Assumptions C61_degree_refuted.

(** A case: the integrator used by MARLEY on 3 x^2 over [0, 2]. *)
Example C61_case : utils_integrate (poly [0; 0; 3]) 0 2 = 8.
Proof.
  unfold utils_integrate. destruct (C61_exact 50 [0; 0; 3] 0 2) as [E _]; [lia|cbn [length]; lia|].
  rewrite (E (fun x => x ^ 3)); [lra|]. intros x. replace (poly [0; 0; 3] x) with (INR 3 * x ^ 2) by (cbn [poly INR pow]; ring). apply (derivable_pt_lim_pow x 3).
Qed.
