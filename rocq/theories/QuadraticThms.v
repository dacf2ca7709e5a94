(** C88: the solutions of quadratic equations. *)
From Coq Require Import Reals Lra Psatz.
From Verif Require Import Kin Quadratic.
Local Open Scope R_scope.

Definition root (A B C x : R) : Prop := A * x ^ 2 + B * x + C = 0.
Definition disc (A B C : R) : R := B ^ 2 - 4 * A * C.

Lemma quotient_ok x y : y <> 0 -> quotient x y = Some (x / y).
Proof. intros H. unfold quotient. destruct (Req_EM_T y 0); [contradiction|reflexivity]. Qed.

(** In terms of b = B / (2 A) and c = C / A. *)
Lemma core b c : 0 <= b * b - c -> ~ (b = 0 /\ c = 0) -> let s := sqrt (b * b - c) in
  (0 < b -> - b - s <> 0 /\ c / (- b - s) = - b + s) /\ (b <= 0 -> - b + s <> 0 /\ c / (- b + s) = - b - s).
Proof.
  intros D N s. assert (S2 : s * s = b * b - c) by (apply sqrt_sqrt; exact D). assert (S0 : 0 <= s) by apply sqrt_pos. split; intros B0.
  - assert (Q : - b - s <> 0) by lra. split; [exact Q|]. apply (Rmult_eq_reg_r (- b - s)); [|exact Q]. unfold Rdiv. rewrite Rmult_assoc, Rinv_l, Rmult_1_r by exact Q. nra.
  - assert (Q : - b + s <> 0).
    { intros Q. assert (b = 0) by lra. assert (s = 0) by lra. apply N. split; [assumption|]. subst b. rewrite H0 in S2. lra. }
    split; [exact Q|]. apply (Rmult_eq_reg_r (- b + s)); [|exact Q]. unfold Rdiv. rewrite Rmult_assoc, Rinv_l, Rmult_1_r by exact Q. nra.
Qed.

Lemma scaled A B C : A <> 0 -> (B / (2 * A)) * (B / (2 * A)) - C / A = disc A B C / (2 * A) ^ 2.
Proof. intros H. unfold disc. field. exact H. Qed.
Lemma sq_pos A : A <> 0 -> 0 < (2 * A) ^ 2.
Proof. intros H. assert (0 < A * A) by nra. nra. Qed.

(** With real solutions, not both zero, the two numbers are all solutions, and the first is the larger one. *)
Theorem C88_roots A B C : A <> 0 -> 0 <= disc A B C -> ~ (B = 0 /\ C = 0) ->
  exists xp xm, solve_quadratic A B C = (Some xp, Some xm) /\ xm <= xp /\ (forall x, root A B C x <-> x = xp \/ x = xm) /\
    xp - xm = sqrt (disc A B C) / Rabs A.
Proof.
  intros HA HD HN. pose proof (scaled A B C HA) as E. pose proof (sq_pos A HA) as P. set (b := B / (2 * A)) in *. set (c := C / A) in *.
  assert (D : 0 <= b * b - c) by (rewrite E; apply Rmult_le_pos; [exact HD|left; apply Rinv_0_lt_compat; exact P]).
  assert (EB : B = 2 * A * b) by (unfold b; field; exact HA). assert (EC : C = A * c) by (unfold c; field; exact HA).
  assert (N : ~ (b = 0 /\ c = 0)) by (intros [X Y]; apply HN; rewrite EB, EC, X, Y; split; ring).
  destruct (core b c D N) as [K1 K2]. set (s := sqrt (b * b - c)) in *. assert (S2 : s * s = b * b - c) by (apply sqrt_sqrt; exact D). assert (S0 : 0 <= s) by apply sqrt_pos.
  exists (- b + s), (- b - s). split.
  - unfold solve_quadratic. rewrite (quotient_ok C A HA), (quotient_ok B (2 * A)) by lra. fold b c. cbv zeta.
    assert (RS : real_sqrt (b * b - c) = s) by (unfold real_sqrt; destruct (Rlt_dec (b * b - c) 0); [lra|reflexivity]). rewrite RS.
    destruct (Rlt_dec 0 b) as [B0|B0]; [destruct (K1 B0) as [Q1 Q2]|destruct (K2 ltac:(lra)) as [Q1 Q2]]; rewrite (quotient_ok _ _ Q1), Q2; reflexivity.
  - split; [lra|]. split.
    + intros x. unfold root. split.
      * intros H. assert (G : (x - (- b + s)) * (x - (- b - s)) = 0).
        { apply (Rmult_eq_reg_l A); [|exact HA]. rewrite Rmult_0_r, <- H, EB, EC. replace ((x - (- b + s)) * (x - (- b - s))) with (x * x + 2 * b * x + (b * b - s * s)) by ring. rewrite S2. ring. }
        apply Rmult_integral in G as [G|G]; [left|right]; lra.
      * assert (G : forall y, A * y ^ 2 + B * y + C = A * ((y - (- b + s)) * (y - (- b - s)))).
        { intros y. rewrite EB, EC. replace ((y - (- b + s)) * (y - (- b - s))) with (y * y + 2 * b * y + (b * b - s * s)) by ring. rewrite S2. ring. }
        intros [->| ->]; rewrite G; ring.
    + replace (- b + s - (- b - s)) with (2 * s) by ring. unfold s. rewrite E. rewrite sqrt_div_alt by exact P.
      replace (sqrt ((2 * A) ^ 2)) with (2 * Rabs A); [field; apply Rabs_no_R0; exact HA|].
      replace ((2 * A) ^ 2) with (Rsqr (2 * A)) by (unfold Rsqr; ring). rewrite sqrt_Rsqr_abs, Rabs_mult, (Rabs_pos_eq 2) by lra. reflexivity.
Qed.
Print Assumptions C88_roots.

Example C88_case : (2 : R) <> 0 /\ 0 <= disc 2 (-14) 20 /\ ~ (-14 = 0 /\ 20 = 0) /\ solve_quadratic 2 (-14) 20 = (Some 5, Some 2).
Proof.
  assert (H1 : (2 : R) <> 0) by lra. assert (H2 : 0 <= disc 2 (-14) 20) by (unfold disc; lra). assert (H3 : ~ (-14 = 0 /\ 20 = 0)) by (intros [X _]; lra).
  split; [exact H1|]. split; [exact H2|]. split; [exact H3|]. destruct (C88_roots 2 (-14) 20 H1 H2 H3) as (xp & xm & E & L & R & _). rewrite E.
  assert (R5 : 5 = xp \/ 5 = xm) by (apply R; unfold root; lra). assert (R2 : 2 = xp \/ 2 = xm) by (apply R; unfold root; lra).
  assert (xp = 5) by (destruct R5, R2; lra). assert (xm = 2) by (destruct R5, R2; lra). congruence.
Qed.

(** The documented choice of signs is the one for positive A; for negative A the two are exchanged. *)
Theorem C88_signs A B C xp xm : A <> 0 -> 0 <= disc A B C -> solve_quadratic A B C = (Some xp, Some xm) ->
  (0 < A -> xp = (- B + sqrt (disc A B C)) / (2 * A) /\ xm = (- B - sqrt (disc A B C)) / (2 * A)) /\
  (A < 0 -> xp = (- B - sqrt (disc A B C)) / (2 * A) /\ xm = (- B + sqrt (disc A B C)) / (2 * A)).
Proof.
  intros HA HD H. assert (N : ~ (B = 0 /\ C = 0)).
  { intros [-> ->]. unfold solve_quadratic in H. rewrite (quotient_ok 0 A HA), (quotient_ok 0 (2 * A)) in H by lra. cbv zeta in H.
    replace (0 / (2 * A)) with 0 in H by (field; exact HA). replace (0 / A) with 0 in H by (field; exact HA). destruct (Rlt_dec 0 0); [lra|].
    replace (0 * 0 - 0) with 0 in H by ring. assert (Z : real_sqrt 0 = 0) by (unfold real_sqrt; destruct (Rlt_dec 0 0); [reflexivity|apply sqrt_0]). rewrite Z in H.
    unfold quotient in H. destruct (Req_EM_T (- 0 + 0) 0) as [_|X]; [discriminate H|apply X; ring]. }
  destruct (C88_roots A B C HA HD N) as (yp & ym & E & L & R & W). rewrite E in H. injection H as <- <-.
  set (s := sqrt (disc A B C)) in *. assert (S2 : s * s = disc A B C) by (apply sqrt_sqrt; exact HD).
  assert (RT : forall t, t * t = disc A B C -> root A B C ((- B + t) / (2 * A))).
  { intros t T. unfold root. replace (A * ((- B + t) / (2 * A)) ^ 2 + B * ((- B + t) / (2 * A)) + C) with ((t * t - disc A B C) / (4 * A)) by (unfold disc; field; exact HA). rewrite T. unfold Rdiv. ring. }
  pose proof (proj1 (R _) (RT s S2)) as R1. pose proof (proj1 (R _) (RT (- s) ltac:(rewrite <- S2; ring))) as R2.
  replace (- B + - s) with (- B - s) in R2 by ring. assert (S0 : 0 <= s) by apply sqrt_pos.
  assert (DF : (- B + s) / (2 * A) - (- B - s) / (2 * A) = s / A) by (field; exact HA).
  set (u := (- B + s) / (2 * A)) in *. set (w := (- B - s) / (2 * A)) in *. split; intros A0.
  - rewrite Rabs_pos_eq in W by lra. destruct R1, R2; split; lra.
  - rewrite Rabs_left in W by lra. replace (s / - A) with (- (s / A)) in W by (field; exact HA). destruct R1, R2; split; lra.
Qed.
Print Assumptions C88_signs.

(** The equation A x^2 = 0 gets its solution once; the other value is 0 / 0. *)
Theorem C88_double_zero_refuted A : A <> 0 -> solve_quadratic A 0 0 = (Some 0, None) /\ (forall x, root A 0 0 x <-> x = 0).
Proof.
  intros HA. split.
  - unfold solve_quadratic. rewrite (quotient_ok 0 A HA), (quotient_ok 0 (2 * A)) by lra. cbv zeta. replace (0 / (2 * A)) with 0 by (field; exact HA). replace (0 / A) with 0 by (field; exact HA).
    destruct (Rlt_dec 0 0); [lra|]. replace (0 * 0 - 0) with 0 by ring. assert (Z : real_sqrt 0 = 0) by (unfold real_sqrt; destruct (Rlt_dec 0 0); [reflexivity|apply sqrt_0]). rewrite Z.
    replace (- 0 + 0) with 0 by ring. unfold quotient. destruct (Req_EM_T 0 0); [reflexivity|contradiction].
  - intros x. unfold root. split; [intros H; assert (G : A * x ^ 2 = 0) by lra; apply Rmult_integral in G as [G|G]; [contradiction|]; nra|intros ->; ring].
Qed.
Print Assumptions C88_double_zero_refuted.

(** Without real solutions numbers are returned all the same, and no error: they have the right product, not
    the right sum. With A = 0 nothing is found. *)
Theorem C88_complex_refuted A B C : A <> 0 -> disc A B C < 0 ->
  (forall x, ~ root A B C x) /\
  (B <> 0 -> exists xp xm, solve_quadratic A B C = (Some xp, Some xm) /\ xp * xm = C / A /\ xp + xm <> - B / A).
Proof.
  intros HA HD. pose proof (scaled A B C HA) as E. pose proof (sq_pos A HA) as P. split.
  - intros x H. unfold root in H. assert (Q : (2 * A * x + B) ^ 2 = disc A B C) by (unfold disc; replace ((2 * A * x + B) ^ 2) with (4 * A * (A * x ^ 2 + B * x + C) + (B ^ 2 - 4 * A * C)) by ring; rewrite H; ring).
    pose proof (pow2_ge_0 (2 * A * x + B)). lra.
  - intros HB. set (b := B / (2 * A)) in *. set (c := C / A) in *.
    assert (D : b * b - c < 0) by (rewrite E; assert (0 < / (2 * A) ^ 2) by (apply Rinv_0_lt_compat; exact P); unfold Rdiv; nra).
    assert (B0 : b <> 0) by (unfold b; intros X; apply HB; replace B with (2 * A * (B / (2 * A))) by (field; exact HA); rewrite X; ring).
    assert (SUM : - B / A = - 2 * b) by (unfold b; field; exact HA). rewrite SUM.
    assert (RS : real_sqrt (b * b - c) = 0) by (unfold real_sqrt; destruct (Rlt_dec (b * b - c) 0); [reflexivity|contradiction]).
    assert (NE : c / (- b) + - b <> - 2 * b). { intros X. assert (Y : c / (- b) = - b) by lra. assert (c = b * b) by (replace c with (c / (- b) * (- b)) by (field; exact B0); rewrite Y; ring). lra. }
    assert (PR : c / (- b) * (- b) = c) by (field; exact B0).
    unfold solve_quadratic. rewrite (quotient_ok C A HA), (quotient_ok B (2 * A)) by lra. fold b c. cbv zeta. rewrite RS, Rminus_0_r, Rplus_0_r.
    assert (NB : - b <> 0) by lra.
    destruct (Rlt_dec 0 b); rewrite (quotient_ok _ _ NB); do 2 eexists; (split; [reflexivity|]); split; [exact PR|exact NE|rewrite Rmult_comm; exact PR|rewrite Rplus_comm; exact NE].
Qed.
Print Assumptions C88_complex_refuted.

Theorem C88_linear_refuted B C : B <> 0 -> solve_quadratic 0 B C = (None, None) /\ (forall x, root 0 B C x <-> x = - C / B).
Proof.
  intros HB. split; [unfold solve_quadratic, quotient; destruct (Req_EM_T 0 0); [reflexivity|contradiction]|].
  intros x. unfold root. split; [intros H; apply (Rmult_eq_reg_l B); [|exact HB]; replace (B * (- C / B)) with (- C) by (field; exact HB); lra|intros ->; field; exact HB].
Qed.
Print Assumptions C88_linear_refuted.
