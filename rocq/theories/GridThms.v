(** Property C38: interpolation grids. *)
From Coq Require Import List Reals Bool Arith Lia Lra Permutation.
From Verif Require Import Base XReal Grid.
Import ListNotations.
Open Scope R_scope.

(** ** Vocabulary *)

(** Abscissae never decrease, or strictly increase, along the grid. *)
Definition nondecreasing (pts : list (R * R)) : Prop :=
  forall i j p q, (i <= j)%nat -> nth_error pts i = Some p -> nth_error pts j = Some q -> fst p <= fst q.
Definition increasing (pts : list (R * R)) : Prop :=
  forall i j p q, (i < j)%nat -> nth_error pts i = Some p -> nth_error pts j = Some q -> fst p < fst q.

(** The logarithms a rule takes are of positive numbers. *)
Definition usable (im : imethod) (pts : list (R * R)) : Prop :=
  (im = ILinLog \/ im = ILogLog -> Forall (fun p => 0 < fst p) pts) /\
  (im = ILogLin \/ im = ILogLog -> Forall (fun p => 0 < snd p) pts).

(** The straight line through two points. *)
Definition line (x1 y1 x2 y2 x : R) : R := y1 + (y2 - y1) / (x2 - x1) * (x - x1).

(** The rules, as formulas. *)
Definition rule (im : imethod) (p q : R * R) (x : R) : R :=
  match im with
  | IConstant => snd p
  | ILinLin => line (fst p) (snd p) (fst q) (snd q) x
  | ILinLog => line (ln (fst p)) (snd p) (ln (fst q)) (snd q) (ln x)
  | ILogLin => exp (line (fst p) (ln (snd p)) (fst q) (ln (snd q)) x)
  | ILogLog => exp (line (ln (fst p)) (ln (snd p)) (ln (fst q)) (ln (snd q)) (ln x))
  end.

(** ** Binary search *)

Lemma partition_point_spec test : forall fuel first len, (len <= fuel)%nat ->
  (forall i j, (first <= i <= j)%nat -> (j < first + len)%nat -> test j = true -> test i = true) ->
  let p := partition_point test first len fuel in
  (first <= p <= first + len)%nat /\ (forall i, (first <= i < p)%nat -> test i = true) /\ (forall i, (p <= i < first + len)%nat -> test i = false).
Proof.
  induction fuel as [|fuel IH]; intros first len HL HM; cbv zeta; cbn [partition_point].
  - assert (len = 0%nat) by lia. subst len. split; [lia|]. split; intros i Hi; lia.
  - destruct len as [|len']; [split; [lia|]; split; intros i Hi; lia|]. remember (S len') as len eqn:EL.
    assert (HH : (Nat.div2 len < len)%nat) by (apply Nat.lt_div2; lia). set (half := Nat.div2 len) in *.
    destruct (test (first + half)%nat) eqn:ET.
    + destruct (IH (S (first + half)) (len - half - 1)%nat) as (A & B & C); [lia| |].
      { intros i j Hi Hj. apply HM; lia. }
      split; [lia|]. split.
      * intros i Hi. destruct (le_lt_dec i (first + half)) as [L|L]; [apply (HM i (first + half)%nat); [lia|lia|exact ET]|apply B; lia].
      * intros i Hi. apply C. lia.
    + destruct (IH first half) as (A & B & C); [lia| |].
      { intros i j Hi Hj. apply HM; lia. }
      split; [lia|]. split; [exact B|]. intros i Hi. destruct (le_lt_dec (first + half) i) as [L|L]; [|apply C; lia].
      destruct (test i) eqn:Ei; [|reflexivity]. rewrite (HM (first + half)%nat i) in ET; [discriminate|lia|lia|exact Ei].
Qed.

Lemma at_nth pts i : (i < length pts)%nat -> nth_error pts i = Some (x_at pts i, y_at pts i).
Proof. intros H. unfold x_at, y_at. rewrite <- surjective_pairing. apply nth_error_nth'. exact H. Qed.

Lemma nth_at pts i p : nth_error pts i = Some p -> x_at pts i = fst p /\ y_at pts i = snd p /\ (i < length pts)%nat.
Proof.
  intros H. assert (L : (i < length pts)%nat) by (apply nth_error_Some; rewrite H; discriminate).
  unfold x_at, y_at. rewrite (nth_error_nth _ _ (0, 0) H). auto.
Qed.

Lemma nondec_at pts i j : nondecreasing pts -> (i <= j < length pts)%nat -> x_at pts i <= x_at pts j.
Proof. intros H [L1 L2]. apply (H i j (x_at pts i, y_at pts i) (x_at pts j, y_at pts j) L1); apply at_nth; lia. Qed.

Lemma inc_at pts i j : increasing pts -> (i < j < length pts)%nat -> x_at pts i < x_at pts j.
Proof. intros H [L1 L2]. apply (H i j (x_at pts i, y_at pts i) (x_at pts j, y_at pts j) L1); apply at_nth; lia. Qed.

Lemma inc_nondec pts : increasing pts -> nondecreasing pts.
Proof. intros H i j p q L Hp Hq. destruct (le_lt_eq_dec i j L) as [L'| ->]; [apply Rlt_le; exact (H _ _ _ _ L' Hp Hq)|rewrite Hp in Hq; injection Hq as <-; lra]. Qed.

Lemma lower_bound_spec pts x : nondecreasing pts ->
  (grid_lower_bound pts x <= length pts)%nat /\
  (forall i, (i < grid_lower_bound pts x)%nat -> x_at pts i < x) /\
  (forall i, (grid_lower_bound pts x <= i < length pts)%nat -> x <= x_at pts i).
Proof.
  intros HS. unfold grid_lower_bound.
  destruct (partition_point_spec (fun i => if Rlt_dec (x_at pts i) x then true else false) (length pts) 0 (length pts) (Nat.le_refl _)) as (A & B & C).
  { intros i j Hi Hj. pose proof (nondec_at pts i j HS ltac:(lia)). destruct (Rlt_dec (x_at pts j) x), (Rlt_dec (x_at pts i) x); (lra || congruence). }
  split; [lia|]. split.
  - intros i Hi. specialize (B i ltac:(lia)). destruct (Rlt_dec (x_at pts i) x); [assumption|discriminate].
  - intros i Hi. specialize (C i ltac:(lia)). destruct (Rlt_dec (x_at pts i) x); [discriminate|lra].
Qed.

Lemma upper_bound_spec pts x : nondecreasing pts ->
  (grid_upper_bound pts x <= length pts)%nat /\
  (forall i, (i < grid_upper_bound pts x)%nat -> x_at pts i <= x) /\
  (forall i, (grid_upper_bound pts x <= i < length pts)%nat -> x < x_at pts i).
Proof.
  intros HS. unfold grid_upper_bound.
  destruct (partition_point_spec (fun i => if Rlt_dec x (x_at pts i) then false else true) (length pts) 0 (length pts) (Nat.le_refl _)) as (A & B & C).
  { intros i j Hi Hj. pose proof (nondec_at pts i j HS ltac:(lia)). destruct (Rlt_dec x (x_at pts j)), (Rlt_dec x (x_at pts i)); (lra || congruence). }
  split; [lia|]. split.
  - intros i Hi. specialize (B i ltac:(lia)). destruct (Rlt_dec x (x_at pts i)); [discriminate|lra].
  - intros i Hi. specialize (C i ltac:(lia)). destruct (Rlt_dec x (x_at pts i)); [assumption|discriminate].
Qed.

(** In the bin that the search finds. *)
Lemma lower_bound_is pts x i : increasing pts -> (i < length pts)%nat -> x <= x_at pts i ->
  (i = 0%nat \/ x_at pts (i - 1) < x) -> grid_lower_bound pts x = i.
Proof.
  intros HI Hi H1 H2. destruct (lower_bound_spec pts x (inc_nondec _ HI)) as (A & B & C).
  destruct (lt_eq_lt_dec (grid_lower_bound pts x) i) as [[L|L]|L]; [|exact L|].
  - exfalso. destruct H2 as [->|H2]; [lia|]. pose proof (C (i - 1)%nat ltac:(lia)). lra.
  - exfalso. pose proof (B i L). lra.
Qed.

(** ** The rules *)

Lemma bin_value_rule im o x1 y1 x2 y2 x : im <> IConstant -> x1 < x2 ->
  (im = ILinLog \/ im = ILogLog -> 0 < x1 /\ 0 < x) -> (im = ILogLin \/ im = ILogLog -> 0 < y1 /\ 0 < y2) ->
  bin_value im o x1 y1 x2 y2 x = Fin (rule im (x1, y1) (x2, y2) x).
Proof.
  intros NC HX HLx HLy. unfold bin_value, rule, line. cbn [fst snd].
  assert (LX : im = ILinLog \/ im = ILogLog -> ln x2 - ln x1 <> 0).
  { intros H. destruct (HLx H) as [H1 _]. pose proof (ln_increasing x1 x2 H1 HX). lra. }
  destruct im; [contradiction| | | |]; cbn [uses_log_x uses_log_y]; cbv zeta.
  - cbn [xsub xopp xadd xdiv xmul]. destruct (Req_EM_T (x2 + - x1) 0); [lra|]. cbn [xmul xadd]. reflexivity.
  - destruct (HLx (or_introl eq_refl)) as [P1 P2]. specialize (LX (or_introl eq_refl)). cbn [xlog]. destruct (Rlt_dec 0 x1); [|lra]. destruct (Rlt_dec 0 x2); [|lra]. destruct (Rlt_dec 0 x); [|lra].
    cbn [xsub xopp xadd xdiv xmul]. destruct (Req_EM_T (ln x2 + - ln x1) 0); [lra|]. cbn [xmul xadd]. reflexivity.
  - destruct (HLy (or_introl eq_refl)) as [P1 P2]. cbn [xlog]. destruct (Rlt_dec 0 y1); [|lra]. destruct (Rlt_dec 0 y2); [|lra].
    cbn [xsub xopp xadd xdiv xmul]. destruct (Req_EM_T (x2 + - x1) 0); [lra|]. cbn [xmul xadd xexp]. reflexivity.
  - destruct (HLx (or_intror eq_refl)) as [P1 P2]. destruct (HLy (or_intror eq_refl)) as [P3 P4]. specialize (LX (or_intror eq_refl)). cbn [xlog].
    destruct (Rlt_dec 0 x1); [|lra]. destruct (Rlt_dec 0 x2); [|lra]. destruct (Rlt_dec 0 x); [|lra]. destruct (Rlt_dec 0 y1); [|lra]. destruct (Rlt_dec 0 y2); [|lra].
    cbn [xsub xopp xadd xdiv xmul]. destruct (Req_EM_T (ln x2 + - ln x1) 0); [lra|]. cbn [xmul xadd xexp]. reflexivity.
Qed.

Lemma line_left x1 y1 x2 y2 : line x1 y1 x2 y2 x1 = y1.
Proof. unfold line. lra. Qed.
Lemma line_right x1 y1 x2 y2 : x1 <> x2 -> line x1 y1 x2 y2 x2 = y2.
Proof. intros H. unfold line. field. lra. Qed.
Lemma line_between x1 y1 x2 y2 x : x1 < x2 -> x1 <= x <= x2 -> Rmin y1 y2 <= line x1 y1 x2 y2 x <= Rmax y1 y2.
Proof.
  intros H1 H2. set (t := (x - x1) / (x2 - x1)).
  assert (HD : 0 < / (x2 - x1)) by (apply Rinv_0_lt_compat; lra).
  assert (T0 : 0 <= t) by (apply Rmult_le_pos; lra).
  assert (T1 : t <= 1).
  { replace 1 with ((x2 - x1) * / (x2 - x1)) by (field; lra). unfold t, Rdiv. apply Rmult_le_compat_r; lra. }
  assert (E : line x1 y1 x2 y2 x = (1 - t) * y1 + t * y2) by (unfold line, t; field; lra). rewrite E.
  destruct (Rle_dec y1 y2) as [L|L].
  - rewrite Rmin_left, Rmax_right by lra. split; nra.
  - rewrite Rmin_right, Rmax_left by lra. split; nra.
Qed.

Lemma rule_left im p q : (im = ILogLin \/ im = ILogLog -> 0 < snd p) -> rule im p q (fst p) = snd p.
Proof.
  intros H. destruct im; cbn [rule]; try rewrite line_left; try reflexivity; apply exp_ln; apply H; [left|right]; reflexivity.
Qed.

Lemma rule_right im p q : im <> IConstant -> fst p < fst q -> (im = ILinLog \/ im = ILogLog -> 0 < fst p) ->
  (im = ILogLin \/ im = ILogLog -> 0 < snd q) -> rule im p q (fst q) = snd q.
Proof.
  intros NC HX HP HY.
  destruct im; cbn [rule]; [contradiction| | | |]; rewrite line_right; try reflexivity; try lra; try (apply exp_ln; apply HY; auto; fail).
  - pose proof (ln_increasing _ _ (HP (or_introl eq_refl)) HX). lra.
  - pose proof (ln_increasing _ _ (HP (or_intror eq_refl)) HX). lra.
Qed.

Lemma rule_between im p q x : fst p < fst q -> fst p <= x <= fst q -> (im = ILinLog \/ im = ILogLog -> 0 < fst p) ->
  (im = ILogLin \/ im = ILogLog -> 0 < snd p /\ 0 < snd q) -> Rmin (snd p) (snd q) <= rule im p q x <= Rmax (snd p) (snd q).
Proof.
  intros HX Hx HP HY.
  assert (LNX : im = ILinLog \/ im = ILogLog -> ln (fst p) < ln (fst q) /\ ln (fst p) <= ln x <= ln (fst q)).
  { intros H. specialize (HP H). split; [apply ln_increasing; lra|]. split.
    - destruct (Req_dec (fst p) x) as [<-|]; [lra|]. apply Rlt_le, ln_increasing; lra.
    - destruct (Req_dec x (fst q)) as [<-|]; [lra|]. apply Rlt_le, ln_increasing; lra. }
  assert (EXP : im = ILogLin \/ im = ILogLog -> forall v, Rmin (ln (snd p)) (ln (snd q)) <= v <= Rmax (ln (snd p)) (ln (snd q)) ->
            Rmin (snd p) (snd q) <= exp v <= Rmax (snd p) (snd q)).
  { intros H v Hv. destruct (HY H) as [P1 P2]. clear - P1 P2 Hv.
    assert (ME : forall a b, a <= b -> exp a <= exp b) by (intros a b [L| ->]; [apply Rlt_le, exp_increasing; exact L|lra]).
    assert (ML : forall a b, 0 < a -> a <= b -> ln a <= ln b) by (intros a b Ha [L| ->]; [apply Rlt_le, ln_increasing; assumption|lra]).
    destruct (Rle_dec (snd p) (snd q)) as [L|L].
    - pose proof (ML _ _ P1 L). rewrite Rmin_left, Rmax_right in * by lra. rewrite <- (exp_ln _ P1), <- (exp_ln _ P2). split; apply ME; rewrite ?exp_ln by assumption; lra.
    - assert (L' : snd q <= snd p) by lra. pose proof (ML _ _ P2 L'). rewrite Rmin_right, Rmax_left in * by lra.
      rewrite <- (exp_ln _ P1), <- (exp_ln _ P2). split; apply ME; rewrite ?exp_ln by assumption; lra. }
  destruct im; cbn [rule].
  - split; [apply Rmin_l|apply Rmax_l].
  - apply line_between; assumption.
  - destruct (LNX (or_introl eq_refl)). apply line_between; assumption.
  - apply (EXP (or_introl eq_refl)). apply line_between; assumption.
  - destruct (LNX (or_intror eq_refl)). apply (EXP (or_intror eq_refl)). apply line_between; assumption.
Qed.

Lemma usable_at im pts i p : usable im pts -> nth_error pts i = Some p ->
  (im = ILinLog \/ im = ILogLog -> 0 < fst p) /\ (im = ILogLin \/ im = ILogLog -> 0 < snd p).
Proof.
  intros [U1 U2] H. apply nth_error_In in H. split; intros HI; [specialize (U1 HI)|specialize (U2 HI)]; rewrite Forall_forall in *; auto.
Qed.

Lemma inside_value g i p q x : increasing (g_pts g) -> nth_error (g_pts g) i = Some p -> nth_error (g_pts g) (S i) = Some q ->
  usable (g_im g) (g_pts g) -> fst p < x <= fst q -> interpolate g x = Ok (Fin (rule (g_im g) p q x)).
Proof.
  intros HI Hp Hq HU Hx. destruct (nth_at _ _ _ Hp) as (X1 & Y1 & L1). destruct (nth_at _ _ _ Hq) as (X2 & Y2 & L2).
  unfold interpolate, find_bin_limits. destruct (Nat.ltb_spec (length (g_pts g)) 2); [lia|]. cbv zeta.
  rewrite (lower_bound_is _ _ (S i) HI L2); [|lra|right; replace (S i - 1)%nat with i by lia; lra].
  change (Nat.eqb (S i) 0) with false. cbv iota. destruct (Nat.eqb_spec (S i) (length (g_pts g))); [lia|]. cbn [bind]. replace (S i - 1)%nat with i by lia. rewrite X1, Y1, X2, Y2. f_equal.
  destruct (usable_at _ _ _ _ HU Hp) as [A1 A2]. destruct (usable_at _ _ _ _ HU Hq) as [B1 B2].
  destruct (g_im g) eqn:EM; [reflexivity|..]; (rewrite bin_value_rule; [destruct p, q; reflexivity|discriminate|lra| |]; intros G; [specialize (A1 G)|specialize (A2 G); specialize (B2 G)]; lra).
Qed.

Lemma first_value g p q : increasing (g_pts g) -> nth_error (g_pts g) 0 = Some p -> nth_error (g_pts g) 1 = Some q ->
  usable (g_im g) (g_pts g) -> interpolate g (fst p) = Ok (Fin (snd p)).
Proof.
  intros HI Hp Hq HU. destruct (nth_at _ _ _ Hp) as (X1 & Y1 & L1). destruct (nth_at _ _ _ Hq) as (X2 & Y2 & L2).
  pose proof (HI 0%nat 1%nat p q ltac:(lia) Hp Hq) as HX.
  unfold interpolate, find_bin_limits. destruct (Nat.ltb_spec (length (g_pts g)) 2); [lia|]. cbv zeta.
  rewrite (lower_bound_is _ _ 0%nat HI L1); [|lra|left; reflexivity]. cbn [Nat.eqb]. rewrite X1. destruct (Req_EM_T (fst p) (fst p)); [|lra]. cbn [bind].
  rewrite X1, Y1, X2, Y2. destruct (usable_at _ _ _ _ HU Hp) as [A1 A2]. destruct (usable_at _ _ _ _ HU Hq) as [B1 B2].
  transitivity (@Ok xr (Fin (rule (g_im g) p q (fst p)))); [|rewrite (rule_left (g_im g) p q A2); reflexivity].
  destruct (g_im g) eqn:EM; [reflexivity|..]; (rewrite bin_value_rule; [destruct p, q; reflexivity|discriminate|lra| |]; intros G; [specialize (A1 G)|specialize (A2 G); specialize (B2 G)]; lra).
Qed.

(** ** Theorems *)

(** Every rule except the constant one reproduces the table at every grid point. *)
Theorem C38_grid_points g j x y : (2 <= length (g_pts g))%nat -> increasing (g_pts g) -> usable (g_im g) (g_pts g) ->
  g_im g <> IConstant -> nth_error (g_pts g) j = Some (x, y) -> interpolate g x = Ok (Fin y).
Proof.
  intros HL HI HU NC Hj. destruct j as [|i].
  - apply (first_value g (x, y) (nth 1 (g_pts g) (0, 0)) HI Hj); [|exact HU]. apply nth_error_nth'. lia.
  - destruct (nth_at _ _ _ Hj) as (_ & _ & L).
    assert (Hp : nth_error (g_pts g) i = Some (nth i (g_pts g) (0, 0))) by (apply nth_error_nth'; lia). set (p := nth i (g_pts g) (0, 0)) in *.
    pose proof (HI i (S i) p (x, y) ltac:(lia) Hp Hj) as HX. cbn [fst] in HX.
    rewrite (inside_value g i p (x, y) x HI Hp Hj HU); [|cbn [fst]; lra]. do 2 f_equal.
    destruct (usable_at _ _ _ _ HU Hp) as [A1 A2]. destruct (usable_at _ _ _ _ HU Hj) as [B1 B2].
    exact (rule_right (g_im g) p (x, y) NC HX A1 B2).
Qed.
Print Assumptions C38_grid_points.

(** Between two neighbouring points the value follows the rule of the grid and lies between
    the two tabulated values. *)
Theorem C38_between g i p q x : increasing (g_pts g) -> usable (g_im g) (g_pts g) ->
  nth_error (g_pts g) i = Some p -> nth_error (g_pts g) (S i) = Some q -> fst p < x <= fst q ->
  interpolate g x = Ok (Fin (rule (g_im g) p q x)) /\ Rmin (snd p) (snd q) <= rule (g_im g) p q x <= Rmax (snd p) (snd q).
Proof.
  intros HI HU Hp Hq Hx. split; [apply (inside_value g i); assumption|].
  destruct (usable_at _ _ _ _ HU Hp) as [A1 A2]. destruct (usable_at _ _ _ _ HU Hq) as [B1 B2].
  apply rule_between; [lra|lra|exact A1|]. intros H. split; auto.
Qed.
Print Assumptions C38_between.

(** The constant rule gives the value at the left end of each bin, but each bin includes
    its right end instead of its left one, so that a grid point (other than the first) has
    the value of the point before it. The documentation says otherwise. *)
Theorem C38_constant g i p q x : increasing (g_pts g) -> g_im g = IConstant ->
  nth_error (g_pts g) i = Some p -> nth_error (g_pts g) (S i) = Some q -> fst p < x <= fst q ->
  interpolate g x = Ok (Fin (snd p)).
Proof.
  intros HI HM Hp Hq Hx. rewrite (inside_value g i p q x HI Hp Hq); [rewrite HM; reflexivity| |exact Hx].
  rewrite HM. split; intros [H|H]; discriminate.
Qed.
Print Assumptions C38_constant.

Theorem C38_constant_doc_refuted : ~ (forall g i p q, increasing (g_pts g) -> g_im g = IConstant ->
  nth_error (g_pts g) i = Some p -> nth_error (g_pts g) (S i) = Some q -> forall x, fst p <= x < fst q -> interpolate g x = Ok (Fin (snd p))).
Proof.
  intros H. set (g := mkgrid IConstant EZero [(0, 1); (1, 2); (2, 3)]).
  assert (HI : increasing (g_pts g)).
  { intros i j p q L Hp Hq. cbn [g g_pts] in *. destruct i as [|[|[|i]]]; cbn [nth_error] in Hp; try (destruct i; discriminate); try discriminate;
    (destruct j as [|[|[|j]]]; cbn [nth_error] in Hq; try lia; try (destruct j; discriminate); try discriminate); injection Hp as <-; injection Hq as <-; cbn [fst]; lra. }
  pose proof (H g 1%nat (1, 2) (2, 3) HI eq_refl eq_refl eq_refl 1 ltac:(cbn; lra)) as E.
  rewrite (C38_constant g 0 (0, 1) (1, 2) 1 HI eq_refl eq_refl eq_refl) in E by (cbn; lra). injection E as E. cbn [snd] in E. lra.
Qed.
Print Assumptions C38_constant_doc_refuted.

(** Outside the grid each extrapolation rule does what it says. *)
Theorem C38_outside g x p0 p1 a z : increasing (g_pts g) ->
  nth_error (g_pts g) 0 = Some p0 -> nth_error (g_pts g) 1 = Some p1 ->
  nth_error (g_pts g) (length (g_pts g) - 2) = Some a -> nth_error (g_pts g) (length (g_pts g) - 1) = Some z ->
  x < fst p0 \/ fst z < x ->
  match g_em g with
  | EZero => interpolate g x = Ok (Fin 0)
  | EThrow => interpolate g x = Er MarleyErr
  | EEndpoint => interpolate g x = Ok (Fin (if Rlt_dec x (fst p0) then snd p0 else snd z))
  | EContinue =>
      match g_im g with
      | IConstant => interpolate g x = Ok (Fin (if Rlt_dec x (fst p0) then snd p0 else snd z))
      | im => usable im (g_pts g) -> (im = ILinLog \/ im = ILogLog -> 0 < x) ->
              interpolate g x = Ok (Fin (if Rlt_dec x (fst p0) then rule im p0 p1 x else rule im a z x))
      end
  end.
Proof.
  intros HI H0 H1 Ha Hz Hx. destruct (nth_at _ _ _ H0) as (X0 & Y0 & L0). destruct (nth_at _ _ _ H1) as (X1 & Y1 & L1).
  destruct (nth_at _ _ _ Ha) as (XA & YA & LA). destruct (nth_at _ _ _ Hz) as (XZ & YZ & LZ).
  pose proof (HI _ _ _ _ (ltac:(lia) : (0 < 1)%nat) H0 H1) as I1.
  pose proof (HI _ _ _ _ (ltac:(lia) : (length (g_pts g) - 2 < length (g_pts g) - 1)%nat) Ha Hz) as I2.
  pose proof (inc_nondec _ HI _ _ _ _ (ltac:(lia) : (0 <= length (g_pts g) - 1)%nat) H0 Hz) as I3.
  pose proof (inc_nondec _ HI _ _ _ _ (ltac:(lia) : (0 <= length (g_pts g) - 2)%nat) H0 Ha) as I4.
  assert (F : find_bin_limits g x = Ok (if Rlt_dec x (fst p0) then (true, 0%nat, 1%nat) else (true, (length (g_pts g) - 2)%nat, (length (g_pts g) - 1)%nat))).
  { unfold find_bin_limits. destruct (Nat.ltb_spec (length (g_pts g)) 2); [lia|]. cbv zeta. destruct (Rlt_dec x (fst p0)) as [L|L].
    - rewrite (lower_bound_is _ _ 0%nat HI L0); [|lra|left; reflexivity]. cbn [Nat.eqb]. destruct (Req_EM_T (x_at (g_pts g) 0) x); [lra|reflexivity].
    - destruct (lower_bound_spec _ x (inc_nondec _ HI)) as (A & B & C).
      assert (E : grid_lower_bound (g_pts g) x = length (g_pts g)).
      { destruct (le_lt_eq_dec _ _ A) as [LT|EQ]; [|exact EQ]. pose proof (C (length (g_pts g) - 1)%nat ltac:(lia)). lra. }
      rewrite E, Nat.eqb_refl. destruct (Nat.eqb_spec (length (g_pts g)) 0); [lia|]. reflexivity. }
  unfold interpolate. rewrite F. cbn [bind].
  assert (US : forall im, usable im (g_pts g) -> (im = ILinLog \/ im = ILogLog -> 0 < fst p0 /\ 0 < fst a) /\
                (im = ILogLin \/ im = ILogLog -> (0 < snd p0 /\ 0 < snd p1) /\ (0 < snd a /\ 0 < snd z))).
  { intros im HU. destruct (usable_at _ _ _ _ HU H0) as [A1 A2]. destruct (usable_at _ _ _ _ HU H1) as [B1 B2].
    destruct (usable_at _ _ _ _ HU Ha) as [C1 C2]. destruct (usable_at _ _ _ _ HU Hz) as [D1 D2]. split; intros G; auto. }
  destruct (g_em g); [destruct (Rlt_dec x (fst p0)); reflexivity| | |destruct (Rlt_dec x (fst p0)); reflexivity].
  - destruct (Rlt_dec x (fst p0)) as [L|L]; cbv iota beta; rewrite ?X0, ?Y0, ?XA, ?YA, ?YZ.
    + destruct (Rlt_dec x (fst p0)); [reflexivity|lra].
    + destruct (Rlt_dec x (fst a)); [lra|reflexivity].
  - destruct (g_im g).
    + destruct (Rlt_dec x (fst p0)) as [L|L]; cbv iota beta; rewrite ?X0, ?Y0, ?XA, ?YA, ?YZ; cbn [bin_value].
      * destruct (Rlt_dec x (fst p0)); [reflexivity|lra].
      * destruct (Rlt_dec x (fst a)); [lra|reflexivity].
    + intros HU HP. destruct (US _ HU) as [U1 U2]. destruct (Rlt_dec x (fst p0)) as [L|L]; cbv iota beta; rewrite ?X0, ?Y0, ?X1, ?Y1, ?XA, ?YA, ?XZ, ?YZ; f_equal;
      (rewrite bin_value_rule; [destruct p0, p1, a, z; reflexivity|discriminate|assumption| |]; intros G; [destruct (U1 G); split; auto|destruct (U2 G) as [[? ?] [? ?]]; auto]).
    + intros HU HP. destruct (US _ HU) as [U1 U2]. destruct (Rlt_dec x (fst p0)) as [L|L]; cbv iota beta; rewrite ?X0, ?Y0, ?X1, ?Y1, ?XA, ?YA, ?XZ, ?YZ; f_equal;
      (rewrite bin_value_rule; [destruct p0, p1, a, z; reflexivity|discriminate|assumption| |]; intros G; [destruct (U1 G); split; auto|destruct (U2 G) as [[? ?] [? ?]]; auto]).
    + intros HU HP. destruct (US _ HU) as [U1 U2]. destruct (Rlt_dec x (fst p0)) as [L|L]; cbv iota beta; rewrite ?X0, ?Y0, ?X1, ?Y1, ?XA, ?YA, ?XZ, ?YZ; f_equal;
      (rewrite bin_value_rule; [destruct p0, p1, a, z; reflexivity|discriminate|assumption| |]; intros G; [destruct (U1 G); split; auto|destruct (U2 G) as [[? ?] [? ?]]; auto]).
    + intros HU HP. destruct (US _ HU) as [U1 U2]. destruct (Rlt_dec x (fst p0)) as [L|L]; cbv iota beta; rewrite ?X0, ?Y0, ?X1, ?Y1, ?XA, ?YA, ?XZ, ?YZ; f_equal;
      (rewrite bin_value_rule; [destruct p0, p1, a, z; reflexivity|discriminate|assumption| |]; intros G; [destruct (U1 G); split; auto|destruct (U2 G) as [[? ?] [? ?]]; auto]).
Qed.
Print Assumptions C38_outside.

(** A grid with fewer than two points is refused whenever it is evaluated, and nothing else
    is except a point outside a grid that forbids extrapolation. *)
Theorem C38_refused g x : (exists e, interpolate g x = Er e) <->
  (length (g_pts g) < 2)%nat \/ (g_em g = EThrow /\ exists lo up, find_bin_limits g x = Ok (true, lo, up)).
Proof.
  unfold interpolate, find_bin_limits. destruct (Nat.ltb_spec (length (g_pts g)) 2) as [L|L].
  - split; [intros _; left; exact L|intros _; eexists; reflexivity].
  - cbv zeta. destruct (Nat.eqb (grid_lower_bound (g_pts g) x) 0); [|destruct (Nat.eqb (grid_lower_bound (g_pts g) x) (length (g_pts g)))]; cbn [bind].
    + destruct (Req_EM_T (x_at (g_pts g) 0) x).
      * split; [intros [e' H]; discriminate|intros [H|(_ & lo & up & H)]; [lia|discriminate]].
      * destruct (g_em g); (split; [intros [e' H]; try discriminate|intros [H|(H & lo & up & E)]; [lia|try discriminate]]).
        -- right. split; [reflexivity|]. eexists _, _. reflexivity.
        -- eexists. reflexivity.
    + destruct (g_em g); (split; [intros [e' H]; try discriminate|intros [H|(H & lo & up & E)]; [lia|try discriminate]]).
      * right. split; [reflexivity|]. eexists _, _. reflexivity.
      * eexists. reflexivity.
    + split; [intros [e' H]; discriminate|intros [H|(_ & lo & up & H)]; [lia|discriminate]].
Qed.
Print Assumptions C38_refused.

(** Entries with a given abscissa, in order. *)
Definition at_x (v : R) (pts : list (R * R)) : list (R * R) := filter (fun p => if Req_EM_T (fst p) v then true else false) pts.

Lemma filter_none {A} (f : A -> bool) l : (forall a, In a l -> f a = false) -> filter f l = [].
Proof. induction l as [|a l IH]; intros H; cbn [filter]; [reflexivity|]. rewrite (H a (or_introl eq_refl)). apply IH. intros c Hc. apply H. right. exact Hc. Qed.

(** Inserting a point keeps the grid in order, adds exactly that point, and puts it after
    the points already there with the same abscissa. *)
Theorem C38_insert g x y : nondecreasing (g_pts g) ->
  nondecreasing (g_pts (grid_insert g x y)) /\ Permutation (g_pts (grid_insert g x y)) ((x, y) :: g_pts g) /\
  (forall v, at_x v (g_pts (grid_insert g x y)) = at_x v (g_pts g) ++ (if Req_EM_T x v then [(x, y)] else [])) /\
  g_im (grid_insert g x y) = g_im g /\ g_em (grid_insert g x y) = g_em g.
Proof.
  intros HS. destruct (upper_bound_spec _ x HS) as (A & B & C). unfold grid_insert. cbn [g_pts g_im g_em]. set (p := grid_upper_bound (g_pts g) x) in *.
  assert (LF : length (firstn p (g_pts g)) = p) by (rewrite firstn_length; lia).
  assert (N1 : forall i, (i < p)%nat -> nth_error (firstn p (g_pts g) ++ (x, y) :: skipn p (g_pts g)) i = nth_error (g_pts g) i).
  { intros i Hi. rewrite nth_error_app1 by lia. rewrite <- (firstn_skipn p (g_pts g)) at 2. rewrite nth_error_app1 by lia. reflexivity. }
  assert (N2 : nth_error (firstn p (g_pts g) ++ (x, y) :: skipn p (g_pts g)) p = Some (x, y)).
  { rewrite nth_error_app2 by lia. rewrite LF, Nat.sub_diag. reflexivity. }
  assert (N3 : forall i, (p < i)%nat -> nth_error (firstn p (g_pts g) ++ (x, y) :: skipn p (g_pts g)) i = nth_error (g_pts g) (i - 1)).
  { intros i Hi. rewrite nth_error_app2 by lia. rewrite LF. destruct (i - p)%nat as [|k] eqn:EK; [lia|]. cbn [nth_error].
    rewrite <- (firstn_skipn p (g_pts g)) at 2. rewrite nth_error_app2 by lia. rewrite LF. f_equal. lia. }
  split; [|split; [|split; [|split; reflexivity]]].
  - intros i j a c L Ha Hc.
    destruct (lt_eq_lt_dec i p) as [[Li|Li]|Li]; destruct (lt_eq_lt_dec j p) as [[Lj|Lj]|Lj]; try lia.
    + rewrite N1 in Ha, Hc by assumption. exact (HS _ _ _ _ L Ha Hc).
    + subst j. rewrite N1 in Ha by assumption. rewrite N2 in Hc. injection Hc as <-. cbn [fst]. pose proof (B i Li) as BB. destruct (nth_at _ _ _ Ha) as (<- & _). exact BB.
    + rewrite N1 in Ha by assumption. rewrite N3 in Hc by assumption. apply (HS i (j - 1)%nat); [lia|assumption|assumption].
    + subst i j. rewrite N2 in Ha, Hc. injection Ha as <-. injection Hc as <-. lra.
    + subst i. rewrite N2 in Ha. injection Ha as <-. rewrite N3 in Hc by assumption. destruct (nth_at _ _ _ Hc) as (<- & _ & LL). cbn [fst]. apply Rlt_le. apply C. lia.
    + rewrite N3 in Ha, Hc by assumption. apply (HS (i - 1)%nat (j - 1)%nat); [lia|assumption|assumption].
  - rewrite <- (firstn_skipn p (g_pts g)) at 3. symmetry. apply Permutation_middle.
  - intros v. unfold at_x. rewrite <- (firstn_skipn p (g_pts g)) at 3. rewrite !filter_app. cbn [filter fst].
    destruct (Req_EM_T x v) as [E|N]; [|rewrite app_nil_r; reflexivity]. subst v.
    assert (T : filter (fun q => if Req_EM_T (fst q) x then true else false) (skipn p (g_pts g)) = []).
    { apply filter_none. intros q Hq. apply In_nth_error in Hq. destruct Hq as [k Hk].
      assert (Hk' : nth_error (g_pts g) (p + k) = Some q).
      { rewrite <- (firstn_skipn p (g_pts g)). rewrite nth_error_app2 by lia. rewrite LF. replace (p + k - p)%nat with k by lia. exact Hk. }
      destruct (nth_at _ _ _ Hk') as (<- & _ & LL). pose proof (C (p + k)%nat ltac:(lia)). destruct (Req_EM_T (x_at (g_pts g) (p + k)) x); [lra|reflexivity]. }
    rewrite T, app_nil_r. reflexivity.
Qed.
Print Assumptions C38_insert.

(** A grid filled by any sequence of insertions is a stable sort of what was inserted. *)
Theorem C38_inserted im em ops : let g := fold_left (fun g p => grid_insert g (fst p) (snd p)) ops (empty_grid im em) in
  nondecreasing (g_pts g) /\ Permutation (g_pts g) ops /\ (forall v, at_x v (g_pts g) = at_x v ops).
Proof.
  cbv zeta.
  assert (G : forall ops g, nondecreasing (g_pts g) -> let g' := fold_left (fun g p => grid_insert g (fst p) (snd p)) ops g in
    nondecreasing (g_pts g') /\ Permutation (g_pts g') (ops ++ g_pts g) /\ (forall v, at_x v (g_pts g') = at_x v (g_pts g) ++ at_x v ops)).
  { clear. induction ops as [|[x y] r IH]; intros g HS; cbv zeta; cbn [fold_left fst snd].
    - split; [exact HS|]. split; [reflexivity|]. intros v. rewrite app_nil_r. reflexivity.
    - destruct (C38_insert g x y HS) as (S1 & P1 & F1 & _). destruct (IH _ S1) as (S2 & P2 & F2). split; [exact S2|]. split.
      + rewrite P2, P1. cbn [app]. symmetry. apply Permutation_middle.
      + intros v. rewrite F2, F1, <- app_assoc. f_equal. cbn [at_x filter fst]. unfold at_x. cbn [filter fst]. destruct (Req_EM_T x v); reflexivity. }
  destruct (G ops (empty_grid im em)) as (S & P & F); [intros i j p q _ Hp; destruct i; discriminate|].
  cbn [empty_grid g_pts at_x filter] in *. rewrite app_nil_r in P. auto.
Qed.
Print Assumptions C38_inserted.

(** The constructor refuses lists of different lengths and nothing else: its check for
    increasing abscissae never fires. *)
Theorem C38_constructor xs ys im em :
  (length xs <> length ys -> make_grid xs ys im em = Er MarleyErr) /\
  (length xs = length ys -> exists g, make_grid xs ys im em = Ok g /\ g_im g = im /\ g_em g = em /\
     map fst (g_pts g) = xs /\ map snd (g_pts g) = ys).
Proof.
  unfold make_grid. destruct (Nat.eqb_spec (length xs) (length ys)) as [E|N]; cbn [negb]; (split; [intros H|intros H]); try congruence; try reflexivity.
  - eexists. split; [reflexivity|]. cbn [g_im g_em g_pts]. split; [reflexivity|]. split; [reflexivity|]. clear - E. revert ys E.
    induction xs as [|a xs IH]; intros [|c ys] E; try discriminate E; [split; reflexivity|]. injection E as E. destruct (IH _ E) as [I1 I2]. cbn [combine map fst snd]. split; f_equal; assumption.
Qed.
Print Assumptions C38_constructor.

Theorem C38_unsorted_refuted : ~ (forall xs ys im em g, make_grid xs ys im em = Ok g -> increasing (g_pts g)).
Proof.
  intros H. pose proof (H [1; 0] [5; 5] ILinLin EZero _ eq_refl 0%nat 1%nat (1, 5) (0, 5) ltac:(lia) eq_refl eq_refl) as L. cbn [fst] in L. lra.
Qed.
Print Assumptions C38_unsorted_refuted.

(** Two points at the left end with the same abscissa make the value there NaN, for every
    rule that uses a formula. *)
Theorem C38_repeated_first im em x y1 y2 rest : im <> IConstant -> 0 < x -> 0 < y1 -> 0 < y2 ->
  nondecreasing ((x, y1) :: (x, y2) :: rest) -> interpolate (mkgrid im em ((x, y1) :: (x, y2) :: rest)) x = Ok NaN.
Proof.
  intros NC HX H1 H2 HS. unfold interpolate, find_bin_limits. cbn [g_pts g_im g_em].
  set (pts := (x, y1) :: (x, y2) :: rest) in *. destruct (lower_bound_spec pts x HS) as (A & B & C).
  assert (E : grid_lower_bound pts x = 0%nat).
  { destruct (grid_lower_bound pts x) as [|k] eqn:EK; [reflexivity|]. pose proof (B 0%nat ltac:(lia)) as BB. unfold x_at in BB. cbn in BB. lra. }
  rewrite E. change (Nat.ltb (length pts) 2) with false. cbv iota zeta. cbn [Nat.eqb]. change (x_at pts 0) with x. 
  destruct (Req_EM_T x x); [|lra]. cbn [bind]. f_equal. change (x_at pts 0) with x. change (x_at pts 1) with x. change (y_at pts 0) with y1. change (y_at pts 1) with y2.
  assert (Z : forall a u, xmul (xdiv (Fin a) (xsub (Fin u) (Fin u))) (xsub (Fin u) (Fin u)) = NaN).
  { intros a u. cbn [xsub xopp xadd xdiv]. destruct (Req_EM_T (u + - u) 0) as [_|N]; [|lra]. unfold inf_times.
    destruct (Rlt_dec 0 a); [|destruct (Rlt_dec a 0)]; cbn [xmul]; unfold inf_times; [destruct (Rlt_dec 0 (u + - u)); [lra|]; destruct (Rlt_dec (u + - u) 0); [lra|reflexivity]..|reflexivity]. }
  destruct im; [contradiction| | | |]; unfold bin_value; cbn [uses_log_x uses_log_y]; cbv beta iota zeta; cbn [xlog].
  - change (xsub (Fin y2) (Fin y1)) with (Fin (y2 + - y1)). rewrite Z. reflexivity.
  - destruct (Rlt_dec 0 x); [|lra]. change (xsub (Fin y2) (Fin y1)) with (Fin (y2 + - y1)). rewrite Z. reflexivity.
  - destruct (Rlt_dec 0 y1); [|lra]. destruct (Rlt_dec 0 y2); [|lra]. change (xsub (Fin (ln y2)) (Fin (ln y1))) with (Fin (ln y2 + - ln y1)). rewrite Z. reflexivity.
  - destruct (Rlt_dec 0 x); [|lra]. destruct (Rlt_dec 0 y1); [|lra]. destruct (Rlt_dec 0 y2); [|lra]. change (xsub (Fin (ln y2)) (Fin (ln y1))) with (Fin (ln y2 + - ln y1)). rewrite Z. reflexivity.
Qed.
Print Assumptions C38_repeated_first.

(** A case: the grid (0,1), (1,3), (4,0) at 2. *)
Definition demo_grid : grid := mkgrid ILinLin EEndpoint [(0, 1); (1, 3); (4, 0)].

Lemma demo_grid_ok : increasing (g_pts demo_grid) /\ usable (g_im demo_grid) (g_pts demo_grid).
Proof.
  split; [|split; intros [H|H]; discriminate].
  intros i j p q L Hp Hq. cbn [demo_grid g_pts] in *. destruct i as [|[|[|i]]]; cbn [nth_error] in Hp; try (destruct i; discriminate); try discriminate;
    (destruct j as [|[|[|j]]]; cbn [nth_error] in Hq; try lia; try (destruct j; discriminate); try discriminate); injection Hp as <-; injection Hq as <-; cbn [fst]; lra.
Qed.

Example C38_case : interpolate demo_grid 2 = Ok (Fin 2) /\ interpolate demo_grid 1 = Ok (Fin 3) /\ interpolate demo_grid 7 = Ok (Fin 0).
Proof.
  destruct demo_grid_ok as [HI HU]. split; [|split].
  - rewrite (proj1 (C38_between demo_grid 1 (1, 3) (4, 0) 2 HI HU eq_refl eq_refl ltac:(cbn; lra))). cbn [demo_grid g_im rule fst snd]. unfold line. do 2 f_equal. lra.
  - apply (C38_grid_points demo_grid 1); [cbn; lia|exact HI|exact HU|discriminate|reflexivity].
  - pose proof (C38_outside demo_grid 7 (0, 1) (1, 3) (1, 3) (4, 0) HI eq_refl eq_refl eq_refl eq_refl ltac:(cbn; lra)) as H. cbn [demo_grid g_em fst snd] in H.
    destruct (Rlt_dec 7 0); [lra|exact H].
Qed.

(** The documentation gives the rule LinearLog the formula that is linear in x and
    logarithmic in y; the code makes it logarithmic in x and linear in y (and the reverse
    for LogLinear). *)
Theorem C38_log_names_refuted : ~ (forall g i p q x, increasing (g_pts g) -> usable ILogLog (g_pts g) -> g_im g = ILinLog ->
  nth_error (g_pts g) i = Some p -> nth_error (g_pts g) (S i) = Some q -> fst p < x < fst q ->
  interpolate g x = Ok (Fin (exp (line (fst p) (ln (snd p)) (fst q) (ln (snd q)) x)))).
Proof.
  intros H. set (g := mkgrid ILinLog EZero [(1, 1); (4, 16)]).
  assert (HI : increasing (g_pts g)).
  { intros i j p q L Hp Hq. cbn [g g_pts] in *. destruct i as [|[|i]]; cbn [nth_error] in Hp; try (destruct i; discriminate);
    (destruct j as [|[|j]]; cbn [nth_error] in Hq; try lia; try (destruct j; discriminate)); injection Hp as <-; injection Hq as <-; cbn [fst]; lra. }
  assert (HU : forall im, usable im (g_pts g)) by (intros im; split; intros _; repeat constructor; cbn; lra).
  pose proof (H g 0%nat (1, 1) (4, 16) 2 HI (HU _) eq_refl eq_refl eq_refl ltac:(cbn; lra)) as E.
  rewrite (proj1 (C38_between g 0 (1, 1) (4, 16) 2 HI (HU _) eq_refl eq_refl ltac:(cbn; lra))) in E. injection E as E.
  cbn [g g_im rule fst snd] in E. unfold line in E. rewrite ln_1 in E.
  assert (L4 : ln 4 = 2 * ln 2) by (replace 4 with (2 * 2) by lra; rewrite ln_mult by lra; lra).
  assert (L2 : 0 < ln 2) by (rewrite <- ln_1; apply ln_increasing; lra).
  rewrite L4 in E. replace (1 + (16 - 1) / (2 * ln 2 - 0) * (ln 2 - 0)) with (17 / 2) in E by (field; lra).
  replace (0 + (ln 16 - 0) / (4 - 1) * (2 - 1)) with (ln 16 / 3) in E by lra.
  assert (C : exp (ln 16 / 3) * exp (ln 16 / 3) * exp (ln 16 / 3) = 16).
  { rewrite <- !exp_plus. replace (ln 16 / 3 + ln 16 / 3 + ln 16 / 3) with (ln 16) by lra. apply exp_ln. lra. }
  rewrite <- E in C. lra.
Qed.
Print Assumptions C38_log_names_refuted.
