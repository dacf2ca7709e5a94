(** Property C38, continued: zeros under the logarithmic rules. *)
From Coq Require Import List Reals Bool Arith Lia Lra.
From Verif Require Import Base XReal Grid GridThms.
Import ListNotations.
Open Scope R_scope.

Ltac decide_real := repeat match goal with |- context [Rlt_dec ?a ?b] => destruct (Rlt_dec a b); try lra | |- context [Req_EM_T ?a ?b] => destruct (Req_EM_T a b); try lra end.

Lemma bin_zero im o x1 y1 x2 y2 x : im = ILogLin \/ im = ILogLog -> x1 < x2 -> (im = ILogLog -> 0 < x1 /\ 0 < x) -> 0 <= y1 -> 0 <= y2 ->
  (0 < y1 -> y2 = 0 -> x1 < x -> bin_value im o x1 y1 x2 y2 x = Fin 0) /\
  (0 < y1 -> y2 = 0 -> x = x1 -> bin_value im o x1 y1 x2 y2 x = NaN) /\
  (0 < y1 -> y2 = 0 -> x < x1 -> bin_value im o x1 y1 x2 y2 x = Inf false) /\
  (y1 = 0 -> x1 <= x -> bin_value im o x1 y1 x2 y2 x = NaN) /\
  (y1 = 0 -> 0 < y2 -> x < x1 -> bin_value im o x1 y1 x2 y2 x = Fin 0) /\
  (y1 = 0 -> y2 = 0 -> bin_value im o x1 y1 x2 y2 x = NaN).
Proof.
  intros HI HX HL H1 H2. unfold bin_value.
  assert (G : forall u1 u2 u, u1 < u2 -> (x1 < x <-> u1 < u) -> (x1 = x <-> u1 = u) ->
    let r := xadd (xlog (Fin y1)) (xmul (xdiv (xsub (xlog (Fin y2)) (xlog (Fin y1))) (xsub (Fin u2) (Fin u1))) (xsub (Fin u) (Fin u1))) in
    (0 < y1 -> y2 = 0 -> x1 < x -> xexp r = Fin 0) /\
    (0 < y1 -> y2 = 0 -> x = x1 -> xexp r = NaN) /\
    (0 < y1 -> y2 = 0 -> x < x1 -> xexp r = Inf false) /\
    (y1 = 0 -> x1 <= x -> xexp r = NaN) /\
    (y1 = 0 -> 0 < y2 -> x < x1 -> xexp r = Fin 0) /\
    (y1 = 0 -> y2 = 0 -> xexp r = NaN)).
  { intros u1 u2 u U L E. cbv zeta.
    assert (L' : x < x1 <-> u < u1). { destruct (Rtotal_order x x1) as [C|[C|C]], (Rtotal_order u u1) as [D|[D|D]]; split; intros; try lra;
      try (apply L in C; lra); try (apply L in D; lra); try (symmetry in C; apply E in C; lra); try (symmetry in D; apply E in D; lra). }
    repeat split; intros; unfold xlog; decide_real; do 3 (cbn [xsub xopp xadd xdiv xmul xexp negb eqb xorb]; unfold inf_times; decide_real); cbn [xadd xexp negb eqb xorb]; try reflexivity; exfalso;
    repeat match goal with H : x1 < x |- _ => apply L in H | H : x = x1 |- _ => symmetry in H; apply E in H | H : x < x1 |- _ => apply L' in H | H : x1 <= x |- _ => destruct H as [H|H]; [apply L in H|apply E in H] end; lra. }
  destruct HI as [->| ->]; cbn [uses_log_x uses_log_y]; cbv zeta.
  - apply G; [exact HX|tauto|tauto].
  - destruct (HL eq_refl) as [P1 P2]. assert (E : forall v, 0 < v -> xlog (Fin v) = Fin (ln v)) by (intros v V; unfold xlog; destruct (Rlt_dec 0 v); [reflexivity|contradiction]).
    rewrite !(E x1), !(E x2), !(E x) by lra. apply G.
    + apply ln_increasing; assumption.
    + split; [apply ln_increasing; assumption|apply ln_lt_inv; assumption].
    + split; [intros ->; reflexivity|apply ln_inv; assumption].
Qed.

Lemma bin_zero_x im o y1 x2 y2 x : im = ILinLog \/ im = ILogLog -> 0 < x2 -> 0 <= x -> (im = ILogLog -> 0 <= y1 /\ 0 <= y2) -> bin_value im o 0 y1 x2 y2 x = NaN.
Proof.
  intros HI HX Hx HY. unfold bin_value. destruct HI as [->| ->]; cbn [uses_log_x uses_log_y]; cbv zeta; unfold xlog; decide_real;
    cbn [xsub xopp xadd xdiv xmul negb eqb]; unfold inf_times; decide_real; cbn [xadd xexp xmul negb eqb xorb]; try reflexivity; unfold inf_times; decide_real; cbn [xadd xexp xmul negb eqb xorb]; try reflexivity; destruct (HY eq_refl); lra.
Qed.

Lemma inside_bin g i p q x : increasing (g_pts g) -> nth_error (g_pts g) i = Some p -> nth_error (g_pts g) (S i) = Some q ->
  fst p < x <= fst q \/ (i = 0%nat /\ x = fst p) -> interpolate g x = Ok (bin_value (g_im g) false (fst p) (snd p) (fst q) (snd q) x).
Proof.
  intros HI Hp Hq Hx. destruct (nth_at _ _ _ Hp) as (X1 & Y1 & L1). destruct (nth_at _ _ _ Hq) as (X2 & Y2 & L2).
  pose proof (HI i (S i) p q ltac:(lia) Hp Hq) as HX.
  unfold interpolate, find_bin_limits. destruct (Nat.ltb_spec (length (g_pts g)) 2); [lia|]. cbv zeta. destruct Hx as [Hx|[-> ->]].
  - rewrite (lower_bound_is _ _ (S i) HI L2); [|lra|right; replace (S i - 1)%nat with i by lia; lra].
    change (Nat.eqb (S i) 0) with false. cbv iota. destruct (Nat.eqb_spec (S i) (length (g_pts g))); [lia|]. cbn [bind]. replace (S i - 1)%nat with i by lia. rewrite X1, Y1, X2, Y2. reflexivity.
  - rewrite (lower_bound_is _ _ 0%nat HI L1); [|lra|left; reflexivity]. cbn [Nat.eqb]. rewrite X1. destruct (Req_EM_T (fst p) (fst p)); [|lra]. cbn [bind]. rewrite X1, Y1, X2, Y2. reflexivity.
Qed.

(** Where the rule takes logarithms of the values: in a bin that ends with a zero the value is
    zero all over the bin, up to its left end; in a bin that begins with a zero the value is
    not a number, and neither is it at the first point of a grid if one of the first two
    values is zero. The tabulated values are not reproduced there. *)
Theorem C38_zero_values g i p q x : g_im g = ILogLin \/ g_im g = ILogLog -> increasing (g_pts g) ->
  nth_error (g_pts g) i = Some p -> nth_error (g_pts g) (S i) = Some q -> (g_im g = ILogLog -> 0 < fst p) -> 0 <= snd p -> 0 <= snd q ->
  (fst p < x <= fst q -> 0 < snd p -> snd q = 0 -> interpolate g x = Ok (Fin 0)) /\
  (fst p < x <= fst q -> snd p = 0 -> interpolate g x = Ok NaN) /\
  (i = 0%nat -> x = fst p -> snd p = 0 \/ snd q = 0 -> interpolate g x = Ok NaN).
Proof.
  intros HM HI Hp Hq HL H1 H2. pose proof (HI i (S i) p q ltac:(lia) Hp Hq) as HX. split; [|split].
  - intros Hx P Q. rewrite (inside_bin g i p q x HI Hp Hq (or_introl Hx)). f_equal. destruct (bin_zero (g_im g) false (fst p) (snd p) (fst q) (snd q) x HM ltac:(lra) ltac:(intros C; specialize (HL C); lra) ltac:(lra) ltac:(lra)) as (B1 & B2 & B3 & B4 & B5 & B6). apply B1; lra.
  - intros Hx P. rewrite (inside_bin g i p q x HI Hp Hq (or_introl Hx)). f_equal. destruct (bin_zero (g_im g) false (fst p) (snd p) (fst q) (snd q) x HM ltac:(lra) ltac:(intros C; specialize (HL C); lra) ltac:(lra) ltac:(lra)) as (B1 & B2 & B3 & B4 & B5 & B6). apply B4; lra.
  - intros I0 Hx D. rewrite (inside_bin g i p q x HI Hp Hq (or_intror (conj I0 Hx))). f_equal. subst x.
    assert (K : g_im g = ILogLog -> 0 < fst p /\ 0 < fst p) by (intros C; specialize (HL C); lra).
    destruct (bin_zero (g_im g) false (fst p) (snd p) (fst q) (snd q) (fst p) HM HX K H1 H2) as (_ & B2 & _ & B4 & _).
    destruct D as [D|D]; [apply B4; lra|]. destruct (Req_dec (snd p) 0) as [Z|Z]; [apply B4; lra|apply B2; lra].
Qed.
Print Assumptions C38_zero_values.

(** Continued beyond the ends: to the left of a first bin that ends with a zero the value is
    infinite, and to the left of one that begins with a zero it is zero; to the right of a last
    bin that ends with a zero it is zero. *)
Theorem C38_zero_beyond g p0 p1 a z x : g_im g = ILogLin \/ g_im g = ILogLog -> g_em g = EContinue -> increasing (g_pts g) ->
  nth_error (g_pts g) 0 = Some p0 -> nth_error (g_pts g) 1 = Some p1 ->
  nth_error (g_pts g) (length (g_pts g) - 2) = Some a -> nth_error (g_pts g) (length (g_pts g) - 1) = Some z ->
  (g_im g = ILogLog -> 0 < fst p0 /\ 0 < x) ->
  (x < fst p0 -> 0 < snd p0 -> snd p1 = 0 -> interpolate g x = Ok (Inf false)) /\
  (x < fst p0 -> snd p0 = 0 -> 0 < snd p1 -> interpolate g x = Ok (Fin 0)) /\
  (fst z < x -> 0 < snd a -> snd z = 0 -> interpolate g x = Ok (Fin 0)) /\
  (fst z < x -> snd a = 0 -> 0 <= snd z -> interpolate g x = Ok NaN).
Proof.
  intros HM HE HI H0 H1 Ha Hz HL.
  destruct (nth_at _ _ _ H0) as (X0 & Y0 & L0). destruct (nth_at _ _ _ H1) as (X1 & Y1 & L1). destruct (nth_at _ _ _ Ha) as (Xa & Ya & La). destruct (nth_at _ _ _ Hz) as (Xz & Yz & Lz).
  pose proof (HI 0%nat 1%nat p0 p1 ltac:(lia) H0 H1) as O1. pose proof (HI (length (g_pts g) - 2)%nat (length (g_pts g) - 1)%nat a z ltac:(lia) Ha Hz) as O2.
  assert (O3 : fst p0 <= fst a). { exact (inc_nondec _ HI 0%nat (length (g_pts g) - 2)%nat p0 a ltac:(lia) H0 Ha). }
  assert (BL : x < fst p0 -> interpolate g x = Ok (bin_value (g_im g) true (fst p0) (snd p0) (fst p1) (snd p1) x)).
  { intros Hx. unfold interpolate, find_bin_limits. destruct (Nat.ltb_spec (length (g_pts g)) 2); [lia|]. cbv zeta.
    rewrite (lower_bound_is _ _ 0%nat HI L0); [|lra|left; reflexivity]. cbn [Nat.eqb]. rewrite X0. destruct (Req_EM_T (fst p0) x); [lra|]. cbn [bind]. rewrite HE, X0, Y0, X1, Y1. reflexivity. }
  assert (BR : fst z < x -> interpolate g x = Ok (bin_value (g_im g) true (fst a) (snd a) (fst z) (snd z) x)).
  { intros Hx. unfold interpolate, find_bin_limits. destruct (Nat.ltb_spec (length (g_pts g)) 2); [lia|]. cbv zeta.
    destruct (lower_bound_spec (g_pts g) x (inc_nondec _ HI)) as (P1 & P2 & P3). set (pp := grid_lower_bound (g_pts g) x) in *.
    assert (pp = length (g_pts g)) as ->.
    { destruct (Nat.eq_dec pp (length (g_pts g))) as [E|E]; [exact E|]. exfalso. specialize (P3 (length (g_pts g) - 1)%nat ltac:(lia)). lra. }
    destruct (Nat.eqb_spec (length (g_pts g)) 0); [lia|]. rewrite Nat.eqb_refl. cbn [bind]. rewrite HE, Xa, Ya, Xz, Yz. reflexivity. }
  split; [|split; [|split]].
  - intros Hx P Q. rewrite (BL Hx). f_equal. destruct (bin_zero (g_im g) true (fst p0) (snd p0) (fst p1) (snd p1) x HM ltac:(lra) ltac:(intros C; specialize (HL C); lra) ltac:(lra) ltac:(lra)) as (B1 & B2 & B3 & B4 & B5 & B6). apply B3; lra.
  - intros Hx P Q. rewrite (BL Hx). f_equal. destruct (bin_zero (g_im g) true (fst p0) (snd p0) (fst p1) (snd p1) x HM ltac:(lra) ltac:(intros C; specialize (HL C); lra) ltac:(lra) ltac:(lra)) as (B1 & B2 & B3 & B4 & B5 & B6). apply B5; lra.
  - intros Hx P Q. rewrite (BR Hx). f_equal. destruct (bin_zero (g_im g) true (fst a) (snd a) (fst z) (snd z) x HM ltac:(lra) ltac:(intros C; specialize (HL C); lra) ltac:(lra) ltac:(lra)) as (B1 & B2 & B3 & B4 & B5 & B6). apply B1; lra.
  - intros Hx P Q. rewrite (BR Hx). f_equal. destruct (bin_zero (g_im g) true (fst a) (snd a) (fst z) (snd z) x HM ltac:(lra) ltac:(intros C; specialize (HL C); lra) ltac:(lra) ltac:(lra)) as (B1 & B2 & B3 & B4 & B5 & B6). apply B4; lra.
Qed.
Print Assumptions C38_zero_beyond.

(** Where the rule takes logarithms of the abscissae, a grid that begins at zero has values
    that are not numbers all over its first bin, ends included. *)
Theorem C38_zero_abscissa g p q x : g_im g = ILinLog \/ g_im g = ILogLog -> increasing (g_pts g) ->
  nth_error (g_pts g) 0 = Some p -> nth_error (g_pts g) 1 = Some q -> fst p = 0 -> 0 <= snd p -> 0 <= snd q ->
  0 <= x <= fst q -> interpolate g x = Ok NaN.
Proof.
  intros HM HI Hp Hq Z P Q Hx. pose proof (HI 0%nat 1%nat p q ltac:(lia) Hp Hq) as HX.
  rewrite (inside_bin g 0 p q x HI Hp Hq); [|destruct (Req_dec x (fst p)); [right; split; [reflexivity|assumption]|left; lra]].
  f_equal. rewrite Z. apply bin_zero_x; try assumption; try lra.
Qed.
Print Assumptions C38_zero_abscissa.

(** A spectrum that begins and ends with a zero. *)
Definition zero_grid : grid := mkgrid ILogLin EContinue [(1, 0); (2, 5); (3, 0)].
Example C38_zero_case : increasing (g_pts zero_grid) /\ interpolate zero_grid (3 / 2) = Ok NaN /\ interpolate zero_grid (5 / 2) = Ok (Fin 0) /\
  interpolate zero_grid 0 = Ok (Fin 0) /\ interpolate zero_grid 4 = Ok (Fin 0) /\ interpolate (mkgrid ILogLog EZero [(0, 1); (2, 5)]) 1 = Ok NaN.
Proof.
  assert (I0 : increasing (g_pts zero_grid)).
  { intros i j p q Hij Hp Hq. unfold zero_grid in *. cbn [g_pts] in *. destruct i as [|[|[|i]]], j as [|[|[|j]]]; cbn [nth_error] in *; try lia; try discriminate;
      try (destruct j; discriminate); try (destruct i; discriminate); injection Hp as <-; injection Hq as <-; cbn [fst]; lra. }
  split; [exact I0|]. split; [|split; [|split; [|split]]].
  - refine (proj1 (proj2 (C38_zero_values zero_grid 0 (1, 0) (2, 5) (3 / 2) _ _ _ _ _ _ _)) _ _); cbn [zero_grid g_im g_pts nth_error fst snd]; try assumption; try reflexivity; try lra; try (left; reflexivity); try (intros C; discriminate).
  - refine (proj1 (C38_zero_values zero_grid 1 (2, 5) (3, 0) (5 / 2) _ _ _ _ _ _ _) _ _ _); cbn [zero_grid g_im g_pts nth_error fst snd]; try assumption; try reflexivity; try lra; try (left; reflexivity); try (intros C; discriminate).
  - refine (proj1 (proj2 (C38_zero_beyond zero_grid (1, 0) (2, 5) (2, 5) (3, 0) 0 _ _ _ _ _ _ _ _)) _ _ _); cbn [zero_grid g_im g_em g_pts nth_error fst snd]; try assumption; try reflexivity; try lra; try (left; reflexivity); try (intros C; discriminate).
  - refine (proj1 (proj2 (proj2 (C38_zero_beyond zero_grid (1, 0) (2, 5) (2, 5) (3, 0) 4 _ _ _ _ _ _ _ _))) _ _ _); cbn [zero_grid g_im g_em g_pts nth_error fst snd]; try assumption; try reflexivity; try lra; try (left; reflexivity); try (intros C; discriminate).
  - apply (C38_zero_abscissa _ (0, 1) (2, 5)); cbn [g_im g_pts nth_error fst snd]; try reflexivity; try lra; [right; reflexivity|].
    intros i j p q Hij Hp Hq. destruct i as [|[|i]], j as [|[|j]]; cbn [nth_error] in *; try lia; try discriminate;
      try (destruct j; discriminate); try (destruct i; discriminate); injection Hp as <-; injection Hq as <-; cbn [fst]; lra.
Qed.
