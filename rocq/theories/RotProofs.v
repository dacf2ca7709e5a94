From Coq Require Import List ZArith Reals Lra Lia Psatz.
From Verif Require Import Base Kin KinSpec KinProofs Rot RotSpec.
Import ListNotations.
Local Open Scope R_scope.

Lemma proper_dot m a b : proper m -> dot (apply_mat m a) (apply_mat m b) = dot a b.
Proof.
  intros (H0 & H1 & H2 & H3 & H4 & H5 & _).
  destruct m as [[a0 a1 a2] [b0 b1 b2] [c0 c1 c2]], a as [x0 x1 x2], b as [y0 y1 y2].
  unfold dot, col0, col1, col2, apply_mat in *. cbn [vx vy vz row0 row1 row2 dot] in *.
  transitivity ((a0 * a0 + b0 * b0 + c0 * c0) * (x0 * y0) + (a1 * a1 + b1 * b1 + c1 * c1) * (x1 * y1) +
    (a2 * a2 + b2 * b2 + c2 * c2) * (x2 * y2) + (a0 * a1 + b0 * b1 + c0 * c1) * (x0 * y1 + x1 * y0) +
    (a0 * a2 + b0 * b2 + c0 * c2) * (x0 * y2 + x2 * y0) + (a1 * a2 + b1 * b2 + c1 * c2) * (x1 * y2 + x2 * y1)).
  { unfold dot. cbn [vx vy vz]. ring. }
  rewrite H0, H1, H2, H3, H4, H5. ring.
Qed.

Lemma identity_proper : proper identity.
Proof. unfold proper, identity, det, cross, dot, col0, col1, col2. cbn [vx vy vz row0 row1 row2]. repeat split; ring. Qed.

Lemma identity_apply v : apply_mat identity v = v.
Proof. destruct v as [x y z]. unfold apply_mat, identity, dot. cbn [vx vy vz row0 row1 row2]. f_equal; ring. Qed.

(** ** The common case *)

Lemma turn_proper a b : dot a a = 1 -> dot b b = 1 -> dot a b <> -1 ->
  proper (turn a b (dot a b)) /\ apply_mat (turn a b (dot a b)) a = b.
Proof.
  intros Ha Hb He. set (e := dot a b) in *.
  assert (Hee : e = dot a b) by reflexivity. clearbody e.
  assert (Hv : dot (cross a b) (cross a b) = 1 - e ^ 2).
  { rewrite Hee. transitivity (dot a a * dot b b - dot a b ^ 2); [unfold dot, cross; cbn [vx vy vz]; ring|].
    rewrite Ha, Hb. ring. }
  assert (Hva : dot (cross a b) a = 0) by (unfold dot, cross; cbn [vx vy vz]; ring).
  set (h := 1 / (1 + e)).
  assert (Hh : h * (1 + e) = 1) by (unfold h; field; lra).
  assert (Hhe : e * h = 1 - h) by lra.
  split.
  - unfold turn. cbv zeta. fold h. destruct (cross a b) as [x y z]. clear Hva Ha Hb Hee.
    unfold dot in Hv. cbn [vx vy vz] in Hv.
    assert (Hq : 2 * e * h + h ^ 2 * (x * x + y * y + z * z) - 1 = 0).
    { rewrite Hv. transitivity (2 * (e * h) + h ^ 2 - (e * h) ^ 2 - 1); [ring|]. rewrite Hhe. ring. }
    assert (Hn : e ^ 2 + (x * x + y * y + z * z) = 1) by lra.
    unfold proper, det, cross, dot, col0, col1, col2. cbn [vx vy vz row0 row1 row2].
    repeat split.
    1-6: match goal with |- ?l = ?r => idtac end.
    + transitivity ((e ^ 2 + (x * x + y * y + z * z)) + (2 * e * h + h ^ 2 * (x * x + y * y + z * z) - 1) * (x * x)); [ring|]. rewrite Hq, Hn. ring.
    + transitivity ((e ^ 2 + (x * x + y * y + z * z)) + (2 * e * h + h ^ 2 * (x * x + y * y + z * z) - 1) * (y * y)); [ring|]. rewrite Hq, Hn. ring.
    + transitivity ((e ^ 2 + (x * x + y * y + z * z)) + (2 * e * h + h ^ 2 * (x * x + y * y + z * z) - 1) * (z * z)); [ring|]. rewrite Hq, Hn. ring.
    + transitivity ((2 * e * h + h ^ 2 * (x * x + y * y + z * z) - 1) * (x * y)); [ring|]. rewrite Hq. ring.
    + transitivity ((2 * e * h + h ^ 2 * (x * x + y * y + z * z) - 1) * (x * z)); [ring|]. rewrite Hq. ring.
    + transitivity ((2 * e * h + h ^ 2 * (x * x + y * y + z * z) - 1) * (y * z)); [ring|]. rewrite Hq. ring.
    + transitivity ((e ^ 2 + (x * x + y * y + z * z)) * (e + h * (x * x + y * y + z * z))); [ring|].
      rewrite Hn, Hv. transitivity (e + h - e * (e * h)); [ring|]. rewrite Hhe. lra.
  - unfold turn. cbv zeta. fold h.
    assert (Hx : cross (cross a b) a = mkv (vx b - e * vx a) (vy b - e * vy a) (vz b - e * vz a)).
    { transitivity (mkv (dot a a * vx b - dot a b * vx a) (dot a a * vy b - dot a b * vy a) (dot a a * vz b - dot a b * vz a)).
      - unfold dot, cross. cbn [vx vy vz]. f_equal; ring.
      - rewrite Ha, <- Hee. f_equal; ring. }
    destruct (cross a b) as [x y z], a as [a0 a1 a2], b as [b0 b1 b2].
    unfold cross, dot in Hx, Hva. cbn [vx vy vz] in Hx, Hva. injection Hx as X0 X1 X2.
    unfold apply_mat, dot. cbn [vx vy vz row0 row1 row2].
    f_equal.
    + transitivity (e * a0 + (y * a2 - z * a1) + h * x * (x * a0 + y * a1 + z * a2)); [ring|]. rewrite Hva, X0. ring.
    + transitivity (e * a1 + (z * a0 - x * a2) + h * y * (x * a0 + y * a1 + z * a2)); [ring|]. rewrite Hva, X1. ring.
    + transitivity (e * a2 + (x * a1 - y * a0) + h * z * (x * a0 + y * a1 + z * a2)); [ring|]. rewrite Hva, X2. ring.
Qed.

(** ** Nearly parallel vectors *)

Lemma far_axis_unit a : dot (far_axis a) (far_axis a) = 1.
Proof.
  unfold far_axis. cbv zeta. destruct (Rlt_dec _ _); destruct (Rlt_dec _ _); unfold dot; cbn [vx vy vz]; ring.
Qed.

(** Its component along the axis is at most 1/sqrt 3. *)
Lemma far_axis_small a : dot a a = 1 -> 3 * dot (far_axis a) a ^ 2 <= 1.
Proof.
  intros Ha. unfold dot in Ha.
  assert (Q : forall x y, Rabs x <= Rabs y -> x ^ 2 <= y ^ 2).
  { intros x y H. rewrite <- (pow2_abs x), <- (pow2_abs y). pose proof (Rabs_pos x). nra. }
  unfold far_axis. cbv zeta. destruct (Rlt_dec _ _) as [H|H]; destruct (Rlt_dec _ _) as [H'|H']; unfold dot; cbn [vx vy vz].
  - pose proof (Q (vx a) (vy a) ltac:(lra)). pose proof (Q (vx a) (vz a) ltac:(lra)). lra.
  - pose proof (Q (vz a) (vx a) ltac:(lra)). pose proof (Q (vz a) (vy a) ltac:(lra)). lra.
  - pose proof (Q (vy a) (vx a) ltac:(lra)). pose proof (Q (vy a) (vz a) ltac:(lra)). lra.
  - pose proof (Q (vz a) (vy a) ltac:(lra)). pose proof (Q (vz a) (vx a) ltac:(lra)). lra.
Qed.

Lemma unit_eq a b : dot a a = 1 -> dot b b = 1 -> dot a b = 1 -> a = b.
Proof.
  intros Ha Hb H.
  assert (HD : (vx a - vx b) ^ 2 + (vy a - vy b) ^ 2 + (vz a - vz b) ^ 2 = 0) by (unfold dot in *; lra).
  pose proof (pow2_nonneg (vx a - vx b)). pose proof (pow2_nonneg (vy a - vy b)). pose proof (pow2_nonneg (vz a - vz b)).
  assert (vx a - vx b = 0) by nra. assert (vy a - vy b = 0) by nra. assert (vz a - vz b = 0) by nra.
  destruct a as [a0 a1 a2], b as [b0 b1 b2]. cbn [vx vy vz] in *. f_equal; lra.
Qed.

Lemma sub_norm a b : dot a a = 1 -> dot b b = 1 -> dot (sub a b) (sub a b) = 2 * (1 - dot a b).
Proof.
  intros Ha Hb. transitivity (dot a a + dot b b - 2 * dot a b); [unfold dot, sub; cbn [vx vy vz]; ring|].
  rewrite Ha, Hb. ring.
Qed.

(** Two reflections in the planes orthogonal to u and v. *)
Definition two_reflections (u v : vec) (c1 c2 : R) : mat :=
  let c3 := c1 * c2 * dot u v in
  let entry (f g : vec -> R) := - c1 * f u * g u - c2 * f v * g v + c3 * f v * g u in
  mkmat (mkv (entry vx vx + 1) (entry vx vy) (entry vx vz))
        (mkv (entry vy vx) (entry vy vy + 1) (entry vy vz))
        (mkv (entry vz vx) (entry vz vy) (entry vz vz + 1)).

Definition reflection (c : R) (u w : vec) : vec :=
  mkv (vx w - c * dot u w * vx u) (vy w - c * dot u w * vy u) (vz w - c * dot u w * vz u).

Lemma two_reflections_apply u v c1 c2 w :
  apply_mat (two_reflections u v c1 c2) w = reflection c2 v (reflection c1 u w).
Proof.
  unfold apply_mat, two_reflections, reflection, dot. cbv zeta. cbn [vx vy vz row0 row1 row2]. f_equal; ring.
Qed.

Lemma reflection_dot c u a b : c * dot u u = 2 -> dot (reflection c u a) (reflection c u b) = dot a b.
Proof.
  intros H. transitivity (dot a b + c * dot u a * dot u b * (c * dot u u - 2)).
  { unfold reflection, dot. cbn [vx vy vz]. ring. }
  rewrite H. ring.
Qed.

Lemma two_reflections_det u v c1 c2 :
  det (two_reflections u v c1 c2) = (1 - c1 * dot u u) * (1 - c2 * dot v v).
Proof.
  unfold det, two_reflections, cross, dot. cbv zeta. cbn [vx vy vz row0 row1 row2]. ring.
Qed.

Lemma apply_axes m : apply_mat m (mkv 1 0 0) = col0 m /\ apply_mat m (mkv 0 1 0) = col1 m /\ apply_mat m (mkv 0 0 1) = col2 m.
Proof.
  destruct m as [[a0 a1 a2] [b0 b1 b2] [c0 c1 c2]]. unfold apply_mat, dot, col0, col1, col2. cbn [vx vy vz row0 row1 row2].
  repeat split; f_equal; ring.
Qed.

Lemma two_reflections_proper u v c1 c2 : c1 * dot u u = 2 -> c2 * dot v v = 2 ->
  proper (two_reflections u v c1 c2).
Proof.
  intros H1 H2. set (m := two_reflections u v c1 c2).
  assert (HD : forall a b, dot (apply_mat m a) (apply_mat m b) = dot a b).
  { intros a b. unfold m. rewrite !two_reflections_apply, !reflection_dot by assumption. reflexivity. }
  destruct (apply_axes m) as (A0 & A1 & A2). unfold proper.
  rewrite <- A0, <- A1, <- A2, !HD. unfold dot at 1 2 3 4 5 6. cbn [vx vy vz].
  repeat split; try ring. unfold m. rewrite two_reflections_det, H1, H2. ring.
Qed.

Lemma reflection_swap a x : dot a a = 1 -> dot x x = 1 -> dot (sub x a) (sub x a) <> 0 ->
  reflection (2 / dot (sub x a) (sub x a)) (sub x a) a = x.
Proof.
  intros Ha Hx H. pose proof (sub_norm x a Hx Ha) as Hn.
  assert (Hd : dot (sub x a) a = dot x a - 1) by (transitivity (dot x a - dot a a); [unfold dot, sub; cbn [vx vy vz]; ring|rewrite Ha; reflexivity]).
  assert (Hc : 2 / dot (sub x a) (sub x a) * dot (sub x a) a = -1).
  { rewrite Hd, Hn. field. intros C. apply H. rewrite Hn. lra. }
  unfold reflection. rewrite Hc. destruct x as [x0 x1 x2], a as [a0 a1 a2]. unfold sub. cbn [vx vy vz]. f_equal; ring.
Qed.
Lemma reflection_swap' a x : dot a a = 1 -> dot x x = 1 -> dot (sub x a) (sub x a) <> 0 ->
  reflection (2 / dot (sub x a) (sub x a)) (sub x a) x = a.
Proof.
  intros Ha Hx H. pose proof (sub_norm x a Hx Ha) as Hn.
  assert (Hd : dot (sub x a) x = 1 - dot x a) by (transitivity (dot x x - dot x a); [unfold dot, sub; cbn [vx vy vz]; ring|rewrite Hx; reflexivity]).
  assert (Hc : 2 / dot (sub x a) (sub x a) * dot (sub x a) x = 1).
  { rewrite Hd, Hn. field. intros C. apply H. rewrite Hn. lra. }
  unfold reflection. rewrite Hc. destruct x as [x0 x1 x2], a as [a0 a1 a2]. unfold sub. cbn [vx vy vz]. f_equal; ring.
Qed.

Lemma dot_sym a b : dot a b = dot b a.
Proof. unfold dot. ring. Qed.

Lemma reflect2_proper a b : dot a a = 1 -> dot b b = 1 -> 1 - 1 / 1000000 < Rabs (dot a b) ->
  proper (reflect2 a b) /\ apply_mat (reflect2 a b) a = b.
Proof.
  intros Ha Hb He. pose proof (far_axis_unit a) as Hx. pose proof (far_axis_small a Ha) as Hs.
  set (x := far_axis a) in *.
  assert (Hu : dot (sub x a) (sub x a) <> 0).
  { rewrite sub_norm by assumption. intros C. replace (dot x a) with 1 in Hs by lra. lra. }
  assert (Hv : dot (sub x b) (sub x b) <> 0).
  { rewrite sub_norm by assumption. intros C.
    assert (x = b) by (apply unit_eq; try assumption; lra). rewrite H in Hs.
    rewrite (dot_sym b a) in Hs. rewrite <- (pow2_abs (dot a b)) in Hs. pose proof (Rabs_pos (dot a b)). nra. }
  assert (E : reflect2 a b = two_reflections (sub x a) (sub x b) (2 / dot (sub x a) (sub x a)) (2 / dot (sub x b) (sub x b))) by reflexivity.
  rewrite E. split.
  - apply two_reflections_proper; field; assumption.
  - rewrite two_reflections_apply, reflection_swap, reflection_swap' by assumption. reflexivity.
Qed.

(** ** Normalisation *)

Lemma norm_form v : sqrt (vx v ^ 2 + vy v ^ 2 + vz v ^ 2) = norm v.
Proof. unfold norm, dot. f_equal. ring. Qed.

Lemma dot_pos v : v <> vnull -> 0 < dot v v.
Proof.
  intros H. unfold dot. pose proof (pow2_nonneg (vx v)). pose proof (pow2_nonneg (vy v)). pose proof (pow2_nonneg (vz v)).
  destruct (Rlt_dec 0 (vx v * vx v + vy v * vy v + vz v * vz v)) as [L|L]; [exact L|]. exfalso. apply H.
  assert (vx v = 0) by nra. assert (vy v = 0) by nra. assert (vz v = 0) by nra. destruct v as [w0 w1 w2]. cbn [vx vy vz] in *. subst. reflexivity.
Qed.

Lemma norm_pos v : v <> vnull -> 0 < norm v.
Proof. intros H. apply sqrt_lt_R0. apply dot_pos. exact H. Qed.

Lemma unit_of_unit v : v <> vnull -> dot (unit_of v) (unit_of v) = 1.
Proof.
  intros H. pose proof (norm_pos v H) as Hn. pose proof (dot_pos v H) as Hd.
  assert (Hq : norm v ^ 2 = dot v v) by (apply pow2_sqrt; lra).
  transitivity (dot v v / norm v ^ 2); [unfold unit_of, dot; cbn [vx vy vz]; field; lra|].
  rewrite Hq. field. lra.
Qed.

Lemma normalize_ok v : v <> vnull -> normalize v = Ok (unit_of v).
Proof.
  intros H. pose proof (norm_pos v H) as Hn. unfold normalize. cbv zeta. rewrite norm_form.
  destruct (Rle_dec (norm v) 0); [lra|]. f_equal. unfold unit_of. f_equal; field; lra.
Qed.
Lemma normalize_null : normalize vnull = Er MarleyErr.
Proof.
  unfold normalize, vnull. cbn [vx vy vz]. cbv zeta. replace (0 ^ 2 + 0 ^ 2 + 0 ^ 2) with 0 by ring. rewrite sqrt_0.
  destruct (Rle_dec 0 0); [reflexivity|lra].
Qed.

Lemma unit_not_null v : dot v v = 1 -> v <> vnull.
Proof. intros H C. rewrite C in H. unfold dot, vnull in H. cbn [vx vy vz] in H. lra. Qed.

Lemma unit_of_id v : dot v v = 1 -> unit_of v = v.
Proof.
  intros H. unfold unit_of, norm. rewrite H, sqrt_1. destruct v as [w0 w1 w2]. cbn [vx vy vz]. f_equal; field.
Qed.

Lemma rotation_matrix_ok a b : a <> vnull -> b <> vnull ->
  exists m, rotation_matrix a b = Ok m /\ proper m /\ apply_mat m (unit_of a) = unit_of b.
Proof.
  intros Ha Hb. unfold rotation_matrix. destruct (vec_eq_dec a vnull); [contradiction|].
  destruct (vec_eq_dec b vnull); [contradiction|].
  rewrite (normalize_ok a Ha), (normalize_ok b Hb). cbn [bind]. cbv zeta.
  pose proof (unit_of_unit a Ha) as Ua. pose proof (unit_of_unit b Hb) as Ub.
  destruct (Rlt_dec _ _) as [L|L]; eexists; (split; [reflexivity|]).
  - apply reflect2_proper; assumption.
  - apply turn_proper; [assumption..|]. intros C. rewrite C in L. apply L.
    replace (Rabs (-1)) with 1; [lra|]. rewrite Rabs_left; lra.
Qed.
