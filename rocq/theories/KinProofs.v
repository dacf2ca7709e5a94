From Coq Require Import List ZArith Reals Lra Lia Psatz.
From Verif Require Import Base Kin KinSpec.
Import ListNotations.
Local Open Scope R_scope.

Lemma real_sqrt_pos x : 0 <= real_sqrt x.
Proof. unfold real_sqrt. destruct (Rlt_dec x 0); [lra|apply sqrt_pos]. Qed.
Lemma real_sqrt_sq x : 0 <= x -> real_sqrt x ^ 2 = x.
Proof. intros H. unfold real_sqrt. destruct (Rlt_dec x 0); [lra|]. rewrite pow2_sqrt; lra. Qed.

Lemma pow2_nonneg x : 0 <= x ^ 2.
Proof. nra. Qed.

Lemma sq_le a b : 0 <= b -> a ^ 2 <= b ^ 2 -> a <= b.
Proof. intros Hb H. nra. Qed.
Lemma sq_eq a b : 0 <= a -> 0 <= b -> a ^ 2 = b ^ 2 -> a = b.
Proof. intros Ha Hb H. apply Rle_antisym; apply sq_le; lra. Qed.

(** ** The boost as a linear map *)

Definition lor (bx by_ bz e x y z : R) : R * R * R * R :=
  let b2 := bx ^ 2 + by_ ^ 2 + bz ^ 2 in
  if Req_EM_T b2 0 then (e, x, y, z)
  else
    let g := 1 / sqrt (1 - b2) in
    let bp := bx * x + by_ * y + bz * z in
    let f := (g - 1) * bp / b2 in
    (g * (e - bp), (- g * e + f) * bx + x, (- g * e + f) * by_ + y, (- g * e + f) * bz + z).

Lemma gam_sq b2 : b2 < 1 -> let g := 1 / sqrt (1 - b2) in 0 < g /\ g ^ 2 * (1 - b2) = 1.
Proof.
  intros H g.
  assert (Hs : 0 < sqrt (1 - b2)) by (apply sqrt_lt_R0; lra).
  assert (Hq : sqrt (1 - b2) ^ 2 = 1 - b2) by (apply pow2_sqrt; lra).
  split.
  - unfold g. apply Rdiv_lt_0_compat; lra.
  - unfold g. rewrite <- Hq at 2. field. lra.
Qed.

Lemma bdot_le bx by_ bz x y z :
  (bx * x + by_ * y + bz * z) ^ 2 <= (bx ^ 2 + by_ ^ 2 + bz ^ 2) * (x ^ 2 + y ^ 2 + z ^ 2).
Proof.
  pose proof (pow2_nonneg (bx * y - by_ * x)). pose proof (pow2_nonneg (bx * z - bz * x)).
  pose proof (pow2_nonneg (by_ * z - bz * y)). lra.
Qed.

Lemma inv_core g b2 e t : g ^ 2 * (1 - b2) = 1 ->
  (g * (e - t * b2)) ^ 2 - (2 * (- g * e + (g - 1) * t) * (t * b2) + (- g * e + (g - 1) * t) ^ 2 * b2) = e ^ 2.
Proof.
  intros H.
  assert (Hr : (g * (e - t * b2)) ^ 2 - (2 * (- g * e + (g - 1) * t) * (t * b2) + (- g * e + (g - 1) * t) ^ 2 * b2) =
    e ^ 2 + (g ^ 2 * (1 - b2) - 1) * (e ^ 2 - b2 * t ^ 2)) by ring.
  rewrite Hr, H. ring.
Qed.

Lemma lor_inv bx by_ bz e x y z e' x' y' z' : bx ^ 2 + by_ ^ 2 + bz ^ 2 < 1 ->
  lor bx by_ bz e x y z = (e', x', y', z') ->
  e' ^ 2 - (x' ^ 2 + y' ^ 2 + z' ^ 2) = e ^ 2 - (x ^ 2 + y ^ 2 + z ^ 2).
Proof.
  intros Hb. unfold lor. cbv zeta. set (b2 := bx ^ 2 + by_ ^ 2 + bz ^ 2) in *.
  destruct (Req_EM_T b2 0) as [E|E]; intros H; injection H as <- <- <- <-; [lra|].
  destruct (gam_sq b2 Hb) as [Hg Hgq]. set (g := 1 / sqrt (1 - b2)) in *.
  set (bp := bx * x + by_ * y + bz * z).
  set (t := bp / b2).
  assert (Ht : bp = t * b2) by (unfold t; field; exact E).
  replace ((g - 1) * bp / b2) with ((g - 1) * t) by (unfold t; field; exact E).
  set (k := - g * e + (g - 1) * t).
  assert (Hs : (k * bx + x) ^ 2 + (k * by_ + y) ^ 2 + (k * bz + z) ^ 2 =
               x ^ 2 + y ^ 2 + z ^ 2 + (2 * k * bp + k ^ 2 * b2)) by (unfold bp, b2; ring).
  rewrite Hs, Ht. pose proof (inv_core g b2 e t Hgq) as H. fold k in H. lra.
Qed.

Lemma lor_pos bx by_ bz e x y z e' x' y' z' : bx ^ 2 + by_ ^ 2 + bz ^ 2 < 1 ->
  0 <= e -> x ^ 2 + y ^ 2 + z ^ 2 <= e ^ 2 ->
  lor bx by_ bz e x y z = (e', x', y', z') -> 0 <= e'.
Proof.
  intros Hb He Hp. unfold lor. cbv zeta. set (b2 := bx ^ 2 + by_ ^ 2 + bz ^ 2) in *.
  destruct (Req_EM_T b2 0) as [E|E]; intros H; injection H as <- <- <- <-; [lra|].
  destruct (gam_sq b2 Hb) as [Hg _]. apply Rmult_le_pos; [lra|].
  pose proof (bdot_le bx by_ bz x y z) as Hc. fold b2 in Hc.
  assert (bx * x + by_ * y + bz * z <= e); [|lra].
  apply sq_le; [lra|]. eapply Rle_trans; [exact Hc|].
  assert (0 <= x ^ 2 + y ^ 2 + z ^ 2) by (pose proof (pow2_nonneg x); pose proof (pow2_nonneg y); pose proof (pow2_nonneg z); lra).
  nra.
Qed.

Lemma get_beta2_ok bx by_ bz : bx ^ 2 + by_ ^ 2 + bz ^ 2 < 1 ->
  get_beta2 bx by_ bz = Ok (bx ^ 2 + by_ ^ 2 + bz ^ 2).
Proof.
  intros H. unfold get_beta2. destruct (Req_EM_T _ 1); [lra|]. destruct (Rlt_dec 1 _); [lra|reflexivity].
Qed.
Lemma get_beta2_er bx by_ bz : 1 <= bx ^ 2 + by_ ^ 2 + bz ^ 2 -> get_beta2 bx by_ bz = Er MarleyErr.
Proof.
  intros H. unfold get_beta2. destruct (Req_EM_T _ 1); [reflexivity|]. destruct (Rlt_dec 1 _); [reflexivity|lra].
Qed.

Lemma boost_lor bx by_ bz p : bx ^ 2 + by_ ^ 2 + bz ^ 2 < 1 -> on_shell p ->
  exists e x y z, lor bx by_ bz (en p) (px p) (py p) (pz p) = (e, x, y, z) /\
    boost bx by_ bz p = Ok (set_p4 e x y z p) /\ on_shell (set_p4 e x y z p).
Proof.
  intros Hb (Hm & He & Hs).
  destruct (lor bx by_ bz (en p) (px p) (py p) (pz p)) as [[[e x] y] z] eqn:EL.
  exists e, x, y, z. split; [reflexivity|].
  pose proof (lor_inv _ _ _ _ _ _ _ _ _ _ _ Hb EL) as Hi.
  assert (Hp : 0 <= e).
  { assert (H1 : 0 <= en p) by lra.
    assert (H2 : px p ^ 2 + py p ^ 2 + pz p ^ 2 <= en p ^ 2) by (pose proof (pow2_nonneg (mass p)); lra).
    exact (lor_pos _ _ _ _ _ _ _ _ _ _ _ Hb H1 H2 EL). }
  assert (Hme : mass p <= e).
  { apply sq_le; [exact Hp|]. pose proof (pow2_nonneg x). pose proof (pow2_nonneg y). pose proof (pow2_nonneg z). lra. }
  assert (Hos : on_shell (set_p4 e x y z p)).
  { unfold on_shell, set_p4. cbn [mass en px py pz]. repeat split; lra. }
  split; [|exact Hos].
  unfold boost. rewrite (get_beta2_ok _ _ _ Hb). cbn [bind].
  unfold lor in EL. cbv zeta in EL.
  generalize dependent (bx ^ 2 + by_ ^ 2 + bz ^ 2). intros b2 Hb EL. destruct (Req_EM_T _ 0) as [E|E].
  - injection EL as <- <- <- <-. destruct p. reflexivity.
  - injection EL as E1 E2 E3 E4. cbv zeta. rewrite E1, E2, E3, E4.
    destruct (Rlt_dec e (mass p)); [lra|reflexivity].
Qed.

(** Linearity, and what the boost does to a particle at rest. *)
Lemma lor_add bx by_ bz e x y z e2 x2 y2 z2 :
  let '(a, b, c, d) := lor bx by_ bz e x y z in
  let '(a2, b2, c2, d2) := lor bx by_ bz e2 x2 y2 z2 in
  lor bx by_ bz (e + e2) (x + x2) (y + y2) (z + z2) = (a + a2, b + b2, c + c2, d + d2).
Proof.
  unfold lor. cbv zeta. destruct (Req_EM_T (bx ^ 2 + by_ ^ 2 + bz ^ 2) 0) as [E|E]; [reflexivity|].
  generalize (1 / sqrt (1 - (bx ^ 2 + by_ ^ 2 + bz ^ 2))). intros g.
  f_equal; [f_equal; [f_equal|]|]; field; exact E.
Qed.

(** Boost by minus the velocity of (e0, x0, y0, z0) applied to a mass at rest. *)
Lemma lor_rest e0 x0 y0 z0 m : 0 < m -> 0 < e0 -> e0 ^ 2 = m ^ 2 + x0 ^ 2 + y0 ^ 2 + z0 ^ 2 ->
  (- x0 / e0) ^ 2 + (- y0 / e0) ^ 2 + (- z0 / e0) ^ 2 < 1 /\
  lor (- x0 / e0) (- y0 / e0) (- z0 / e0) m 0 0 0 = (e0, x0, y0, z0).
Proof.
  intros Hm He Hs.
  assert (Hb : (- x0 / e0) ^ 2 + (- y0 / e0) ^ 2 + (- z0 / e0) ^ 2 = 1 - (m / e0) ^ 2).
  { transitivity ((x0 ^ 2 + y0 ^ 2 + z0 ^ 2) / e0 ^ 2); [field; lra|].
    replace (x0 ^ 2 + y0 ^ 2 + z0 ^ 2) with (e0 ^ 2 - m ^ 2) by lra. field. lra. }
  assert (Hr : 0 < m / e0) by (apply Rdiv_lt_0_compat; lra).
  split; [rewrite Hb; nra|].
  unfold lor. cbv zeta. rewrite Hb.
  destruct (Req_EM_T (1 - (m / e0) ^ 2) 0) as [E|E].
  - assert (Hq : m = e0).
    { apply sq_eq; try lra. replace (m ^ 2) with (e0 ^ 2 * (m / e0) ^ 2) by (field; lra).
      replace ((m / e0) ^ 2) with 1 by lra. ring. }
    subst m. assert (x0 ^ 2 + y0 ^ 2 + z0 ^ 2 = 0) by lra.
    assert (x0 = 0) by nra. assert (y0 = 0) by nra. assert (z0 = 0) by nra. subst. reflexivity.
  - replace (1 - (1 - (m / e0) ^ 2)) with ((m / e0) ^ 2) by ring.
    rewrite sqrt_pow2 by lra.
    f_equal; [f_equal; [f_equal|]|]; field; repeat split; try lra.
    all: try (intros H; apply E; replace ((m / e0) ^ 2) with (m ^ 2 / e0 ^ 2) by (field; lra);
      replace (m ^ 2) with (e0 ^ 2) by lra; field; lra).
Qed.

Lemma lor_back bx by_ bz e x y z : bx ^ 2 + by_ ^ 2 + bz ^ 2 < 1 ->
  let '(e', x', y', z') := lor bx by_ bz e x y z in
  lor (- bx) (- by_) (- bz) e' x' y' z' = (e, x, y, z).
Proof.
  intros Hb. destruct (lor bx by_ bz e x y z) as [[[e' x'] y'] z'] eqn:EL.
  unfold lor in *. cbv zeta in *.
  replace ((- bx) ^ 2 + (- by_) ^ 2 + (- bz) ^ 2) with (bx ^ 2 + by_ ^ 2 + bz ^ 2) by ring.
  set (b2 := bx ^ 2 + by_ ^ 2 + bz ^ 2) in *.
  assert (Eb : b2 = bx ^ 2 + by_ ^ 2 + bz ^ 2) by reflexivity. clearbody b2.
  destruct (Req_EM_T b2 0) as [E|E]; [symmetry; exact EL|].
  destruct (gam_sq b2 Hb) as [Hg Hgq]. set (g := 1 / sqrt (1 - b2)) in *. clearbody g.
  set (bp := bx * x + by_ * y + bz * z) in *.
  assert (Ep : bp = bx * x + by_ * y + bz * z) by reflexivity. clearbody bp.
  injection EL as E1 E2 E3 E4.
  assert (Hbp : - bx * x' + - by_ * y' + - bz * z' = g * e * b2 - g * bp).
  { rewrite <- E2, <- E3, <- E4.
    generalize (eq_refl (- g * e + (g - 1) * bp / b2)). generalize (- g * e + (g - 1) * bp / b2) at 1 3 4 5.
    intros k Ek.
    transitivity (- (k * (bx ^ 2 + by_ ^ 2 + bz ^ 2) + (bx * x + by_ * y + bz * z))); [ring|].
    rewrite <- Eb, <- Ep, Ek.
    field. exact E. }
  rewrite Hbp.
  assert (Hk : - g * e' + (g - 1) * (g * e * b2 - g * bp) / b2 = - g * e + (g - 1) * bp / b2).
  { rewrite <- E1.
    assert (Hr : - g * (g * (e - bp)) + (g - 1) * (g * e * b2 - g * bp) / b2 - (- g * e + (g - 1) * bp / b2) =
      (1 - g ^ 2 * (1 - b2)) * (bp / b2)) by (field; exact E).
    rewrite Hgq in Hr. lra. }
  rewrite Hk. rewrite <- E2, <- E3, <- E4, <- E1.
  f_equal; [f_equal; [f_equal|]|]; try ring.
  replace (g * (g * (e - bp) - (g * e * b2 - g * bp))) with (g ^ 2 * (1 - b2) * e) by ring.
  rewrite Hgq. ring.
Qed.

Lemma set_p4_same e x y z p : same_kind p (set_p4 e x y z p).
Proof. repeat split. Qed.

Lemma triangle p q : on_shell p -> on_shell q -> mass p * mass q <= dot4 p q.
Proof.
  intros (Hm & He & Hs) (Hm' & He' & Hs'). unfold dot4.
  pose proof (bdot_le (px p) (py p) (pz p) (px q) (py q) (pz q)) as Hc.
  set (P2 := px p ^ 2 + py p ^ 2 + pz p ^ 2) in *. set (Q2 := px q ^ 2 + py q ^ 2 + pz q ^ 2) in *.
  set (d := px p * px q + py p * py q + pz p * pz q) in *.
  assert (HP : 0 <= P2) by (unfold P2; pose proof (pow2_nonneg (px p)); pose proof (pow2_nonneg (py p)); pose proof (pow2_nonneg (pz p)); lra).
  assert (HQ : 0 <= Q2) by (unfold Q2; pose proof (pow2_nonneg (px q)); pose proof (pow2_nonneg (py q)); pose proof (pow2_nonneg (pz q)); lra).
  assert (Hs1 : en p ^ 2 = mass p ^ 2 + P2) by (unfold P2; lra).
  assert (Hs2 : en q ^ 2 = mass q ^ 2 + Q2) by (unfold Q2; lra).
  assert (Ea : P2 = sqrt P2 ^ 2) by (rewrite pow2_sqrt; lra).
  assert (Eb : Q2 = sqrt Q2 ^ 2) by (rewrite pow2_sqrt; lra).
  pose proof (sqrt_pos P2) as Ha. pose proof (sqrt_pos Q2) as Hb.
  set (a := sqrt P2) in *. set (b := sqrt Q2) in *. clearbody a b P2 Q2 d.
  assert (Hd : d <= a * b) by (apply sq_le; [nra|]; replace ((a * b) ^ 2) with (a ^ 2 * b ^ 2) by ring; rewrite <- Ea, <- Eb; exact Hc).
  assert (mass p * mass q + a * b <= en p * en q); [|lra].
  apply sq_le; [nra|].
  replace ((en p * en q) ^ 2) with (en p ^ 2 * en q ^ 2) by ring.
  replace (en p ^ 2) with (mass p ^ 2 + a ^ 2) by lra. replace (en q ^ 2) with (mass q ^ 2 + b ^ 2) by lra.
  pose proof (pow2_nonneg (mass p * b - mass q * a)). lra.
Qed.

(** ** Two-body decay *)

Lemma two_body_rest M m1 m2 : 0 < M -> 0 <= m1 -> 0 <= m2 -> m1 + m2 <= M ->
  let e1 := (M ^ 2 - m2 ^ 2 + m1 ^ 2) / (2 * M) in
  let e2 := M - e1 in
  m1 <= e1 /\ m2 <= e2 /\ e1 ^ 2 - m1 ^ 2 = e2 ^ 2 - m2 ^ 2 /\ 0 <= e1 ^ 2 - m1 ^ 2.
Proof.
  intros HM H1 H2 H e1 e2.
  assert (E1 : 2 * M * (e1 - m1) = (M - m1) ^ 2 - m2 ^ 2) by (unfold e1; field; lra).
  assert (E2 : 2 * M * (e2 - m2) = (M - m2) ^ 2 - m1 ^ 2) by (unfold e2, e1; field; lra).
  assert (Q1 : m1 <= e1) by nra. assert (Q2 : m2 <= e2) by nra.
  repeat split; try lra.
  - assert (E3 : 2 * M * (e1 - e2) = 2 * (m1 ^ 2 - m2 ^ 2)) by (unfold e2, e1; field; lra).
    unfold e2 in *. nra.
  - nra.
Qed.

Lemma sphere q ct phi : ct ^ 2 <= 1 ->
  (q * real_sqrt (1 - ct ^ 2) * cos phi) ^ 2 + (q * real_sqrt (1 - ct ^ 2) * sin phi) ^ 2 + (q * ct) ^ 2 = q ^ 2.
Proof.
  intros H. pose proof (real_sqrt_sq (1 - ct ^ 2) ltac:(lra)) as Hs.
  pose proof (sin2_cos2 phi) as Ht. unfold Rsqr in Ht.
  set (s := real_sqrt (1 - ct ^ 2)) in *.
  replace ((q * s * cos phi) ^ 2 + (q * s * sin phi) ^ 2 + (q * ct) ^ 2)
    with (q ^ 2 * (s ^ 2 * (sin phi * sin phi + cos phi * cos phi) + ct ^ 2)) by ring.
  rewrite Ht, Hs. ring.
Qed.

Lemma boost_pair bx by_ bz p1 p2 : bx ^ 2 + by_ ^ 2 + bz ^ 2 < 1 -> on_shell p1 -> on_shell p2 ->
  exists q1 q2, boost bx by_ bz p1 = Ok q1 /\ boost bx by_ bz p2 = Ok q2 /\
    on_shell q1 /\ on_shell q2 /\ same_kind p1 q1 /\ same_kind p2 q2 /\
    lor bx by_ bz (en p1) (px p1) (py p1) (pz p1) = (en q1, px q1, py q1, pz q1) /\
    lor bx by_ bz (en p2) (px p2) (py p2) (pz p2) = (en q2, px q2, py q2, pz q2) /\
    lor bx by_ bz (en p1 + en p2) (px p1 + px p2) (py p1 + py p2) (pz p1 + pz p2) =
      (en q1 + en q2, px q1 + px q2, py q1 + py q2, pz q1 + pz q2).
Proof.
  intros Hb H1 H2.
  destruct (boost_lor _ _ _ _ Hb H1) as (e1 & x1 & y1 & z1 & L1 & B1 & S1).
  destruct (boost_lor _ _ _ _ Hb H2) as (e2 & x2 & y2 & z2 & L2 & B2 & S2).
  exists (set_p4 e1 x1 y1 z1 p1), (set_p4 e2 x2 y2 z2 p2).
  pose proof (lor_add bx by_ bz (en p1) (px p1) (py p1) (pz p1) (en p2) (px p2) (py p2) (pz p2)) as HA.
  rewrite L1, L2 in HA.
  refine (conj B1 (conj B2 (conj S1 (conj S2 (conj (set_p4_same _ _ _ _ _) (conj (set_p4_same _ _ _ _ _) (conj L1 (conj L2 HA)))))))).
Qed.

Lemma two_body_ok p0 p1 p2 ct phi : on_shell p0 -> 0 < mass p0 -> 0 <= mass p1 -> 0 <= mass p2 ->
  mass p1 + mass p2 <= mass p0 -> ct ^ 2 <= 1 ->
  exists q1 q2 r1, two_body_decay p0 p1 p2 ct phi = Ok (q1, q2) /\
    on_shell q1 /\ on_shell q2 /\ same_kind p1 q1 /\ same_kind p2 q2 /\
    en q1 + en q2 = en p0 /\ px q1 + px q2 = px p0 /\ py q1 + py q2 = py p0 /\ pz q1 + pz q2 = pz p0 /\
    boost (px p0 / en p0) (py p0 / en p0) (pz p0 / en p0) q1 = Ok r1 /\
    let k := sqrt (px r1 ^ 2 + py r1 ^ 2 + pz r1 ^ 2) in
    px r1 = k * sqrt (1 - ct ^ 2) * cos phi /\ py r1 = k * sqrt (1 - ct ^ 2) * sin phi /\ pz r1 = k * ct.
Proof.
  intros (_ & Hge & Hs) HM H1 H2 Hle Hc.
  destruct (two_body_rest (mass p0) (mass p1) (mass p2) HM H1 H2 Hle) as (Q1 & Q2 & Qe & Qp).
  cbv zeta in *.
  set (e1 := (mass p0 ^ 2 - mass p2 ^ 2 + mass p1 ^ 2) / (2 * mass p0)) in *.
  set (q := real_sqrt (e1 ^ 2 - mass p1 ^ 2)).
  assert (Hq : q ^ 2 = e1 ^ 2 - mass p1 ^ 2) by (apply real_sqrt_sq; exact Qp).
  assert (Hq0 : 0 <= q) by apply real_sqrt_pos.
  pose proof (sphere q ct phi Hc) as Hsp.
  set (x := q * real_sqrt (1 - ct ^ 2) * cos phi) in *.
  set (y := q * real_sqrt (1 - ct ^ 2) * sin phi) in *.
  set (z := q * ct) in *.
  set (f1 := set_p4 e1 x y z p1). set (f2 := set_p4 (mass p0 - e1) (- x) (- y) (- z) p2).
  assert (S1 : on_shell f1) by (unfold on_shell, f1; cbn [set_p4 en mass px py pz]; repeat split; lra).
  assert (S2 : on_shell f2).
  { unfold on_shell, f2. cbn [set_p4 en mass px py pz]. repeat split; lra. }
  destruct (lor_rest (en p0) (px p0) (py p0) (pz p0) (mass p0) HM ltac:(lra) Hs) as [Hb HL].
  destruct (boost_pair _ _ _ _ _ Hb S1 S2) as (g1 & g2 & B1 & B2 & O1 & O2 & K1 & K2 & L1 & L2 & L12).
  pose proof (lor_back (- px p0 / en p0) (- py p0 / en p0) (- pz p0 / en p0) (en f1) (px f1) (py f1) (pz f1) Hb) as HB.
  rewrite L1 in HB.
  replace (- (- px p0 / en p0)) with (px p0 / en p0) in HB by (field; lra).
  replace (- (- py p0 / en p0)) with (py p0 / en p0) in HB by (field; lra).
  replace (- (- pz p0 / en p0)) with (pz p0 / en p0) in HB by (field; lra).
  assert (Hb' : (px p0 / en p0) ^ 2 + (py p0 / en p0) ^ 2 + (pz p0 / en p0) ^ 2 < 1).
  { replace ((px p0 / en p0) ^ 2 + (py p0 / en p0) ^ 2 + (pz p0 / en p0) ^ 2)
      with ((- px p0 / en p0) ^ 2 + (- py p0 / en p0) ^ 2 + (- pz p0 / en p0) ^ 2) by (field; lra). exact Hb. }
  destruct (boost_lor _ _ _ _ Hb' O1) as (e' & x' & y' & z' & L' & B' & _).
  exists g1, g2, (set_p4 e' x' y' z' g1).
  split.
  { unfold two_body_decay. cbv zeta. destruct (Rlt_dec (mass p0) (mass p1 + mass p2)) as [C|_]; [exfalso; lra|].
    fold e1. destruct (Rlt_dec (mass p0 - e1) (mass p2)) as [C|_]; [exfalso; lra|].
    destruct (Rlt_dec e1 (mass p1)) as [C|_]; [exfalso; lra|].
    fold q. fold x. fold y. fold z. fold f1. fold f2. rewrite B1, B2. reflexivity. }
  split; [exact O1|]. split; [exact O2|].
  split; [exact K1|]. split; [exact K2|].
  assert (T1 : en f1 + en f2 = mass p0) by (unfold f1, f2; cbn [set_p4 en]; ring).
  assert (T2 : px f1 + px f2 = 0) by (unfold f1, f2; cbn [set_p4 px]; ring).
  assert (T3 : py f1 + py f2 = 0) by (unfold f1, f2; cbn [set_p4 py]; ring).
  assert (T4 : pz f1 + pz f2 = 0) by (unfold f1, f2; cbn [set_p4 pz]; ring).
  rewrite T1, T2, T3, T4, HL in L12.
  injection L12 as A1 A2 A3 A4.
  do 4 (split; [congruence|]). split; [exact B'|].
  rewrite L' in HB. unfold f1 in HB. cbn [set_p4 en px py pz] in HB.
  injection HB as C1 C2 C3 C4. cbv zeta. cbn [set_p4 px py pz].
  rewrite C2, C3, C4, Hsp, sqrt_pow2 by exact Hq0.
  assert (Er : real_sqrt (1 - ct ^ 2) = sqrt (1 - ct ^ 2)).
  { unfold real_sqrt. destruct (Rlt_dec (1 - ct ^ 2) 0); [exfalso; lra|reflexivity]. }
  unfold x, y, z. rewrite Er. repeat split.
Qed.

(** ** Two-two scattering *)

Lemma scatter_ok k ids qs KEa ct phi Ex twoJ P s Ec pc Ed :
  0 <= k_ma k -> 0 < k_mb k -> 0 <= k_mc k -> 0 <= k_md k -> 0 <= KEa -> ct ^ 2 <= 1 ->
  (k_mc k + k_md k) ^ 2 <= (k_ma k + k_mb k) ^ 2 + 2 * k_mb k * KEa ->
  two_two_scatter k KEa = (s, Ec, pc, Ed) ->
  exists ev r, make_event_object k ids qs KEa pc ct phi Ec Ed Ex twoJ P = Ok ev /\
    same_p4 (initial_parts ev) (final_parts ev) /\
    Forall on_shell (initial_parts ev) /\ Forall on_shell (final_parts ev) /\
    let '(ia, ib, ic, id) := ids in let '(qa, qb, qc, qd) := qs in
    e_projectile ev = mkpart ia (KEa + k_ma k) 0 0 (sqrt (KEa * (KEa + 2 * k_ma k))) (k_ma k) qa /\
    e_target ev = mkpart ib (k_mb k) 0 0 0 (k_mb k) qb /\
    pid (e_ejectile ev) = ic /\ mass (e_ejectile ev) = k_mc k /\ chg (e_ejectile ev) = qc /\
    pid (e_residue ev) = id /\ mass (e_residue ev) = k_md k /\ chg (e_residue ev) = qd /\
    e_others ev = [] /\ e_Ex ev = Ex /\ e_twoJ ev = twoJ /\ e_parity ev = P /\
    boost 0 0 (sqrt (KEa * (KEa + 2 * k_ma k)) / (KEa + k_ma k + k_mb k)) (e_ejectile ev) = Ok r /\
    let q := sqrt (px r ^ 2 + py r ^ 2 + pz r ^ 2) in
    px r = q * sqrt (1 - ct ^ 2) * cos phi /\ py r = q * sqrt (1 - ct ^ 2) * sin phi /\ pz r = q * ct.
Proof.
  intros Ha Hb Hc Hd HK Hct Hthr. destruct ids as [[[ia ib] ic] id], qs as [[[qa qb] qc] qd].
  destruct k as [ma mb mc md]. cbn [k_ma k_mb k_mc k_md] in *.
  unfold two_two_scatter. cbn [k_ma k_mb k_mc k_md]. cbv zeta.
  replace (ma * ma + mb * mb + 2 * mb * (KEa + ma)) with ((ma + mb) ^ 2 + 2 * mb * KEa) by ring.
  set (S := (ma + mb) ^ 2 + 2 * mb * KEa) in *.
  assert (HS : 0 < S) by (unfold S; nra).
  assert (Hr : 0 < sqrt S) by (apply sqrt_lt_R0; exact HS).
  assert (Hrs : sqrt S ^ 2 = S) by (apply pow2_sqrt; lra).
  set (rs := sqrt S) in *.
  assert (Hm : mc + md <= rs) by (apply sq_le; lra).
  destruct (two_body_rest rs mc md Hr Hc Hd Hm) as (Q1 & Q2 & Qe & Qp). cbv zeta in Q1, Q2, Qe, Qp.
  replace (S + mc * mc - md * md) with (rs ^ 2 - md ^ 2 + mc ^ 2) by (rewrite Hrs; ring).
  set (ec := (rs ^ 2 - md ^ 2 + mc ^ 2) / (2 * rs)) in *.
  replace (ec ^ 2 - mc * mc) with (ec ^ 2 - mc ^ 2) by ring.
  rewrite (Rmax_left (rs - ec) md) by lra.
  set (q := real_sqrt (ec ^ 2 - mc ^ 2)) in *.
  intros H. injection H as <- <- <- <-.
  assert (Hq : q ^ 2 = ec ^ 2 - mc ^ 2) by (apply real_sqrt_sq; exact Qp).
  assert (Hq0 : 0 <= q) by apply real_sqrt_pos.
  pose proof (sphere q ct phi Hct) as Hsp.
  assert (Hpa : 0 <= KEa * (KEa + 2 * ma)) by (apply Rmult_le_pos; lra).
  assert (Er : real_sqrt (KEa * (KEa + 2 * ma)) = sqrt (KEa * (KEa + 2 * ma))).
  { unfold real_sqrt. destruct (Rlt_dec _ 0); [exfalso; lra|reflexivity]. }
  assert (Hpq : sqrt (KEa * (KEa + 2 * ma)) ^ 2 = KEa * (KEa + 2 * ma)) by (apply pow2_sqrt; exact Hpa).
  unfold make_event_object. cbn [k_ma k_mb k_mc k_md]. cbv zeta. rewrite Er.
  assert (Hp0 : 0 <= sqrt (KEa * (KEa + 2 * ma))) by apply sqrt_pos.
  set (pa := sqrt (KEa * (KEa + 2 * ma))) in *. clearbody pa.
  set (x := real_sqrt (1 - ct ^ 2) * cos phi * q). set (y := real_sqrt (1 - ct ^ 2) * sin phi * q). set (z := ct * q).
  assert (Hxyz : x ^ 2 + y ^ 2 + z ^ 2 = q ^ 2) by (rewrite <- Hsp; unfold x, y, z; ring).
  set (f1 := mkpart ic ec x y z mc qc). set (f2 := mkpart id (rs - ec) (- x) (- y) (- z) md qd).
  assert (S1 : on_shell f1) by (unfold on_shell, f1; cbn [en mass px py pz]; repeat split; lra).
  assert (S2 : on_shell f2) by (unfold on_shell, f2; cbn [en mass px py pz]; repeat split; lra).
  assert (HE : (KEa + ma + mb) ^ 2 = rs ^ 2 + 0 ^ 2 + 0 ^ 2 + pa ^ 2) by (rewrite Hpq, Hrs; unfold S; ring).
  assert (HE0 : 0 < KEa + ma + mb) by lra.
  destruct (lor_rest (KEa + ma + mb) 0 0 pa rs Hr HE0 HE) as [Hbe HL].
  assert (Z0 : - 0 / (KEa + ma + mb) = 0) by (field; lra).
  assert (Z1 : - pa / (KEa + ma + mb) = - (pa / (KEa + ma + mb))) by (field; lra).
  rewrite Z0, Z1 in Hbe, HL.
  destruct (boost_pair _ _ _ _ _ Hbe S1 S2) as (g1 & g2 & B1 & B2 & O1 & O2 & K1 & K2 & L1 & L2 & L12).
  pose proof (lor_back _ _ _ (en f1) (px f1) (py f1) (pz f1) Hbe) as HB. rewrite L1 in HB.
  replace (- 0) with 0 in HB by ring. replace (- - (pa / (KEa + ma + mb))) with (pa / (KEa + ma + mb)) in HB by ring.
  assert (Hb' : 0 ^ 2 + 0 ^ 2 + (pa / (KEa + ma + mb)) ^ 2 < 1) by lra.
  destruct (boost_lor _ _ _ _ Hb' O1) as (e' & x' & y' & z' & L' & B' & _).
  assert (T1 : en f1 + en f2 = rs) by (unfold f1, f2; cbn [en]; ring).
  assert (T2 : px f1 + px f2 = 0) by (unfold f1, f2; cbn [px]; ring).
  assert (T3 : py f1 + py f2 = 0) by (unfold f1, f2; cbn [py]; ring).
  assert (T4 : pz f1 + pz f2 = 0) by (unfold f1, f2; cbn [pz]; ring).
  rewrite T1, T2, T3, T4, HL in L12. injection L12 as A1 A2 A3 A4.
  rewrite B1, B2. cbn [bind].
  eexists. exists (set_p4 e' x' y' z' g1). split; [reflexivity|].
  unfold initial_parts, final_parts. cbn [e_projectile e_target e_ejectile e_residue e_others e_Ex e_twoJ e_parity].
  split.
  { unfold same_p4, total. cbn [fold_right en px py pz]. repeat split; lra. }
  split.
  { repeat apply Forall_cons; [| |apply Forall_nil]; unfold on_shell; cbn [mass en px py pz]; repeat split; try lra. }
  split; [repeat apply Forall_cons; [exact O1|exact O2|apply Forall_nil]|].
  destruct K1 as (K11 & K12 & K13), K2 as (K21 & K22 & K23).
  do 2 (split; [reflexivity|]).
  split; [symmetry; exact K11|]. split; [symmetry; exact K12|]. split; [symmetry; exact K13|].
  split; [symmetry; exact K21|]. split; [symmetry; exact K22|]. split; [symmetry; exact K23|].
  do 4 (split; [reflexivity|]). split; [exact B'|].
  rewrite L' in HB. unfold f1 in HB. cbn [en px py pz] in HB.
  injection HB as C1 C2 C3 C4. cbn [set_p4 px py pz].
  rewrite C2, C3, C4, Hxyz, sqrt_pow2 by exact Hq0.
  assert (Er' : real_sqrt (1 - ct ^ 2) = sqrt (1 - ct ^ 2)).
  { unfold real_sqrt. destruct (Rlt_dec (1 - ct ^ 2) 0); [exfalso; lra|reflexivity]. }
  unfold x, y, z. rewrite Er'. repeat split; ring.
Qed.
