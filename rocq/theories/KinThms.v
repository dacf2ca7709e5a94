(** Lorentz boosts, two-body decays and scattering: C43, C44, C45. *)
From Coq Require Import List ZArith Reals Lra Lia Psatz.
From Verif Require Import Base Kin KinSpec KinProofs.
Import ListNotations.
Local Open Scope R_scope.

(** ** C43: boosts *)

(** A boost slower than light keeps a particle on its mass shell and changes nothing
    but energy and momentum. *)
Theorem C43_boost_on_shell bx by_ bz p :
  bx ^ 2 + by_ ^ 2 + bz ^ 2 < 1 -> on_shell p ->
  exists q, boost bx by_ bz p = Ok q /\ same_kind p q /\ on_shell q.
Proof.
  intros Hb Hp. destruct (boost_lor _ _ _ _ Hb Hp) as (e & x & y & z & _ & B & S).
  exists (set_p4 e x y z p). split; [exact B|]. split; [apply set_p4_same|exact S].
Qed.
Print Assumptions C43_boost_on_shell.

(** Scalar products of four-momenta, hence invariant masses of groups of particles,
    are unchanged. *)
Theorem C43_boost_products bx by_ bz p q p' q' :
  on_shell p -> on_shell q -> boost bx by_ bz p = Ok p' -> boost bx by_ bz q = Ok q' ->
  dot4 p' q' = dot4 p q.
Proof.
  intros Hp Hq Bp Bq.
  assert (Hb : bx ^ 2 + by_ ^ 2 + bz ^ 2 < 1).
  { destruct (Rlt_dec (bx ^ 2 + by_ ^ 2 + bz ^ 2) 1) as [H|H]; [exact H|].
    unfold boost in Bp. rewrite get_beta2_er in Bp by lra. discriminate. }
  destruct (boost_pair _ _ _ _ _ Hb Hp Hq) as (q1 & q2 & B1 & B2 & _ & _ & _ & _ & L1 & L2 & L12).
  rewrite B1 in Bp. rewrite B2 in Bq. injection Bp as <-. injection Bq as <-.
  apply lor_inv in L1; [|exact Hb]. apply lor_inv in L2; [|exact Hb]. apply lor_inv in L12; [|exact Hb].
  unfold dot4. lra.
Qed.
Print Assumptions C43_boost_products.

(** The opposite boost takes the particle back. *)
Theorem C43_boost_back bx by_ bz p q :
  on_shell p -> boost bx by_ bz p = Ok q -> boost (- bx) (- by_) (- bz) q = Ok p.
Proof.
  intros Hp B.
  assert (Hb : bx ^ 2 + by_ ^ 2 + bz ^ 2 < 1).
  { destruct (Rlt_dec (bx ^ 2 + by_ ^ 2 + bz ^ 2) 1) as [H|H]; [exact H|].
    unfold boost in B. rewrite get_beta2_er in B by lra. discriminate. }
  destruct (boost_lor _ _ _ _ Hb Hp) as (e & x & y & z & L & B' & S).
  rewrite B' in B. injection B as <-.
  pose proof (lor_back _ _ _ (en p) (px p) (py p) (pz p) Hb) as HB. rewrite L in HB.
  assert (Hb' : (- bx) ^ 2 + (- by_) ^ 2 + (- bz) ^ 2 < 1) by lra.
  destruct (boost_lor _ _ _ _ Hb' S) as (e' & x' & y' & z' & L' & B'' & _).
  cbn [set_p4 en px py pz] in L'. rewrite HB in L'. injection L' as <- <- <- <-.
  rewrite B''. destruct p. reflexivity.
Qed.
Print Assumptions C43_boost_back.

(** Boosting by a massive particle's own velocity brings it to rest. *)
Theorem C43_boost_to_rest p :
  on_shell p -> 0 < mass p ->
  boost (px p / en p) (py p / en p) (pz p / en p) p = Ok (set_p4 (mass p) 0 0 0 p).
Proof.
  intros Hp HM. destruct Hp as (Hm & Hge & Hs).
  destruct (lor_rest (en p) (px p) (py p) (pz p) (mass p) HM ltac:(lra) Hs) as [Hb HL].
  assert (Hb' : (px p / en p) ^ 2 + (py p / en p) ^ 2 + (pz p / en p) ^ 2 < 1).
  { replace ((px p / en p) ^ 2 + (py p / en p) ^ 2 + (pz p / en p) ^ 2)
      with ((- px p / en p) ^ 2 + (- py p / en p) ^ 2 + (- pz p / en p) ^ 2) by (field; lra). exact Hb. }
  pose proof (lor_back _ _ _ (mass p) 0 0 0 Hb) as HB. rewrite HL in HB.
  replace (- (- px p / en p)) with (px p / en p) in HB by (field; lra).
  replace (- (- py p / en p)) with (py p / en p) in HB by (field; lra).
  replace (- (- pz p / en p)) with (pz p / en p) in HB by (field; lra).
  assert (Hp : on_shell p) by (repeat split; assumption).
  destruct (boost_lor _ _ _ _ Hb' Hp) as (e' & x' & y' & z' & L' & B'' & _).
  rewrite HB in L'. injection L' as <- <- <- <-. exact B''.
Qed.
Print Assumptions C43_boost_to_rest.

(** At or above the speed of light the boost is refused. *)
Theorem C43_boost_refused bx by_ bz p :
  1 <= bx ^ 2 + by_ ^ 2 + bz ^ 2 -> boost bx by_ bz p = Er MarleyErr.
Proof. intros H. unfold boost. rewrite get_beta2_er by exact H. reflexivity. Qed.
Print Assumptions C43_boost_refused.

(** Mandelstam s is the squared mass of the pair. *)
Theorem C43_mandelstam p q :
  on_shell p -> on_shell q ->
  let s := (en p + en q) ^ 2 - ((px p + px q) ^ 2 + (py p + py q) ^ 2 + (pz p + pz q) ^ 2) in
  0 < s -> mandelstam_s p q = Ok s.
Proof.
  intros Hp Hq s Hs. pose proof (triangle p q Hp Hq) as Ht. unfold dot4 in Ht.
  destruct Hp as (Hm & He & Hsh), Hq as (Hm' & He' & Hsh').
  assert (Es : s = mass p ^ 2 + mass q ^ 2 + 2 * (en p * en q - (px p * px q + py p * py q + pz p * pz q)))
    by (unfold s; lra).
  unfold mandelstam_s. destruct (Req_EM_T (en p) (mass p)) as [E|E].
  - f_equal. rewrite E in Hsh. assert (px p ^ 2 + py p ^ 2 + pz p ^ 2 = 0) by lra.
    assert (Hx : px p = 0) by nra. assert (Hy : py p = 0) by nra. assert (Hz : pz p = 0) by nra.
    rewrite Es, Hx, Hy, Hz, E. ring.
  - destruct (Req_EM_T (en q) (mass q)) as [E'|E'].
    + f_equal. rewrite E' in Hsh'. assert (px q ^ 2 + py q ^ 2 + pz q ^ 2 = 0) by lra.
      assert (Hx : px q = 0) by nra. assert (Hy : py q = 0) by nra. assert (Hz : pz q = 0) by nra.
      rewrite Es, Hx, Hy, Hz, E'. ring.
    + cbv zeta. set (e := en p + en q) in *. set (x := px p + px q) in *. set (y := py p + py q) in *. set (z := pz p + pz q) in *.
      assert (He0 : 0 < e) by (unfold e; lra).
      assert (Hb : (x / e) ^ 2 + (y / e) ^ 2 + (z / e) ^ 2 = 1 - s / e ^ 2) by (unfold s; field; lra).
      assert (Hse : 0 < s / e ^ 2) by (apply Rdiv_lt_0_compat; [exact Hs|nra]).
      rewrite get_beta2_ok by lra. cbn [bind]. rewrite Hb.
      replace (1 - (1 - s / e ^ 2)) with (s / e ^ 2) by ring.
      assert (Hq2 : sqrt (s / e ^ 2) = sqrt s / e).
      { rewrite sqrt_div_alt by nra. rewrite sqrt_pow2 by lra. reflexivity. }
      rewrite Hq2.
      assert (Hrs : 0 < sqrt s) by (apply sqrt_lt_R0; exact Hs).
      assert (Hrr : sqrt s ^ 2 = s) by (apply pow2_sqrt; lra).
      assert (Hecm : 1 / (sqrt s / e) * (e - (x / e * x + y / e * y + z / e * z)) = sqrt s).
      { transitivity (s / sqrt s); [unfold s at 2; field; lra|]. rewrite <- Hrr at 1. field. lra. }
      rewrite Hecm. destruct (Rlt_dec (sqrt s) (mass p + mass q)) as [C|C]; [|rewrite Hrr; reflexivity].
      exfalso. assert ((mass p + mass q) ^ 2 <= sqrt s ^ 2) by (rewrite Hrr, Es; lra).
      apply sq_le in H; lra.
Qed.
Print Assumptions C43_mandelstam.

(** In the centre-of-momentum frame the momenta cancel. *)
Theorem C43_cm_frame p q :
  on_shell p -> on_shell q ->
  0 < (en p + en q) ^ 2 - ((px p + px q) ^ 2 + (py p + py q) ^ 2 + (pz p + pz q) ^ 2) ->
  exists p' q', boost_to_cm p q = Ok (p', q') /\ on_shell p' /\ on_shell q' /\
    same_kind p p' /\ same_kind q q' /\
    px p' + px q' = 0 /\ py p' + py q' = 0 /\ pz p' + pz q' = 0 /\
    (en p' + en q') ^ 2 = (en p + en q) ^ 2 - ((px p + px q) ^ 2 + (py p + py q) ^ 2 + (pz p + pz q) ^ 2).
Proof.
  intros Hp Hq Hs. pose proof Hp as (Hm & He & _). pose proof Hq as (Hm' & He' & _).
  unfold boost_to_cm. cbv zeta.
  set (e := en p + en q) in *. set (x := px p + px q) in *. set (y := py p + py q) in *. set (z := pz p + pz q) in *.
  set (s := e ^ 2 - (x ^ 2 + y ^ 2 + z ^ 2)) in *.
  assert (Hsum : 0 <= x ^ 2 + y ^ 2 + z ^ 2) by (pose proof (pow2_nonneg x); pose proof (pow2_nonneg y); pose proof (pow2_nonneg z); lra).
  assert (He0 : 0 < e).
  { assert (0 <= e) by (unfold e; lra). assert (e <> 0); [|lra]. intros C. unfold s in Hs. rewrite C in Hs. lra. }
  assert (Hrs : 0 < sqrt s) by (apply sqrt_lt_R0; exact Hs).
  assert (Hrr : sqrt s ^ 2 = s) by (apply pow2_sqrt; lra).
  assert (HE : e ^ 2 = sqrt s ^ 2 + x ^ 2 + y ^ 2 + z ^ 2) by (rewrite Hrr; unfold s; ring).
  destruct (lor_rest e x y z (sqrt s) Hrs He0 HE) as [Hb HL].
  pose proof (lor_back _ _ _ (sqrt s) 0 0 0 Hb) as HB. rewrite HL in HB.
  replace (- (- x / e)) with (x / e) in HB by (field; lra).
  replace (- (- y / e)) with (y / e) in HB by (field; lra).
  replace (- (- z / e)) with (z / e) in HB by (field; lra).
  assert (Hb' : (x / e) ^ 2 + (y / e) ^ 2 + (z / e) ^ 2 < 1).
  { replace ((x / e) ^ 2 + (y / e) ^ 2 + (z / e) ^ 2) with ((- x / e) ^ 2 + (- y / e) ^ 2 + (- z / e) ^ 2) by (field; lra). exact Hb. }
  destruct (boost_pair _ _ _ _ _ Hb' Hp Hq) as (q1 & q2 & B1 & B2 & O1 & O2 & K1 & K2 & _ & _ & L12).
  fold e in L12. fold x in L12. fold y in L12. fold z in L12. rewrite HB in L12. injection L12 as A1 A2 A3 A4.
  exists q1, q2. rewrite B1, B2. split; [reflexivity|].
  split; [exact O1|]. split; [exact O2|]. split; [exact K1|]. split; [exact K2|].
  split; [lra|]. split; [lra|]. split; [lra|]. rewrite <- A1. exact Hrr.
Qed.
Print Assumptions C43_cm_frame.

Example proton : part := mkpart 2212 5 0 0 4 3 1.
Example C43_example : on_shell proton /\ 0 ^ 2 + (1 / 2) ^ 2 + (1 / 2) ^ 2 < 1 /\
  boost 0 0 (4 / 5) proton = Ok (mkpart 2212 3 0 0 0 3 1).
Proof.
  assert (H : on_shell proton) by (unfold on_shell, proton; cbn [mass en px py pz]; repeat split; lra).
  split; [exact H|]. split; [lra|].
  pose proof (C43_boost_to_rest proton H) as B. cbn [proton mass en px py pz] in B.
  replace (0 / 5) with 0 in B by lra. apply B. lra.
Qed.

(** ** C44: two-body decays *)

(** An allowed decay gives two on-shell products of the requested kinds whose
    four-momenta add up to the parent's. *)
Theorem C44_conserves p0 p1 p2 ct phi :
  on_shell p0 -> 0 < mass p0 -> 0 <= mass p1 -> 0 <= mass p2 -> mass p1 + mass p2 <= mass p0 ->
  -1 <= ct <= 1 ->
  exists q1 q2, two_body_decay p0 p1 p2 ct phi = Ok (q1, q2) /\
    on_shell q1 /\ on_shell q2 /\ same_kind p1 q1 /\ same_kind p2 q2 /\ same_p4 [p0] [q1; q2].
Proof.
  intros H0 HM H1 H2 Hle Hc.
  destruct (two_body_ok p0 p1 p2 ct phi H0 HM H1 H2 Hle ltac:(nra))
    as (q1 & q2 & r1 & E & O1 & O2 & K1 & K2 & A1 & A2 & A3 & A4 & _).
  exists q1, q2. split; [exact E|]. split; [exact O1|]. split; [exact O2|]. split; [exact K1|]. split; [exact K2|].
  unfold same_p4, total. cbn [fold_right]. repeat split; lra.
Qed.
Print Assumptions C44_conserves.

(** Seen from the parent's rest frame the first product flies at the requested polar
    cosine and azimuth. *)
Theorem C44_direction p0 p1 p2 ct phi :
  on_shell p0 -> 0 < mass p0 -> 0 <= mass p1 -> 0 <= mass p2 -> mass p1 + mass p2 <= mass p0 ->
  -1 <= ct <= 1 ->
  exists q1 q2 r, two_body_decay p0 p1 p2 ct phi = Ok (q1, q2) /\
    boost (px p0 / en p0) (py p0 / en p0) (pz p0 / en p0) q1 = Ok r /\
    let k := sqrt (px r ^ 2 + py r ^ 2 + pz r ^ 2) in
    px r = k * sqrt (1 - ct ^ 2) * cos phi /\ py r = k * sqrt (1 - ct ^ 2) * sin phi /\ pz r = k * ct.
Proof.
  intros H0 HM H1 H2 Hle Hc.
  destruct (two_body_ok p0 p1 p2 ct phi H0 HM H1 H2 Hle ltac:(nra))
    as (q1 & q2 & r1 & E & _ & _ & _ & _ & _ & _ & _ & _ & B & D).
  exists q1, q2, r1. split; [exact E|]. split; [exact B|exact D].
Qed.
Print Assumptions C44_direction.

(** A decay without enough mass is refused, whatever the angles. *)
Theorem C44_refused p0 p1 p2 ct phi :
  mass p0 < mass p1 + mass p2 -> two_body_decay p0 p1 p2 ct phi = Er MarleyErr.
Proof. intros H. unfold two_body_decay. cbv zeta. destruct (Rlt_dec _ _); [reflexivity|contradiction]. Qed.
Print Assumptions C44_refused.

(** The parent of the example moves; the products are a massless and a massive
    particle. *)
Example C44_example : exists q1 q2,
  two_body_decay (mkpart 1 5 0 0 4 3 0) (mkpart 22 0 0 0 0 0 0) (mkpart 2 0 0 0 0 1 0) (1 / 3) 1 = Ok (q1, q2) /\
  same_p4 [mkpart 1 5 0 0 4 3 0] [q1; q2].
Proof.
  destruct (C44_conserves (mkpart 1 5 0 0 4 3 0) (mkpart 22 0 0 0 0 0 0) (mkpart 2 0 0 0 0 1 0) (1 / 3) 1)
    as (q1 & q2 & E & _ & _ & _ & _ & S); try (cbn [mass]; lra).
  - unfold on_shell. cbn [mass en px py pz]. repeat split; lra.
  - exists q1, q2. split; assumption.
Qed.

(** ** C45: scattering *)

(** Whenever the collision has enough energy to make the ejectile and the (excited)
    residue, the event built from the sampled angles is on shell and conserves
    four-momentum; the projectile travels along z on the target at rest, and the
    particle codes, masses and charges are the reaction's. *)
Theorem C45_scattering k ids qs KEa ct phi Ex twoJ P s Ec pc Ed :
  0 <= k_ma k -> 0 < k_mb k -> 0 <= k_mc k -> 0 <= k_md k -> 0 <= KEa -> -1 <= ct <= 1 ->
  (k_mc k + k_md k) ^ 2 <= (k_ma k + k_mb k) ^ 2 + 2 * k_mb k * KEa ->
  two_two_scatter k KEa = (s, Ec, pc, Ed) ->
  exists ev, make_event_object k ids qs KEa pc ct phi Ec Ed Ex twoJ P = Ok ev /\
    same_p4 (initial_parts ev) (final_parts ev) /\
    Forall on_shell (initial_parts ev) /\ Forall on_shell (final_parts ev) /\
    map pid (initial_parts ev ++ final_parts ev) = (let '(ia, ib, ic, id) := ids in [ia; ib; ic; id]) /\
    map chg (initial_parts ev ++ final_parts ev) = (let '(qa, qb, qc, qd) := qs in [qa; qb; qc; qd]) /\
    map mass (initial_parts ev ++ final_parts ev) = [k_ma k; k_mb k; k_mc k; k_md k] /\
    en (e_projectile ev) = KEa + k_ma k /\ px (e_projectile ev) = 0 /\ py (e_projectile ev) = 0 /\
    0 <= pz (e_projectile ev) /\ px (e_target ev) = 0 /\ py (e_target ev) = 0 /\ pz (e_target ev) = 0 /\
    e_Ex ev = Ex /\ e_twoJ ev = twoJ /\ e_parity ev = P.
Proof.
  intros Ha Hb Hc Hd HK Hct Hthr E.
  destruct (scatter_ok k ids qs KEa ct phi Ex twoJ P s Ec pc Ed Ha Hb Hc Hd HK ltac:(nra) Hthr E)
    as (ev & r & M & S & I & F & D).
  destruct ids as [[[ia ib] ic] id], qs as [[[qa qb] qc] qd].
  destruct D as (D1 & D2 & D3 & D4 & D5 & D6 & D7 & D8 & D9 & D10 & D11 & D12 & _).
  exists ev. split; [exact M|]. split; [exact S|]. split; [exact I|]. split; [exact F|].
  unfold initial_parts, final_parts. rewrite D1, D2, D9. cbn [map app pid chg mass en px py pz].
  rewrite D3, D4, D5, D6, D7, D8. repeat (split; try reflexivity); try assumption. apply sqrt_pos.
Qed.
Print Assumptions C45_scattering.

(** Seen from the centre-of-momentum frame the ejectile flies at the sampled angles. *)
Theorem C45_direction k ids qs KEa ct phi Ex twoJ P s Ec pc Ed :
  0 <= k_ma k -> 0 < k_mb k -> 0 <= k_mc k -> 0 <= k_md k -> 0 <= KEa -> -1 <= ct <= 1 ->
  (k_mc k + k_md k) ^ 2 <= (k_ma k + k_mb k) ^ 2 + 2 * k_mb k * KEa ->
  two_two_scatter k KEa = (s, Ec, pc, Ed) ->
  exists ev r, make_event_object k ids qs KEa pc ct phi Ec Ed Ex twoJ P = Ok ev /\
    boost 0 0 (pz (e_projectile ev) / (en (e_projectile ev) + en (e_target ev))) (e_ejectile ev) = Ok r /\
    let q := sqrt (px r ^ 2 + py r ^ 2 + pz r ^ 2) in
    px r = q * sqrt (1 - ct ^ 2) * cos phi /\ py r = q * sqrt (1 - ct ^ 2) * sin phi /\ pz r = q * ct.
Proof.
  intros Ha Hb Hc Hd HK Hct Hthr E.
  destruct (scatter_ok k ids qs KEa ct phi Ex twoJ P s Ec pc Ed Ha Hb Hc Hd HK ltac:(nra) Hthr E)
    as (ev & r & M & _ & _ & _ & D).
  destruct ids as [[[ia ib] ic] id], qs as [[[qa qb] qc] qd].
  destruct D as (D1 & D2 & _ & _ & _ & _ & _ & _ & _ & _ & _ & _ & B & D).
  exists ev, r. split; [exact M|]. split; [rewrite D1, D2; exact B|exact D].
Qed.
Print Assumptions C45_direction.

(** A massless projectile of energy 20 on a target of mass 10, going to masses 1 and
    11. *)
Example C45_example : exists s Ec pc Ed ev,
  two_two_scatter (mkmass 0 10 1 11) 20 = (s, Ec, pc, Ed) /\
  make_event_object (mkmass 0 10 1 11) (12, 7, 11, 8)%Z (0, 0, -1, 1)%Z 20 pc (1 / 2) 1 Ec Ed 1 0 true = Ok ev /\
  same_p4 (initial_parts ev) (final_parts ev) /\ pz (e_projectile ev) = 20.
Proof.
  destruct (two_two_scatter (mkmass 0 10 1 11) 20) as [[[s Ec] pc] Ed] eqn:E. exists s, Ec, pc, Ed.
  destruct (scatter_ok (mkmass 0 10 1 11) (12, 7, 11, 8)%Z (0, 0, -1, 1)%Z 20 (1 / 2) 1 1 0 true s Ec pc Ed)
    as (ev & r & M & S & _ & _ & D); try (cbn [k_ma k_mb k_mc k_md]; lra).
  - exact E.
  - exists ev. split; [reflexivity|]. split; [exact M|]. split; [exact S|]. destruct D as (D & _).
    rewrite D. cbn [pz k_ma]. replace (20 * (20 + 2 * 0)) with (20 ^ 2) by ring. apply sqrt_pow2. lra.
Qed.

(** Pointing a particle in a given direction: the momentum becomes a non-negative multiple
    of the direction and keeps its size, and nothing else changes. *)
Theorem C43_point x y z p : (x, y, z) <> (0, 0, 0) ->
  let q := rotate_momentum x y z p in
  (exists k, 0 <= k /\ px q = k * x /\ py q = k * y /\ pz q = k * z) /\
  px q ^ 2 + py q ^ 2 + pz q ^ 2 = px p ^ 2 + py p ^ 2 + pz p ^ 2 /\
  pid q = pid p /\ en q = en p /\ mass q = mass p /\ chg q = chg p.
Proof.
  intros H. cbv zeta. unfold rotate_momentum. cbn [px py pz pid en mass chg].
  assert (D : 0 < x ^ 2 + y ^ 2 + z ^ 2).
  { assert (PV : forall v, v <> 0 -> 0 < v ^ 2) by (intros v Hv; replace (v ^ 2) with (Rsqr v) by (unfold Rsqr; ring); apply Rsqr_pos_lt; exact Hv).
    pose proof (pow2_ge_0 x); pose proof (pow2_ge_0 y); pose proof (pow2_ge_0 z).
    destruct (Req_dec x 0) as [Ex|Ex]; [|pose proof (PV x Ex); lra].
    destruct (Req_dec y 0) as [Ey|Ey]; [|pose proof (PV y Ey); lra].
    destruct (Req_dec z 0) as [Ez|Ez]; [|pose proof (PV z Ez); lra]. exfalso. apply H. rewrite Ex, Ey, Ez. reflexivity. }
  assert (P0 : 0 <= px p ^ 2 + py p ^ 2 + pz p ^ 2) by (pose proof (pow2_ge_0 (px p)); pose proof (pow2_ge_0 (py p)); pose proof (pow2_ge_0 (pz p)); lra).
  pose proof (sqrt_lt_R0 _ D) as PD. pose proof (sqrt_sqrt _ (Rlt_le _ _ D)) as SD. pose proof (sqrt_sqrt _ P0) as SP. pose proof (sqrt_pos (px p ^ 2 + py p ^ 2 + pz p ^ 2)) as PP.
  set (a := sqrt (px p ^ 2 + py p ^ 2 + pz p ^ 2)) in *. set (d := sqrt (x ^ 2 + y ^ 2 + z ^ 2)) in *.
  split; [exists (a / d); split; [apply Rmult_le_pos; [exact PP|left; apply Rinv_0_lt_compat; exact PD]|split; [ring|split; ring]]|].
  split; [|repeat split; reflexivity].
  rewrite <- SP. transitivity ((x ^ 2 + y ^ 2 + z ^ 2) * (a / d) ^ 2); [ring|]. rewrite <- SD. field. lra.
Qed.
Print Assumptions C43_point.
Example C43_point_case : ((0, 3, 4) : R * R * R) <> (0, 0, 0).
Proof. intros H. injection H as H1 H2. lra. Qed.
