(** Lemmas on the search for a minimum (Brent.v). *)
From Coq Require Import List ZArith Reals Lra Lia.
From Verif Require Import Base Sample Brent.
Import ListNotations.
Local Open Scope R_scope.

Lemma golden_bounds : 38 / 100 < golden < 383 / 1000.
Proof.
  unfold golden. pose proof (sqrt_sqrt 5 ltac:(lra)) as H. pose proof (sqrt_pos 5) as P.
  split; nra.
Qed.

Lemma btol_ge eps s : eps <= btol eps s.
Proof.
  unfold btol, sqrt_eps. pose proof (Rabs_pos (bx s)). assert (0 <= (/ 2) ^ 26) by (apply pow_le; lra). nra.
Qed.

Lemma more_spec eps s : more eps s = true <->
  2 * btol eps s < bx s - ba s \/ 2 * btol eps s < bb s - bx s.
Proof.
  unfold more. set (t := btol eps s). cbv zeta.
  destruct (Rlt_dec (2 * t - 1 / 2 * (bb s - ba s)) (Rabs (bx s - 1 / 2 * (ba s + bb s)))) as [H|H].
  - split; [|reflexivity]. intros _. unfold Rabs in H. destruct (Rcase_abs _); [right|left]; lra.
  - split; [discriminate|]. intros HH. exfalso. apply H. unfold Rabs. destruct (Rcase_abs _); lra.
Qed.

(** The next point: a step of the tolerance or the golden section of the longer side, never
    the vertex of the parabola. *)
Lemma next_point eps s d e : 0 < eps -> ba s < bx s < bb s -> more eps s = true -> shift eps s = (d, e) ->
  let u := point eps s d in let t := btol eps s in
  (bx s < 1 / 2 * (ba s + bb s) /\ (u = bx s + t \/ u = bx s + golden * (bb s - bx s)) /\ t <= u - bx s /\ t < bb s - u)
  \/ (1 / 2 * (ba s + bb s) <= bx s /\ (u = bx s - t \/ u = bx s - golden * (bx s - ba s)) /\ t <= bx s - u /\ t < u - ba s).
Proof.
  intros He Hx Hm Hs. cbv zeta. pose proof (btol_ge eps s) as Ht. apply more_spec in Hm.
  pose proof golden_bounds as G. unfold shift in Hs. cbv zeta in Hs.
  set (t := btol eps s) in *. set (m := 1 / 2 * (ba s + bb s)) in *.
  assert (GS : (d, e) = (let e := (if Rlt_dec (bx s) m then bb s else ba s) - bx s in (golden * e, e)) ->
     (bx s < m /\ d = golden * (bb s - bx s)) \/ (m <= bx s /\ d = golden * (ba s - bx s))).
  { cbv zeta. intros E. injection E as -> ->. destruct (Rlt_dec (bx s) m); [left|right]; split; try lra; reflexivity. }
  assert (D : (bx s < m /\ (d = t \/ d = golden * (bb s - bx s))) \/ (m <= bx s /\ (d = - t \/ d = golden * (ba s - bx s)))).
  { destruct (parabola eps s) as [[[p q] r] e0] eqn:EP.
    destruct (Rlt_dec (Rabs p) (Rabs (1 / 2 * q * r))) as [H1|H1]; [|symmetry in Hs; apply GS in Hs; tauto].
    destruct (Rlt_dec p (q * (ba s - bx s))) as [H2|H2]; [|symmetry in Hs; apply GS in Hs; tauto].
    destruct (Rlt_dec p (q * (bb s - bx s))) as [H3|H3]; [|symmetry in Hs; apply GS in Hs; tauto].
    assert (Q : 0 <= q).
    { unfold parabola in EP. cbv zeta in EP. destruct (Rlt_dec (btol eps s) (Rabs (be s))).
      - match type of EP with (if Rlt_dec 0 ?Q then _ else _) = _ => destruct (Rlt_dec 0 Q) end; injection EP as <- <- <- <-; lra.
      - injection EP as <- <- <- <-. lra. }
    assert (Q0 : 0 < q).
    { destruct Q as [Q|<-]; [exact Q|]. replace (1 / 2 * 0 * r) with 0 in H1 by ring. rewrite Rabs_R0 in H1. pose proof (Rabs_pos p). lra. }
    assert (L : bx s + p / q < ba s).
    { apply Rmult_lt_reg_r with q; [exact Q0|]. unfold Rdiv. rewrite Rmult_plus_distr_r, Rmult_assoc, Rinv_l by lra. lra. }
    destruct (Rlt_dec (bx s + p / q - ba s) (2 * t)) as [_|N]; [|lra].
    injection Hs as <- <-. destruct (Rlt_dec (bx s) m); [left|right]; split; try lra; auto. }
  unfold point. fold t. cbv zeta.
  destruct D as [[Hlt D]|[Hge D]]; [left|right]; (split; [exact Hlt || exact Hge|]).
  - assert (B : 2 * t < bb s - bx s) by (unfold m in Hlt; lra).
    assert (P : 0 < d) by (destruct D as [->| ->]; nra).
    rewrite (Rabs_right d) by lra.
    destruct (Rle_dec t d) as [T|T].
    + destruct D as [->| ->]; split; auto; split; nra.
    + destruct (Rlt_dec 0 d) as [_|N]; [|lra]. split; auto. split; lra.
  - assert (B : 2 * t < bx s - ba s) by (unfold m in Hge; lra).
    assert (P : d < 0) by (destruct D as [->| ->]; nra).
    rewrite (Rabs_left d) by lra.
    destruct (Rle_dec t (- d)) as [T|T].
    + destruct D as [->| ->].
      * split; [left; ring|]. split; lra.
      * split; [right; ring|]. split; nra.
    + destruct (Rlt_dec 0 d) as [N|_]; [lra|]. split; auto. split; lra.
Qed.

(** What holds at the head of the loop. *)
Definition binv (f : R -> R) (lo hi eps : R) (s : bst) : Prop :=
  lo <= ba s /\ bb s <= hi /\ ba s < bx s < bb s /\ bfx s = f (bx s) /\
  (more eps s = true -> eps <= bx s - ba s /\ eps <= bb s - bx s).

Lemma update_spec s d e u fu :
  let s' := update s d e u fu in
  (fu <= bfx s -> bx s' = u /\ bfx s' = fu /\
     (u < bx s -> ba s' = ba s /\ bb s' = bx s) /\ (bx s <= u -> ba s' = bx s /\ bb s' = bb s)) /\
  (bfx s < fu -> bx s' = bx s /\ bfx s' = bfx s /\
     (u < bx s -> ba s' = u /\ bb s' = bb s) /\ (bx s <= u -> ba s' = ba s /\ bb s' = u)).
Proof.
  cbv zeta. unfold update. destruct (Rle_dec fu (bfx s)) as [H|H].
  - split; [|intros; lra]. intros _. cbn [bx bfx ba bb]. split; [reflexivity|]. split; [reflexivity|].
    destruct (Rlt_dec u (bx s)); split; intros; try lra; split; reflexivity.
  - split; [intros; lra|]. intros _. cbv zeta.
    repeat match goal with |- context [if Rle_dec ?a ?b then _ else _] => destruct (Rle_dec a b)
      | |- context [if Req_EM_T ?a ?b then _ else _] => destruct (Req_EM_T a b) end;
    cbn [bx bfx ba bb]; (split; [reflexivity|]); (split; [reflexivity|]);
    (destruct (Rlt_dec u (bx s)); split; intros; try lra; split; reflexivity).
Qed.

Lemma turn f lo hi eps s d e : 0 < eps -> binv f lo hi eps s -> more eps s = true -> shift eps s = (d, e) ->
  let u := point eps s d in let s' := update s d e u (f u) in
  binv f lo hi eps s' /\ bb s' - ba s' <= bb s - ba s - eps /\ lo < u < hi /\
  bfx s' <= f u /\ bfx s' <= bfx s /\ (bfx s' = f u \/ bfx s' = bfx s).
Proof.
  intros He (Ha & Hb & Hx & Hf & Hm) M S. cbv zeta.
  pose proof (next_point eps s d e He Hx M S) as N. cbv zeta in N. specialize (Hm M). pose proof (btol_ge eps s) as T.
  set (u := point eps s d) in *. set (t := btol eps s) in *.
  pose proof (update_spec s d e u (f u)) as U. cbv zeta in U. set (s' := update s d e u (f u)) in *.
  destruct U as [U1 U2]. unfold binv.
  destruct (Rle_dec (f u) (bfx s)) as [C|C].
  - destruct (U1 C) as (X & F & UL & UR). clear U1 U2. rewrite X, F.
    destruct N as [(N1 & N2 & N3 & N4)|(N1 & N2 & N3 & N4)].
    + destruct (UR ltac:(lra)) as [-> ->]. repeat split; try lra.
    + destruct (UL ltac:(lra)) as [-> ->]. repeat split; try lra.
  - destruct (U2 ltac:(lra)) as (X & F & UL & UR). clear U1 U2. rewrite X, F.
    destruct N as [(N1 & N2 & N3 & N4)|(N1 & N2 & N3 & N4)].
    + destruct (UR ltac:(lra)) as [-> ->]. repeat split; try lra.
    + destruct (UL ltac:(lra)) as [-> ->]. repeat split; try lra.
Qed.

Lemma brent_spec f lo hi eps fuel : 0 < eps -> forall s r, binv f lo hi eps s -> brent f eps s fuel = Ok r ->
  lo < at_x r < hi /\ at_f r = f (at_x r) /\ at_f r <= bfx s /\
  (at_x r = bx s \/ In (at_x r) (calls r)) /\
  Forall (fun u => lo < u < hi /\ at_f r <= f u) (calls r).
Proof.
  intros He. induction fuel as [|fuel IH]; [discriminate|]. intros s r I H. cbn [brent] in H.
  destruct (more eps s) eqn:M.
  - destruct (shift eps s) as [d e] eqn:S. pose proof (turn f lo hi eps s d e He I M S) as T. cbv zeta in T.
    set (u := point eps s d) in *. set (s' := update s d e u (f u)) in *.
    destruct (brent f eps s' fuel) as [r'|] eqn:B; cbn [bind] in H; [|discriminate]. injection H as <-.
    destruct T as (I' & _ & U & L1 & L2 & _). destruct (IH s' r' I' B) as (X & F & L & W & A). cbn [at_x at_f calls].
    split; [exact X|]. split; [exact F|]. split; [lra|]. split.
    + destruct W as [W|W]; [|right; right; exact W]. rewrite W.
      destruct (update_spec s d e u (f u)) as [U1 U2]. fold s' in U1, U2.
      destruct (Rle_dec (f u) (bfx s)) as [C|C]; [destruct (U1 C) as [-> _]; right; left; reflexivity|].
      destruct (U2 ltac:(lra)) as [-> _]. left; reflexivity.
    + constructor; [split; [exact U|lra]|exact A].
  - injection H as <-. destruct I as (Ha & Hb & Hx & Hf & _). cbn [at_x at_f calls].
    repeat split; try lra; auto.
Qed.

Lemma brent_ends f lo hi eps fuel : 0 < eps -> forall s, binv f lo hi eps s -> bb s - ba s < INR fuel * eps ->
  exists r, brent f eps s fuel = Ok r /\ INR (length (calls r)) * eps <= bb s - ba s.
Proof.
  intros He. induction fuel as [|fuel IH]; intros s I H.
  - cbn [INR] in H. destruct I as (_ & _ & X & _). lra.
  - cbn [brent]. destruct (more eps s) eqn:M.
    + destruct (shift eps s) as [d e] eqn:S. pose proof (turn f lo hi eps s d e He I M S) as T. cbv zeta in T.
      destruct T as (I' & W & _).
      set (s' := update s d e (point eps s d) (f (point eps s d))) in *.
      rewrite S_INR in H. destruct (IH s' I' ltac:(lra)) as (r & -> & L). cbn [bind]. eexists. split; [reflexivity|].
      cbn [calls length]. rewrite S_INR. lra.
    + eexists. split; [reflexivity|]. cbn [calls length INR]. destruct I as (_ & _ & X & _). lra.
Qed.

(** Only the values at the points called matter. *)
Lemma brent_ext f g eps fuel : forall s r, brent f eps s fuel = Ok r ->
  (forall u, In u (calls r) -> g u = f u) -> brent g eps s fuel = Ok r.
Proof.
  induction fuel as [|fuel IH]; [discriminate|]. intros s r H E. cbn [brent] in H |- *.
  destruct (more eps s); [|exact H]. destruct (shift eps s) as [d e].
  destruct (brent f eps _ fuel) as [r'|] eqn:B; cbn [bind] in H; [|discriminate]. injection H as <-. cbn [calls] in E.
  rewrite (E (point eps s d)) by (left; reflexivity).
  rewrite (IH _ _ B) by (intros; apply E; right; assumption). reflexivity.
Qed.

Lemma bstart_inv f lo hi eps : 0 < eps -> lo < hi -> binv f lo hi eps (bstart f lo hi).
Proof.
  intros He H. pose proof golden_bounds as G. unfold binv, bstart. cbn [ba bb bx bfx].
  split; [lra|]. split; [lra|]. split; [split; nra|]. split; [reflexivity|].
  intros M. apply more_spec in M. cbn [ba bb bx] in M.
  match type of M with context [btol eps ?s] => pose proof (btol_ge eps s) as T; set (t := btol eps s) in * end.
  split; destruct M as [M|M]; nra.
Qed.

Lemma bstart_point f lo eps fuel : 0 < eps -> brent f eps (bstart f lo lo) (S fuel) = Ok (mkfound lo (f lo) []).
Proof.
  intros He. cbn [brent]. assert (X : bx (bstart f lo lo) = lo) by (unfold bstart; cbn [bx]; ring).
  destruct (more eps (bstart f lo lo)) eqn:M.
  - apply more_spec in M. rewrite X in M. pose proof (btol_ge eps (bstart f lo lo)).
    change (ba (bstart f lo lo)) with lo in M. change (bb (bstart f lo lo)) with lo in M. lra.
  - rewrite X. unfold bstart. cbn [bfx]. f_equal. f_equal. f_equal. ring.
Qed.

(** The bracket keeps a minimum of a function with one valley. *)
Definition valley (f : R -> R) (lo hi z : R) : Prop :=
  lo <= z <= hi /\ (forall x y, lo <= x -> x < y -> y <= z -> f y < f x) /\ (forall x y, z <= x -> x < y -> y <= hi -> f x < f y).

Lemma brent_valley f lo hi eps z fuel : 0 < eps -> valley f lo hi z -> forall s r, binv f lo hi eps s ->
  ba s <= z <= bb s -> brent f eps s fuel = Ok r -> Rabs (at_x r - z) <= 2 * (sqrt_eps * Rabs (at_x r) + eps).
Proof.
  intros He V. induction fuel as [|fuel IH]; [discriminate|]. intros s r I Z H. cbn [brent] in H.
  destruct (more eps s) eqn:M.
  - destruct (shift eps s) as [d e] eqn:S. pose proof (turn f lo hi eps s d e He I M S) as T. cbv zeta in T.
    set (u := point eps s d) in *. set (s' := update s d e u (f u)) in *.
    destruct (brent f eps s' fuel) as [r'|] eqn:B; cbn [bind] in H; [|discriminate]. injection H as <-. cbn [at_x].
    destruct T as (I' & _ & U & _). refine (IH s' r' I' _ B).
    destruct (update_spec s d e u (f u)) as [U1 U2]. fold s' in U1, U2. destruct I as (Ia & Ib & Ix & If & _).
    destruct V as (Vz & VL & VR).
    destruct (next_point eps s d e He Ix M S) as [(N1 & _ & N3 & N4)|(N1 & _ & N3 & N4)]; fold u in N3, N4; pose proof (btol_ge eps s) as T.
    + destruct (Rle_dec (f u) (bfx s)) as [C|C].
      * destruct (U1 C) as (_ & _ & _ & UR). destruct (UR ltac:(lra)) as [-> ->].
        destruct (Rle_dec (bx s) z); [lra|]. exfalso. specialize (VR (bx s) u ltac:(lra) ltac:(lra) ltac:(lra)). lra.
      * destruct (U2 ltac:(lra)) as (_ & _ & _ & UR). destruct (UR ltac:(lra)) as [-> ->].
        destruct (Rle_dec z u); [lra|]. exfalso. specialize (VL (bx s) u ltac:(lra) ltac:(lra) ltac:(lra)). lra.
    + destruct (Rle_dec (f u) (bfx s)) as [C|C].
      * destruct (U1 C) as (_ & _ & UL & _). destruct (UL ltac:(lra)) as [-> ->].
        destruct (Rle_dec z (bx s)); [lra|]. exfalso. specialize (VL u (bx s) ltac:(lra) ltac:(lra) ltac:(lra)). lra.
      * destruct (U2 ltac:(lra)) as (_ & _ & UL & _). destruct (UL ltac:(lra)) as [-> ->].
        destruct (Rle_dec u z); [lra|]. exfalso. specialize (VR u (bx s) ltac:(lra) ltac:(lra) ltac:(lra)). lra.
  - injection H as <-. cbn [at_x]. destruct I as (_ & _ & Ix & _ & _).
    assert (N : ~ (2 * btol eps s < bx s - ba s \/ 2 * btol eps s < bb s - bx s)) by (rewrite <- more_spec, M; discriminate).
    unfold btol in N. apply Rabs_le. lra.
Qed.

(** Where the points come from: the place of the best point so far and the ends of the
    bracket are points called earlier or the ends of the interval. *)
Lemma brent_points f lo hi eps fuel : 0 < eps -> forall E s r, binv f lo hi eps s ->
  In (bx s) E -> In (ba s) (lo :: hi :: E) -> In (bb s) (lo :: hi :: E) -> brent f eps s fuel = Ok r ->
  forall l1 u l2, calls r = l1 ++ u :: l2 ->
  exists x, In x (l1 ++ E) /\
    (Rabs (u - x) = sqrt_eps * Rabs x + eps \/ exists y, In y (lo :: hi :: l1 ++ E) /\ u = x + golden * (y - x)).
Proof.
  intros He. induction fuel as [|fuel IH]; [discriminate|]. intros E s r I HX HA HB H l1 u l2 HC. cbn [brent] in H.
  destruct (more eps s) eqn:M; [|injection H as <-; cbn [calls] in HC; destruct l1; discriminate].
  destruct (shift eps s) as [d e] eqn:S. pose proof (turn f lo hi eps s d e He I M S) as T. cbv zeta in T.
  set (u0 := point eps s d) in *. set (s' := update s d e u0 (f u0)) in *.
  destruct (brent f eps s' fuel) as [r'|] eqn:B; cbn [bind] in H; [|discriminate]. injection H as <-. cbn [calls] in HC.
  destruct T as (I' & _). assert (Ix : ba s < bx s < bb s) by apply I.
  destruct l1 as [|v l1].
  - cbn [app] in HC. injection HC as <- _. exists (bx s). split; [exact HX|]. cbn [app].
    pose proof (btol_ge eps s) as TG.
    destruct (next_point eps s d e He Ix M S) as [(N1 & [N2|N2] & N3 & N4)|(N1 & [N2|N2] & N3 & N4)]; fold u0 in N2, N3, N4.
    + left. change (sqrt_eps * Rabs (bx s) + eps) with (btol eps s). rewrite Rabs_right; lra.
    + right. exists (bb s). split; [exact HB|]. exact N2.
    + left. change (sqrt_eps * Rabs (bx s) + eps) with (btol eps s). rewrite Rabs_left1; lra.
    + right. exists (ba s). split; [exact HA|]. lra.
  - cbn [app] in HC. injection HC as <- HC.
    destruct (update_spec s d e u0 (f u0)) as [U1 U2]. fold s' in U1, U2.
    assert (P : In (bx s') (u0 :: E) /\ In (ba s') (lo :: hi :: u0 :: E) /\ In (bb s') (lo :: hi :: u0 :: E)).
    { assert (W : forall z, In z (lo :: hi :: E) -> In z (lo :: hi :: u0 :: E)) by (intros z [<-|[<-|K]]; cbn; auto).
      destruct (Rle_dec (f u0) (bfx s)) as [C|C].
      - destruct (U1 C) as (X & _ & UL & UR). rewrite X. split; [left; reflexivity|].
        destruct (Rlt_dec u0 (bx s)) as [L|L]; [destruct (UL L) as [-> ->]|destruct (UR ltac:(lra)) as [-> ->]];
          (split; [try (apply W; exact HA)|try (apply W; exact HB)]); right; right; right; exact HX.
      - destruct (U2 ltac:(lra)) as (X & _ & UL & UR). rewrite X. split; [right; exact HX|].
        destruct (Rlt_dec u0 (bx s)) as [L|L]; [destruct (UL L) as [-> ->]|destruct (UR ltac:(lra)) as [-> ->]];
          (split; [try (apply W; exact HA)|try (apply W; exact HB)]); right; right; left; reflexivity. }
    destruct P as (P1 & P2 & P3).
    destruct (IH (u0 :: E) s' r' I' P1 P2 P3 B l1 u l2 HC) as (x & X1 & X2).
    assert (Q : forall z, In z (l1 ++ u0 :: E) -> In z ((u0 :: l1) ++ E))
      by (intros z K; apply in_app_or in K; cbn [app]; destruct K as [K|[<-|K]]; [right; apply in_or_app; auto|left; reflexivity|right; apply in_or_app; auto]).
    exists x. split; [apply Q; exact X1|]. destruct X2 as [X2|(y & Y1 & Y2)]; [left; exact X2|right]. exists y. split; [|exact Y2].
    destruct Y1 as [<-|[<-|K]]; [left; reflexivity|right; left; reflexivity|right; right; apply Q; exact K].
Qed.

(** An interval without any of finitely many points. *)
Lemma free_interval (l : list R) : forall lo hi, lo < hi ->
  exists a b, lo <= a /\ a < b /\ b <= hi /\ forall p, In p l -> ~ (a < p < b).
Proof.
  induction l as [|p l IH]; intros lo hi H.
  - exists lo, hi. repeat split; try lra. intros p [].
  - destruct (IH lo hi H) as (a & b & A & B & C & D). destruct (Rle_dec p ((a + b) / 2)) as [L|L].
    + exists ((a + b) / 2), b. repeat split; try lra. intros q [<-|K]; [lra|]. specialize (D q K). lra.
    + exists a, ((a + b) / 2). repeat split; try lra. intros q [<-|K]; [lra|]. specialize (D q K). lra.
Qed.
