(** C78: the search for the maximum of a density and what rejection sampling makes of it. *)
From Coq Require Import List ZArith Reals Lra Lia.
From Verif Require Import Base XReal Sample SampleProofs SampleThms Source SourceThms Brent BrentProofs.
Import ListNotations.
Local Open Scope R_scope.

(** The search calls the function only strictly inside the interval, at least once; the
    place returned is one of the points called, the value returned is the value there, and
    no point called has a smaller value. *)
Theorem C78_minimize f lo hi eps fuel r : lo < hi -> 0 < eps -> minimize f lo hi eps fuel = Ok r ->
  at_f r = f (at_x r) /\ In (at_x r) (calls r) /\
  Forall (fun u => lo < u < hi /\ at_f r <= f u) (calls r).
Proof.
  intros H He HM. unfold minimize in HM. destruct (brent f eps (bstart f lo hi) fuel) as [r'|] eqn:B; cbn [bind] in HM; [|discriminate].
  injection HM as <-. cbn [at_x at_f calls]. pose proof (bstart_inv f lo hi eps He H) as I.
  destruct (brent_spec f lo hi eps fuel He _ _ I B) as (X & F & L & W & A). destruct I as (_ & _ & Ix & If & _).
  split; [exact F|]. split; [destruct W as [W|W]; [left; symmetry; exact W|right; exact W]|].
  constructor; [|exact A]. change (ba (bstart f lo hi)) with lo in Ix. change (bb (bstart f lo hi)) with hi in Ix. split; [exact Ix|].
  rewrite If in L. exact L.
Qed.
Print Assumptions C78_minimize.

(** The same for the largest value. *)
Theorem C78_maximize f lo hi eps fuel r : lo < hi -> 0 < eps -> maximize f lo hi eps fuel = Ok r ->
  at_f r = f (at_x r) /\ In (at_x r) (calls r) /\
  Forall (fun u => lo < u < hi /\ f u <= at_f r) (calls r).
Proof.
  intros H He HM. unfold maximize in HM. destruct (minimize _ lo hi eps fuel) as [r'|] eqn:B; cbn [bind] in HM; [|discriminate].
  injection HM as <-. cbn [at_x at_f calls]. destruct (C78_minimize _ lo hi eps fuel r' H He B) as (F & I & A).
  split; [lra|]. split; [exact I|]. eapply Forall_impl; [|exact A]. cbv beta. intros u [U1 U2]. split; [exact U1|lra].
Qed.
Print Assumptions C78_maximize.

(** Whatever the function is, the search ends, with at most one call more than the number
    of tolerances in the interval. *)
Theorem C78_ends f lo hi eps fuel : lo <= hi -> 0 < eps -> hi - lo < INR fuel * eps ->
  (exists r, minimize f lo hi eps fuel = Ok r /\ INR (length (calls r)) <= 1 + (hi - lo) / eps) /\
  (exists r, maximize f lo hi eps fuel = Ok r /\ INR (length (calls r)) <= 1 + (hi - lo) / eps).
Proof.
  intros H He HF.
  assert (G : forall g, exists r, minimize g lo hi eps fuel = Ok r /\ INR (length (calls r)) <= 1 + (hi - lo) / eps).
  { intros g. unfold minimize. destruct H as [H|<-].
    - pose proof (bstart_inv g lo hi eps He H) as I.
      destruct (brent_ends g lo hi eps fuel He _ I HF) as (r & -> & L). cbn [bind]. eexists. split; [reflexivity|].
      cbn [calls length]. rewrite S_INR. change (bb (bstart g lo hi) - ba (bstart g lo hi)) with (hi - lo) in L.
      apply Rmult_le_reg_r with eps; [exact He|]. rewrite !Rmult_plus_distr_r. unfold Rdiv. rewrite Rmult_assoc, Rinv_l by lra. lra.
    - destruct fuel as [|fuel]; [cbn [INR] in HF; lra|]. rewrite bstart_point by exact He. cbn [bind]. eexists. split; [reflexivity|].
      cbn [calls length INR]. unfold Rdiv. rewrite Rminus_diag_eq, Rmult_0_l by reflexivity. lra. }
  split; [apply G|]. destruct (G (fun x => -1 * f x)) as (r & E & L). unfold maximize. rewrite E. cbn [bind]. eexists. split; [reflexivity|exact L].
Qed.
Print Assumptions C78_ends.

(** On an interval of one point the search calls the function there and nowhere else. *)
Theorem C78_point f lo eps fuel r : 0 < eps -> maximize f lo lo eps fuel = Ok r ->
  at_x r = lo /\ at_f r = f lo /\ calls r = [lo].
Proof.
  intros He HM. unfold maximize, minimize in HM. destruct fuel as [|fuel]; [discriminate|]. rewrite bstart_point in HM by exact He.
  cbn [bind at_x at_f calls] in HM. injection HM as <-. cbn [at_x at_f calls]. split; [reflexivity|]. split; [ring|].
  f_equal. unfold bstart. cbn [bx]. ring.
Qed.
Print Assumptions C78_point.

(** The result depends on the values at the points called only. *)
Theorem C78_calls f g lo hi eps fuel r : maximize f lo hi eps fuel = Ok r ->
  (forall u, In u (calls r) -> g u = f u) -> maximize g lo hi eps fuel = Ok r.
Proof.
  unfold maximize, minimize. intros HM E.
  destruct (brent _ eps (bstart _ lo hi) fuel) as [r'|] eqn:B; cbn [bind] in HM; [|discriminate]. injection HM as <-. cbn [calls] in E.
  assert (S : bstart (fun x => -1 * g x) lo hi = bstart (fun x => -1 * f x) lo hi).
  { unfold bstart. rewrite (E (lo + golden * (hi - lo))) by (left; reflexivity). reflexivity. }
  rewrite S, (brent_ext _ (fun x => -1 * g x) eps fuel _ _ B) by (intros u Hu; rewrite (E u) by (right; exact Hu); reflexivity).
  reflexivity.
Qed.
Print Assumptions C78_calls.

(** So a peak between the points called is missed, however high it is: the value found for
    the function with the peak is the one without it. *)
Theorem C78_missed_refuted f lo hi eps fuel r M : lo < hi -> maximize f lo hi eps fuel = Ok r ->
  exists a b g, lo <= a /\ a < b /\ b <= hi /\ (forall x, a < x < b -> g x = M) /\ (forall x, ~ (a < x < b) -> g x = f x) /\
    maximize g lo hi eps fuel = Ok r.
Proof.
  intros H HM. destruct (free_interval (calls r) lo hi H) as (a & b & A & B & C & D).
  exists a, b, (fun x => if Rlt_dec a x then if Rlt_dec x b then M else f x else f x). split; [exact A|]. split; [exact B|]. split; [exact C|].
  split; [intros x Hx; destruct (Rlt_dec a x); [|lra]; destruct (Rlt_dec x b); [reflexivity|lra]|].
  assert (G : forall x, ~ (a < x < b) -> (if Rlt_dec a x then if Rlt_dec x b then M else f x else f x) = f x)
    by (intros x Hx; destruct (Rlt_dec a x); [|reflexivity]; destruct (Rlt_dec x b); [exfalso; apply Hx; split; assumption|reflexivity]).
  split; [exact G|]. apply (C78_calls f); [exact HM|]. intros u Hu. apply G, D, Hu.
Qed.
Print Assumptions C78_missed_refuted.

(** No parabola is ever used: every point after the first is one tolerance away from a
    point called before, or divides the way from such a point to another one (or to an end
    of the interval) in the golden ratio. *)
Theorem C78_parabola_refuted f lo hi eps fuel r l1 u l2 : lo < hi -> 0 < eps -> minimize f lo hi eps fuel = Ok r ->
  calls r = l1 ++ u :: l2 -> l1 <> [] ->
  exists x, In x l1 /\ (Rabs (u - x) = sqrt_eps * Rabs x + eps \/
    exists y, In y (lo :: hi :: l1) /\ u = x + (3 - sqrt 5) / 2 * (y - x)).
Proof.
  intros H He HM HC HN. unfold minimize in HM. destruct (brent f eps (bstart f lo hi) fuel) as [r'|] eqn:B; cbn [bind] in HM; [|discriminate].
  injection HM as <-. cbn [calls] in HC. destruct l1 as [|x0 l1]; [congruence|]. cbn [app] in HC. injection HC as <- HC.
  pose proof (bstart_inv f lo hi eps He H) as I. set (x0 := bx (bstart f lo hi)) in *.
  destruct (brent_points f lo hi eps fuel He [x0] _ _ I ltac:(left; reflexivity) ltac:(left; reflexivity) ltac:(right; left; reflexivity) B l1 u l2 HC)
    as (x & X1 & X2).
  assert (Q : forall z, In z (l1 ++ [x0]) -> In z (x0 :: l1)) by (intros z K; apply in_app_or in K; destruct K as [K|[<-|[]]]; [right; exact K|left; reflexivity]).
  exists x. split; [apply Q, X1|]. destruct X2 as [X2|(y & Y1 & Y2)]; [left; exact X2|right]. exists y. split.
  - destruct Y1 as [<-|[<-|K]]; [left; reflexivity|right; left; reflexivity|right; right; apply Q, K].
  - replace ((3 - sqrt 5) / 2) with golden by (unfold golden; field). exact Y2.
Qed.
Print Assumptions C78_parabola_refuted.

(** A function with one peak, at [z]: it rises before and falls after it. *)
Definition peak (f : R -> R) (lo hi z : R) : Prop :=
  lo <= z <= hi /\ (forall x y, lo <= x -> x < y -> y <= z -> f x < f y) /\ (forall x y, z <= x -> x < y -> y <= hi -> f y < f x).

Lemma peak_valley f lo hi z : peak f lo hi z -> valley (fun x => -1 * f x) lo hi z.
Proof.
  intros (A & B & C). split; [exact A|]. split; intros x y P Q S; [specialize (B x y P Q S)|specialize (C x y P Q S)]; lra.
Qed.

Lemma peak_top f lo hi z x : peak f lo hi z -> lo <= x <= hi -> f x <= f z.
Proof.
  intros (A & B & C) Hx. destruct (Rtotal_order x z) as [L|[->|L]]; [specialize (B x z); lra|lra|specialize (C z x); lra].
Qed.

(** For a function with one peak the place found is within twice the tolerance of it. *)
Theorem C78_peak f lo hi eps z fuel r : lo <= hi -> 0 < eps -> peak f lo hi z -> maximize f lo hi eps fuel = Ok r ->
  Rabs (at_x r - z) <= 2 * (sqrt_eps * Rabs (at_x r) + eps) /\ lo <= at_x r <= hi /\ at_f r = f (at_x r) /\ at_f r <= f z.
Proof.
  intros H He P HM. assert (N : 0 <= sqrt_eps * Rabs (at_x r)).
  { apply Rmult_le_pos; [unfold sqrt_eps; apply pow_le; lra|apply Rabs_pos]. }
  destruct H as [H|<-].
  - destruct (C78_maximize f lo hi eps fuel r H He HM) as (F & I & A). rewrite Forall_forall in A. destruct (A _ I) as [X _].
    split; [|split; [lra|split; [exact F|rewrite F; apply (peak_top f lo hi); [exact P|lra]]]].
    unfold maximize, minimize in HM. destruct (brent _ eps (bstart _ lo hi) fuel) as [r'|] eqn:B; cbn [bind] in HM; [|discriminate].
    injection HM as <-. cbn [at_x]. pose proof (bstart_inv (fun x => -1 * f x) lo hi eps He H) as I0.
    exact (brent_valley _ lo hi eps z fuel He (peak_valley _ _ _ _ P) _ _ I0 (proj1 P) B).
  - destruct (C78_point f lo eps fuel r He HM) as (X & F & _). destruct P as (Z & _). assert (z = lo) as -> by lra. rewrite X in *.
    rewrite Rminus_diag_eq, Rabs_R0 by reflexivity. split; [lra|]. split; [lra|]. split; [exact F|lra].
Qed.
Print Assumptions C78_peak.

(** Sampling with an unknown maximum from a density with one peak: if the density within
    twice the tolerance of the peak is at least the one at the peak over the safety factor,
    the maximum used is a true one, so that a point tried is kept exactly when the second
    draw is at most the ratio of the density there and a fixed number. *)
Theorem C78_sampling f lo hi safety eps z sfuel : lo <= hi -> 0 < eps -> 1 <= safety -> peak f lo hi z -> 0 < f z ->
  (forall x, lo <= x <= hi -> Rabs (x - z) <= 2 * (sqrt_eps * Rabs x + eps) -> f z <= safety * f x) ->
  hi - lo < INR sfuel * eps ->
  exists top, f z <= top <= safety * f z /\
  forall draws fuel, (forall k, good_pair (draws k)) -> forall x m,
  sample_search f lo hi None safety eps draws sfuel fuel = Ok (x, m) <->
  m = top /\ exists n, (n < fuel)%nat /\ x = lo + fst (draws n) * (hi - lo) /\
    snd (draws n) <= f x / top /\
    forall k, (k < n)%nat -> f (lo + fst (draws k) * (hi - lo)) / top < snd (draws k).
Proof.
  intros H He Hs P Hz HN HF. destruct (C78_ends f lo hi eps sfuel H He HF) as [_ (r & E & _)].
  destruct (C78_peak f lo hi eps z sfuel r H He P E) as (D & X & F & L).
  specialize (HN _ X D). rewrite <- F in HN.
  exists (at_f r * safety). split; [nra|]. intros draws fuel Hd x m. unfold sample_search. rewrite E. cbn [bind].
  change (rejection_sample f lo hi None safety (at_f r) draws fuel) with (rejection_sample f lo hi (Some (at_f r * safety)) safety 0 draws fuel).
  apply C36_acceptance; [exact H|nra| |exact Hd]. intros y Hy. pose proof (peak_top f lo hi z y P Hy). nra.
Qed.
Print Assumptions C78_sampling.
