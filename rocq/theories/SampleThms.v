(** Theorems about sampling: C36, C37, C57. *)
From Coq Require Import List ZArith Reals Lra Lia Psatz.
From Coq Require Import Floats.SpecFloat.
From Verif Require Import Base Sample SampleProofs.
Import ListNotations.
Local Open Scope R_scope.

(** ** C57: weighted choices *)

(** For non-negative weights with a positive sum, an index is chosen for exactly the
    draws of a half-open interval whose length is its weight divided by the sum: it is
    in range, and entry [i] is chosen with probability [w_i / sum]. *)
Theorem C57_share ws i w u : nonneg ws -> 0 < sumR ws -> nth_error ws i = Some w -> 0 < u <= 1 ->
  let lo := sumR (firstn i ws) / sumR ws in
  let hi := lo + w / sumR ws in
  0 <= lo /\ hi <= 1 /\ (discrete ws u = i <-> lo < u <= hi).
Proof.
  intros HN Hs Hw Hu. cbv zeta.
  assert (Hi : (i < length ws)%nat) by (apply nth_error_Some; congruence).
  pose proof (sum_firstn_S ws i w Hw) as E.
  assert (Hlo : 0 <= sumR (firstn i ws)) by (apply sumR_nonneg, nonneg_firstn, HN).
  assert (Hhi : sumR (firstn (S i) ws) <= sumR ws).
  { rewrite <- (firstn_all ws) at 2. apply sum_firstn_mono; [exact HN|lia]. }
  pose proof (Rinv_0_lt_compat _ Hs) as Hinv.
  assert (X : forall a, a / sumR ws * sumR ws = a) by (intros a; field; lra).
  assert (Hsum : sumR (firstn i ws) / sumR ws + w / sumR ws = sumR (firstn (S i) ws) / sumR ws).
  { rewrite E. field. lra. }
  rewrite Hsum. split; [|split].
  - apply Rmult_le_pos; lra.
  - apply Rmult_le_reg_r with (sumR ws); [exact Hs|]. rewrite X. lra.
  - rewrite (discrete_iff ws u i HN Hs Hu Hi). split; intros [A B]; split.
    + apply Rmult_lt_reg_r with (sumR ws); [exact Hs|]. rewrite X. exact A.
    + apply Rmult_le_reg_r with (sumR ws); [exact Hs|]. rewrite X. exact B.
    + apply (Rmult_lt_compat_r (sumR ws)) in A; [|exact Hs]. rewrite X in A. exact A.
    + apply (Rmult_le_compat_r (sumR ws)) in B; [|lra]. rewrite X in B. exact B.
Qed.
Print Assumptions C57_share.

(** A choice is always in range, and an entry of weight zero is never chosen, except
    by the draw 0. *)
Theorem C57_positive ws u : nonneg ws -> 0 < sumR ws -> 0 < u <= 1 ->
  exists w, nth_error ws (discrete ws u) = Some w /\ 0 < w.
Proof.
  intros HN Hs Hu. destruct (discrete_spec ws u HN Hs Hu) as [Hi _].
  destruct (nth_error ws (discrete ws u)) as [w|] eqn:E; [|apply nth_error_None in E; lia].
  exists w. split; [reflexivity|]. exact (discrete_positive ws u w HN Hs Hu E).
Qed.
Print Assumptions C57_positive.

(** The draw 0 is possible and then takes the first entry even if its weight is zero. *)
Theorem C57_zero_draw_refuted :
  exists ws, nonneg ws /\ 0 < sumR ws /\ nth_error ws (discrete ws 0) = Some 0.
Proof.
  exists [0; 1]. assert (HN : nonneg [0; 1]) by (repeat constructor; lra).
  assert (Hs : 0 < sumR [0; 1]) by (cbn [sumR]; lra).
  split; [exact HN|]. split; [exact Hs|]. rewrite (discrete_zero _ HN Hs). reflexivity.
Qed.
Print Assumptions C57_zero_draw_refuted.

(** Non-vacuity: three weights, the middle one zero; a draw in the last share. *)
Example C57_case : nonneg [1; 0; 3] /\ 0 < sumR [1; 0; 3] /\ nth_error [1; 0; 3] 2 = Some 3 /\
  discrete [1; 0; 3] (1/2) = 2%nat.
Proof.
  assert (HN : nonneg [1; 0; 3]) by (repeat constructor; lra).
  assert (Hs : 0 < sumR [1; 0; 3]) by (cbn [sumR]; lra).
  split; [exact HN|]. split; [exact Hs|]. split; [reflexivity|].
  apply discrete_iff; [exact HN|exact Hs|lra|cbn [length]; lia|]. cbn [firstn sumR]. lra.
Qed.

(** ** C36: rejection sampling *)

(** Whatever is drawn, a returned value is in the interval, it is the point of the
    first turn whose height (second draw times the current maximum) does not exceed
    the density there, every earlier turn was rejected, and the maximum never shrinks
    and covers every density met. *)
Theorem C36_accepted f lo hi fmax safety maximum draws fuel x m :
  lo <= hi -> (forall k, good_pair (draws k)) ->
  rejection_sample f lo hi fmax safety maximum draws fuel = Ok (x, m) ->
  let start := match fmax with Some q => q | None => maximum * safety end in
  0 <= start -> 1 <= safety ->
  lo <= x <= hi /\ start <= m /\ f x <= m /\
  exists n (top : nat -> R), x = lo + fst (draws n) * (hi - lo) /\
    top O = start /\ (forall k, (k <= n)%nat -> top k <= top (S k)) /\ top (S n) = m /\
    (forall k, (k <= n)%nat -> f (lo + fst (draws k) * (hi - lo)) <= top (S k)) /\
    snd (draws n) * top n <= f x /\
    (forall k, (k < n)%nat -> f (lo + fst (draws k) * (hi - lo)) < snd (draws k) * top k).
Proof.
  intros Hl Hd H start H0 H1. unfold rejection_sample in H. fold start in H.
  apply rejection_spec in H. destruct H as (n & Hn & Hk & Hx & Hy & Hm). cbn [Nat.add] in *.
  assert (U : forall u, uniform lo hi u = lo + u * (hi - lo)) by (intros u; unfold uniform; ring).
  set (top := fun k => estimate f lo hi start safety draws 0 k) in *.
  assert (Hup : forall k, f (uniform lo hi (fst (draws k))) <= top (S k)).
  { intros k. unfold top. cbn [estimate Nat.add]. cbv zeta.
    pose proof (proj1 (estimate_mono f lo hi start safety draws 0 k H0 H1)).
    destruct (Rlt_dec _ _) as [L|L]; [nra|]. lra. }
  assert (Hmono : forall k, top k <= top (S k)) by (intros k; apply estimate_mono; assumption).
  assert (Hstart : forall k, start <= top k).
  { induction k as [|k IH]; [apply Rle_refl|]. specialize (Hmono k). lra. }
  assert (Hin : lo <= x <= hi) by (rewrite Hx; apply uniform_in; [exact Hl|exact (proj1 (Hd n))]).
  split; [exact Hin|]. split; [rewrite Hm; apply (Hstart (S n))|]. split; [rewrite Hm, Hx; apply Hup|].
  exists n, top. split; [rewrite Hx; apply U|]. split; [reflexivity|].
  split; [intros k _; apply Hmono|]. split; [symmetry; exact Hm|].
  split; [intros k _; rewrite <- U; apply Hup|]. split; [exact Hy|].
  intros k Hlt. rewrite <- U. apply Hk. exact Hlt.
Qed.
Print Assumptions C36_accepted.

(** If the maximum is a true one, a point tried is kept exactly when the second draw
    is at most [density / maximum] (so a point is kept with a probability
    proportional to its density), and the maximum is unchanged. *)
Theorem C36_acceptance f lo hi fmax safety maximum draws fuel :
  lo <= hi -> 0 < fmax -> (forall x, lo <= x <= hi -> f x <= fmax) -> (forall k, good_pair (draws k)) ->
  forall x m,
  rejection_sample f lo hi (Some fmax) safety maximum draws fuel = Ok (x, m) <->
  m = fmax /\ exists n, (n < fuel)%nat /\ x = lo + fst (draws n) * (hi - lo) /\
    snd (draws n) <= f x / fmax /\
    forall k, (k < n)%nat -> f (lo + fst (draws k) * (hi - lo)) / fmax < snd (draws k).
Proof.
  intros Hl Hm Hf Hd x m. unfold rejection_sample. rewrite rejection_spec.
  assert (E : forall k, estimate f lo hi fmax safety draws 0 k = fmax)
    by (intros k; apply estimate_const; assumption).
  assert (U : forall u, uniform lo hi u = lo + u * (hi - lo)) by (intros u; unfold uniform; ring).
  assert (D1 : forall a b, a * fmax <= b <-> a <= b / fmax).
  { intros a b. split; intros H.
    - apply Rmult_le_reg_r with fmax; [exact Hm|]. replace (b / fmax * fmax) with b by (field; lra). exact H.
    - apply (Rmult_le_compat_r fmax) in H; [|lra]. replace (b / fmax * fmax) with b in H by (field; lra). exact H. }
  split.
  - intros (n & Hn & Hk & Hx & Hy & Hmm). rewrite E in Hmm. split; [exact Hmm|]. exists n.
    split; [exact Hn|]. split; [rewrite Hx; apply U|]. rewrite E in Hy. split; [apply D1; exact Hy|].
    intros k Hlt. specialize (Hk k Hlt). rewrite E, U in Hk. cbn [Nat.add] in Hk.
    apply Rnot_le_lt. intros C. apply D1 in C. lra.
  - intros (Hmm & n & Hn & Hx & Hy & Hk). exists n. split; [exact Hn|].
    split; [|split; [rewrite U; exact Hx|split; [rewrite E; apply D1; exact Hy|rewrite E; exact Hmm]]].
    intros k Hlt. specialize (Hk k Hlt). rewrite E, U. cbn [Nat.add].
    apply Rnot_le_lt. intros C. apply D1 in C. lra.
Qed.
Print Assumptions C36_acceptance.

(** The loop ends at the latest in the first turn with a point of positive density
    and a small enough second draw. *)
Theorem C36_ends f lo hi fmax safety maximum draws n :
  lo <= hi -> 0 < fmax -> (forall x, lo <= x <= hi -> f x <= fmax) -> (forall k, good_pair (draws k)) ->
  snd (draws n) <= f (lo + fst (draws n) * (hi - lo)) / fmax ->
  exists x, rejection_sample f lo hi (Some fmax) safety maximum draws (S n) = Ok (x, fmax).
Proof.
  intros Hl Hm Hf Hd. induction n as [n IH] using (well_founded_induction lt_wf). intros H.
  destruct (Compare_dec.le_lt_dec n n) as [_|C]; [|lia].
  set (ok := fun k => snd (draws k) <= f (lo + fst (draws k) * (hi - lo)) / fmax).
  assert (Hdec : forall j, (exists k, (k < j)%nat /\ ok k /\ forall i, (i < k)%nat -> ~ ok i) \/
                           forall k, (k < j)%nat -> ~ ok k).
  { induction j as [|j IHj]; [right; intros k C; lia|]. destruct IHj as [(k & A & B & C)|A].
    - left. exists k. split; [lia|]. split; assumption.
    - destruct (Rle_dec (snd (draws j)) (f (lo + fst (draws j) * (hi - lo)) / fmax)) as [Y|N].
      + left. exists j. split; [lia|]. split; [exact Y|exact A].
      + right. intros k Hk. destruct (Nat.eq_dec k j) as [->|]; [exact N|apply A; lia]. }
  destruct (Hdec (S n)) as [(k & A & B & C)|A]; [|exfalso; exact (A n ltac:(lia) H)].
  exists (lo + fst (draws k) * (hi - lo)). apply C36_acceptance; [exact Hl|exact Hm|exact Hf|exact Hd|].
  split; [reflexivity|]. exists k. split; [lia|]. split; [reflexivity|]. split; [exact B|].
  intros i Hi. apply Rnot_le_lt. apply C. exact Hi.
Qed.
Print Assumptions C36_ends.

(** It is not guaranteed to end: a density that is zero everywhere with a positive
    maximum never accepts a positive height. *)
Theorem C36_endless_refuted : exists f lo hi fmax draws,
  lo <= hi /\ 0 < fmax /\ (forall x, 0 <= f x <= fmax) /\ (forall k, good_pair (draws k)) /\
  forall fuel, rejection_sample f lo hi (Some fmax) 1 1 draws fuel = Er NoFuel.
Proof.
  exists (fun _ => 0), 0, 1, 1, (fun _ => (1/2, 1/2)). split; [lra|]. split; [lra|]. split; [intros; lra|].
  split; [intros k; unfold good_pair; cbn [fst snd]; lra|].
  intros fuel. unfold rejection_sample. generalize 0%nat as st. induction fuel as [|fuel IH]; intros st; [reflexivity|].
  cbn [rejection fst snd]. cbv zeta. destruct (Rlt_dec 1 0) as [C|_]; [exfalso; lra|].
  destruct (Rlt_dec _ _) as [L|L]; [apply IH|]. exfalso. apply L. unfold uniform. lra.
Qed.
Print Assumptions C36_endless_refuted.

(** Non-vacuity: density [x] on [0,1] with maximum 1; the first turn is rejected, the
    second accepted. *)
Example C36_case : rejection_sample (fun x => x) 0 1 (Some 1) 1.01 0
    (fun k => match k with O => (1/4, 1/2) | _ => (3/4, 1/2) end) 2 = Ok (3/4, 1).
Proof.
  apply C36_acceptance; [lra|lra|intros; lra| |].
  - intros [|k]; unfold good_pair; cbn [fst snd]; lra.
  - split; [reflexivity|]. exists 1%nat. cbn [fst snd]. split; [lia|]. split; [lra|]. split; [lra|].
    intros k Hk. assert (k = 0%nat) by lia. subst k. cbn [fst snd]. lra.
Qed.

(** ** C37: inverse transform sampling *)

(** For every non-decreasing cumulative function that is zero at the lower end and
    positive at the upper end, every tolerance and draw, the sampled value lies in the
    interval and either is an exact quantile or is the middle of an interval, no wider
    than the tolerance, over which the normalised function passes the drawn value.
    Every exact quantile is within half the tolerance (or at a point where the
    function also takes the drawn value). *)
Theorem C37_quantile F lo hi tol prob fuel x : lo < hi -> 0 <= prob <= 1 ->
  F lo = 0 -> 0 < F hi -> (forall a b, lo <= a -> a <= b -> b <= hi -> F a <= F b) ->
  inverse_transform F lo hi tol prob fuel = Ok x ->
  lo <= x <= hi /\
  (F x / F hi = prob \/
   exists a b, lo <= a /\ a <= x <= b /\ b <= hi /\ b - a <= tol /\ x - a = b - x /\
     F a / F hi <= prob <= F b / F hi /\
     forall q, lo <= q <= hi -> F q / F hi = prob -> a <= q <= b).
Proof.
  intros Hl Hp F0 F1 HF H. unfold inverse_transform in H.
  destruct (Req_EM_T prob 0) as [->|P0].
  { injection H as <-. split; [lra|]. left. rewrite F0. unfold Rdiv. ring. }
  destruct (Req_EM_T prob 1) as [->|P1].
  { injection H as <-. split; [lra|]. left. field. lra. }
  apply bisect_spec in H; [|lra]. destruct H as [Hx [E|(a & b & A1 & B1 & X & AB & T & PA & PB)]].
  { split; [exact Hx|left; exact E]. }
  split; [exact Hx|]. right. exists a, b.
  pose proof (Rinv_0_lt_compat _ F1) as Hi.
  assert (PA' : F a / F hi <= prob).
  { destruct PA as [->|PA]; [|lra]. rewrite F0. unfold Rdiv. rewrite Rmult_0_l. lra. }
  assert (PB' : prob <= F b / F hi).
  { destruct PB as [->|PB]; [|lra]. replace (F hi / F hi) with 1 by (field; lra). lra. }
  split; [exact A1|]. split; [lra|]. split; [exact B1|]. split; [exact T|]. split; [lra|]. split; [split; assumption|].
  intros q Hq Eq. split.
  - destruct PA as [->|PA]; [lra|]. apply Rnot_lt_le. intros C.
    assert (F q <= F a) by (apply HF; lra). unfold Rdiv in *.
    pose proof (Rmult_le_compat_r (/ F hi) _ _ ltac:(lra) H). lra.
  - destruct PB as [->|PB]; [lra|]. apply Rnot_lt_le. intros C.
    assert (F b <= F q) by (apply HF; lra). unfold Rdiv in *.
    pose proof (Rmult_le_compat_r (/ F hi) _ _ ltac:(lra) H). lra.
Qed.
Print Assumptions C37_quantile.

(** The bisection ends for every function, positive tolerance and draw, after a
    number of steps that grows only with the logarithm of the interval width. *)
Theorem C37_ends F lo hi tol prob n : hi - lo <= tol * 2 ^ n ->
  exists x, inverse_transform F lo hi tol prob (S n) = Ok x.
Proof.
  intros H. unfold inverse_transform. destruct (Req_EM_T prob 0); [eexists; reflexivity|].
  destruct (Req_EM_T prob 1); [eexists; reflexivity|]. apply bisect_ends. exact H.
Qed.
Print Assumptions C37_ends.

Theorem C37_ends_always F lo hi tol prob : 0 < tol ->
  exists n x, inverse_transform F lo hi tol prob (S n) = Ok x.
Proof.
  intros Ht. destruct (archimed ((hi - lo) / tol)) as [A _].
  set (z := up ((hi - lo) / tol)) in *.
  exists (Z.to_nat (Z.max 0 z)). apply C37_ends.
  assert (P : forall n : nat, INR n <= 2 ^ n).
  { induction n as [|n IH]; [cbn [INR pow]; lra|]. rewrite S_INR. cbn [pow].
    assert (1 <= 2 ^ n) by (apply pow_R1_Rle; lra). lra. }
  specialize (P (Z.to_nat (Z.max 0 z))). rewrite INR_IZR_INZ, Z2Nat.id in P by lia.
  assert (IZR z <= IZR (Z.max 0 z)) by (apply IZR_le; lia).
  assert (E : hi - lo = tol * ((hi - lo) / tol)) by (field; lra). rewrite E.
  apply Rmult_le_compat_l; lra.
Qed.
Print Assumptions C37_ends_always.

(** Non-vacuity: the identity on [0,2]; one step finds the exact quantile. *)
Example C37_case : inverse_transform (fun x => x) 0 2 (1/8) (1/2) 6 = Ok 1 /\ (fun x : R => x) 0 = 0 /\
  2 - 0 <= 1/8 * 2 ^ 5.
Proof.
  split; [|split; [reflexivity|cbn [pow]; lra]]. unfold inverse_transform.
  destruct (Req_EM_T (1/2) 0); [exfalso; lra|]. destruct (Req_EM_T (1/2) 1); [exfalso; lra|].
  cbn [bisect]. cbv zeta. destruct (Rlt_dec _ _) as [_|C]; [|exfalso; apply C; lra].
  destruct (Req_EM_T _ _) as [_|C]; [|exfalso; apply C; lra]. f_equal. lra.
Qed.
