From Coq Require Import List ZArith Reals Lra Lia Psatz.
From Verif Require Import Base Sample.
Import ListNotations.
Local Open Scope R_scope.

Definition nonneg (ws : list R) : Prop := Forall (fun w => 0 <= w) ws.

Lemma sumR_nonneg ws : nonneg ws -> 0 <= sumR ws.
Proof. induction 1; cbn [sumR]; lra. Qed.

Lemma sumR_app a b : sumR (a ++ b) = sumR a + sumR b.
Proof. induction a as [|x a IH]; cbn [app sumR]; lra. Qed.

Lemma first_spec ws tot acc u i : nonneg ws -> ws <> [] -> 0 < tot ->
  acc < u * tot -> u * tot <= acc + sumR ws ->
  exists k, first_not_less ws tot acc u i = (i + k)%nat /\ (k < length ws)%nat /\
    acc + sumR (firstn k ws) < u * tot <= acc + sumR (firstn (S k) ws).
Proof.
  intros HN HE Ht. revert acc i. induction ws as [|w r IH]; intros acc i Hl Hu; [contradiction|].
  inversion HN as [|? ? Hw Hr]; subst. destruct r as [|w' r].
  - exists O. cbn [first_not_less length firstn sumR] in *. split; [lia|]. split; [lia|]. lra.
  - change (first_not_less (w :: w' :: r) tot acc u i) with
      (if Rle_dec u ((acc + w) / tot) then i else first_not_less (w' :: r) tot (acc + w) u (S i)).
    destruct (Rle_dec u ((acc + w) / tot)) as [L|L].
    + exists O. split; [lia|]. split; [cbn [length]; lia|]. cbn [firstn sumR].
      assert (u * tot <= acc + w).
      { apply (Rmult_le_compat_r tot) in L; [|lra]. replace ((acc + w) / tot * tot) with (acc + w) in L by (field; lra). exact L. }
      lra.
    + assert (acc + w < u * tot).
      { apply Rnot_le_lt in L. apply (Rmult_lt_compat_r tot) in L; [|lra].
        replace ((acc + w) / tot * tot) with (acc + w) in L by (field; lra). exact L. }
      destruct (IH Hr ltac:(discriminate) (acc + w) (S i) H) as (k & E & K & B).
      { cbn [sumR] in Hu |- *. lra. }
      exists (S k). split; [rewrite E; lia|]. split; [cbn [length] in *; lia|].
      change (firstn (S k) (w :: w' :: r)) with (w :: firstn k (w' :: r)).
      change (firstn (S (S k)) (w :: w' :: r)) with (w :: firstn (S k) (w' :: r)).
      cbn [sumR] in *. lra.
Qed.

Lemma discrete_spec ws u : nonneg ws -> 0 < sumR ws -> 0 < u <= 1 ->
  let i := discrete ws u in
  (i < length ws)%nat /\ sumR (firstn i ws) < u * sumR ws <= sumR (firstn (S i) ws).
Proof.
  intros HN Hs Hu. unfold discrete.
  assert (HE : ws <> []) by (intros ->; cbn [sumR] in Hs; lra).
  destruct (first_spec ws (sumR ws) 0 u 0 HN HE Hs) as (k & E & K & B).
  - apply Rmult_lt_0_compat; lra.
  - nra.
  - cbv zeta. rewrite E. cbn [Nat.add]. split; [exact K|lra].
Qed.

Lemma nonneg_firstn ws j : nonneg ws -> nonneg (firstn j ws).
Proof. intros H. revert j. induction H as [|w r Hw Hr IH]; intros [|j]; cbn [firstn]; constructor; auto. apply IH. Qed.

Lemma sum_firstn_mono ws i j : nonneg ws -> (i <= j)%nat -> sumR (firstn i ws) <= sumR (firstn j ws).
Proof.
  intros HN. revert i j. induction HN as [|w r Hw Hr IH]; intros i j H.
  - rewrite !firstn_nil. lra.
  - destruct i, j; cbn [firstn sumR]; try lia; try lra.
    + pose proof (sumR_nonneg _ (nonneg_firstn r j Hr)). lra.
    + specialize (IH i j ltac:(lia)). lra.
Qed.

Lemma sum_firstn_S ws i w : nth_error ws i = Some w -> sumR (firstn (S i) ws) = sumR (firstn i ws) + w.
Proof.
  revert i. induction ws as [|x r IH]; intros i H; [destruct i; discriminate|].
  destruct i as [|i].
  - injection H as ->. cbn [firstn sumR]. lra.
  - cbn [nth_error] in H. specialize (IH i H).
    change (firstn (S (S i)) (x :: r)) with (x :: firstn (S i) r). change (firstn (S i) (x :: r)) with (x :: firstn i r).
    cbn [sumR]. lra.
Qed.

(** Exactly the draws between the two partial sums select an index. *)
Lemma discrete_iff ws u i : nonneg ws -> 0 < sumR ws -> 0 < u <= 1 -> (i < length ws)%nat ->
  (discrete ws u = i <-> sumR (firstn i ws) < u * sumR ws <= sumR (firstn (S i) ws)).
Proof.
  intros HN Hs Hu Hi. destruct (discrete_spec ws u HN Hs Hu) as [Hk B]. split.
  - intros <-. exact B.
  - intros C. destruct (lt_eq_lt_dec (discrete ws u) i) as [[L|E]|L]; [|exact E|]; exfalso.
    + pose proof (sum_firstn_mono ws (S (discrete ws u)) i HN ltac:(lia)). lra.
    + pose proof (sum_firstn_mono ws (S i) (discrete ws u) HN ltac:(lia)). lra.
Qed.

Lemma discrete_positive ws u w : nonneg ws -> 0 < sumR ws -> 0 < u <= 1 ->
  nth_error ws (discrete ws u) = Some w -> 0 < w.
Proof.
  intros HN Hs Hu H. destruct (discrete_spec ws u HN Hs Hu) as [_ B].
  rewrite (sum_firstn_S _ _ _ H) in B. lra.
Qed.

(** With the draw 0 the first entry is taken. *)
Lemma discrete_zero ws : nonneg ws -> 0 < sumR ws -> discrete ws 0 = O.
Proof.
  intros HN Hs. unfold discrete. destruct ws as [|w [|w' r]]; try reflexivity.
  cbn [first_not_less]. inversion HN; subst. destruct (Rle_dec _ _) as [L|L]; [reflexivity|].
  exfalso. apply L. apply Rmult_le_pos; [lra|]. left. apply Rinv_0_lt_compat. exact Hs.
Qed.

Lemma discrete_lt ws u : ws <> [] -> (discrete ws u < length ws)%nat.
Proof.
  intros HE. unfold discrete. generalize (sumR ws) as t. intros t.
  assert (H : forall l acc i, l <> [] -> (first_not_less l t acc u i < i + length l)%nat).
  { induction l as [|w r IH]; intros acc i HL; [contradiction|]. destruct r as [|w' r]; [cbn [first_not_less length]; lia|].
    change (first_not_less (w :: w' :: r) t acc u i) with
      (if Rle_dec u ((acc + w) / t) then i else first_not_less (w' :: r) t (acc + w) u (S i)).
    destruct (Rle_dec _ _); [cbn [length]; lia|].
    specialize (IH (acc + w) (S i) ltac:(discriminate)). cbn [length] in *. lia. }
  specialize (H ws 0 O HE). exact H.
Qed.

(** ** Rejection *)

Definition good_pair (d : R * R) : Prop := 0 <= fst d <= 1 /\ 0 <= snd d <= 1.

Lemma uniform_in lo hi u : lo <= hi -> 0 <= u <= 1 -> lo <= uniform lo hi u <= hi.
Proof. intros H1 H2. unfold uniform. nra. Qed.

(** The running estimate of the maximum before turn [n] (relative to the start). *)
Fixpoint estimate (f : R -> R) (lo hi fmax safety : R) (draws : nat -> R * R) (start n : nat) : R :=
  match n with
  | O => fmax
  | S k => let m := estimate f lo hi fmax safety draws start k in
           let v := f (uniform lo hi (fst (draws (start + k)%nat))) in
           if Rlt_dec m v then v * safety else m
  end.

Lemma estimate_shift f lo hi fmax safety draws start n :
  let v := f (uniform lo hi (fst (draws start))) in
  estimate f lo hi (if Rlt_dec fmax v then v * safety else fmax) safety draws (S start) n =
  estimate f lo hi fmax safety draws start (S n).
Proof.
  induction n as [|n IH].
  - cbn [estimate]. rewrite Nat.add_0_r. reflexivity.
  - cbv zeta in *. cbn [estimate] in *. rewrite IH.
    replace (S start + n)%nat with (start + S n)%nat by lia. reflexivity.
Qed.

Lemma rejection_spec f lo hi fmax safety draws start fuel x m :
  rejection f lo hi fmax safety draws start fuel = Ok (x, m) <->
  exists n, (n < fuel)%nat /\
    (forall k, (k < n)%nat -> f (uniform lo hi (fst (draws (start + k)%nat))) <
       snd (draws (start + k)%nat) * estimate f lo hi fmax safety draws start k) /\
    x = uniform lo hi (fst (draws (start + n)%nat)) /\
    snd (draws (start + n)%nat) * estimate f lo hi fmax safety draws start n <= f x /\
    m = estimate f lo hi fmax safety draws start (S n).
Proof.
  revert fmax start. induction fuel as [|fuel IH]; intros fmax start.
  - cbn [rejection]. split; [discriminate|]. intros (n & H & _). lia.
  - cbn [rejection]. cbv zeta.
    assert (Ey : forall u, uniform 0 fmax u = u * fmax) by (intros u; unfold uniform; ring).
    rewrite Ey.
    destruct (Rlt_dec (f (uniform lo hi (fst (draws start)))) (snd (draws start) * fmax)) as [L|L].
    + rewrite IH. split.
      * intros (n & Hn & Hk & Hx & Hy & Hm). exists (S n). split; [lia|]. split; [|split; [|split]].
        -- intros k Hlt. destruct k as [|k]; [rewrite Nat.add_0_r; cbn [estimate]; exact L|].
           specialize (Hk k ltac:(lia)). rewrite estimate_shift in Hk.
           replace (start + S k)%nat with (S start + k)%nat by lia. exact Hk.
        -- replace (start + S n)%nat with (S start + n)%nat by lia. exact Hx.
        -- rewrite estimate_shift in Hy. replace (start + S n)%nat with (S start + n)%nat by lia. exact Hy.
        -- rewrite estimate_shift in Hm. exact Hm.
      * intros (n & Hn & Hk & Hx & Hy & Hm). destruct n as [|n].
        { exfalso. rewrite Nat.add_0_r in *. cbn [estimate] in Hy. rewrite Hx in Hy. lra. }
        exists n. split; [lia|]. split; [|split; [|split]].
        -- intros k Hlt. specialize (Hk (S k) ltac:(lia)). rewrite estimate_shift.
           replace (S start + k)%nat with (start + S k)%nat by lia. exact Hk.
        -- replace (S start + n)%nat with (start + S n)%nat by lia. exact Hx.
        -- rewrite estimate_shift. replace (S start + n)%nat with (start + S n)%nat by lia. exact Hy.
        -- rewrite estimate_shift. exact Hm.
    + split.
      * intros H. injection H as <- <-. exists O. split; [lia|]. split; [intros k Hk; lia|].
        rewrite Nat.add_0_r. split; [reflexivity|]. split; [cbn [estimate]; lra|].
        cbn [estimate]. rewrite Nat.add_0_r. reflexivity.
      * intros (n & Hn & Hk & Hx & Hy & Hm). destruct n as [|n].
        -- rewrite Nat.add_0_r in *. cbn [estimate] in Hm. rewrite Nat.add_0_r in Hm. rewrite Hx, Hm. reflexivity.
        -- exfalso. specialize (Hk O ltac:(lia)). rewrite Nat.add_0_r in Hk. cbn [estimate] in Hk. lra.
Qed.

Lemma rejection_er f lo hi fmax safety draws start fuel e :
  rejection f lo hi fmax safety draws start fuel = Er e -> e = NoFuel.
Proof.
  revert fmax start. induction fuel as [|fuel IH]; intros fmax start H; cbn [rejection] in H; [congruence|].
  cbv zeta in H. match type of H with (if ?c then _ else _) = _ => destruct c end; [exact (IH _ _ H)|discriminate].
Qed.

Lemma estimate_mono f lo hi fmax safety draws start n : 0 <= fmax -> 1 <= safety ->
  0 <= estimate f lo hi fmax safety draws start n /\
  estimate f lo hi fmax safety draws start n <= estimate f lo hi fmax safety draws start (S n).
Proof.
  intros H0 H1. assert (H : 0 <= estimate f lo hi fmax safety draws start n).
  { induction n as [|n IH]; cbn [estimate]; [exact H0|]. cbv zeta. destruct (Rlt_dec _ _); nra. }
  split; [exact H|]. cbn [estimate]. cbv zeta. destruct (Rlt_dec _ _); nra.
Qed.

Lemma estimate_const f lo hi fmax safety draws start n : lo <= hi -> (forall k, good_pair (draws k)) ->
  (forall x, lo <= x <= hi -> f x <= fmax) -> estimate f lo hi fmax safety draws start n = fmax.
Proof.
  intros Hl Hd Hf. induction n as [|n IH]; cbn [estimate]; [reflexivity|]. cbv zeta. rewrite IH.
  destruct (Rlt_dec _ _) as [L|L]; [|reflexivity]. exfalso.
  pose proof (Hf (uniform lo hi (fst (draws (start + n)%nat)))) as H.
  specialize (H (uniform_in lo hi _ Hl (proj1 (Hd _)))). lra.
Qed.

(** ** Bisection *)

Lemma bisect_spec F norm prob tol a b fuel x : a <= b ->
  bisect F norm prob tol a b fuel = Ok x ->
  a <= x <= b /\
  (F x / norm = prob \/
   exists a' b', a <= a' /\ b' <= b /\ x = (a' + b') / 2 /\ a' <= b' /\ b' - a' <= tol /\
     (a' = a \/ F a' / norm < prob) /\ (b' = b \/ prob < F b' / norm)).
Proof.
  revert a b. induction fuel as [|fuel IH]; intros a b Hab H; [discriminate|].
  cbn [bisect] in H. cbv zeta in H. destruct (Rlt_dec tol (b - a)) as [L|L].
  - destruct (Req_EM_T _ prob) as [E|E].
    + injection H as <-. split; [lra|left; exact E].
    + destruct (Rlt_dec prob _) as [P|P].
      * apply IH in H; [|lra]. destruct H as [H1 H2]. split; [lra|].
        destruct H2 as [H2|(a' & b' & Q1 & Q2 & Q3 & Q4 & Q5 & Q6 & Q7)]; [left; exact H2|right].
        exists a', b'. repeat split; try lra; try assumption. right. destruct Q7 as [->|Q7]; assumption.
      * apply IH in H; [|lra]. destruct H as [H1 H2]. split; [lra|].
        destruct H2 as [H2|(a' & b' & Q1 & Q2 & Q3 & Q4 & Q5 & Q6 & Q7)]; [left; exact H2|right].
        exists a', b'. repeat split; try lra; try assumption. right.
        destruct Q6 as [->|Q6]; [|assumption]. assert (F ((a + b) / 2) / norm <> prob) by exact E. lra.
  - injection H as <-. split; [lra|]. right. exists a, b. repeat split; try lra; left; reflexivity.
Qed.

Lemma bisect_ends F norm prob tol a b n : b - a <= tol * 2 ^ n ->
  exists x, bisect F norm prob tol a b (S n) = Ok x.
Proof.
  revert a b. induction n as [|n IH]; intros a b H.
  - cbn [bisect]. cbv zeta. destruct (Rlt_dec tol (b - a)) as [L|L]; [cbn [pow] in H; lra|].
    eexists. reflexivity.
  - remember (S n) as m. cbn [bisect]. cbv zeta. destruct (Rlt_dec tol (b - a)) as [L|L]; [|eexists; reflexivity].
    subst m. destruct (Req_EM_T _ prob); [eexists; reflexivity|]. cbn [pow] in H.
    destruct (Rlt_dec prob _); apply IH; lra.
Qed.
