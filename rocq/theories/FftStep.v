(** The radix steps of the fast transform are correct. *)
From Coq Require Import List Reals Bool Arith Lra Lia.
From Verif Require Import Base QuadThms Fft FftMath.
Import ListNotations.
Open Scope R_scope.

(** ** Loops and assignments *)
Lemma In_upto lo hi st x : (1 <= st)%nat -> In x (upto lo hi st) <-> exists t, x = (lo + st * t)%nat /\ (x <= hi)%nat.
Proof.
  intros Hst. unfold upto. rewrite in_map_iff. split.
  - intros (t & <- & Ht). apply in_seq in Ht. exists t. split; [reflexivity|]. destruct Ht as [_ Ht]. cbn in Ht.
    assert (st * S t <= hi + st - lo)%nat; [|nia]. transitivity (st * ((hi + st - lo) / st))%nat; [apply Nat.mul_le_mono_l; lia|apply Nat.mul_div_le; lia].
  - intros (t & -> & Ht). exists t. split; [reflexivity|]. apply in_seq. split; [lia|]. cbn. apply Nat.div_le_lower_bound; [lia|]. rewrite Nat.mul_succ_r. lia.
Qed.
Lemma In_upto1 lo hi x : In x (upto lo hi 1) <-> (lo <= x <= hi)%nat.
Proof. rewrite In_upto by lia. split; [intros (t & -> & H); lia|]. intros [H1 H2]. exists (x - lo)%nat. lia. Qed.
Lemma In_odds ido i : In i (upto 3 ido 2) <-> exists p, (1 <= p)%nat /\ i = (2 * p + 1)%nat /\ (2 * p < ido)%nat.
Proof.
  rewrite In_upto by lia. split.
  - intros (t & -> & H). exists (S t). lia.
  - intros (p & H1 & -> & H2). exists (p - 1)%nat. lia.
Qed.

Lemma put_same {A} (a : nat -> A) i v : put a i v i = v.
Proof. unfold put. rewrite Nat.eqb_refl. reflexivity. Qed.
Lemma put_other {A} (a : nat -> A) i v x : x <> i -> put a i v x = a x.
Proof. intros H. unfold put. destruct (Nat.eqb_spec x i); [contradiction|reflexivity]. Qed.

Lemma run_app {A} (l m : list (asg A)) a : run (l ++ m) a = run m (run l a).
Proof. apply fold_left_app. Qed.
Lemma run_cons {A} (s : asg A) l a : run (s :: l) a = run l (put a (fst s) (snd s a)).
Proof. reflexivity. Qed.
Lemma run_frame {A} (l : list (asg A)) : forall a x, ~ In x (map fst l) -> run l a x = a x.
Proof.
  induction l as [|s l IH]; intros a x H; [reflexivity|]. rewrite run_cons, IH.
  - apply put_other. intros ->. apply H. left. reflexivity.
  - intros HI. apply H. right. exact HI.
Qed.
(** If every assignment stores what the target has there, the elements assigned to end up
    as in the target. *)
Lemma run_target {A} (T : nat -> A) (l : list (asg A)) : (forall s, In s l -> forall a, snd s a = T (fst s)) ->
  forall a x, In x (map fst l) \/ a x = T x -> run l a x = T x.
Proof.
  induction l as [|s l IH]; intros HT a x H.
  - destruct H as [[]|H]. exact H.
  - rewrite run_cons. apply IH; [intros s' Hs'; apply HT; right; exact Hs'|].
    destruct (Nat.eq_dec x (fst s)) as [->|NE].
    + right. rewrite put_same. apply HT. left. reflexivity.
    + rewrite put_other by exact NE. destruct H as [[H|H]|H]; [congruence|left; exact H|right; exact H].
Qed.

Lemma flat_map_sound {B} (Q : asg B -> Prop) (f : nat -> list (asg B)) l : (forall k, In k l -> forall s, In s (f k) -> Q s) -> forall s, In s (flat_map f l) -> Q s.
Proof. intros H s HI. apply in_flat_map in HI. destruct HI as (k & Hk & HI). eauto. Qed.
Lemma flat_map_cover {B} x (f : nat -> list (asg B)) l k : In k l -> In x (map fst (f k)) -> In x (map fst (flat_map f l)).
Proof. intros Hk HI. apply in_map_iff in HI. destruct HI as (s & <- & HI). apply in_map. apply in_flat_map. eauto. Qed.
Lemma flat_map_touch {B} (Q : nat -> Prop) (f : nat -> list (asg B)) l : (forall k, In k l -> forall x, In x (map fst (f k)) -> Q x) -> forall x, In x (map fst (flat_map f l)) -> Q x.
Proof. intros H x HI. apply in_map_iff in HI. destruct HI as (s & <- & HI). apply in_flat_map in HI. destruct HI as (k & Hk & HI). apply (H k Hk). apply in_map. exact HI. Qed.

(** ** Positions *)
Lemma at3_bounds d1 d2 d3 i j k : (1 <= i <= d1)%nat -> (1 <= j <= d2)%nat -> (1 <= k <= d3)%nat -> (1 <= at3 d1 d2 i j k <= d1 * d2 * d3)%nat.
Proof.
  intros Hi Hj Hk. unfold at3. split; [set (m := (d1 * _)%nat); lia|].
  transitivity (d1 * S ((j - 1) + d2 * (k - 1)))%nat; [rewrite Nat.mul_succ_r; lia|]. rewrite <- Nat.mul_assoc. apply Nat.mul_le_mono_l.
  transitivity (d2 * S (k - 1))%nat; [rewrite Nat.mul_succ_r; lia|]. apply Nat.mul_le_mono_l. lia.
Qed.
Lemma at3_onto d1 d2 d3 x : (1 <= x <= d1 * d2 * d3)%nat -> exists i j k, (1 <= i <= d1)%nat /\ (1 <= j <= d2)%nat /\ (1 <= k <= d3)%nat /\ x = at3 d1 d2 i j k.
Proof.
  intros Hx. assert (D1 : d1 <> 0%nat) by (intros ->; cbn in Hx; lia). assert (D2 : d2 <> 0%nat) by (intros ->; rewrite Nat.mul_0_r in Hx; cbn in Hx; lia).
  set (u := ((x - 1) / d1)%nat). exists (S ((x - 1) mod d1)), (S (u mod d2)), (S (u / d2)).
  pose proof (Nat.mod_upper_bound (x - 1) d1 D1). pose proof (Nat.mod_upper_bound u d2 D2).
  assert (u < d2 * d3)%nat by (apply Nat.div_lt_upper_bound; [exact D1|]; rewrite Nat.mul_assoc; lia).
  assert (u / d2 < d3)%nat by (apply Nat.div_lt_upper_bound; assumption).
  repeat split; try lia. unfold at3. rewrite !Nat.sub_succ, !Nat.sub_0_r.
  rewrite (Nat.add_comm (u mod d2)), <- (Nat.div_mod u d2 D2). pose proof (Nat.div_mod (x - 1) d1 D1). fold u in H2. lia.
Qed.
Lemma at3_inj d1 d2 i j k i' j' k' : (1 <= i <= d1)%nat -> (1 <= j <= d2)%nat -> (1 <= k)%nat -> (1 <= i' <= d1)%nat -> (1 <= j' <= d2)%nat -> (1 <= k')%nat ->
  at3 d1 d2 i j k = at3 d1 d2 i' j' k' -> i = i' /\ j = j' /\ k = k'.
Proof.
  unfold at3. intros Hi Hj Hk Hi' Hj' Hk' E.
  assert (E1 : (d1 * ((j - 1) + d2 * (k - 1)) + (i - 1) = d1 * ((j' - 1) + d2 * (k' - 1)) + (i' - 1))%nat) by lia.
  apply Nat.div_mod_unique in E1; [|lia|lia]. destruct E1 as [E1 E2].
  assert (E3 : (d2 * (k - 1) + (j - 1) = d2 * (k' - 1) + (j' - 1))%nat) by lia.
  apply Nat.div_mod_unique in E3; [|lia|lia]. lia.
Qed.

(** ** What a step has to leave *)
Section Target.
  Variables (ip ido l1 : nat) (Z : nat -> nat -> R) (cc : arr).
  Hypothesis Hip : (1 <= ip)%nat.
  Hypothesis Hido : (1 <= ido)%nat.

  (** Block [k] of the result is the packed transform of [Z k]; the input holds the packed
      transforms of its parts. *)
  Definition target (x : nat) : R := packed (ip * ido) (Z ((x - 1) / (ip * ido))) ((x - 1) mod (ip * ido)).
  Definition input_ok : Prop := forall i k j, (1 <= i <= ido)%nat -> (1 <= k <= l1)%nat -> (j < ip)%nat ->
    cc (at3 ido l1 i k (S j)) = packed ido (part ip (Z (k - 1)) j) (i - 1).
  Hypothesis Hin : input_ok.

  Definition table_ok (w : nat -> arr) : Prop := forall j p, (1 <= j < ip)%nat -> (1 <= p)%nat -> (2 * p < ido)%nat ->
    w j (2 * p - 1)%nat = cos (angle ip ido p j) /\ w j (2 * p)%nat = sin (angle ip ido p j).

  Lemma target_at i j k : (1 <= i <= ido)%nat -> (1 <= j <= ip)%nat -> (1 <= k)%nat ->
    target (at3 ido ip i j k) = packed (ip * ido) (Z (k - 1)) ((i - 1) + ido * (j - 1)).
  Proof.
    intros Hi Hj Hk. unfold target, at3.
    assert (B : ((i - 1) + ido * (j - 1) < ip * ido)%nat).
    { apply Nat.lt_le_trans with (ido * S (j - 1))%nat; [rewrite Nat.mul_succ_r; lia|]. rewrite (Nat.mul_comm ip). apply Nat.mul_le_mono_l. lia. }
    replace (i + ido * (j - 1 + ip * (k - 1)) - 1)%nat with (((i - 1) + ido * (j - 1)) + (k - 1) * (ip * ido))%nat.
    2:{ assert (E : (ido * (j - 1 + ip * (k - 1)) = ido * (j - 1) + (k - 1) * (ip * ido))%nat) by ring. rewrite E. set (u := (ido * _)%nat). set (v := ((k - 1) * _)%nat). lia. }
    rewrite Nat.div_add, Nat.mod_add by nia. rewrite Nat.div_small, Nat.mod_small by exact B. reflexivity.
  Qed.

  Lemma in_0 k j : (1 <= k <= l1)%nat -> (j < ip)%nat -> cc (at3 ido l1 1 k (S j)) = Cj ip ido (Z (k - 1)) 0 j.
  Proof. intros Hk Hj. rewrite Hin by (assumption || lia). reflexivity. Qed.
  Lemma in_re p k j : (1 <= p)%nat -> (2 * p <= ido)%nat -> (1 <= k <= l1)%nat -> (j < ip)%nat -> cc (at3 ido l1 (2 * p) k (S j)) = Cj ip ido (Z (k - 1)) p j.
  Proof. intros Hp H2 Hk Hj. rewrite Hin by (assumption || lia). apply packed_re; lia. Qed.
  Lemma in_im p k j : (1 <= p)%nat -> (2 * p < ido)%nat -> (1 <= k <= l1)%nat -> (j < ip)%nat -> cc (at3 ido l1 (2 * p + 1) k (S j)) = Sj ip ido (Z (k - 1)) p j.
  Proof. intros Hp H2 Hk Hj. rewrite Hin by (assumption || lia). apply packed_im; lia. Qed.

  (** The results, by position. *)
  Lemma out_0 k : (1 <= k)%nat -> target (at3 ido ip 1 1 k) = sumn (fun j => Cj ip ido (Z (k - 1)) 0 j) ip.
  Proof.
    intros Hk. rewrite target_at by lia. replace (1 - 1 + ido * (1 - 1))%nat with 0%nat by lia. rewrite packed_0.
    rewrite <- (Nat.mul_0_l ido) at 2. rewrite whole_re by assumption. apply sumn_ext. intros j _. unfold turn. cbn [INR]. replace (2 * PI * 0 * INR j / INR ip) with 0 by (unfold Rdiv; ring). rewrite cos_0. ring.
  Qed.
  Lemma out_whole_re s k : (1 <= s)%nat -> (2 * s <= ip)%nat -> (1 <= k)%nat -> target (at3 ido ip ido (2 * s) k) = sumn (fun j => cos (turn ip s j) * Cj ip ido (Z (k - 1)) 0 j) ip.
  Proof.
    intros Hs H2 Hk. rewrite target_at by lia. rewrite (packed_re _ _ _ (s * ido)).
    - apply whole_re; assumption.
    - nia.
    - destruct s; [lia|]. replace (2 * S s - 1)%nat with (2 * s + 1)%nat by lia. nia.
  Qed.
  Lemma out_whole_im s k : (1 <= s)%nat -> (2 * s + 1 <= ip)%nat -> (1 <= k)%nat -> target (at3 ido ip 1 (2 * s + 1) k) = sumn (fun j => - sin (turn ip s j) * Cj ip ido (Z (k - 1)) 0 j) ip.
  Proof.
    intros Hs H2 Hk. rewrite target_at by lia. rewrite (packed_im _ _ _ (s * ido)).
    - apply whole_im; assumption.
    - nia.
    - replace (2 * s + 1 - 1)%nat with (2 * s)%nat by lia. lia.
  Qed.
  Lemma out_direct_re p s k : (1 <= p)%nat -> (2 * p < ido)%nat -> (2 * s + 1 <= ip)%nat -> (1 <= k)%nat ->
    target (at3 ido ip (2 * p) (2 * s + 1) k) = sumn (fun j => cos (turn ip s j) * Aj ip ido (Z (k - 1)) p j + sin (turn ip s j) * Bj ip ido (Z (k - 1)) p j) ip.
  Proof.
    intros Hp H2 Hs Hk. rewrite target_at by lia. rewrite (packed_re _ _ _ (p + s * ido)).
    - apply direct_re; assumption.
    - lia.
    - replace (2 * s + 1 - 1)%nat with (2 * s)%nat by lia. lia.
  Qed.
  Lemma out_direct_im p s k : (1 <= p)%nat -> (2 * p < ido)%nat -> (2 * s + 1 <= ip)%nat -> (1 <= k)%nat ->
    target (at3 ido ip (2 * p + 1) (2 * s + 1) k) = sumn (fun j => cos (turn ip s j) * Bj ip ido (Z (k - 1)) p j - sin (turn ip s j) * Aj ip ido (Z (k - 1)) p j) ip.
  Proof.
    intros Hp H2 Hs Hk. rewrite target_at by lia. rewrite (packed_im _ _ _ (p + s * ido)).
    - apply direct_im; assumption.
    - lia.
    - replace (2 * s + 1 - 1)%nat with (2 * s)%nat by lia. lia.
  Qed.
  Lemma below p s : (1 <= s)%nat -> (2 * p < ido)%nat -> (p < s * ido)%nat.
  Proof. intros Hs Hp. destruct s; [lia|]. cbn. lia. Qed.
  Lemma out_mirror_re p s k : (1 <= p)%nat -> (2 * p < ido)%nat -> (1 <= s)%nat -> (2 * s <= ip)%nat -> (1 <= k)%nat ->
    target (at3 ido ip (ido - 2 * p) (2 * s) k) = sumn (fun j => cos (turn ip s j) * Aj ip ido (Z (k - 1)) p j - sin (turn ip s j) * Bj ip ido (Z (k - 1)) p j) ip.
  Proof.
    intros Hp H2 H1 Hs Hk. pose proof (below p s H1 H2) as HB. rewrite target_at by lia. rewrite (packed_re _ _ _ (s * ido - p)).
    - apply mirror_re; try assumption. lia.
    - lia.
    - destruct s; [lia|]. replace (2 * S s - 1)%nat with (2 * s + 1)%nat by lia. cbn in *. lia.
  Qed.
  Lemma out_mirror_im p s k : (1 <= p)%nat -> (2 * p < ido)%nat -> (1 <= s)%nat -> (2 * s <= ip)%nat -> (1 <= k)%nat ->
    target (at3 ido ip (ido + 1 - 2 * p) (2 * s) k) = sumn (fun j => - cos (turn ip s j) * Bj ip ido (Z (k - 1)) p j - sin (turn ip s j) * Aj ip ido (Z (k - 1)) p j) ip.
  Proof.
    intros Hp H2 H1 Hs Hk. pose proof (below p s H1 H2) as HB. rewrite target_at by lia. rewrite (packed_im _ _ _ (s * ido - p)).
    - apply mirror_im; try assumption. lia.
    - lia.
    - destruct s; [lia|]. replace (2 * S s - 1)%nat with (2 * s + 1)%nat by lia. cbn in *. lia.
  Qed.
  Lemma out_half_re h s k : (1 <= h)%nat -> (ido = 2 * h)%nat -> (2 * s + 1 <= ip)%nat -> (1 <= k)%nat ->
    target (at3 ido ip ido (2 * s + 1) k) = sumn (fun j => cos (half_turn ip s j) * Cj ip ido (Z (k - 1)) h j) ip.
  Proof.
    intros Hh E Hs Hk. rewrite target_at by lia. rewrite (packed_re _ _ _ (h + s * ido)).
    - apply half_re; assumption.
    - lia.
    - replace (2 * s + 1 - 1)%nat with (2 * s)%nat by lia. lia.
  Qed.
  Lemma out_half_im h s k : (1 <= h)%nat -> (ido = 2 * h)%nat -> (2 * s + 2 <= ip)%nat -> (1 <= k)%nat ->
    target (at3 ido ip 1 (2 * s + 2) k) = sumn (fun j => - sin (half_turn ip s j) * Cj ip ido (Z (k - 1)) h j) ip.
  Proof.
    intros Hh E Hs Hk. rewrite target_at by lia. rewrite (packed_im _ _ _ (h + s * ido)).
    - apply half_im; assumption.
    - lia.
    - replace (2 * s + 2 - 1)%nat with (2 * s + 1)%nat by lia. rewrite E. lia.
  Qed.
End Target.
