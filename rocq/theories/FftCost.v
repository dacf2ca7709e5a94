(** The cosine transform of FFTPACK computes its sum. *)
From Coq Require Import List Reals Bool Arith Lra Lia.
From Verif Require Import Base QuadThms Fft FftMath FftStep FftRadix FftGeneral FftTable FftWhole.
Import ListNotations.
Open Scope R_scope.

(** The cosine sum of y(0), ..., y(N). *)
Definition dct (N : nat) (y : nat -> R) (i : nat) : R :=
  y 0%nat + (-1) ^ i * y N + 2 * sumn (fun k => y (S k) * cos (PI * INR (S k) * INR i / INR N)) (N - 1).

(** ** What the real transform is given *)
Definition before (N : nat) (y : nat -> R) (t : nat) : R := (y t + y (N - t)%nat) - 2 * sin (PI * INR t / INR N) * (y t - y (N - t)%nat).

Section Sums.
  Variables (N : nat) (y : nat -> R).
  Hypothesis HN : (1 <= N)%nat.
  Let IN : INR N <> 0. Proof. apply not_0_INR. lia. Qed.

  Lemma inner_rev f : sumn (fun k => f (S k)) (N - 1) = sumn (fun k => f (N - S k)%nat) (N - 1).
  Proof. rewrite sumn_rev. apply sumn_ext. intros t Ht. f_equal. lia. Qed.
  Lemma inner_odd f : (forall t, (1 <= t < N)%nat -> f (N - t)%nat = - f t) -> sumn (fun k => f (S k)) (N - 1) = 0.
  Proof.
    intros H. assert (E : sumn (fun k => f (S k)) (N - 1) = -1 * sumn (fun k => f (S k)) (N - 1)); [|lra].
    rewrite inner_rev at 1. rewrite <- sumn_scal. apply sumn_ext. intros t Ht. rewrite H by lia. ring.
  Qed.
  Lemma first_inner f : sumn f N = f 0%nat + sumn (fun k => f (S k)) (N - 1).
  Proof. destruct N as [|M]; [lia|]. rewrite sumn_first. replace (S M - 1)%nat with M by lia. reflexivity. Qed.

  Lemma even_angle q t : 2 * PI * INR q * INR t / INR N = PI * INR t * INR (2 * q) / INR N.
  Proof. rewrite mult_INR. cbn [INR]. unfold Rdiv. ring. Qed.
  Lemma back_even q t : (t <= N)%nat -> PI * INR (N - t) * INR (2 * q) / INR N = - (PI * INR t * INR (2 * q) / INR N) + 2 * PI * INR q.
  Proof. intros Ht. rewrite minus_INR by exact Ht. rewrite mult_INR. cbn [INR]. field. exact IN. Qed.
  Lemma back_odd q t : (t <= N)%nat -> PI * INR (N - t) * INR (2 * q + 1) / INR N = PI - (PI * INR t * INR (2 * q + 1) / INR N) + 2 * PI * INR q.
  Proof. intros Ht. rewrite minus_INR by exact Ht. rewrite plus_INR, mult_INR. cbn [INR]. field. exact IN. Qed.
  Lemma back_one t : (t <= N)%nat -> PI * INR (N - t) / INR N = PI - PI * INR t / INR N.
  Proof. intros Ht. rewrite minus_INR by exact Ht. field. exact IN. Qed.
  Lemma sin_back_one t : (t <= N)%nat -> sin (PI * INR (N - t) / INR N) = sin (PI * INR t / INR N).
  Proof. intros Ht. rewrite back_one by exact Ht. apply sin_PI_x. Qed.
  Lemma cos_back_even q t : (t <= N)%nat -> cos (PI * INR (N - t) * INR (2 * q) / INR N) = cos (PI * INR t * INR (2 * q) / INR N).
  Proof. intros Ht. rewrite back_even, cos_turn, cos_neg by exact Ht. reflexivity. Qed.
  Lemma sin_back_even q t : (t <= N)%nat -> sin (PI * INR (N - t) * INR (2 * q) / INR N) = - sin (PI * INR t * INR (2 * q) / INR N).
  Proof. intros Ht. rewrite back_even, sin_turn, sin_neg by exact Ht. reflexivity. Qed.
  Lemma cos_back_odd q t : (t <= N)%nat -> cos (PI * INR (N - t) * INR (2 * q + 1) / INR N) = - cos (PI * INR t * INR (2 * q + 1) / INR N).
  Proof. intros Ht. rewrite back_odd, cos_turn by exact Ht. rewrite Rtrigo_facts.cos_pi_minus. reflexivity. Qed.

  Lemma pow_even q : (-1) ^ (2 * q) = 1.
  Proof. rewrite pow_mult. replace ((-1) ^ 2) with 1 by ring. apply pow1. Qed.
  Lemma pow_odd q : (-1) ^ (2 * q + 1) = -1.
  Proof. rewrite pow_add, pow_even. ring. Qed.

  Lemma re_before q : dcos N (before N y) q = dct N y (2 * q).
  Proof.
    unfold dcos. rewrite first_inner. unfold dct. rewrite pow_even.
    rewrite (sumn_ext _ (fun k => (y (S k) * cos (PI * INR (S k) * INR (2 * q) / INR N) + y (N - S k)%nat * cos (PI * INR (S k) * INR (2 * q) / INR N))
      + -2 * (sin (PI * INR (S k) / INR N) * (y (S k) - y (N - S k)%nat) * cos (PI * INR (S k) * INR (2 * q) / INR N)))).
    2:{ intros k Hk. rewrite even_angle. unfold before. ring. }
    rewrite sumn_plus, sumn_plus, sumn_scal.
    rewrite (inner_odd (fun t => sin (PI * INR t / INR N) * (y t - y (N - t)%nat) * cos (PI * INR t * INR (2 * q) / INR N))).
    2:{ intros t Ht. rewrite sin_back_one, cos_back_even by lia. replace (N - (N - t))%nat with t by lia. ring. }
    rewrite (inner_rev (fun t => y t * cos (PI * INR t * INR (2 * q) / INR N))).
    rewrite (sumn_ext (fun k => y (N - S k)%nat * cos (PI * INR (N - S k) * INR (2 * q) / INR N)) (fun k => y (N - S k)%nat * cos (PI * INR (S k) * INR (2 * q) / INR N))).
    2:{ intros k Hk. rewrite cos_back_even by lia. reflexivity. }
    unfold before. rewrite Nat.sub_0_r. change (INR 0) with 0. replace (PI * 0 / INR N) with 0 by (unfold Rdiv; ring). replace (2 * PI * INR q * 0 / INR N) with 0 by (unfold Rdiv; ring). rewrite sin_0, cos_0. ring.
  Qed.

  Lemma odd_sum q : sumn (fun k => (y (S k) - y (N - S k)%nat) * cos (PI * INR (S k) * INR (2 * q + 1) / INR N)) (N - 1) = dct N y (2 * q + 1) - (y 0%nat - y N).
  Proof.
    unfold dct. rewrite pow_odd.
    rewrite (sumn_ext _ (fun k => y (S k) * cos (PI * INR (S k) * INR (2 * q + 1) / INR N) + -1 * (y (N - S k)%nat * cos (PI * INR (S k) * INR (2 * q + 1) / INR N)))) by (intros k Hk; ring).
    rewrite sumn_plus, sumn_scal.
    assert (E : sumn (fun k => y (N - S k)%nat * cos (PI * INR (S k) * INR (2 * q + 1) / INR N)) (N - 1) = -1 * sumn (fun k => y (S k) * cos (PI * INR (S k) * INR (2 * q + 1) / INR N)) (N - 1)).
    { rewrite (inner_rev (fun t => y t * cos (PI * INR t * INR (2 * q + 1) / INR N))), <- sumn_scal. apply sumn_ext. intros k Hk. rewrite cos_back_odd by lia. ring. }
    rewrite E. ring.
  Qed.
  Lemma im_before q : (1 <= q)%nat -> dsin N (before N y) q = dct N y (2 * q - 1) - dct N y (2 * q + 1).
  Proof.
    intros Hq. unfold dsin. rewrite first_inner. change (INR 0) with 0. replace (2 * PI * INR q * 0 / INR N) with 0 by (unfold Rdiv; ring). rewrite sin_0.
    rewrite (sumn_ext _ (fun k => (y (S k) + y (N - S k)%nat) * sin (PI * INR (S k) * INR (2 * q) / INR N) +
      ((y (S k) - y (N - S k)%nat) * cos (PI * INR (S k) * INR (2 * q + 1) / INR N) + -1 * ((y (S k) - y (N - S k)%nat) * cos (PI * INR (S k) * INR (2 * (q - 1) + 1) / INR N))))).
    2:{ intros k Hk. rewrite even_angle. unfold before.
        replace (PI * INR (S k) * INR (2 * q + 1) / INR N) with (PI * INR (S k) * INR (2 * q) / INR N + PI * INR (S k) / INR N) by (rewrite plus_INR; cbn [INR]; field; exact IN).
        replace (PI * INR (S k) * INR (2 * (q - 1) + 1) / INR N) with (PI * INR (S k) * INR (2 * q) / INR N - PI * INR (S k) / INR N).
        - rewrite cos_plus, cos_minus. ring.
        - replace (INR (2 * q)) with (INR (2 * (q - 1) + 1) + 1) by (rewrite <- S_INR; f_equal; lia). field. exact IN. }
    rewrite sumn_plus, sumn_plus, sumn_scal, !odd_sum.
    rewrite (inner_odd (fun t => (y t + y (N - t)%nat) * sin (PI * INR t * INR (2 * q) / INR N))).
    2:{ intros t Ht. rewrite sin_back_even by lia. replace (N - (N - t))%nat with t by lia. ring. }
    replace (2 * (q - 1) + 1)%nat with (2 * q - 1)%nat by lia. ring.
  Qed.

  (** The first odd sum, over one half of the terms. *)
  Lemma half_sum M : N = (2 * M + 1)%nat \/ N = (2 * M + 2)%nat ->
    y 0%nat - y N + sumn (fun j => cos (PI * INR (S j) / INR N) * 2 * (y (S j) - y (N - S j)%nat)) M = dct N y 1.
  Proof.
    intros E. pose proof (odd_sum 0) as O. cbn [Nat.mul Nat.add] in O. replace (dct N y 1) with ((y 0%nat - y N) + (dct N y 1 - (y 0%nat - y N))) by ring. rewrite <- O. f_equal.
    set (g := fun t => (y t - y (N - t)%nat) * cos (PI * INR t * INR 1 / INR N)).
    assert (Sy : forall t, (t <= N)%nat -> g (N - t)%nat = g t).
    { intros t Ht. unfold g. replace (N - (N - t))%nat with t by lia. pose proof (cos_back_odd 0 t Ht) as C. cbn [Nat.mul Nat.add] in C. rewrite C. ring. }
    change (sumn (fun j => cos (PI * INR (S j) / INR N) * 2 * (y (S j) - y (N - S j)%nat)) M = sumn (fun k => g (S k)) (N - 1)).
    assert (Half : sumn (fun j => cos (PI * INR (S j) / INR N) * 2 * (y (S j) - y (N - S j)%nat)) M = sumn (fun k => g (S k)) M + sumn (fun k => g (S k)) M).
    { rewrite <- sumn_plus. apply sumn_ext. intros j Hj. unfold g. rewrite Rmult_1_r. ring. }
    rewrite Half. clear Half. destruct E as [E|E].
    - replace (N - 1)%nat with (M + M)%nat by lia. rewrite sumn_split. f_equal. rewrite sumn_rev. apply sumn_ext. intros k Hk.
      rewrite <- (Sy (S (M - 1 - k))) by lia. f_equal. lia.
    - replace (N - 1)%nat with (M + (1 + M))%nat by lia. rewrite sumn_split. f_equal. rewrite sumn_split. cbn [sumn]. 
      replace (g (S (M + 0))) with 0.
      + rewrite !Rplus_0_l. rewrite sumn_rev. apply sumn_ext. intros k Hk. rewrite <- (Sy (S (M - 1 - k))) by lia. f_equal. lia.
      + unfold g. replace (N - S (M + 0))%nat with (S (M + 0)) by lia. ring.
  Qed.
End Sums.

(** ** The weights *)
Definition weights_ok (n : nat) (w : arr) : Prop := forall k, (2 <= k <= n / 2)%nat ->
  w k = sin (PI * INR (k - 1) / INR (n - 1)) * 2 /\ w (n + 1 - k)%nat = cos (PI * INR (k - 1) / INR (n - 1)) * 2.

Lemma half_le n : (2 * (n / 2) <= n)%nat.
Proof. apply Nat.mul_div_le. lia. Qed.

Lemma weights_loop n w : (4 <= n)%nat ->
  let w' := snd (fold_left (fun s k =>
      let '(fk, w) := s in
      let kc := (n + 1 - k)%nat in
      let fk := (fk + 1)%R in
      (fk, put (put w k (sin (fk * (PI / INR (n - 1))) * 2)%R) kc (cos (fk * (PI / INR (n - 1))) * 2)%R)) (upto 2 (n / 2) 1) (0%R, w)) in
  weights_ok n w' /\ outside n w' w.
Proof.
  intros Hn w'. pose proof (half_le n) as Hh. assert (H2 : (2 <= n / 2)%nat) by (apply Nat.div_le_lower_bound; lia).
  assert (IN : INR (n - 1) <> 0) by (apply not_0_INR; lia).
  match goal with w' := snd (fold_left ?f ?l ?s0) |- _ => set (step := f) in *; set (st0 := s0) in * end.
  pose (I := fun (k : nat) (s : R * arr) => fst s = INR (k - 2) /\
    (forall j, (2 <= j < k)%nat -> snd s j = sin (PI * INR (j - 1) / INR (n - 1)) * 2 /\ snd s (n + 1 - j)%nat = cos (PI * INR (j - 1) / INR (n - 1)) * 2) /\ outside n (snd s) w).
  assert (HI : I (S (n / 2)) (fold_left step (upto 2 (n / 2) 1) st0)).
  { apply fold_upto; [lia|..].
    - unfold I, st0. cbn [fst snd Nat.sub INR]. split; [reflexivity|]. split; [intros j Hj; lia|apply outside_refl].
    - intros k [fk a] Hk (E1 & E2 & E3). cbn [fst snd] in E1, E2, E3. unfold I, step. cbn [fst snd].
      assert (EF : fk + 1 = INR (k - 1)) by (rewrite E1; rewrite <- S_INR; f_equal; lia). rewrite EF.
      assert (EA : INR (k - 1) * (PI / INR (n - 1)) = PI * INR (k - 1) / INR (n - 1)) by (unfold Rdiv; ring). rewrite EA.
      split; [f_equal; lia|]. split.
      + intros j Hj. destruct (Nat.eq_dec j k) as [->|NE].
        * rewrite put_same. rewrite put_other by lia. rewrite put_same. split; reflexivity.
        * rewrite !put_other by lia. apply E2. lia.
      + intros x Hx. rewrite !put_other by lia. apply E3. exact Hx. }
  fold w' in HI. destruct HI as (_ & E2 & E3). split; [|exact E3]. intros k Hk. apply E2. lia.
Qed.

(** ** Before and after the real transform *)
Lemma half_cases n : n = (2 * (n / 2))%nat /\ n mod 2 = 0%nat \/ n = (2 * (n / 2) + 1)%nat /\ n mod 2 = 1%nat.
Proof. pose proof (Nat.div_mod n 2 ltac:(lia)). pose proof (Nat.mod_upper_bound n 2 ltac:(lia)). lia. Qed.

Lemma cost_before_ok n w x : (4 <= n)%nat -> weights_ok n w ->
  let r := cost_before n w x in
  fst r = dct (n - 1) (fun t => x (S t)) 1 /\ (forall t, (t < n - 1)%nat -> snd r (S t) = before (n - 1) (fun t => x (S t)) t) /\
  outside (n - 1) (snd r) x.
Proof.
  intros Hn Hw r. pose proof (half_cases n) as HC. set (h := (n / 2)%nat) in *. assert (H2 : (2 <= h)%nat) by (apply Nat.div_le_lower_bound; lia).
  set (N := (n - 1)%nat) in *. set (y := fun t => x (S t)). assert (HN : (1 <= N)%nat) by (unfold N; lia).
  unfold cost_before in r. fold h in r. cbv zeta in r.
  match goal with r := (let '(_, _) := fold_left ?f ?l ?s0 in _) |- _ => set (step := f) in *; set (st0 := s0) in * end.
  pose (I := fun (k : nat) (s : R * arr) =>
    fst s = y 0%nat - y N + sumn (fun j => cos (PI * INR (S j) / INR N) * 2 * (y (S j) - y (N - S j)%nat)) (k - 2) /\
    (forall t, (t < k - 1 \/ N - t < k - 1 /\ t < N)%nat -> snd s (S t) = before N y t) /\
    (forall t, (k - 1 <= t <= N + 1 - k)%nat -> snd s (S t) = y t) /\ outside N (snd s) x).
  assert (HI : I (S h) (fold_left step (upto 2 h 1) st0)).
  { apply fold_upto; [lia|..].
    - unfold I, st0. cbn [fst snd Nat.sub sumn]. split; [unfold y; replace (S N) with n by (unfold N; lia); ring|]. split; [|split].
      + intros t Ht. assert (t = 0%nat) by lia. subst t. rewrite put_same. unfold before, y. rewrite Nat.sub_0_r. replace (S N) with n by (unfold N; lia). cbn [INR]. replace (PI * 0 / INR N) with 0 by (unfold Rdiv; ring). rewrite sin_0. ring.
      + intros t Ht. rewrite put_other by lia. reflexivity.
      + intros t Ht. apply put_other. lia.
    - intros k [c1 a] Hk (E1 & E2 & E3 & E4). cbn [fst snd] in E1, E2, E3, E4. unfold I, step. cbn [fst snd].
      destruct (Hw k ltac:(fold h; lia)) as [W1 W2]. fold N in W1, W2.
      assert (Ak : a k = y (k - 1)%nat) by (rewrite <- E3 by lia; f_equal; lia).
      assert (Akc : a (n + 1 - k)%nat = y (N - (k - 1))%nat) by (rewrite <- E3 by lia; f_equal; lia).
      rewrite W1, W2, Ak, Akc. replace (S k - 2)%nat with (S (k - 2)) by lia. cbn [sumn]. replace (S (k - 2)) with (k - 1)%nat by lia.
      split; [rewrite E1; ring|].
      assert (Bk : before N y (k - 1)%nat = y (k - 1)%nat + y (N - (k - 1))%nat - sin (PI * INR (k - 1) / INR N) * 2 * (y (k - 1)%nat - y (N - (k - 1))%nat)) by (unfold before; ring).
      assert (Bkc : before N y (N - (k - 1))%nat = y (k - 1)%nat + y (N - (k - 1))%nat + sin (PI * INR (k - 1) / INR N) * 2 * (y (k - 1)%nat - y (N - (k - 1))%nat)).
      { unfold before. rewrite (sin_back_one N) by lia. replace (N - (N - (k - 1)))%nat with (k - 1)%nat by lia. ring. }
      rewrite <- Bk, <- Bkc. split; [|split].
      + intros t Ht. destruct (Nat.eq_dec t (N - (k - 1))) as [->|N1].
        * replace (S (N - (k - 1))) with (n + 1 - k)%nat by lia. apply put_same.
        * rewrite put_other by lia. destruct (Nat.eq_dec t (k - 1)) as [->|N2].
          -- replace (S (k - 1)) with k by lia. apply put_same.
          -- rewrite put_other by lia. apply E2. lia.
      + intros t Ht. rewrite !put_other by lia. apply E3. lia.
      + intros t Ht. rewrite !put_other by lia. apply E4. exact Ht. }
  assert (ER : r = (let '(c1, x) := fold_left step (upto 2 h 1) st0 in (c1, if negb (Nat.eqb (n mod 2) 0) then put x (h + 1) (x (h + 1)%nat + x (h + 1)%nat)%R else x))) by reflexivity.
  destruct (fold_left step (upto 2 h 1) st0) as [c1 a]. destruct HI as (E1 & E2 & E3 & E4). cbn [fst snd] in E1, E2, E3, E4. rewrite ER. cbn [fst snd]. split; [|split].
  - rewrite E1. apply half_sum; lia.
  - intros t Ht. destruct HC as [[HC ->]|[HC ->]]; cbn [Nat.eqb negb].
    + apply E2. lia.
    + destruct (Nat.eq_dec t h) as [->|NE].
      * replace (S h) with (h + 1)%nat by lia. rewrite put_same. replace (h + 1)%nat with (S h) by lia. rewrite E3 by lia. unfold before. replace (N - h)%nat with h by lia. ring.
      * rewrite put_other by lia. apply E2. lia.
  - intros t Ht. destruct HC as [[HC ->]|[HC ->]]; cbn [Nat.eqb negb]; [apply E4; exact Ht|]. rewrite put_other by lia. apply E4. exact Ht.
Qed.

Lemma length_evens n : length (upto 4 n 2) = ((n - 2) / 2)%nat.
Proof. unfold upto. rewrite map_length, seq_length. f_equal. lia. Qed.

Lemma cost_after_ok n N y c1 z : (4 <= n)%nat -> N = (n - 1)%nat -> c1 = dct N y 1 -> (forall q, (q < N)%nat -> z (S q) = packed N (before N y) q) ->
  (forall i, (i < n)%nat -> cost_after n c1 z (S i) = dct N y i) /\ outside n (cost_after n c1 z) z.
Proof.
  intros Hn HN Hc Hz. assert (HN1 : (1 <= N)%nat) by lia.
  assert (Z0 : z 1%nat = dct N y 0) by (rewrite (Hz 0%nat) by lia; rewrite packed_0; apply (re_before N y HN1 0)).
  assert (Zre : forall q, (1 <= q)%nat -> (2 * q <= N)%nat -> z (2 * q)%nat = dct N y (2 * q)).
  { intros q H1 H2. replace (2 * q)%nat with (S (2 * q - 1)) at 1 by lia. rewrite Hz by lia. rewrite (packed_re _ _ _ q) by lia. apply re_before. exact HN1. }
  assert (Zim : forall q, (1 <= q)%nat -> (2 * q + 1 <= N)%nat -> z (2 * q + 1)%nat = dct N y (2 * q - 1) - dct N y (2 * q + 1)).
  { intros q H1 H2. replace (2 * q + 1)%nat with (S (2 * q)) at 1 by lia. rewrite Hz by lia. rewrite (packed_im _ _ _ q) by lia. apply im_before; assumption. }
  unfold cost_after. match goal with |- context [fold_left ?f ?l ?s0] => set (step := f); set (st0 := s0) end.
  pose (I := fun (t : nat) (ia : nat) (s : R * arr) => True).
  assert (HF : forall t, (2 * t + 2 <= n)%nat -> exists xim2 a, fold_left step (map (fun u => (4 + 2 * u)%nat) (seq 0 t)) st0 = (xim2, a) /\
    ((2 * t + 2 <= N)%nat -> xim2 = dct N y (2 * t + 2)) /\ (forall p, (p < 2 * t + 2)%nat -> a (S p) = dct N y p) /\ (forall x, (2 * t + 3 <= x)%nat -> a x = z x) /\ a 0%nat = z 0%nat).
  { induction t as [|t IH]; intros Ht.
    - cbn [seq map fold_left]. exists (z 2%nat), (put z 2 c1). split; [reflexivity|]. split; [intros H; apply (Zre 1%nat); lia|]. split; [|split].
      + intros p Hp. destruct p as [|[|p]]; [|exact Hc|lia]. rewrite put_other by lia. exact Z0.
      + intros x Hx. apply put_other. lia.
      + apply put_other. lia.
    - destruct IH as (xim2 & a & E & E1 & E2 & E3 & E4); [lia|]. rewrite seq_S, map_app, fold_left_app, E. cbn [map fold_left]. unfold step. cbn [Nat.add].
      set (i := (S (S (S (S (2 * t)))))%nat) in *. replace (i - 2)%nat with (S (2 * t + 1)) by (unfold i; lia). replace (i - 1)%nat with (2 * t + 3)%nat by (unfold i; lia).
      eexists. eexists. split; [reflexivity|]. rewrite (E2 (2 * t + 1)%nat) by lia. rewrite (E3 (2 * t + 3)%nat) by lia. rewrite (E3 i) by (unfold i; lia).
      split; [|split; [|split]].
      + intros H. replace (2 * S t + 2)%nat with (2 * (t + 2))%nat by lia. rewrite <- Zre by lia. f_equal. unfold i. lia.
      + intros p Hp. destruct (Nat.eq_dec p (2 * t + 2)) as [->|N1].
        * replace (S (2 * t + 2)) with (2 * t + 3)%nat by lia. rewrite put_same. apply E1. lia.
        * rewrite put_other by lia. destruct (Nat.eq_dec p (2 * t + 3)) as [->|N2].
          -- replace (S (2 * t + 3)) with i by (unfold i; lia). rewrite put_same. replace (2 * t + 3)%nat with (2 * (t + 1) + 1)%nat by lia. rewrite Zim by lia. replace (2 * t + 1)%nat with (2 * (t + 1) - 1)%nat by lia. ring.
          -- rewrite put_other by (unfold i; lia). apply E2. lia.
      + intros x Hx. rewrite !put_other by (unfold i; lia). apply E3. lia.
      + rewrite !put_other by (unfold i; lia). exact E4. }
  clear I. pose proof (half_cases n) as HC. set (h := (n / 2)%nat) in *.
  assert (EU : upto 4 n 2 = map (fun u => (4 + 2 * u)%nat) (seq 0 (h - 1))).
  { unfold upto. do 2 f_equal. replace (n + 2 - 4)%nat with (n - 2)%nat by lia.
    destruct HC as [[HC _]|[HC _]].
    - replace (n - 2)%nat with ((h - 1) * 2)%nat by lia. apply Nat.div_mul. lia.
    - replace (n - 2)%nat with ((h - 1) * 2 + 1)%nat by lia. rewrite Nat.div_add_l by lia. cbn. lia. }
  rewrite EU. destruct (HF (h - 1)%nat ltac:(lia)) as (xim2 & a & -> & E1 & E2 & E3 & E4).
  destruct HC as [[HC ->]|[HC ->]]; cbn [Nat.eqb negb]; split.
  - intros i Hi. apply E2. lia.
  - intros x Hx. destruct (Nat.eq_dec x 0) as [->|NE]; [exact E4|]. apply E3. lia.
  - intros i Hi. destruct (Nat.eq_dec i N) as [->|NE].
    + replace (S N) with n by lia. rewrite put_same, E1 by lia. f_equal. lia.
    + rewrite put_other by lia. apply E2. lia.
  - intros x Hx. rewrite put_other by lia. destruct (Nat.eq_dec x 0) as [->|NE]; [exact E4|]. apply E3. lia.
Qed.

(** ** The whole *)
Lemma cost_ok n w wa ifac : (2 <= n)%nat -> exists w' wa' ifac', costi n w wa ifac = Ok (w', wa', ifac') /\
  outside n w' w /\ outside (n - 1) wa' wa /\
  forall x ch, let r := cost n x w' ch wa' ifac' in
    (forall i, (i < n)%nat -> fst r (S i) = dct (n - 1) (fun t => x (S t)) i) /\ outside n (fst r) x /\ outside (n - 1) (snd r) ch.
Proof.
  intros Hn. unfold costi. destruct (Nat.leb_spec n 3) as [L3|L3].
  - exists w, wa, ifac. split; [reflexivity|]. split; [apply outside_refl|]. split; [apply outside_refl|]. intros x ch. set (r := cost n x w ch wa ifac). unfold cost in r.
    destruct (Nat.ltb_spec n 2) as [?|_]; [lia|]. destruct (Nat.eqb_spec n 2) as [->|N2].
    + subst r. cbn [fst snd]. split; [|split; [|apply outside_refl]].
      * intros i Hi. unfold dct. cbn [Nat.sub sumn]. destruct i as [|[|i]]; [|reflexivity || idtac|lia].
        -- rewrite put_same. ring.
        -- rewrite put_other by lia. rewrite put_same. ring.
      * intros k Hk. rewrite !put_other by lia. reflexivity.
    + assert (n = 3%nat) by lia. subst n. cbn [Nat.ltb Nat.leb negb] in r. subst r. cbn [fst snd]. split; [|split; [|apply outside_refl]].
      * intros i Hi. unfold dct. cbn [Nat.sub sumn]. destruct i as [|[|[|i]]]; [| | |lia].
        -- rewrite put_other by lia. rewrite put_same. cbn [INR]. replace (PI * 1 * 0 / (1 + 1)) with 0 by field. rewrite cos_0. ring.
        -- rewrite !put_other by lia. rewrite put_same. cbn [INR]. replace (PI * 1 * 1 / (1 + 1)) with (PI / 2) by field. rewrite cos_PI2. ring.
        -- rewrite put_same. cbn [INR]. replace (PI * 1 * (1 + 1) / (1 + 1)) with PI by field. rewrite cos_PI. ring.
      * intros k Hk. rewrite !put_other by lia. reflexivity.
  - cbv zeta. match goal with |- context [snd (fold_left ?f ?l ?s)] => set (w' := snd (fold_left f l s)) end.
    destruct (weights_loop n w ltac:(lia)) as [W1 W2]. fold w' in W1, W2.
    destruct (rffti_ok (n - 1) wa ifac ltac:(lia)) as (fs & wa' & ifac' & -> & I2 & IS & IP & IG & IT & IO & _). cbn [bind].
    exists w', wa', ifac'. split; [reflexivity|]. split; [exact W2|]. split; [intros x Hx; apply IO; lia|].
    intros x ch. set (r := cost n x w' ch wa' ifac'). unfold cost in r. destruct (Nat.ltb_spec n 2) as [?|_]; [lia|]. destruct (Nat.eqb_spec n 2) as [?|_]; [lia|]. destruct (Nat.ltb_spec 3 n) as [_|?]; [|lia]. cbn [negb] in r.
    destruct (cost_before_ok n w' x ltac:(lia) W1) as (B1 & B2 & B3). destruct (cost_before n w' x) as [c1 x1]. cbn [fst snd] in B1, B2, B3.
    destruct (rfftf_ok (n - 1) x1 ch wa' ifac' fs ltac:(lia) I2 IS IP IG IT) as (R1 & R2 & R3). destruct (rfftf (n - 1) x1 ch wa' ifac') as [x2 ch2]. cbn [fst snd] in R1, R2, R3. subst r. cbn [fst snd].
    destruct (cost_after_ok n (n - 1) (fun t => x (S t)) c1 x2 ltac:(lia) eq_refl B1) as [A1 A2].
    { intros q Hq. rewrite R1 by exact Hq. assert (C : forall p, dcos (n - 1) (fun t => x1 (S t)) p = dcos (n - 1) (before (n - 1) (fun t => x (S t))) p) by (intros p; apply sumn_ext; intros t Ht; rewrite B2 by exact Ht; reflexivity).
      assert (S' : forall p, dsin (n - 1) (fun t => x1 (S t)) p = dsin (n - 1) (before (n - 1) (fun t => x (S t))) p) by (intros p; unfold dsin; f_equal; apply sumn_ext; intros t Ht; rewrite B2 by exact Ht; reflexivity).
      unfold packed. rewrite !C, !S'. reflexivity. }
    split; [exact A1|]. split; [|exact R3]. intros k Hk. rewrite A2 by exact Hk. rewrite R2, B3 by lia. reflexivity.
Qed.
