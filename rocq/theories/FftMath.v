(** Real discrete Fourier transforms in the packed form of FFTPACK, and what one radix step
    has to compute. *)
From Coq Require Import List Reals Bool Arith Lra Lia.
From Verif Require Import Base QuadThms Fft.
Import ListNotations.
Open Scope R_scope.

(** The real and imaginary part of the transform of [y], of length [L], at frequency [q]. *)
Definition dcos (L : nat) (y : nat -> R) (q : nat) : R := sumn (fun t => y t * cos (2 * PI * INR q * INR t / INR L)) L.
Definition dsin (L : nat) (y : nat -> R) (q : nat) : R := - sumn (fun t => y t * sin (2 * PI * INR q * INR t / INR L)) L.

(** Their order in an array (position counted from 0): real part at frequency 0, then real
    and imaginary parts at frequencies 1, 2, ... *)
Definition packed (L : nat) (y : nat -> R) (r : nat) : R :=
  if Nat.eqb r 0 then dcos L y 0
  else if Nat.even r then dsin L y (r / 2) else dcos L y ((r + 1) / 2).

Lemma packed_0 L y : packed L y 0 = dcos L y 0.
Proof. reflexivity. Qed.
Lemma even_2 p : Nat.even (2 * p) = true.
Proof. rewrite Nat.even_mul. reflexivity. Qed.
Lemma packed_re L y r q : (1 <= q)%nat -> (r + 1 = 2 * q)%nat -> packed L y r = dcos L y q.
Proof.
  intros Hq E. unfold packed. destruct (Nat.eqb_spec r 0); [lia|].
  replace (Nat.even r) with false.
  - rewrite E, (Nat.mul_comm 2), Nat.div_mul by lia. reflexivity.
  - assert (H : Nat.even (r + 1) = true) by (rewrite E; apply even_2). rewrite Nat.even_add in H. cbn in H. destruct (Nat.even r); [discriminate|reflexivity].
Qed.
Lemma packed_im L y r q : (1 <= q)%nat -> (r = 2 * q)%nat -> packed L y r = dsin L y q.
Proof. intros Hq E. unfold packed. destruct (Nat.eqb_spec r 0); [lia|]. subst r. rewrite even_2, (Nat.mul_comm 2), Nat.div_mul by lia. reflexivity. Qed.

(** ** Sums *)
Lemma sumn_split f a b : sumn f (a + b) = sumn f a + sumn (fun i => f (a + i)%nat) b.
Proof. induction b as [|b IH]; cbn [sumn]; [rewrite Nat.add_0_r; ring|]. rewrite Nat.add_succ_r. cbn [sumn]. rewrite IH. ring. Qed.
Lemma sumn_block f a b : sumn f (a * b) = sumn (fun j => sumn (fun t => f (j + a * t)%nat) b) a.
Proof.
  induction b as [|b IH].
  - rewrite Nat.mul_0_r. cbn [sumn]. rewrite sumn_zero by reflexivity. reflexivity.
  - rewrite Nat.mul_succ_r, sumn_split, IH. cbn [sumn]. rewrite sumn_plus. f_equal. apply sumn_ext. intros i _. f_equal. lia.
Qed.

(** ** Whole turns *)
Lemma cos_turn x k : cos (x + 2 * PI * INR k) = cos x.
Proof. replace (2 * PI * INR k) with (2 * INR k * PI) by ring. apply cos_period. Qed.
Lemma sin_turn x k : sin (x + 2 * PI * INR k) = sin x.
Proof. replace (2 * PI * INR k) with (2 * INR k * PI) by ring. apply sin_period. Qed.

Lemma freq_plus L p s t : (1 <= L)%nat -> 2 * PI * INR (p + s * L) * INR t / INR L = 2 * PI * INR p * INR t / INR L + 2 * PI * INR (s * t).
Proof. intros HL. rewrite plus_INR, !mult_INR. field. apply not_0_INR. lia. Qed.
Lemma freq_minus L p s t : (1 <= L)%nat -> (p <= s * L)%nat -> 2 * PI * INR (s * L - p) * INR t / INR L = - (2 * PI * INR p * INR t / INR L) + 2 * PI * INR (s * t).
Proof. intros HL Hp. rewrite minus_INR by exact Hp. rewrite !mult_INR. field. apply not_0_INR. lia. Qed.

Lemma dcos_plus L y p s : (1 <= L)%nat -> dcos L y (p + s * L) = dcos L y p.
Proof. intros HL. unfold dcos. apply sumn_ext. intros t _. rewrite freq_plus, cos_turn by exact HL. reflexivity. Qed.
Lemma dsin_plus L y p s : (1 <= L)%nat -> dsin L y (p + s * L) = dsin L y p.
Proof. intros HL. unfold dsin. f_equal. apply sumn_ext. intros t _. rewrite freq_plus, sin_turn by exact HL. reflexivity. Qed.
Lemma dcos_minus L y p s : (1 <= L)%nat -> (p <= s * L)%nat -> dcos L y (s * L - p) = dcos L y p.
Proof. intros HL Hp. unfold dcos. apply sumn_ext. intros t _. rewrite freq_minus, cos_turn, cos_neg by assumption. reflexivity. Qed.
Lemma dsin_minus L y p s : (1 <= L)%nat -> (p <= s * L)%nat -> dsin L y (s * L - p) = - dsin L y p.
Proof.
  intros HL Hp. unfold dsin. f_equal. transitivity (-1 * sumn (fun t => y t * sin (2 * PI * INR p * INR t / INR L)) L); [|ring].
  rewrite <- sumn_scal. apply sumn_ext. intros t _. rewrite freq_minus, sin_turn, sin_neg by assumption. ring.
Qed.
Lemma dsin_0 L y : dsin L y 0 = 0.
Proof. unfold dsin. rewrite sumn_zero; [ring|]. intros t _. cbn [INR]. replace (2 * PI * 0 * INR t / INR L) with 0 by (unfold Rdiv; ring). rewrite sin_0. ring. Qed.
Lemma dsin_half L y h : (1 <= h)%nat -> (L = 2 * h)%nat -> dsin L y h = 0.
Proof.
  intros Hh ->. unfold dsin. rewrite sumn_zero; [ring|]. intros t _.
  replace (2 * PI * INR h * INR t / INR (2 * h)) with (INR t * PI) by (rewrite mult_INR; cbn [INR]; field; apply not_0_INR; lia).
  rewrite sin_eq_0_1; [ring|]. exists (Z.of_nat t). rewrite <- INR_IZR_INZ. reflexivity.
Qed.
Lemma dcos_1 y : dcos 1 y 0 = y 0%nat.
Proof. unfold dcos. cbn [sumn INR]. replace (2 * PI * 0 * 0 / 1) with 0 by field. rewrite cos_0. ring. Qed.

(** ** One radix step *)
Section Step.
  Variables (ip ido : nat) (y : nat -> R).
  Hypothesis Hip : (1 <= ip)%nat.
  Hypothesis Hido : (1 <= ido)%nat.

  (** The sub-sequences and their transforms. *)
  Definition part (j t : nat) : R := y (j + ip * t)%nat.
  Definition Cj (p j : nat) : R := dcos ido (part j) p.
  Definition Sj (p j : nat) : R := dsin ido (part j) p.
  Definition angle (p j : nat) : R := 2 * PI * INR p * INR j / INR (ip * ido).
  Definition turn (s j : nat) : R := 2 * PI * INR s * INR j / INR ip.

  Lemma IP : INR ip <> 0. Proof. apply not_0_INR. lia. Qed.
  Lemma IDO : INR ido <> 0. Proof. apply not_0_INR. lia. Qed.

  Lemma step_angle q j t : 2 * PI * INR q * INR (j + ip * t) / INR (ip * ido) = angle q j + 2 * PI * INR q * INR t / INR ido.
  Proof. unfold angle. rewrite plus_INR, !mult_INR. pose proof IP. pose proof IDO. field. split; assumption. Qed.

  Lemma step_re q : dcos (ip * ido) y q = sumn (fun j => cos (angle q j) * Cj q j + sin (angle q j) * Sj q j) ip.
  Proof.
    unfold dcos at 1. rewrite sumn_block. apply sumn_ext. intros j _. unfold Cj, Sj, dcos, dsin.
    transitivity (sumn (fun t => cos (angle q j) * (part j t * cos (2 * PI * INR q * INR t / INR ido)) + (- sin (angle q j)) * (part j t * sin (2 * PI * INR q * INR t / INR ido))) ido).
    - apply sumn_ext. intros t _. rewrite step_angle, cos_plus. unfold part. ring.
    - rewrite sumn_plus, !sumn_scal. ring.
  Qed.
  Lemma step_im q : dsin (ip * ido) y q = sumn (fun j => cos (angle q j) * Sj q j - sin (angle q j) * Cj q j) ip.
  Proof.
    unfold dsin at 1. rewrite sumn_block. 
    transitivity (-1 * sumn (fun j => sumn (fun t => y (j + ip * t)%nat * sin (2 * PI * INR q * INR (j + ip * t) / INR (ip * ido))) ido) ip); [ring|].
    rewrite <- sumn_scal. apply sumn_ext. intros j _. unfold Cj, Sj, dcos, dsin.
    transitivity (sumn (fun t => - cos (angle q j) * (part j t * sin (2 * PI * INR q * INR t / INR ido)) + (- sin (angle q j)) * (part j t * cos (2 * PI * INR q * INR t / INR ido))) ido).
    - rewrite <- sumn_scal. apply sumn_ext. intros t _. rewrite step_angle, sin_plus. unfold part. ring.
    - rewrite sumn_plus, !sumn_scal. ring.
  Qed.

  (** The transform of part [j] times a power of the root of unity. *)
  Definition Aj (p j : nat) : R := cos (angle p j) * Cj p j + sin (angle p j) * Sj p j.
  Definition Bj (p j : nat) : R := cos (angle p j) * Sj p j - sin (angle p j) * Cj p j.

  Lemma angle_plus p s j : angle (p + s * ido) j = angle p j + turn s j.
  Proof. unfold angle, turn. rewrite plus_INR, !mult_INR. pose proof IP. pose proof IDO. field. split; assumption. Qed.
  Lemma angle_minus p s j : (p <= s * ido)%nat -> angle (s * ido - p) j = turn s j - angle p j.
  Proof. intros Hp. unfold angle, turn. rewrite minus_INR by exact Hp. rewrite !mult_INR. pose proof IP. pose proof IDO. field. split; assumption. Qed.

  Lemma direct_re p s : dcos (ip * ido) y (p + s * ido) = sumn (fun j => cos (turn s j) * Aj p j + sin (turn s j) * Bj p j) ip.
  Proof. rewrite step_re. apply sumn_ext. intros j _. unfold Cj, Sj, Aj, Bj. rewrite dcos_plus, dsin_plus, angle_plus, cos_plus, sin_plus by exact Hido. unfold Cj, Sj. ring. Qed.
  Lemma direct_im p s : dsin (ip * ido) y (p + s * ido) = sumn (fun j => cos (turn s j) * Bj p j - sin (turn s j) * Aj p j) ip.
  Proof. rewrite step_im. apply sumn_ext. intros j _. unfold Cj, Sj, Aj, Bj. rewrite dcos_plus, dsin_plus, angle_plus, cos_plus, sin_plus by exact Hido. unfold Cj, Sj. ring. Qed.
  Lemma mirror_re p s : (p <= s * ido)%nat -> dcos (ip * ido) y (s * ido - p) = sumn (fun j => cos (turn s j) * Aj p j - sin (turn s j) * Bj p j) ip.
  Proof. intros Hp. rewrite step_re. apply sumn_ext. intros j _. unfold Cj, Sj, Aj, Bj. rewrite dcos_minus, dsin_minus, angle_minus, cos_minus, sin_minus by assumption. unfold Cj, Sj. ring. Qed.
  Lemma mirror_im p s : (p <= s * ido)%nat -> dsin (ip * ido) y (s * ido - p) = sumn (fun j => - cos (turn s j) * Bj p j - sin (turn s j) * Aj p j) ip.
  Proof. intros Hp. rewrite step_im. apply sumn_ext. intros j _. unfold Cj, Sj, Aj, Bj. rewrite dcos_minus, dsin_minus, angle_minus, cos_minus, sin_minus by assumption. unfold Cj, Sj. ring. Qed.

  Lemma angle_0 j : angle 0 j = 0. Proof. unfold angle. cbn [INR]. unfold Rdiv. ring. Qed.
  Lemma A_0 j : Aj 0 j = Cj 0 j. Proof. unfold Aj, Sj. rewrite angle_0, cos_0, sin_0. ring. Qed.
  Lemma B_0 j : Bj 0 j = 0. Proof. unfold Bj, Sj. rewrite angle_0, cos_0, sin_0, dsin_0. ring. Qed.

  Lemma whole_re s : dcos (ip * ido) y (s * ido) = sumn (fun j => cos (turn s j) * Cj 0 j) ip.
  Proof. rewrite <- (Nat.add_0_l (s * ido)), direct_re. apply sumn_ext. intros j _. rewrite A_0, B_0. ring. Qed.
  Lemma whole_im s : dsin (ip * ido) y (s * ido) = sumn (fun j => - sin (turn s j) * Cj 0 j) ip.
  Proof. rewrite <- (Nat.add_0_l (s * ido)), direct_im. apply sumn_ext. intros j _. rewrite A_0, B_0. ring. Qed.

  (** Even length: the highest frequency of the parts. *)
  Definition half_turn (s j : nat) : R := PI * INR (2 * s + 1) * INR j / INR ip.
  Lemma half_angle h s j : (ido = 2 * h)%nat -> (1 <= h)%nat -> angle (h + s * ido) j = half_turn s j.
  Proof.
    intros E Hh. unfold angle, half_turn. rewrite E. repeat (rewrite ?plus_INR, ?mult_INR). change (INR 2) with 2. change (INR 1) with 1.
    pose proof IP. assert (INR h <> 0) by (apply not_0_INR; lia). field. split; assumption.
  Qed.
  Lemma half_re h s : (ido = 2 * h)%nat -> (1 <= h)%nat -> dcos (ip * ido) y (h + s * ido) = sumn (fun j => cos (half_turn s j) * Cj h j) ip.
  Proof.
    intros E Hh. rewrite step_re. apply sumn_ext. intros j _. unfold Cj, Sj. rewrite dcos_plus, dsin_plus by exact Hido.
    rewrite (dsin_half ido _ h Hh E), (half_angle h s j E Hh). ring.
  Qed.
  Lemma half_im h s : (ido = 2 * h)%nat -> (1 <= h)%nat -> dsin (ip * ido) y (h + s * ido) = sumn (fun j => - sin (half_turn s j) * Cj h j) ip.
  Proof.
    intros E Hh. rewrite step_im. apply sumn_ext. intros j _. unfold Cj, Sj. rewrite dcos_plus, dsin_plus by exact Hido.
    rewrite (dsin_half ido _ h Hh E), (half_angle h s j E Hh). ring.
  Qed.
End Step.
