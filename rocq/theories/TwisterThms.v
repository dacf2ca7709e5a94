(** C95: the random number engine. *)
From Coq Require Import List ZArith Bool Lia.
From Coq Require Import Floats.SpecFloat.
From Verif Require Import Base Output OutputProofs SampleDbl Twister.
Import ListNotations.
Local Open Scope Z_scope.

(** Seeds that agree in their low 32 bits give the same engine. *)
Theorem C95_same s1 s2 : s1 mod 2 ^ 32 = s2 mod 2 ^ 32 -> reseed s1 = reseed s2.
Proof. intros H. unfold reseed, wrap32. rewrite H. reflexivity. Qed.
Print Assumptions C95_same.
Theorem C95_seeds_refuted : ~ (forall s1 s2, 0 <= s1 < 2 ^ 64 -> 0 <= s2 < 2 ^ 64 -> s1 <> s2 -> reseed s1 <> reseed s2).
Proof. intros H. apply (H 1 (2 ^ 32 + 1)); [lia|lia|lia|]. apply C95_same. reflexivity. Qed.
Print Assumptions C95_seeds_refuted.

(** ** Arrays *)

Lemma upd_length x : forall a i, length (upd i x a) = length a.
Proof. induction a as [|y a IH]; intros [|i]; cbn [upd length]; try reflexivity. f_equal. apply IH. Qed.
Lemma upd_same x d : forall a i, (i < length a)%nat -> nth i (upd i x a) d = x.
Proof. induction a as [|y a IH]; intros [|i] H; cbn [upd length nth] in *; try lia; try reflexivity. apply IH. lia. Qed.
Lemma upd_other x d : forall a i j, i <> j -> nth j (upd i x a) d = nth j a d.
Proof. induction a as [|y a IH]; intros [|i] [|j] H; cbn [upd nth]; try reflexivity; try congruence. apply IH. congruence. Qed.

Definition array (n B : Z) (a : list Z) : Prop := Z.of_nat (length a) = n /\ Forall (fun x => 0 <= x < B) a.
Lemma put_same a n B i x : array n B a -> 0 <= i < n -> get (put_at a i x) i = x.
Proof. intros [L _] H. unfold get, put_at. apply upd_same. lia. Qed.
Lemma put_other a i j x : 0 <= i -> 0 <= j -> i <> j -> get (put_at a i x) j = get a j.
Proof. intros. unfold get, put_at. apply upd_other. lia. Qed.
Lemma put_array a n B i x : array n B a -> 0 <= x < B -> array n B (put_at a i x).
Proof.
  intros [L F] X. split; unfold put_at; [rewrite upd_length; exact L|]. clear L. generalize (Z.to_nat i). induction F as [|y a Y F IH]; intros [|k]; cbn [upd]; constructor; auto.
Qed.
Lemma get_range a n B i : array n B a -> 0 <= i < n -> 0 <= get a i < B.
Proof. intros [L F] H. rewrite Forall_forall in F. apply F. unfold get. apply nth_In. lia. Qed.
Lemma array_ext a c n B : array n B a -> array n B c -> (forall i, 0 <= i < n -> get a i = get c i) -> a = c.
Proof.
  intros [L1 _] [L2 _] H. apply (nth_ext _ _ 0 0); [lia|]. intros k Hk. specialize (H (Z.of_nat k)). unfold get in H. rewrite Nat2Z.id in H. apply H. lia.
Qed.
Lemma w32 x : 0 <= wrap32 x < 2 ^ 32. Proof. apply Z.mod_pos_bound. reflexivity. Qed.
Lemma w64 x : 0 <= wrap64 x < 2 ^ 64. Proof. apply Z.mod_pos_bound. reflexivity. Qed.

(** ** Every step of the seeding can be undone *)

Notation a32 := (array 624 (2 ^ 32)).

Lemma shift_small x : 0 <= x < 2 ^ 32 -> Z.shiftr (Z.shiftr x 27) 27 = 0.
Proof. intros H. rewrite Z.shiftr_shiftr by lia. rewrite Z.shiftr_div_pow2 by lia. apply Z.div_small. split; [lia|]. apply (Z.lt_trans _ (2 ^ 32)); [lia|reflexivity]. Qed.
Lemma mixed_inj x y : 0 <= x < 2 ^ 32 -> 0 <= y < 2 ^ 32 -> mixed x = mixed y -> x = y.
Proof.
  assert (R : forall z, 0 <= z < 2 ^ 32 -> Z.lxor (mixed z) (Z.shiftr (mixed z) 27) = z).
  { intros z H. unfold mixed. rewrite Z.shiftr_lxor, (shift_small z H), Z.lxor_0_r, Z.lxor_assoc, Z.lxor_nilpotent, Z.lxor_0_r. reflexivity. }
  intros Hx Hy E. rewrite <- (R x Hx), <- (R y Hy), E. reflexivity.
Qed.
Lemma lxor_range x y : 0 <= x < 2 ^ 32 -> 0 <= y < 2 ^ 32 -> 0 <= Z.lxor x y < 2 ^ 32.
Proof.
  intros Hx Hy. split; [apply Z.lxor_nonneg; lia|]. destruct (Z.eq_dec (Z.lxor x y) 0) as [->|N]; [reflexivity|].
  assert (P : 0 < Z.lxor x y) by (assert (0 <= Z.lxor x y) by (apply Z.lxor_nonneg; lia); lia). apply Z.log2_lt_pow2; [exact P|].
  apply (Z.le_lt_trans _ _ _ (Z.log2_lxor x y ltac:(lia) ltac:(lia))). apply Z.max_lub_lt.
  - destruct (Z.eq_dec x 0) as [->|]; [reflexivity|]. apply Z.log2_lt_pow2; lia.
  - destruct (Z.eq_dec y 0) as [->|]; [reflexivity|]. apply Z.log2_lt_pow2; lia.
Qed.
Lemma mixed_range x : 0 <= x < 2 ^ 32 -> 0 <= mixed x < 2 ^ 32.
Proof.
  intros H. unfold mixed. apply lxor_range; [exact H|]. rewrite Z.shiftr_div_pow2 by lia. split; [apply Z.div_pos; lia|]. apply (Z.le_lt_trans _ x); [|lia].
  apply Z.div_le_upper_bound; [reflexivity|]. nia.
Qed.
Lemma times_inj c i x y : (c * i) mod 2 ^ 32 = 1 -> 0 <= x < 2 ^ 32 -> 0 <= y < 2 ^ 32 -> wrap32 (c * x) = wrap32 (c * y) -> x = y.
Proof.
  intros C Hx Hy H. unfold wrap32 in H. assert (R : forall z, 0 <= z < 2 ^ 32 -> ((c * z) mod 2 ^ 32 * i) mod 2 ^ 32 = z).
  { intros z Hz. rewrite Z.mul_mod_idemp_l by discriminate. replace (c * z * i) with (c * i * z) by ring. rewrite <- Z.mul_mod_idemp_l by discriminate. rewrite C, Z.mul_1_l. apply Z.mod_small. exact Hz. }
  rewrite <- (R x Hx), <- (R y Hy), H. reflexivity.
Qed.
Lemma plus_inj c x y : 0 <= x < 2 ^ 32 -> 0 <= y < 2 ^ 32 -> wrap32 (x + c) = wrap32 (y + c) -> x = y.
Proof.
  intros Hx Hy H. unfold wrap32 in H. assert (R : forall z, 0 <= z < 2 ^ 32 -> ((z + c) mod 2 ^ 32 - c) mod 2 ^ 32 = z).
  { intros z Hz. rewrite Zminus_mod_idemp_l. replace (z + c - c) with z by ring. apply Z.mod_small. exact Hz. }
  rewrite <- (R x Hx), <- (R y Hy), H. reflexivity.
Qed.
Lemma lxor_inj c x y : Z.lxor x c = Z.lxor y c -> x = y.
Proof. intros H. rewrite <- (Z.lxor_0_r x), <- (Z.lxor_0_r y), <- (Z.lxor_nilpotent c), <- !Z.lxor_assoc, H. reflexivity. Qed.
Lemma wrap_lxor_inj c x y : 0 <= c < 2 ^ 32 -> 0 <= x < 2 ^ 32 -> 0 <= y < 2 ^ 32 -> wrap32 (Z.lxor x c) = wrap32 (Z.lxor y c) -> x = y.
Proof. intros Hc Hx Hy H. unfold wrap32 in H. rewrite !Z.mod_small in H by (apply lxor_range; assumption). exact (lxor_inj c x y H). Qed.

Lemma places k : 0 <= k -> let n := k mod 624 in let p := (k + 306) mod 624 in let q := (k + 317) mod 624 in let m := (k + 623) mod 624 in
  (0 <= n < 624 /\ 0 <= p < 624 /\ 0 <= q < 624 /\ 0 <= m < 624) /\ n <> p /\ n <> q /\ n <> m /\ p <> q /\ p <> m /\ q <> m.
Proof.
  intros K. cbv zeta. repeat (split; try (apply Z.mod_pos_bound; reflexivity));
    intros H; pose proof (Z.div_mod k 624 ltac:(lia)); pose proof (Z.div_mod (k + 306) 624 ltac:(lia)); pose proof (Z.div_mod (k + 317) 624 ltac:(lia));
    pose proof (Z.div_mod (k + 623) 624 ltac:(lia)); lia.
Qed.

(** What one exchange of three places leaves behind. *)
Lemma three a n p q x y z : a32 a -> 0 <= n < 624 -> 0 <= p < 624 -> 0 <= q < 624 -> n <> p -> n <> q -> p <> q ->
  let c := put_at (put_at (put_at a p x) q y) n z in
  get c n = z /\ get c p = x /\ get c q = y /\ forall i, 0 <= i -> i <> n -> i <> p -> i <> q -> get c i = get a i.
Proof.
  intros A Hn Hp Hq NP NQ PQ. cbv zeta. unfold get, put_at. destruct A as [L _]. split; [|split; [|split]].
  - apply upd_same. rewrite !upd_length. lia.
  - rewrite !upd_other by lia. apply upd_same. lia.
  - rewrite upd_other by lia. apply upd_same. rewrite upd_length. lia.
  - intros i Hi N1 N2 N3. rewrite !upd_other by lia. reflexivity.
Qed.

Lemma step1_array v a k : a32 a -> 0 <= k -> a32 (seed_step1 v a k).
Proof. intros A K. unfold seed_step1. cbv zeta. repeat apply put_array; try apply w32. exact A. Qed.
Lemma step2_array a k : a32 a -> 0 <= k -> a32 (seed_step2 a k).
Proof. intros A K. unfold seed_step2. cbv zeta. repeat apply put_array; try apply w32. exact A. Qed.

Definition offset1 (v k : Z) : Z := if k =? 0 then 1 else if k =? 1 then k mod 624 + v else k mod 624.
Lemma step1_place v a k : a32 a -> 0 <= k -> get (seed_step1 v a k) (k mod 624) =
  wrap32 (wrap32 (1664525 * mixed (Z.lxor (Z.lxor (get a (k mod 624)) (get a ((k + 306) mod 624))) (get a ((k + 623) mod 624)))) + offset1 v k).
Proof.
  intros A K. unfold seed_step1. cbv zeta. fold (offset1 v k). apply (put_same _ 624 (2 ^ 32)); [|apply Z.mod_pos_bound; reflexivity].
  repeat apply put_array; try apply w32. exact A.
Qed.
Lemma step1_offset v w a k : offset1 v k = offset1 w k -> seed_step1 v a k = seed_step1 w a k.
Proof. intros H. unfold seed_step1. cbv zeta. fold (offset1 v k) (offset1 w k). rewrite H. reflexivity. Qed.
Lemma step1_inj v w a c k : a32 a -> a32 c -> 0 <= k -> offset1 v k = offset1 w k -> seed_step1 v a k = seed_step1 w c k -> a = c.
Proof.
  intros A C K O H. destruct (places k K) as ((Hn & Hp & Hq & Hm) & NP & NQ & NM & PQ & PM & QM). unfold seed_step1 in H. cbv zeta in *. fold (offset1 v k) (offset1 w k) in H. rewrite O in H.
  set (n := k mod 624) in *. set (p := (k + 306) mod 624) in *. set (q := (k + 317) mod 624) in *. set (m := (k + 623) mod 624) in *.
  rewrite !(put_other _ p q) in H by lia.
  set (r1 := wrap32 (1664525 * mixed (Z.lxor (Z.lxor (get a n) (get a p)) (get a m)))) in *. set (s1 := wrap32 (1664525 * mixed (Z.lxor (Z.lxor (get c n) (get c p)) (get c m)))) in *.
  destruct (three a n p q (wrap32 (get a p + r1)) (wrap32 (get a q + wrap32 (r1 + offset1 w k))) (wrap32 (r1 + offset1 w k)) A Hn Hp Hq NP NQ PQ) as (A1 & A2 & A3 & A4).
  destruct (three c n p q (wrap32 (get c p + s1)) (wrap32 (get c q + wrap32 (s1 + offset1 w k))) (wrap32 (s1 + offset1 w k)) C Hn Hp Hq NP NQ PQ) as (C1 & C2 & C3 & C4).
  cbv zeta in *. rewrite <- H in C1, C2, C3, C4. rewrite A1 in C1. rewrite A2 in C2. rewrite A3 in C3.
  assert (R : r1 = s1) by (apply (plus_inj (offset1 w k)); [apply w32|apply w32|exact C1]).
  rewrite <- R in C2, C3. apply (plus_inj r1) in C2; [|apply (get_range _ _ _ _ A Hp)|apply (get_range _ _ _ _ C Hp)].
  apply plus_inj in C3; [|apply (get_range _ _ _ _ A Hq)|apply (get_range _ _ _ _ C Hq)].
  assert (M : get a m = get c m) by (rewrite <- (A4 m), <- (C4 m) by lia; reflexivity).
  assert (N : get a n = get c n).
  { unfold r1, s1 in R. apply (times_inj _ 4276115653) in R; [|reflexivity| |].
    - apply mixed_inj in R.
      + rewrite C2, M in R. apply lxor_inj, lxor_inj in R. exact R.
      + repeat apply lxor_range; eapply get_range; eassumption.
      + repeat apply lxor_range; eapply get_range; eassumption.
    - apply mixed_range. repeat apply lxor_range; eapply get_range; eassumption.
    - apply mixed_range. repeat apply lxor_range; eapply get_range; eassumption. }
  apply (array_ext _ _ _ _ A C). intros i Hi. destruct (Z.eq_dec i n) as [->|]; [exact N|]. destruct (Z.eq_dec i p) as [->|]; [exact C2|].
  destruct (Z.eq_dec i q) as [->|]; [exact C3|]. rewrite <- (A4 i), <- (C4 i) by lia. reflexivity.
Qed.

Lemma step2_inj a c k : a32 a -> a32 c -> 0 <= k -> seed_step2 a k = seed_step2 c k -> a = c.
Proof.
  intros A C K H. destruct (places k K) as ((Hn & Hp & Hq & Hm) & NP & NQ & NM & PQ & PM & QM). unfold seed_step2 in H. cbv zeta in *.
  set (n := k mod 624) in *. set (p := (k + 306) mod 624) in *. set (q := (k + 317) mod 624) in *. set (m := (k + 623) mod 624) in *.
  rewrite !(put_other _ p q) in H by lia.
  set (r1 := wrap32 (1566083941 * mixed (wrap32 (get a n + get a p + get a m)))) in *. set (s1 := wrap32 (1566083941 * mixed (wrap32 (get c n + get c p + get c m)))) in *.
  destruct (three a n p q (wrap32 (Z.lxor (get a p) r1)) (wrap32 (Z.lxor (get a q) (wrap32 (r1 - n)))) (wrap32 (r1 - n)) A Hn Hp Hq NP NQ PQ) as (A1 & A2 & A3 & A4).
  destruct (three c n p q (wrap32 (Z.lxor (get c p) s1)) (wrap32 (Z.lxor (get c q) (wrap32 (s1 - n)))) (wrap32 (s1 - n)) C Hn Hp Hq NP NQ PQ) as (C1 & C2 & C3 & C4).
  cbv zeta in *. rewrite <- H in C1, C2, C3, C4. rewrite A1 in C1. rewrite A2 in C2. rewrite A3 in C3.
  assert (R : r1 = s1) by (apply (plus_inj (- n)); [apply w32|apply w32|exact C1]).
  rewrite <- R in C2, C3. apply (wrap_lxor_inj r1) in C2; [|apply w32|apply (get_range _ _ _ _ A Hp)|apply (get_range _ _ _ _ C Hp)].
  apply wrap_lxor_inj in C3; [|apply w32|apply (get_range _ _ _ _ A Hq)|apply (get_range _ _ _ _ C Hq)].
  assert (M : get a m = get c m) by (rewrite <- (A4 m), <- (C4 m) by lia; reflexivity).
  assert (N : get a n = get c n).
  { unfold r1, s1 in R. apply (times_inj _ 1786162797) in R; [|reflexivity|apply mixed_range, w32|apply mixed_range, w32].
    apply mixed_inj in R; [|apply w32|apply w32]. rewrite C2, M, <- !Z.add_assoc in R. apply plus_inj in R; [exact R|eapply get_range; eassumption|eapply get_range; eassumption]. }
  apply (array_ext _ _ _ _ A C). intros i Hi. destruct (Z.eq_dec i n) as [->|]; [exact N|]. destruct (Z.eq_dec i p) as [->|]; [exact C2|].
  destruct (Z.eq_dec i q) as [->|]; [exact C3|]. rewrite <- (A4 i), <- (C4 i) by lia. reflexivity.
Qed.

Lemma fold_array step : (forall a k, a32 a -> 0 <= k -> a32 (step a k)) -> forall ks a, a32 a -> Forall (fun k => 0 <= k) ks -> a32 (fold_left step ks a).
Proof. intros S1 ks. induction ks as [|k ks IH]; intros a A K; [exact A|]. cbn [fold_left]. apply IH; [apply S1; [exact A|exact (Forall_inv K)]|exact (Forall_inv_tail K)]. Qed.
Lemma fold_inj step step' (ok : Z -> Prop) : (forall a k, a32 a -> 0 <= k -> a32 (step a k)) -> (forall a k, a32 a -> 0 <= k -> a32 (step' a k)) ->
  (forall a c k, a32 a -> a32 c -> 0 <= k -> ok k -> step a k = step' c k -> a = c) ->
  forall ks a c, a32 a -> a32 c -> Forall (fun k => 0 <= k /\ ok k) ks -> fold_left step ks a = fold_left step' ks c -> a = c.
Proof.
  intros S1 S2 IJ ks. induction ks as [|k ks IH]; intros a c A C K H; [exact H|]. cbn [fold_left] in H. pose proof (Forall_inv K) as [K1 K2].
  apply (IJ a c k A C K1 K2). apply (IH _ _ (S1 a k A K1) (S2 c k C K1) (Forall_inv_tail K) H).
Qed.
Lemma count_low i n : Forall (fun k => i <= k) (count_from i n).
Proof. apply Forall_forall. intros k H. unfold count_from in H. apply in_map_iff in H. destruct H as (j & <- & _). lia. Qed.
Lemma count_two i n : count_from i (S (S n)) = i :: (i + 1) :: count_from (i + 2) n.
Proof.
  unfold count_from. cbn [seq map]. change (Z.of_nat 0) with 0. change (Z.of_nat 1) with 1. rewrite Z.add_0_r. do 2 f_equal. rewrite <- seq_shift, <- seq_shift, !map_map. apply map_ext. intros j. lia.
Qed.

Lemma fold_two {A B} (f : A -> B -> A) x y l a : fold_left f (x :: y :: l) a = fold_left f l (f (f a x) y).
Proof. reflexivity. Qed.
Definition start : list Z := repeat 2341178251 (Z.to_nat 624).
Lemma start_array : a32 start.
Proof.
  split; [unfold start; rewrite repeat_length; apply Z2Nat.id; lia|]. apply Forall_forall. intros x H. apply repeat_spec in H. subst x. lia.
Qed.
Lemma words_array v : a32 (seed_words v).
Proof.
  unfold seed_words. fold start. apply fold_array; [apply step2_array| |].
  - apply fold_array; [apply step1_array|exact start_array|apply count_low].
  - apply (Forall_impl _ (P := fun k => 624 <= k)); [intros; lia|apply count_low].
Qed.

(** Different 32-bit seeds fill the array differently. *)
Lemma words_inj_any v w ks n st : a32 st -> Forall (fun k => 0 <= k) ks -> 0 <= v < 2 ^ 32 -> 0 <= w < 2 ^ 32 ->
  fold_left seed_step2 ks (fold_left (seed_step1 v) (count_from 0 (S (S n))) st) = fold_left seed_step2 ks (fold_left (seed_step1 w) (count_from 0 (S (S n))) st) -> v = w.
Proof.
  intros ST KS V W H.
  assert (A1 : forall x, a32 (fold_left (seed_step1 x) (count_from 0 (S (S n))) st)) by (intros x; apply fold_array; [apply step1_array|exact ST|apply count_low]).
  apply (fold_inj seed_step2 seed_step2 (fun _ => True)) in H; [|apply step2_array|apply step2_array|intros a c k A C K _; apply step2_inj; assumption|apply A1|apply A1|].
  2:{ apply (Forall_impl _ (P := fun k => 0 <= k)); [intros; split; [lia|constructor]|exact KS]. }
  clear A1. rewrite count_two, !fold_two in H. rewrite (step1_offset v w st 0 eq_refl) in H.
  assert (A : a32 (seed_step1 w st 0)) by (apply step1_array; [exact ST|lia]). set (a := seed_step1 w st 0) in *. clearbody a. rewrite !Z.add_0_l in H.
  assert (E : seed_step1 v a 1 = seed_step1 w a 1).
  { revert H. apply (fold_inj (seed_step1 v) (seed_step1 w) (fun k => 2 <= k)).
    - apply step1_array.
    - apply step1_array.
    - intros b c k B C K K2 E. apply (step1_inj v w b c k B C K); [|exact E]. unfold offset1. destruct (Z.eqb_spec k 0); [lia|]. destruct (Z.eqb_spec k 1); [lia|]. reflexivity.
    - apply step1_array; [exact A|lia].
    - apply step1_array; [exact A|lia].
    - apply (Forall_impl _ (P := fun k => 2 <= k)); [intros; split; lia|apply count_low]. }
  apply (f_equal (fun l => get l (1 mod 624))) in E. cbv beta in E. rewrite !step1_place in E by (exact A || lia).
  set (r1 := wrap32 (1664525 * _)) in E. clearbody r1.
  assert (O : forall x, r1 + offset1 x 1 = x + (1 + r1)) by (intros x; unfold offset1; change (1 =? 0) with false; change (1 =? 1) with true; change (1 mod 624) with 1; cbv iota; ring).
  rewrite !O in E. apply plus_inj in E; assumption.
Qed.
Lemma seed_words_is : exists n ks, Forall (fun k => 0 <= k) ks /\ forall v, seed_words v = fold_left seed_step2 ks (fold_left (seed_step1 v) (count_from 0 (S (S n))) start).
Proof.
  assert (CN : exists n, Z.to_nat 624 = S (S n)) by (exists (Z.to_nat 622); lia). destruct CN as [n CN]. exists n, (count_from 624 (Z.to_nat 624)).
  split; [apply (Forall_impl _ (P := fun k => 624 <= k)); [intros; lia|apply count_low]|]. intros v. rewrite <- CN. reflexivity.
Qed.
Lemma words_inj v w : 0 <= v < 2 ^ 32 -> 0 <= w < 2 ^ 32 -> seed_words v = seed_words w -> v = w.
Proof.
  intros V W H. destruct seed_words_is as (n & ks & KS & E). rewrite !E in H. exact (words_inj_any v w ks n start start_array KS V W H).
Qed.

Lemma join_spec : forall n a, length a = (2 * n)%nat -> length (join a) = n /\ Forall (fun x => 0 <= x < 2 ^ 64) (join a).
Proof.
  induction n as [|n IH]; intros a H; [destruct a; [|discriminate]; split; [reflexivity|constructor]|].
  destruct a as [|x [|y a]]; cbn [length] in H; try lia. cbn [join]. destruct (IH a) as [A B]; [lia|]. split; [cbn [length]; lia|]. constructor; [apply w64|exact B].
Qed.
Lemma join_inj : forall n a c, length a = (2 * n)%nat -> length c = (2 * n)%nat -> Forall (fun x => 0 <= x < 2 ^ 32) a -> Forall (fun x => 0 <= x < 2 ^ 32) c -> join a = join c -> a = c.
Proof.
  induction n as [|n IH]; intros a c LA LC A C H; [destruct a; [|discriminate]; destruct c; [reflexivity|discriminate]|].
  destruct a as [|x [|y a]]; cbn [length] in LA; try lia. destruct c as [|x' [|y' c]]; cbn [length] in LC; try lia. cbn [join] in H. apply (f_equal (fun l => (hd 0 l, tl l))) in H. cbn [hd tl] in H. apply pair_equal_spec in H. destruct H as [H1 H2].
  pose proof (Forall_inv A) as X. pose proof (Forall_inv (Forall_inv_tail A)) as Y. pose proof (Forall_inv C) as X'. pose proof (Forall_inv (Forall_inv_tail C)) as Y'. cbv beta in *.
  assert (T : 2 ^ 32 = 4294967296) by reflexivity. unfold wrap64 in H1. rewrite !Z.mod_small in H1 by lia. rewrite T in *.
  assert (y = y') as -> by lia. assert (x = x') as -> by lia. pose proof (Forall_inv_tail (Forall_inv_tail A)). pose proof (Forall_inv_tail (Forall_inv_tail C)).
  do 2 f_equal. apply (IH a c); auto; lia.
Qed.

Lemma state_words v : exists w r, avoid_zero (join (seed_words v)) = w :: r /\ length r = Z.to_nat 311 /\ Forall (fun x => 0 <= x < 2 ^ 64) (w :: r) /\ exists x, In x (w :: r) /\ x <> 0.
Proof.
  destruct (words_array v) as [L F]. destruct (join_spec (Z.to_nat 312) (seed_words v)) as [L2 F2]; [lia|].
  destruct (join (seed_words v)) as [|w r]; [cbn [length] in L2; lia|]. cbn [length] in L2. unfold avoid_zero.
  destruct ((high w =? 0) && forallb (Z.eqb 0) r) eqn:E.
  - exists (2 ^ 63), r. split; [reflexivity|]. split; [lia|]. split; [constructor; [lia|exact (Forall_inv_tail F2)]|]. exists (2 ^ 63). split; [left; reflexivity|discriminate].
  - exists w, r. split; [reflexivity|]. split; [lia|]. split; [exact F2|]. apply andb_false_iff in E. destruct E as [E|E].
    + exists w. split; [left; reflexivity|]. intros ->. discriminate.
    + assert (X : exists x, In x r /\ x <> 0).
      { clear - E. induction r as [|y r IH]; [discriminate|]. cbn [forallb] in E. destruct (Z.eqb_spec 0 y) as [Y|Y].
        - destruct (IH E) as (x & A & B). exists x. split; [right; exact A|exact B].
        - exists y. split; [left; reflexivity|congruence]. }
      destruct X as (x & A & B). exists x. split; [right; exact A|exact B].
Qed.

(** Seeds that differ in their low 32 bits give different engines, unless both give the state
    that replaces the one of zeros. *)
Theorem C95_different s1 s2 : s1 mod 2 ^ 32 <> s2 mod 2 ^ 32 ->
  e_words (reseed s1) <> e_words (reseed s2) \/ e_words (reseed s1) = 2 ^ 63 :: repeat 0 (Z.to_nat 311).
Proof.
  intros N. unfold reseed. cbn [e_words]. set (v := wrap32 s1). set (w := wrap32 s2).
  assert (NJ : join (seed_words v) <> join (seed_words w)).
  { intros E. apply N. destruct (words_array v) as [L1 F1]. destruct (words_array w) as [L2 F2]. apply (join_inj (Z.to_nat 312)) in E; [|lia|lia|exact F1|exact F2].
    apply words_inj in E; [exact E|apply w32|apply w32]. }
  destruct (words_array v) as [L1 _]. destruct (words_array w) as [L2 _].
  destruct (join_spec (Z.to_nat 312) (seed_words v)) as [J1 _]; [lia|]. destruct (join_spec (Z.to_nat 312) (seed_words w)) as [J2 _]; [lia|].
  assert (ZR : forall r n, length r = n -> forallb (Z.eqb 0) r = true -> r = repeat 0 n).
  { intros r n <-. induction r as [|x r IH]; [reflexivity|]. cbn [forallb length repeat]. intros H. apply andb_prop in H. destruct H as [A B]. apply Z.eqb_eq in A. rewrite (IH B) at 1. congruence. }
  destruct (join (seed_words v)) as [|x r]; [cbn [length] in J1; lia|]. destruct (join (seed_words w)) as [|y t]; [cbn [length] in J2; lia|]. cbn [length] in J1, J2. unfold avoid_zero.
  destruct ((high x =? 0) && forallb (Z.eqb 0) r) eqn:E1.
  - right. apply andb_prop in E1. destruct E1 as [_ E1]. f_equal. apply ZR; [lia|exact E1].
  - destruct ((high y =? 0) && forallb (Z.eqb 0) t) eqn:E2; [|left; exact NJ].
    apply andb_prop in E2. destruct E2 as [_ E2]. destruct (list_eq_dec Z.eq_dec (x :: r) (2 ^ 63 :: t)) as [E|E]; [|left; exact E]. right. rewrite E. f_equal. apply ZR; [lia|exact E2].
Qed.
Print Assumptions C95_different.

(** ** Drawing *)

Definition sound (e : engine) : Prop := array 312 (2 ^ 64) (e_words e) /\ 0 <= e_pos e <= 312.
Lemma reseed_sound s : sound (reseed s).
Proof.
  unfold reseed. destruct (state_words (wrap32 s)) as (w & r & E & L & F & _). split; cbn [e_words e_pos]; [|lia]. rewrite E. split; [cbn [length]; lia|exact F].
Qed.
Lemma twist_sound a : array 312 (2 ^ 64) a -> array 312 (2 ^ 64) (twist a).
Proof.
  unfold twist. generalize (count_from 0 (Z.to_nat 312)). intros ks. revert a. induction ks as [|k ks IH]; intros a A; [exact A|]. cbn [fold_left]. apply IH. unfold twist_step. apply put_array; [exact A|apply w64].
Qed.
Lemma draw_sound e : sound e -> 0 <= fst (draw e) < 2 ^ 64 /\ sound (snd (draw e)).
Proof.
  intros [A P]. unfold draw. destruct (Z.leb_spec 312 (e_pos e)); cbn [fst snd e_words e_pos]; (split; [apply w64|]); split; cbn [e_words e_pos]; try lia; [apply twist_sound; exact A|exact A].
Qed.
Lemma draws_sound n : forall e, sound e -> Forall (fun x => 0 <= x < 2 ^ 64) (fst (draws n e)) /\ length (fst (draws n e)) = n /\ sound (snd (draws n e)).
Proof.
  induction n as [|n IH]; intros e S0; cbn [draws]; [split; [constructor|split; [reflexivity|exact S0]]|]. pose proof (draw_sound e S0) as [D1 D2].
  destruct (draw e) as [x e1]. cbn [fst snd] in *. destruct (IH e1 D2) as (A & B & C). destruct (draws n e1) as [xs e2]. cbn [fst snd length] in *. split; [constructor; assumption|split; [congruence|exact C]].
Qed.

(** All numbers drawn have 64 bits, after any seed and any number of draws; a newly seeded engine
    does not only give zeros for want of a word other than zero. *)
Theorem C95_draws seed n : let '(xs, e) := draws n (reseed seed) in
  length xs = n /\ Forall (fun x => 0 <= x < 2 ^ 64) xs /\ length (e_words e) = Z.to_nat 312 /\ Forall (fun x => 0 <= x < 2 ^ 64) (e_words e) /\ 0 <= e_pos e <= 312.
Proof.
  destruct (draws_sound n _ (reseed_sound seed)) as (A & B & [[C1 C2] D]). destruct (draws n (reseed seed)) as [xs e]. cbn [fst snd] in *.
  split; [exact B|]. split; [exact A|]. split; [lia|]. split; [exact C2|exact D].
Qed.
Print Assumptions C95_draws.
Theorem C95_nonzero seed : exists x, In x (e_words (reseed seed)) /\ x <> 0.
Proof. unfold reseed. cbn [e_words]. destruct (state_words (wrap32 seed)) as (w & r & -> & _ & _ & H). exact H. Qed.
Print Assumptions C95_nonzero.

(** The state string restores the engine: the numbers drawn afterwards are those that would have
    been drawn without the interruption. *)
Theorem C95_state_string seed n other m : let e := snd (draws n (reseed seed)) in
  from_state_string other (state_string e) = e /\ draws m (from_state_string other (state_string e)) = draws m e.
Proof.
  cbv zeta. destruct (draws_sound n _ (reseed_sound seed)) as (_ & _ & [[L F] P]). set (e := snd (draws n (reseed seed))) in *.
  assert (E : from_state_string other (state_string e) = e); [|rewrite E; split; reflexivity].
  unfold from_state_string, state_string. set (r := e_words e ++ [e_pos e]).
  assert (LR : length r = 313%nat) by (unfold r; rewrite app_length; cbn [length]; lia).
  assert (RR : read_rng 313 (show_rng r) = Some (r, [])).
  { pose proof (read_rng_show r []) as R. rewrite LR, app_nil_r in R. apply (R) with (w := []).
    - unfold r. apply Forall_app. split; [exact F|]. constructor; [lia|constructor].
    - exact Logic.I.
    - reflexivity.
    - unfold r. destruct (e_words e); discriminate. }
  rewrite RR. unfold r. rewrite removelast_last, last_last. destruct e. reflexivity.
Qed.
Print Assumptions C95_state_string.

(** Two seeds of the usual kind meet the condition of [C95_different], and a seed from the clock in
    nanoseconds that of [C95_same]. *)
Example C95_case : 123456 mod 2 ^ 32 <> 123457 mod 2 ^ 32 /\ 1700000000000000000 mod 2 ^ 32 = (1700000000000000000 - 395810627 * 2 ^ 32) mod 2 ^ 32.
Proof. split; [discriminate|reflexivity]. Qed.
