(** Facts about decimal digit strings. *)
From Coq Require Import List Ascii String ZArith Bool Lia.
From Verif Require Import Base Dbl.
Import ListNotations.
Local Open Scope Z_scope.

Lemma code_chr : forall z, 0 <= z < 256 -> code (chr z) = z.
Proof.
  intros z Hz. unfold code, chr.
  rewrite N_ascii_embedding by lia. lia.
Qed.

Lemma code_range : forall c, 0 <= code c < 256.
Proof.
  intros c. unfold code. pose proof (N_ascii_bounded c). lia.
Qed.

Lemma chr_code : forall c, chr (code c) = c.
Proof.
  intros c. unfold code, chr. rewrite N2Z.id. apply ascii_N_embedding.
Qed.

Lemma code_inj : forall c d, code c = code d -> c = d.
Proof. intros c d H. rewrite <- (chr_code c), <- (chr_code d), H. reflexivity. Qed.

Lemma dig_code : forall d, 0 <= d <= 9 -> code (dig d) = 48 + d.
Proof. intros. unfold dig. apply code_chr. lia. Qed.

Lemma undig_dig : forall d, 0 <= d <= 9 -> undig (dig d) = d.
Proof. intros. unfold undig. rewrite dig_code; lia. Qed.

Lemma dig_undig : forall c, is_digit c = true -> dig (undig c) = c.
Proof.
  intros c H. unfold is_digit in H. apply andb_prop in H as [H1 H2].
  apply Z.leb_le in H1, H2. unfold dig, undig.
  replace (48 + (code c - 48)) with (code c) by lia. apply chr_code.
Qed.

Lemma is_digit_dig : forall d, 0 <= d <= 9 -> is_digit (dig d) = true.
Proof. intros. unfold is_digit. rewrite dig_code by lia. lia. Qed.

Lemma is_digit_range : forall c, is_digit c = true -> 0 <= undig c <= 9.
Proof.
  intros c H. unfold is_digit in H. apply andb_prop in H as [H1 H2].
  apply Z.leb_le in H1, H2. unfold undig. lia.
Qed.

Lemma digits_val_app : forall l a,
  fold_left (fun a c => 10 * a + undig c) l a
  = a * 10 ^ Z.of_nat (List.length l) + digits_val l.
Proof.
  unfold digits_val. induction l as [|c l IH]; intros a.
  - cbn. lia.
  - cbn [fold_left List.length]. rewrite IH, (IH (10 * 0 + undig c)).
    rewrite Nat2Z.inj_succ, Z.pow_succ_r by lia. lia.
Qed.

Lemma digits_val_cons : forall c l,
  digits_val (c :: l) = undig c * 10 ^ Z.of_nat (List.length l) + digits_val l.
Proof.
  intros. unfold digits_val at 1. cbn [fold_left].
  rewrite digits_val_app. f_equal.
Qed.

Lemma digits_val_app2 : forall l1 l2,
  digits_val (l1 ++ l2) = digits_val l1 * 10 ^ Z.of_nat (List.length l2) + digits_val l2.
Proof.
  intros. unfold digits_val at 1. rewrite fold_left_app.
  rewrite digits_val_app. reflexivity.
Qed.

Lemma digits_val_bound : forall l,
  forallb is_digit l = true -> 0 <= digits_val l < 10 ^ Z.of_nat (List.length l).
Proof.
  induction l as [|c l IH]; intros H.
  - cbn. lia.
  - cbn [forallb] in H. apply andb_prop in H as [H1 H2].
    apply is_digit_range in H1. specialize (IH H2).
    rewrite digits_val_cons. cbn [List.length].
    rewrite Nat2Z.inj_succ, Z.pow_succ_r by lia. nia.
Qed.

(** Main invariant of the digit generator. *)
Lemma digits_fuel_spec : forall f n acc,
  0 <= n -> (n < 2 ^ Z.of_nat f) -> (0 < f)%nat ->
  exists ds, digits_fuel f n acc = ds ++ acc
    /\ forallb is_digit ds = true
    /\ digits_val ds = n
    /\ (0 < List.length ds)%nat
    /\ (0 < n -> 10 ^ (Z.of_nat (List.length ds) - 1) <= n)
    /\ (n = 0 -> ds = [dig 0]).
Proof.
  induction f as [|f IH]; intros n acc Hn Hlt Hf; [lia|].
  cbn [digits_fuel].
  destruct (n <? 10) eqn:E.
  - apply Z.ltb_lt in E. exists [dig n].
    split; [reflexivity|]. split; [cbn; rewrite is_digit_dig by lia; reflexivity|].
    split; [rewrite digits_val_cons; cbn; rewrite undig_dig by lia; lia|].
    split; [cbn; lia|]. split; [cbn; lia|]. intros ->. reflexivity.
  - apply Z.ltb_ge in E.
    destruct f as [|f]; [cbn in Hlt; lia|].
    pose proof (Z.mod_pos_bound n 10 ltac:(lia)) as Hm.
    pose proof (Z.div_mod n 10 ltac:(lia)) as Hd.
    assert (Hdiv: n / 10 < 2 ^ Z.of_nat (S f)).
    { rewrite (Nat2Z.inj_succ (S f)), Z.pow_succ_r in Hlt by lia.
      apply Z.div_lt_upper_bound; lia. }
    destruct (IH (n / 10) (dig (n mod 10) :: acc)) as (ds & H1 & H2 & H3 & H4 & H5 & H6);
      [apply Z.div_pos; lia|exact Hdiv|lia|].
    exists (ds ++ [dig (n mod 10)]). rewrite H1.
    split; [rewrite <- app_assoc; reflexivity|].
    split; [rewrite forallb_app, H2; cbn; rewrite is_digit_dig by lia; reflexivity|].
    split. { rewrite digits_val_app2, H3, digits_val_cons. cbn [List.length].
             change (10 ^ Z.of_nat 1) with 10. change (10 ^ Z.of_nat 0) with 1.
             change (digits_val []) with 0. rewrite undig_dig by lia. lia. }
    rewrite app_length. cbn [List.length].
    split; [lia|]. split; [|lia]. intros _.
    assert (Hq : 0 < n / 10) by (apply Z.div_str_pos; lia).
    specialize (H5 Hq).
    replace (Z.of_nat (List.length ds + 1) - 1) with (Z.succ (Z.of_nat (List.length ds) - 1)) by lia.
    rewrite Z.pow_succ_r by lia. lia.
Qed.

Lemma digits_fuel_enough : forall n, 0 <= n -> n < 2 ^ Z.of_nat (S (Z.to_nat (Z.log2 n))).
Proof.
  intros n Hn. destruct (Z.eq_dec n 0) as [->|H0].
  - cbn. lia.
  - pose proof (Z.log2_spec n ltac:(lia)). pose proof (Z.log2_nonneg n).
    rewrite Nat2Z.inj_succ, Z2Nat.id by lia. lia.
Qed.

Lemma digits_spec : forall n, 0 <= n ->
  forallb is_digit (digits n) = true
  /\ digits_val (digits n) = n
  /\ (0 < List.length (digits n))%nat
  /\ (0 < n -> 10 ^ (Z.of_nat (List.length (digits n)) - 1) <= n)
  /\ (n = 0 -> digits n = [dig 0]).
Proof.
  intros n Hn. unfold digits.
  destruct (digits_fuel_spec _ n [] Hn (digits_fuel_enough n Hn) ltac:(lia))
    as (ds & H1 & H2). rewrite H1, app_nil_r. exact H2.
Qed.

Lemma digits_all : forall n, 0 <= n -> forallb is_digit (digits n) = true.
Proof. intros n Hn. apply digits_spec; exact Hn. Qed.

Lemma digits_val_digits : forall n, 0 <= n -> digits_val (digits n) = n.
Proof. intros n Hn. apply digits_spec; exact Hn. Qed.

Lemma digits_nonempty : forall n, 0 <= n -> (0 < List.length (digits n))%nat.
Proof. intros n Hn. apply digits_spec; exact Hn. Qed.

Lemma digits_len_bounds : forall n, 0 < n ->
  10 ^ (Z.of_nat (List.length (digits n)) - 1) <= n < 10 ^ Z.of_nat (List.length (digits n)).
Proof.
  intros n Hn. destruct (digits_spec n ltac:(lia)) as (H1 & H2 & H3 & H4 & H5).
  split; [auto|]. rewrite <- H2 at 1. apply digits_val_bound. exact H1.
Qed.

(** The number of digits is determined by the bounds. *)
Lemma digits_length : forall n k, 0 < k ->
  10 ^ (k - 1) <= n < 10 ^ k -> List.length (digits n) = Z.to_nat k.
Proof.
  intros n k Hk [H1 H2].
  assert (Hn : 0 < n) by (pose proof (Z.pow_pos_nonneg 10 (k-1)); lia).
  destruct (digits_len_bounds n Hn) as [H3 H4].
  set (L := Z.of_nat (List.length (digits n))) in *.
  assert (k - 1 < L) by (apply (Z.pow_lt_mono_r_iff 10); lia).
  assert (L - 1 < k) by (apply (Z.pow_lt_mono_r_iff 10); lia).
  lia.
Qed.

(** No leading zero. *)
Lemma digits_hd : forall n, 0 < n ->
  exists c r, digits n = c :: r /\ is_digit c = true /\ c <> "0"%char.
Proof.
  intros n Hn. destruct (digits_spec n ltac:(lia)) as (H1 & H2 & H3 & H4 & H5).
  specialize (H4 Hn).
  destruct (digits n) as [|c r] eqn:E; [cbn in H3; lia|].
  exists c, r. split; [reflexivity|].
  cbn [forallb] in H1. apply andb_prop in H1 as [Hc Hr]. split; [exact Hc|].
  intros ->. rewrite digits_val_cons in H2.
  change (undig "0") with 0 in H2.
  pose proof (digits_val_bound r Hr). cbn [List.length] in H4.
  rewrite Nat2Z.inj_succ in H4.
  replace (Z.succ (Z.of_nat (List.length r)) - 1) with (Z.of_nat (List.length r)) in H4 by lia.
  lia.
Qed.

Lemma digits_hd_digit : forall n, 0 <= n ->
  exists c r, digits n = c :: r /\ is_digit c = true.
Proof.
  intros n Hn. destruct (digits_spec n ltac:(lia)) as (H1 & H2 & H3 & H4 & H5).
  destruct (digits n) as [|c r] eqn:E; [cbn in H3; lia|].
  exists c, r. split; [reflexivity|]. cbn in H1. apply andb_prop in H1 as [H1 _]. exact H1.
Qed.

Lemma span_digits_app : forall l t,
  forallb is_digit l = true ->
  (match t with c :: _ => is_digit c = false | [] => True end) ->
  span_digits (l ++ t) = (l, t).
Proof.
  induction l as [|c l IH]; intros t H Ht.
  - cbn [app]. destruct t as [|c t]; [reflexivity|]. cbn. rewrite Ht. reflexivity.
  - cbn [forallb] in H. apply andb_prop in H as [H1 H2].
    cbn [app span_digits]. rewrite H1, IH by assumption. reflexivity.
Qed.

(** Two digit strings of the same length with the same value are equal. *)
Lemma digits_val_inj : forall l1 l2,
  forallb is_digit l1 = true -> forallb is_digit l2 = true ->
  List.length l1 = List.length l2 -> digits_val l1 = digits_val l2 -> l1 = l2.
Proof.
  induction l1 as [|c l1 IH]; intros [|d l2] H1 H2 HL HV; try discriminate; [reflexivity|].
  cbn [forallb] in H1, H2. apply andb_prop in H1 as [Hc H1]. apply andb_prop in H2 as [Hd H2].
  cbn [List.length] in HL. injection HL as HL.
  rewrite !digits_val_cons, HL in HV.
  pose proof (digits_val_bound l1 H1) as B1. pose proof (digits_val_bound l2 H2) as B2.
  rewrite HL in B1.
  assert (undig c = undig d) by nia.
  f_equal.
  - rewrite <- (dig_undig c Hc), <- (dig_undig d Hd). f_equal. assumption.
  - apply IH; auto. nia.
Qed.

(** Appending and stripping zeros. *)
Lemma digits_val_zeros : forall n, digits_val (repeat "0"%char n) = 0.
Proof.
  induction n as [|n IH]; [reflexivity|].
  cbn [repeat]. rewrite digits_val_cons, IH. reflexivity.
Qed.

Lemma strip0_spec : forall l, exists n,
  l = strip0 l ++ repeat "0"%char n /\
  (forall l' c, strip0 l = l' ++ [c] -> c <> "0"%char).
Proof.
  induction l as [|c l (n & H1 & H2)].
  - exists 0%nat. split; [reflexivity|]. intros l' c H. destruct l'; discriminate.
  - cbn [strip0]. destruct (strip0 l) as [|d r] eqn:E.
    + unfold ceq. destruct (Ascii.eqb c "0"%char) eqn:Ec.
      * apply Ascii.eqb_eq in Ec. subst c. exists (S n). cbn [repeat app].
        cbn [app] in H1. split; [f_equal; exact H1|]. intros l' c H. destruct l'; discriminate.
      * exists n. cbn [app]. cbn [app] in H1. split; [f_equal; exact H1|].
        intros l' c' H. destruct l' as [|x l']; [|destruct l'; discriminate].
        injection H as <-. intros ->. rewrite Ascii.eqb_refl in Ec. discriminate.
    + exists n. split; [cbn [app]; f_equal; exact H1|].
      intros l' c' H. destruct l' as [|x l']; [discriminate|].
      injection H as -> H. apply (H2 l' c' H).
Qed.

Lemma strip0_digits : forall l, forallb is_digit l = true -> forallb is_digit (strip0 l) = true.
Proof.
  intros l H. destruct (strip0_spec l) as (n & H1 & _).
  rewrite H1, forallb_app in H. apply andb_prop in H. apply H.
Qed.
