(** C82: what the marley program shows while it runs. *)
From Coq Require Import List Ascii String ZArith Bool Lia Reals Lra.
From Coq Require Import Floats.SpecFloat.
From Flocq Require Import Core.
From Verif Require Import Base Dbl DigitsProofs DblProofs DblArith EventSpec Strings Status.
Import ListNotations.
Local Open Scope Z_scope.

(** ** Times *)

(** The two digits of a number below one hundred. *)
Definition two (c : Z) : bytes := [dig (c / 10); dig (c mod 10)].

(** The text of d days and h hours, m minutes and s seconds. *)
Definition time_text (d h m s : Z) : bytes :=
  (if d =? 0 then [] else digits d ++ (if d =? 1 then b " day " else b " days ")) ++ two h ++ ":"%char :: two m ++ ":"%char :: two s.

Lemma digits_one n : 0 <= n < 10 -> digits n = [dig n].
Proof.
  intros H. unfold digits. cbn [digits_fuel]. destruct (Z.ltb_spec n 10); [reflexivity|lia].
Qed.
Lemma digits_two n : 10 <= n < 100 -> digits n = two n.
Proof.
  intros H. unfold digits, two. assert (L : (3 <= Z.to_nat (Z.log2 n))%nat).
  { assert (3 <= Z.log2 n) by (apply Z.log2_le_pow2; cbn; lia). lia. }
  destruct (Z.to_nat (Z.log2 n)) as [|k]; [lia|]. cbn [digits_fuel].
  destruct (Z.ltb_spec n 10); [lia|]. destruct (Z.ltb_spec (n / 10) 10) as [_|G]; [reflexivity|].
  exfalso. assert (n / 10 < 10) by (apply Z.div_lt_upper_bound; lia). lia.
Qed.

Lemma pad2_two c : 0 <= c < 100 -> pad2 c = two c.
Proof.
  intros H. unfold pad2, show_int. destruct (Z.ltb_spec c 0); [lia|]. destruct (Z.ltb_spec c 10) as [L|L].
  - rewrite digits_one by lia. unfold two. rewrite Z.div_small, Z.mod_small by lia. reflexivity.
  - rewrite digits_two by lia. reflexivity.
Qed.

Lemma unit_ok u n d : 0 < u -> 0 < d -> 0 <= n -> n / (u * d) < 2 ^ 31 -> unit_count u n d = Ok (n / (u * d)).
Proof.
  intros Hu Hd Hn L. unfold unit_count. assert (P : 0 < u * d) by (apply Z.mul_pos_pos; lia).
  rewrite Z.quot_div_nonneg by lia. pose proof (Z.div_pos n (u * d) Hn P).
  destruct (Z.leb_spec (- 2 ^ 31) (n / (u * d))); [|lia]. destruct (Z.ltb_spec (n / (u * d)) (2 ^ 31)); [reflexivity|lia].
Qed.

Lemma rest_bound n u d : 0 < u -> 0 < d -> 0 <= n - u * d * (n / (u * d)) < u * d.
Proof.
  intros Hu Hd. assert (P : 0 < u * d) by (apply Z.mul_pos_pos; lia).
  pose proof (Z.mod_pos_bound n (u * d) P). pose proof (Z.div_mod n (u * d)). lia.
Qed.

(** Times are shown as days, hours, minutes and whole seconds that add up to the time,
    each within its range. *)
Theorem C82_duration n e : 0 < e -> 0 <= n -> n / (86400 * e) < 2 ^ 31 ->
  exists d h m s, 0 <= d /\ 0 <= h < 24 /\ 0 <= m < 60 /\ 0 <= s < 60 /\
    86400 * d + 3600 * h + 60 * m + s = n / e /\ duration_to_string n e = Ok (time_text d h m s).
Proof.
  intros He Hn Hb. set (d := n / (86400 * e)) in *.
  pose proof (rest_bound n 86400 e ltac:(lia) He) as B1. fold d in B1. set (n1 := n - 86400 * e * d) in *.
  set (h := n1 / (3600 * e)). pose proof (rest_bound n1 3600 e ltac:(lia) He) as B2. fold h in B2. set (n2 := n1 - 3600 * e * h) in *.
  set (m := n2 / (60 * e)). pose proof (rest_bound n2 60 e ltac:(lia) He) as B3. fold m in B3. set (n3 := n2 - 60 * e * m) in *.
  set (s := n3 / (1 * e)). pose proof (rest_bound n3 1 e ltac:(lia) He) as B4. fold s in B4.
  assert (Hh : 0 <= h < 24). { split; [apply Z.div_pos; lia|apply Z.div_lt_upper_bound; lia]. }
  assert (Hm : 0 <= m < 60). { split; [apply Z.div_pos; lia|apply Z.div_lt_upper_bound; lia]. }
  assert (Hs : 0 <= s < 60). { split; [apply Z.div_pos; lia|apply Z.div_lt_upper_bound; lia]. }
  assert (Hd : 0 <= d) by (apply Z.div_pos; lia).
  exists d, h, m, s. split; [exact Hd|]. split; [exact Hh|]. split; [exact Hm|]. split; [exact Hs|]. split.
  { apply (Z.div_unique_pos n e _ (n3 - 1 * e * s)); [lia|]. unfold n3, n2, n1. ring. }
  unfold duration_to_string. rewrite (unit_ok 86400 n e) by lia. fold d. cbn [bind]. fold n1.
  rewrite (unit_ok 3600 n1 e) by (fold h; lia). fold h. cbn [bind]. fold n2.
  rewrite (unit_ok 60 n2 e) by (fold m; lia). fold m. cbn [bind]. fold n3.
  rewrite (unit_ok 1 n3 e) by (fold s; lia). fold s. cbn [bind].
  rewrite !pad2_two by lia. unfold time_text, show_int.
  destruct (Z.ltb_spec 1 d), (Z.eqb_spec d 1), (Z.eqb_spec d 0), (Z.ltb_spec d 0); try lia; cbn [app b list_ascii_of_string];
    rewrite <- ?app_assoc; reflexivity.
Qed.
Print Assumptions C82_duration.

Lemma two_inj a c : 0 <= a < 100 -> 0 <= c < 100 -> two a = two c -> a = c.
Proof.
  intros Ha Hc E. unfold two in E. injection E as E1 E2.
  assert (A1 : 0 <= a / 10 <= 9). { split; [apply Z.div_pos; lia|]. assert (a / 10 < 10) by (apply Z.div_lt_upper_bound; lia). lia. }
  assert (A2 : 0 <= c / 10 <= 9). { split; [apply Z.div_pos; lia|]. assert (c / 10 < 10) by (apply Z.div_lt_upper_bound; lia). lia. }
  pose proof (Z.mod_pos_bound a 10 ltac:(lia)). pose proof (Z.mod_pos_bound c 10 ltac:(lia)).
  apply (f_equal undig) in E1, E2. rewrite !undig_dig in E1 by lia. rewrite !undig_dig in E2 by lia.
  rewrite (Z.div_mod a 10), (Z.div_mod c 10) by lia. lia.
Qed.

Lemma app_tail_inj {A} (l1 l2 r1 r2 : list A) : List.length r1 = List.length r2 -> l1 ++ r1 = l2 ++ r2 -> l1 = l2 /\ r1 = r2.
Proof.
  intros L E. assert (E1 : List.length l1 = List.length l2).
  { apply (f_equal (@List.length A)) in E. rewrite !app_length in E. lia. }
  revert l2 E E1. induction l1 as [|x l1 IH]; intros [|y l2] E E1; try discriminate E1.
  - split; [reflexivity|exact E].
  - cbn [app] in E. injection E as -> E. injection E1 as E1. destruct (IH l2 E E1) as [-> ->]. split; reflexivity.
Qed.

Lemma digits_stop l1 l2 r1 r2 : forallb is_digit l1 = true -> forallb is_digit l2 = true ->
  l1 ++ " "%char :: r1 = l2 ++ " "%char :: r2 -> l1 = l2.
Proof.
  revert l2. induction l1 as [|x l1 IH]; intros [|y l2] H1 H2 E; cbn [app forallb] in *.
  - reflexivity.
  - injection E as <- _. discriminate H2.
  - injection E as -> _. discriminate H1.
  - injection E as -> E. apply andb_prop in H1 as [_ H1]. apply andb_prop in H2 as [_ H2]. rewrite (IH l2 H1 H2 E). reflexivity.
Qed.

Lemma time_text_inj d h m s d' h' m' s' : 0 <= d -> 0 <= d' -> 0 <= h < 24 -> 0 <= h' < 24 -> 0 <= m < 60 -> 0 <= m' < 60 ->
  0 <= s < 60 -> 0 <= s' < 60 -> time_text d h m s = time_text d' h' m' s' -> d = d' /\ h = h' /\ m = m' /\ s = s'.
Proof.
  intros Hd Hd' Hh Hh' Hm Hm' Hs Hs' E. unfold time_text in E. apply app_tail_inj in E; [|reflexivity]. destruct E as [E1 E2].
  apply (app_tail_inj (two h) (two h')) in E2; [|reflexivity]. destruct E2 as [E2 E3]. injection E3 as E3.
  change (two m ++ ":"%char :: two s = two m' ++ ":"%char :: two s') in E3 || idtac.
  assert (X : two h = two h' /\ two m = two m' /\ two s = two s').
  { unfold two in *. cbn [app] in *. split; [exact E2|]. split; congruence. }
  destruct X as (X1 & X2 & X3). apply two_inj in X1, X2, X3; try lia.
  split; [|tauto].
  destruct (Z.eqb_spec d 0) as [->|N], (Z.eqb_spec d' 0) as [->|N'].
  - reflexivity.
  - exfalso. apply (f_equal (@List.length ascii)) in E1. rewrite app_length in E1. pose proof (digits_nonempty d' Hd'). cbn [List.length] in E1. lia.
  - exfalso. apply (f_equal (@List.length ascii)) in E1. rewrite app_length in E1. pose proof (digits_nonempty d Hd). cbn [List.length] in E1. lia.
  - assert (S1 : exists r, (if d =? 1 then b " day " else b " days ") = " "%char :: r) by (destruct (d =? 1); eexists; reflexivity).
    assert (S2 : exists r, (if d' =? 1 then b " day " else b " days ") = " "%char :: r) by (destruct (d' =? 1); eexists; reflexivity).
    destruct S1 as [r1 S1], S2 as [r2 S2]. rewrite S1, S2 in E1.
    apply digits_stop in E1; [|apply digits_all; lia|apply digits_all; lia].
    rewrite <- (digits_val_digits d Hd), <- (digits_val_digits d' Hd'), E1. reflexivity.
Qed.

(** Two times have the same text if and only if they have the same number of whole seconds. *)
Theorem C82_duration_same n e n' e' t t' : 0 < e -> 0 <= n -> 0 < e' -> 0 <= n' ->
  duration_to_string n e = Ok t -> duration_to_string n' e' = Ok t' -> (t = t' <-> n / e = n' / e').
Proof.
  assert (days : forall n e t, 0 < e -> 0 <= n -> duration_to_string n e = Ok t -> n / (86400 * e) < 2 ^ 31).
  { clear. intros n e t He Hn H. unfold duration_to_string in H. unfold unit_count at 1 in H.
    rewrite Z.quot_div_nonneg in H by lia.
    destruct (Z.ltb_spec (n / (86400 * e)) (2 ^ 31)); [assumption|]. rewrite andb_false_r in H. discriminate H. }
  intros He Hn He' Hn' H H'.
  destruct (C82_duration n e He Hn (days _ _ _ He Hn H)) as (d & h & m & s & Rd & Rh & Rm & Rs & E & T).
  destruct (C82_duration n' e' He' Hn' (days _ _ _ He' Hn' H')) as (d' & h' & m' & s' & Rd' & Rh' & Rm' & Rs' & E' & T').
  rewrite H in T. rewrite H' in T'. injection T as ->. injection T' as ->. rewrite <- E, <- E'. split; intros G.
  - apply time_text_inj in G; try assumption. destruct G as (-> & -> & -> & ->). reflexivity.
  - assert (s = s' /\ m = m' /\ h = h' /\ d = d') as (-> & -> & -> & ->) by lia. reflexivity.
Qed.
Print Assumptions C82_duration_same.

Example C82_duration_case : elapsed_time_string 5 (5 + (2 * 86400 + 3 * 3600 + 25 * 60 + 7) * NS + 999999999) = Ok (b "2 days 03:25:07")
  /\ elapsed_time_string 0 (86400 * NS) = Ok (b "1 day 00:00:00") /\ elapsed_time_string 7 8 = Ok (b "00:00:00").
Proof. repeat split. Qed.

(** The clock used is not monotonic. Once it has been set back the elapsed time is negative
    and its text is no time of day. *)
Theorem C82_duration_back_refuted : ~ (forall start now t, elapsed_time_string start now = Ok t ->
  exists d h m s, 0 <= d /\ 0 <= h < 24 /\ 0 <= m < 60 /\ 0 <= s < 60 /\ t = time_text d h m s).
Proof.
  intros H. destruct (H (5 * NS) 0 (b "00:00:0-5") eq_refl) as (d & h & m & s & Hd & Hh & Hm & Hs & E).
  unfold time_text in E. change (b "00:00:0-5") with (b "00:00:0-" ++ ["5"%char]) in E.
  change (two s) with ([dig (s / 10)] ++ [dig (s mod 10)]) in E.
  assert (G : exists l, (if d =? 0 then [] else digits d ++ (if d =? 1 then b " day " else b " days ")) ++ two h ++ ":"%char :: two m
    ++ ":"%char :: [dig (s / 10)] ++ [dig (s mod 10)] = (l ++ [dig (s / 10)]) ++ [dig (s mod 10)]).
  { eexists ((if d =? 0 then [] else digits d ++ (if d =? 1 then b " day " else b " days ")) ++ two h ++ ":"%char :: two m ++ [":"%char]).
    rewrite <- !app_assoc. cbn [app]. rewrite <- !app_assoc. reflexivity. }
  destruct G as [l G]. rewrite G in E. apply app_inj_tail in E as [E _].
  change (b "00:00:0-") with (b "00:00:0" ++ ["-"%char]) in E. apply app_inj_tail in E as [_ E].
  assert (0 <= s / 10 <= 9). { split; [apply Z.div_pos; lia|]. assert (s / 10 < 10) by (apply Z.div_lt_upper_bound; lia). lia. }
  pose proof (is_digit_dig (s / 10) ltac:(lia)) as D. rewrite <- E in D. discriminate D.
Qed.
Print Assumptions C82_duration_back_refuted.

(** A text from the calendar is shown with a null character after it. *)
Theorem C82_calendar text : (List.length text < 100)%nat -> put_time text = Some (text ++ [chr 0]).
Proof.
  intros H. unfold put_time. destruct (Nat.ltb_spec (List.length text) 100) as [H1|H1]; [|lia]. f_equal.
  assert (R : forall k, trim_right whitespace (chr 0 :: repeat " "%char k) = [chr 0]).
  { intros k. cbn [trim_right]. replace (trim_right whitespace (repeat " "%char k)) with (@nil ascii).
    - reflexivity.
    - induction k as [|k IH]; [reflexivity|]. cbn [repeat trim_right]. rewrite <- IH. reflexivity. }
  clear H H1. generalize (99 - List.length text)%nat. intros k. induction text as [|c t IH].
  - apply R.
  - cbn [app trim_right]. rewrite IH. destruct t; reflexivity.
Qed.
Print Assumptions C82_calendar.

(** ** Amounts of data *)

Local Open Scope R_scope.

Lemma Rdbl_of_int z : (0 <= z <= 2 ^ 53)%Z -> finite_dbl (dbl_of_int z) /\ val (dbl_of_int z) = IZR z.
Proof.
  intros Hz. unfold dbl_of_int. replace (z <? 0)%Z with false by (symmetry; apply Z.ltb_ge; lia). rewrite Z.abs_eq by lia.
  assert (Q : Qr z 1 = IZR z) by (unfold Qr; field).
  assert (F : generic_format radix2 fexp (IZR z)).
  { destruct (Z.eq_dec z (2 ^ 53)) as [->|N].
    - change (IZR (2 ^ 53)) with (bpow radix2 53). apply generic_format_bpow. cbn. lia.
    - change fexp with (FLT_exp (-1074) 53). apply generic_format_FLT. exists (Float radix2 z 0); cbn.
      + unfold F2R; cbn. lra.
      + rewrite Z.abs_eq by lia. lia.
      + lia. }
  assert (E : DblProofs.rnd (Qr z 1) = IZR z). { rewrite Q. apply round_generic; [apply valid_rnd_N|exact F]. }
  destruct (rnd64_correct false z 1 ltac:(lia) ltac:(lia)) as (A & B & _).
  { rewrite E. apply Rle_lt_trans with (IZR (2 ^ 53)); [apply IZR_le; lia|]. change (IZR (2 ^ 53)) with (bpow radix2 53). apply bpow_lt. lia. }
  split; [split|].
  - destruct (rnd64 false z 1); cbn in *; congruence.
  - pose proof (rnd64_valid false z 1 ltac:(lia)) as V. exact V.
  - unfold val. rewrite A, E. reflexivity.
Qed.

Lemma quotient_error y : 1 <= y <= 16384 -> 1 <= rnd y /\ Rabs (rnd y - y) <= / 2 ^ 39.
Proof.
  intros [L U]. assert (V : Valid_exp fexp) by (apply BinarySingleNaN.fexp_correct; reflexivity). split.
  - unfold rnd. apply (round_ge_generic radix2 fexp ZnearestE); [|exact L].
    change 1 with (bpow radix2 0). apply generic_format_bpow. vm_compute. discriminate.
  - unfold rnd. eapply Rle_trans; [apply error_le_half_ulp; exact V|].
    assert (M : Monotone_exp fexp).
    { intros a c Hac. rewrite (fexp_FLT a), (fexp_FLT c). unfold FLT_exp. lia. }
    assert (B : ulp radix2 fexp y <= ulp radix2 fexp (bpow radix2 14)).
    { apply ulp_le; [exact V|exact M|]. rewrite !Rabs_pos_eq; [|apply bpow_ge_0|lra]. change (bpow radix2 14) with 16384. exact U. }
    rewrite ulp_bpow in B. change (fexp (14 + 1)) with (-38)%Z in B.
    replace (bpow radix2 (-38)) with (/ 2 ^ 38) in B; [|cbn; lra]. assert (E : / 2 ^ 39 = / 2 * / 2 ^ 38) by (cbn; lra). rewrite E. lra.
Qed.

(** The text of n / 10^p with p decimals. *)
Lemma pad_digits f p : (0 <= f < 10 ^ Z.of_nat (S p))%Z ->
  List.length (pad_left (digits f) (S p) "0"%char) = S p /\ forallb is_digit (pad_left (digits f) (S p) "0"%char) = true /\
  digits_val (pad_left (digits f) (S p) "0"%char) = f.
Proof.
  intros H. unfold pad_left. assert (L : (List.length (digits f) <= S p)%nat).
  { destruct (Z.eq_dec f 0) as [->|N]; [cbn; lia|]. pose proof (digits_len_bounds f ltac:(lia)) as B.
    assert (10 ^ (Z.of_nat (List.length (digits f)) - 1) < 10 ^ Z.of_nat (S p))%Z as G by lia.
    apply Z.pow_lt_mono_r_iff in G; lia. }
  destruct (Nat.ltb_spec (List.length (digits f)) (S p)) as [G|G].
  - split; [rewrite app_length, repeat_length; lia|]. split.
    + rewrite forallb_app, digits_all by lia. rewrite andb_true_r. apply forallb_forall. intros x Hx. apply repeat_spec in Hx. subst x. reflexivity.
    + rewrite digits_val_app2, digits_val_zeros, digits_val_digits by lia. lia.
  - split; [lia|]. split; [apply digits_all; lia|apply digits_val_digits; lia].
Qed.

Lemma fixed_text x p : finite_dbl x -> 0 < val x -> exists w f, (0 <= w)%Z /\
  show_fixed (S p) x = digits w ++ "."%char :: f /\ List.length f = S p /\ forallb is_digit f = true /\
  Rabs (IZR w + IZR (digits_val f) / 10 ^ S p - val x) <= / 2 / 10 ^ S p.
Proof.
  intros [F1 F2] P. destruct x as [s|s| |s m e]; try discriminate F1.
  { unfold val in P. cbn in P. lra. }
  assert (Hs : s = false). { destruct s; [|reflexivity]. unfold val in P. rewrite SF2R_finite in P. cbn in P.
    pose proof (bpow_gt_0 radix2 e). assert (0 < IZR (Z.pos m)) by (apply IZR_lt; lia). nra. }
  subst s. set (T := (10 ^ Z.of_nat (S p))%Z). assert (HT : (0 < T)%Z) by (apply Z.pow_pos_nonneg; lia).
  assert (ET : IZR T = 10 ^ S p). { unfold T. rewrite <- pow_IZR. reflexivity. }
  set (N := rne_div (dnum m e * T) (dden e)).
  assert (HN : (0 <= N)%Z). { apply rne_div_nonneg; [apply dden_pos|]. pose proof (dnum_pos m e). nia. }
  assert (EN : Rabs (IZR N - val (S754_finite false m e) * IZR T) <= / 2).
  { unfold N. rewrite rne_div_nearest by apply dden_pos. replace (val (S754_finite false m e) * IZR T) with (Qr (dnum m e * T) (dden e)).
    - rewrite Rabs_minus_sym. apply Znearest_half.
    - unfold val. rewrite SF2R_finite. cbn [cond_R]. rewrite <- Qr_dbl. unfold Qr. rewrite mult_IZR. unfold Rdiv. ring. }
  exists (N / T)%Z, (pad_left (digits (N mod T)) (S p) "0"%char).
  pose proof (Z.mod_pos_bound N T HT) as B. destruct (pad_digits (N mod T) p B) as (A1 & A2 & A3).
  split; [apply Z.div_pos; lia|]. split; [reflexivity|]. split; [exact A1|]. split; [exact A2|]. rewrite A3.
  assert (PT : 0 < IZR T) by (apply IZR_lt; exact HT). rewrite <- ET.
  replace (IZR (N / T) + IZR (N mod T) / IZR T - val (S754_finite false m e)) with ((IZR N - val (S754_finite false m e) * IZR T) / IZR T).
  - unfold Rdiv. rewrite Rabs_mult. rewrite (Rabs_pos_eq (/ IZR T)) by (left; apply Rinv_0_lt_compat; exact PT).
    apply Rmult_le_compat_r; [left; apply Rinv_0_lt_compat; exact PT|exact EN].
  - rewrite (Z.div_mod N T) at 1 by lia. rewrite plus_IZR, mult_IZR. field. lra.
Qed.

(** Amounts of data of a thousand bytes or more are shown in the unit in which they are at
    least one and (except for terabytes) less than a thousand, correct to half a unit of
    the last decimal. *)
Theorem C82_bytes n p : (1000 <= n <= 2 ^ 53)%Z -> exists D u w f,
  In (D, u) [(10 ^ 3, "k"%char); (10 ^ 6, "M"%char); (10 ^ 9, "G"%char); (10 ^ 12, "T"%char)]%Z /\
  (D <= n)%Z /\ ((n < 1000 * D)%Z \/ u = "T"%char) /\
  num_bytes_to_string n (S p) = Ok (digits w ++ "."%char :: f ++ " "%char :: u :: b "B") /\
  (0 <= w)%Z /\ List.length f = S p /\ forallb is_digit f = true /\
  Rabs (IZR w + IZR (digits_val f) / 10 ^ S p - IZR n / IZR D) <= / 2 / 10 ^ S p + / 2 ^ 39.
Proof.
  intros Hn. unfold num_bytes_to_string. destruct (Z.ltb_spec n 1000); [lia|].
  assert (K : forall D, (1000 <= D <= 10 ^ 12)%Z -> (D <= n)%Z -> (n < 1000 * D)%Z \/ D = (10 ^ 12)%Z ->
    exists w f, (0 <= w)%Z /\ show_fixed (S p) (SFdiv 53 1024 (dbl_of_int n) (dbl_of_int D)) = digits w ++ "."%char :: f /\
      List.length f = S p /\ forallb is_digit f = true /\
      Rabs (IZR w + IZR (digits_val f) / 10 ^ S p - IZR n / IZR D) <= / 2 / 10 ^ S p + / 2 ^ 39).
  { intros D HD HL HU. destruct (Rdbl_of_int n ltac:(lia)) as [F1 V1]. destruct (Rdbl_of_int D ltac:(lia)) as [F2 V2].
    assert (PD : 0 < IZR D) by (apply IZR_lt; lia).
    assert (Y : 1 <= IZR n / IZR D <= 16384).
    { split.
      - apply Rmult_le_reg_r with (IZR D); [exact PD|]. unfold Rdiv. rewrite Rmult_assoc, Rinv_l, Rmult_1_r, Rmult_1_l by lra. apply IZR_le; lia.
      - apply Rmult_le_reg_r with (IZR D); [exact PD|]. unfold Rdiv. rewrite Rmult_assoc, Rinv_l, Rmult_1_r by lra.
        rewrite <- mult_IZR. apply IZR_le. destruct HU as [HU| ->]; [lia|]. transitivity (2 ^ 53)%Z; [lia|]. vm_compute. discriminate. }
    destruct (quotient_error _ Y) as [Q1 Q2].
    destruct (div_finite (dbl_of_int n) (dbl_of_int D) F1 F2) as [F3 V3].
    { rewrite V2. lra. }
    { rewrite V1, V2, Rabs_pos_eq by lra. apply Rle_trans with (bpow radix2 14); [change (bpow radix2 14) with 16384; lra|]. apply bpow_le. lia. }
    rewrite V1, V2 in V3. destruct (fixed_text _ p F3) as (w & f & W & T & L & A & E); [rewrite V3; lra|].
    exists w, f. split; [exact W|]. split; [exact T|]. split; [exact L|]. split; [exact A|]. rewrite V3 in E.
    replace (IZR w + IZR (digits_val f) / 10 ^ S p - IZR n / IZR D)
      with ((IZR w + IZR (digits_val f) / 10 ^ S p - rnd (IZR n / IZR D)) + (rnd (IZR n / IZR D) - IZR n / IZR D)) by ring.
    eapply Rle_trans; [apply Rabs_triang|]. apply Rplus_le_compat; assumption. }
  destruct (Z.ltb_spec n (10 ^ 6)); [|destruct (Z.ltb_spec n (10 ^ 9)); [|destruct (Z.ltb_spec n (10 ^ 12))]].
  - destruct (K (10 ^ 3)%Z ltac:(lia) ltac:(lia) ltac:(lia)) as (w & f & W & T & L & A & E).
    exists (10 ^ 3)%Z, "k"%char, w, f. rewrite T, <- app_assoc. cbn [In]. repeat split; try assumption; try lia; tauto.
  - destruct (K (10 ^ 6)%Z ltac:(lia) ltac:(lia) ltac:(lia)) as (w & f & W & T & L & A & E).
    exists (10 ^ 6)%Z, "M"%char, w, f. rewrite T, <- app_assoc. cbn [In]. repeat split; try assumption; try lia; tauto.
  - destruct (K (10 ^ 9)%Z ltac:(lia) ltac:(lia) ltac:(lia)) as (w & f & W & T & L & A & E).
    exists (10 ^ 9)%Z, "G"%char, w, f. rewrite T, <- app_assoc. cbn [In]. repeat split; try assumption; try lia; tauto.
  - destruct (K (10 ^ 12)%Z ltac:(lia) ltac:(lia) ltac:(lia)) as (w & f & W & T & L & A & E).
    exists (10 ^ 12)%Z, "T"%char, w, f. rewrite T, <- app_assoc. cbn [In]. repeat split; try assumption; try lia; tauto.
Qed.
Print Assumptions C82_bytes.

Local Open Scope Z_scope.

(** Smaller amounts are shown exactly; a thousand can be shown in the smaller unit. *)
Theorem C82_small n p : 0 <= n < 1000 -> num_bytes_to_string n p = Ok (digits n ++ b " B").
Proof.
  intros H. unfold num_bytes_to_string, show_int. destruct (Z.ltb_spec n 1000); [|lia].
  destruct (Z.ltb_spec n (- 2 ^ 31)); [lia|]. destruct (Z.ltb_spec n 0); [lia|]. reflexivity.
Qed.
Print Assumptions C82_small.

Example C82_bytes_case : num_bytes_to_string 999 2 = Ok (b "999 B") /\ num_bytes_to_string 12345678 2 = Ok (b "12.35 MB")
  /\ num_bytes_to_string 999999 2 = Ok (b "1000.00 kB") /\ num_bytes_to_string 2500000000000 3 = Ok (b "2.500 TB").
Proof. repeat split; vm_compute; reflexivity. Qed.

(** ** When the status lines are printed *)

(** They are printed after the first event and after the last one asked for, and among any
    [interval] events in a row there is one after which they are printed. *)
Theorem C82_interval old num interval : 1 <= interval ->
  shows_status (old + 1) num old interval = true /\ shows_status num num old interval = true /\
  (forall ev, old < ev -> exists k, 0 <= k < interval /\ shows_status (ev + k) num old interval = true) /\
  (forall ev, old < ev -> ev <> num -> 1 < interval -> (shows_status ev num old interval = true <-> exists j, ev = old + 1 + j * interval)).
Proof.
  intros Hi.
  assert (one : forall ev, old < ev -> 1 < interval -> (Z.rem (ev - old) interval =? 1) = true <-> exists j, ev = old + 1 + j * interval).
  { intros ev He H1. rewrite Z.rem_mod_nonneg by lia. rewrite Z.eqb_eq. split.
    - intros E. exists ((ev - old) / interval). pose proof (Z.div_mod (ev - old) interval). lia.
    - intros [j ->]. replace (old + 1 + j * interval - old) with (1 + j * interval) by lia. rewrite Z.mod_add by lia. apply Z.mod_small. lia. }
  assert (first : forall ev, old < ev -> (exists j, ev = old + 1 + j * interval) -> shows_status ev num old interval = true).
  { intros ev He Hj. unfold shows_status. destruct (Z.eqb_spec interval 1) as [->|N]; [rewrite !orb_true_r; reflexivity|].
    rewrite (proj2 (one ev He ltac:(lia)) Hj). reflexivity. }
  split; [apply first; [lia|exists 0; lia]|]. split; [unfold shows_status; rewrite Z.eqb_refl, orb_true_r; reflexivity|]. split.
  - intros ev He. set (r := (ev - old - 1) mod interval). pose proof (Z.mod_pos_bound (ev - old - 1) interval ltac:(lia)) as B.
    fold r in B. pose proof (Z.div_mod (ev - old - 1) interval ltac:(lia)) as D. fold r in D.
    destruct (Z.eq_dec r 0) as [E|E].
    + exists 0. split; [lia|]. apply first; [lia|]. exists ((ev - old - 1) / interval). lia.
    + exists (interval - r). split; [lia|]. apply first; [lia|]. exists ((ev - old - 1) / interval + 1). lia.
  - intros ev He Hn H1. rewrite <- (one ev He H1). unfold shows_status. destruct (Z.eqb_spec ev num); [lia|]. destruct (Z.eqb_spec interval 1); [lia|].
    rewrite !orb_false_r. reflexivity.
Qed.
Print Assumptions C82_interval.

Example C82_interval_case : map (fun k => shows_status (20 + k) 30 20 4) [1; 2; 3; 4; 5; 6; 7; 8; 9; 10] =
  [true; false; false; false; true; false; false; false; true; true].
Proof. reflexivity. Qed.

(** ** The text of the status lines *)

(** They can be shown exactly if the estimated time of the end can be stored in the 64-bit
    number of nanoseconds of a time point, that is, lies before the year 2262. *)
Definition est (ev_count num_events num_old start now : Z) : Z := Z.quot ((now - start) * (num_events - num_old)) (ev_count - num_old).
Definition storable (z : Z) : Prop := - 2 ^ 63 <= z < 2 ^ 63.

Lemma quot_bound n d e k : 0 < d -> 0 < e -> 0 < k -> - (k * e) < Z.quot n d < k * e -> - k < Z.quot n (e * d) < k.
Proof.
  intros Hd He Hk H. rewrite (Z.mul_comm e d), <- Z.quot_quot by lia.
  set (q := Z.quot n d) in *. destruct (Z.le_ge_cases 0 q) as [P|P].
  - rewrite Z.quot_div_nonneg by lia. split; [pose proof (Z.div_pos q e P He); lia|apply Z.div_lt_upper_bound; lia].
  - assert (E : Z.quot q e = - ((- q) / e)). { rewrite <- Z.quot_div_nonneg by lia. rewrite Z.quot_opp_l by lia. lia. }
    rewrite E. assert (0 <= (- q) / e) by (apply Z.div_pos; lia). assert ((- q) / e < k) by (apply Z.div_lt_upper_bound; lia). lia.
Qed.

Lemma unit_defined u n d : 0 < u -> 0 < d -> - 2 ^ 31 < Z.quot n (u * d) < 2 ^ 31 -> unit_count u n d = Ok (Z.quot n (u * d)).
Proof.
  intros Hu Hd H. unfold unit_count. destruct (Z.leb_spec (- 2 ^ 31) (Z.quot n (u * d))); [|lia].
  destruct (Z.ltb_spec (Z.quot n (u * d)) (2 ^ 31)); [reflexivity|lia].
Qed.

Lemma quot_rest n k : 0 < k -> Z.abs (n - k * Z.quot n k) < k.
Proof. intros H. pose proof (Z.quot_rem n k ltac:(lia)). pose proof (Z.rem_bound_abs n k ltac:(lia)). lia. Qed.

Lemma small_quot n u v d : 0 < v -> 0 < d -> Z.abs n < u * v * d -> u < 2 ^ 31 -> - 2 ^ 31 < Z.quot n (v * d) < 2 ^ 31.
Proof.
  intros Hv Hd H Hu. assert (0 < v * d) by lia. destruct (Z.le_ge_cases 0 n) as [P|P].
  - rewrite Z.quot_div_nonneg by lia. assert (n / (v * d) < u) by (apply Z.div_lt_upper_bound; lia). assert (0 <= n / (v * d)) by (apply Z.div_pos; lia). lia.
  - assert (E : Z.quot n (v * d) = - ((- n) / (v * d))). { rewrite <- Z.quot_div_nonneg by lia. rewrite Z.quot_opp_l by lia. lia. }
    rewrite E. assert ((- n) / (v * d) < u) by (apply Z.div_lt_upper_bound; lia). assert (0 <= (- n) / (v * d)) by (apply Z.div_pos; lia). lia.
Qed.

(** A time is shown whenever its number of days is an int. *)
Lemma duration_defined n d : 0 < d -> (exists t, duration_to_string n d = Ok t) <-> - 2 ^ 31 <= Z.quot n (86400 * d) < 2 ^ 31.
Proof.
  intros Hd. split.
  - intros [t H]. unfold duration_to_string in H. unfold unit_count at 1 in H.
    destruct (Z.leb_spec (- 2 ^ 31) (Z.quot n (86400 * d))); [|discriminate H].
    destruct (Z.ltb_spec (Z.quot n (86400 * d)) (2 ^ 31)); [|discriminate H]. lia.
  - intros H. unfold duration_to_string. unfold unit_count at 1.
    destruct (Z.leb_spec (- 2 ^ 31) (Z.quot n (86400 * d))); [|lia]. destruct (Z.ltb_spec (Z.quot n (86400 * d)) (2 ^ 31)); [|lia].
    cbn [andb bind]. pose proof (quot_rest n (86400 * d) ltac:(lia)) as B1.
    set (n1 := n - 86400 * d * Z.quot n (86400 * d)) in *.
    rewrite (unit_defined 3600 n1 d) by (try lia; apply (small_quot n1 24 3600 d); lia). cbn [bind].
    pose proof (quot_rest n1 (3600 * d) ltac:(lia)) as B2. set (n2 := n1 - 3600 * d * Z.quot n1 (3600 * d)) in *.
    rewrite (unit_defined 60 n2 d) by (try lia; apply (small_quot n2 60 60 d); lia). cbn [bind].
    pose proof (quot_rest n2 (60 * d) ltac:(lia)) as B3. set (n3 := n2 - 60 * d * Z.quot n2 (60 * d)) in *.
    rewrite (unit_defined 1 n3 d) by (try lia; apply (small_quot n3 60 1 d); lia). cbn [bind]. eexists. reflexivity.
Qed.

Lemma files_defined files : (forall name n, In (name, n) files -> - 1 <= n) -> exists t, file_lines files = Ok t.
Proof.
  induction files as [|[name n] r IH]; intros H; cbn [file_lines]; [eexists; reflexivity|].
  assert (S : exists t, num_bytes_to_string n 2 = Ok t).
  { specialize (H name n (or_introl eq_refl)). unfold num_bytes_to_string. destruct (Z.ltb_spec n 1000).
    - destruct (Z.ltb_spec n (- 2 ^ 31)); [lia|]. eexists; reflexivity.
    - destruct (n <? 10 ^ 6), (n <? 10 ^ 9), (n <? 10 ^ 12); eexists; reflexivity. }
  destruct S as [t ->]. cbn [bind]. destruct IH as [t' ->]; [intros nm k G; apply (H nm k); right; exact G|]. cbn [bind]. eexists. reflexivity.
Qed.

Theorem C82_defined clock ev num old start now files : old < ev -> storable (now - start) ->
  (forall name n, In (name, n) files -> - 1 <= n) ->
  (exists t, status_lines clock ev num old start now files = Ok t) <->
  storable (est ev num old start now) /\ storable (start + est ev num old start now).
Proof.
  intros He Hs Hf. unfold storable, est in *. unfold status_lines, elapsed_time_string.
  destruct (files_defined files Hf) as [fl ->].
  set (q := Z.quot ((now - start) * (num - old)) (ev - old)).
  assert (D1 : exists t, duration_to_string (now - start) NS = Ok t).
  { apply duration_defined; [reflexivity|]. pose proof (quot_bound (now - start) 1 (86400 * NS) (2 ^ 31) ltac:(lia) ltac:(reflexivity) ltac:(lia)) as B.
    rewrite Z.quot_1_r, Z.mul_1_r in B. unfold NS in *. lia. }
  destruct D1 as [t1 ->]. cbn [bind]. split.
  - intros [t H]. destruct (duration_to_string _ _) as [t2|] in H; [|discriminate H]. cbn [bind] in H.
    destruct (Z.leb_spec (- 2 ^ 63) q), (Z.ltb_spec q (2 ^ 63)); try discriminate H; cbn [andb negb] in H.
    destruct (Z.leb_spec (- 2 ^ 63) (start + q)), (Z.ltb_spec (start + q) (2 ^ 63)); try discriminate H. lia.
  - intros [H1 H2].
    assert (D2 : exists t, duration_to_string ((now - start) * (num - old)) (NS * (ev - old)) = Ok t).
    { apply duration_defined; [unfold NS; lia|]. replace (86400 * (NS * (ev - old))) with (86400 * NS * (ev - old)) by lia.
      pose proof (quot_bound ((now - start) * (num - old)) (ev - old) (86400 * NS) (2 ^ 31) ltac:(lia) ltac:(reflexivity) ltac:(lia)) as B.
      fold q in B. unfold NS in *. lia. }
    destruct D2 as [t2 ->]. cbn [bind].
    destruct (Z.leb_spec (- 2 ^ 63) q), (Z.ltb_spec q (2 ^ 63)); try lia. cbn [andb negb].
    destruct (Z.leb_spec (- 2 ^ 63) (start + q)), (Z.ltb_spec (start + q) (2 ^ 63)); try lia. cbn [andb negb].
    eexists. reflexivity.
Qed.
Print Assumptions C82_defined.

(** A run asked for a trillion events that makes a hundred of them in the first second has
    undefined behaviour when it shows its status. *)
Theorem C82_long_refuted : ~ (forall clock ev num old start now files, old < ev <= num -> storable start -> storable now -> start <= now ->
  exists t, status_lines clock ev num old start now files = Ok t).
Proof.
  intros H. destruct (H (fun _ => []) 100 (10 ^ 12) 0 (1763250000 * NS) (1763250001 * NS) []) as [t E]; try (unfold storable, NS; lia).
  revert E. vm_compute. discriminate.
Qed.
Print Assumptions C82_long_refuted.

(** ** Where the cursor goes *)

(** A terminal: the row and column of the cursor. A newline goes to the start of the next
    row, the sequence of [up] to the start of the row above, that of [erase] stays. Lines do
    not wrap. *)
Fixpoint screen (s : bytes) (r c : Z) : Z * Z :=
  match s with
  | [] => (r, c)
  | x :: s1 =>
      if ceq x nl then screen s1 (r + 1) 0
      else if ceq x (chr 27) then
        match s1 with
        | _ :: z :: s2 => if ceq z "F"%char then screen s2 (r - 1) 0 else screen s2 r c
        | _ => (r, c)
        end
      else screen s1 r (c + 1)
  end.

(** Text that is neither broken by a newline nor contains control sequences. *)
Definition one_line (s : bytes) : Prop := forall c, In c s -> c <> nl /\ c <> chr 27.

(** A text as it reaches the screen when written through the buffer with the automatic status
    lines off. *)
Definition cleared (text : bytes) : bytes := flat_map (fun c => if Ascii.eqb c nl then erase ++ [c] else [c]) text.
Lemma cleared_app s t : cleared (s ++ t) = cleared s ++ cleared t.
Proof. unfold cleared. apply flat_map_app. Qed.

Definition shifts (s : bytes) (k : Z) : Prop := forall t r c, exists c', screen (s ++ t) r c = screen t (r + k) c'.
Definition moves (s : bytes) (k : Z) : Prop := shifts s k /\ shifts (cleared s) k.

Lemma shifts_app s1 s2 k1 k2 : shifts s1 k1 -> shifts s2 k2 -> shifts (s1 ++ s2) (k1 + k2).
Proof.
  intros H1 H2 t r c. rewrite <- app_assoc. destruct (H1 (s2 ++ t) r c) as [c1 ->]. destruct (H2 t (r + k1) c1) as [c2 ->].
  exists c2. rewrite Z.add_assoc. reflexivity.
Qed.
Lemma moves_app s1 s2 k1 k2 : moves s1 k1 -> moves s2 k2 -> moves (s1 ++ s2) (k1 + k2).
Proof. intros [H1 H2] [G1 G2]. split; [|rewrite cleared_app]; apply shifts_app; assumption. Qed.
Lemma shifts_line s : one_line s -> shifts s 0.
Proof.
  induction s as [|x s IH]; intros H t r c.
  - exists c. rewrite Z.add_0_r. reflexivity.
  - destruct (H x (or_introl eq_refl)) as [N1 N2]. cbn [app screen].
    unfold ceq. rewrite (proj2 (Ascii.eqb_neq x nl) N1), (proj2 (Ascii.eqb_neq x (chr 27)) N2).
    apply IH. intros y Hy. apply H. right. exact Hy.
Qed.
Lemma cleared_line s : one_line s -> cleared s = s.
Proof.
  induction s as [|x s IH]; intros H; [reflexivity|]. unfold cleared in *. cbn [flat_map]. destruct (H x (or_introl eq_refl)) as [N1 _].
  rewrite (proj2 (Ascii.eqb_neq x nl) N1), IH; [reflexivity|]. intros y Hy. apply H. right. exact Hy.
Qed.
Lemma moves_line s : one_line s -> moves s 0.
Proof. intros H. split; [|rewrite cleared_line by exact H]; apply shifts_line; exact H. Qed.
Lemma moves_nl : moves [nl] 1.
Proof. split; intros t r c; exists 0; reflexivity. Qed.
Lemma moves_erase : moves erase 0.
Proof. split; intros t r c; exists c; rewrite Z.add_0_r; reflexivity. Qed.
Lemma screen_up t r c : screen (up ++ t) r c = screen t (r - 1) 0.
Proof. reflexivity. Qed.
Lemma moves_up : moves up (-1).
Proof. split; intros t r c; exists 0; apply screen_up. Qed.

Lemma one_line_app s1 s2 : one_line s1 -> one_line s2 -> one_line (s1 ++ s2).
Proof. intros H1 H2 c Hc. apply in_app_iff in Hc as [Hc|Hc]; [apply H1|apply H2]; exact Hc. Qed.
Lemma one_line_lit s : forallb (fun c => negb (ceq c nl) && negb (ceq c (chr 27))) s = true -> one_line s.
Proof.
  intros H c Hc. rewrite forallb_forall in H. specialize (H c Hc). apply andb_prop in H as [H1 H2]. unfold ceq in *.
  split; intros ->; rewrite Ascii.eqb_refl in *; discriminate.
Qed.
Lemma one_line_digits s : forallb is_digit s = true -> one_line s.
Proof.
  intros H. apply one_line_lit. apply forallb_forall. intros c Hc. rewrite forallb_forall in H. specialize (H c Hc).
  unfold ceq. destruct (Ascii.eqb_spec c nl) as [->|]; [discriminate H|]. destruct (Ascii.eqb_spec c (chr 27)) as [->|]; [discriminate H|]. reflexivity.
Qed.
Lemma one_line_int z : one_line (show_int z).
Proof.
  unfold show_int. destruct (Z.ltb_spec z 0).
  - apply (one_line_app ["-"%char]); [apply one_line_lit; reflexivity|apply one_line_digits, digits_all; lia].
  - apply one_line_digits, digits_all; lia.
Qed.
Lemma one_line_sign s : one_line (sign_str s).
Proof. destruct s; apply one_line_lit; reflexivity. Qed.
Lemma one_line_fixed p x : one_line (show_fixed p x).
Proof.
  assert (K : forall s n, 0 <= n -> one_line (sign_str s ++ digits (n / 10 ^ Z.of_nat p) ++
    match p with O => [] | S _ => "."%char :: pad_left (digits (n mod 10 ^ Z.of_nat p)) p "0"%char end)).
  { intros s n Hn. assert (T : 0 < 10 ^ Z.of_nat p) by (apply Z.pow_pos_nonneg; lia).
    apply one_line_app; [apply one_line_sign|]. apply one_line_app; [apply one_line_digits, digits_all, Z.div_pos; lia|].
    destruct p as [|p]; [apply one_line_lit; reflexivity|]. apply (one_line_app ["."%char]); [apply one_line_lit; reflexivity|].
    apply one_line_digits, pad_digits. apply Z.mod_pos_bound. exact T. }
  destruct x as [s|s| |s m e]; cbn [show_fixed].
  - apply K. lia.
  - apply one_line_app; [apply one_line_sign|apply one_line_lit; reflexivity].
  - apply one_line_lit; reflexivity.
  - apply K. apply rne_div_nonneg; [apply dden_pos|]. pose proof (dnum_pos m e). assert (0 < 10 ^ Z.of_nat p) by (apply Z.pow_pos_nonneg; lia). nia.
Qed.
Lemma one_line_pad2 c : one_line (pad2 c).
Proof. unfold pad2. apply one_line_app; [destruct (c <? 10); apply one_line_lit; reflexivity|apply one_line_int]. Qed.
Lemma ok_inj (x y : bytes) : Ok x = Ok y -> y = x.
Proof. intros H. injection H as ->. reflexivity. Qed.
Lemma one_line_duration n d t : duration_to_string n d = Ok t -> one_line t.
Proof.
  unfold duration_to_string. destruct (unit_count 86400 n d) as [d1|]; cbn [bind]; [|discriminate].
  destruct (unit_count 3600 _ d) as [d2|]; cbn [bind]; [|discriminate]. destruct (unit_count 60 _ d) as [d3|]; cbn [bind]; [|discriminate].
  destruct (unit_count 1 _ d) as [d4|]; cbn [bind]; [|discriminate]. intros H. apply ok_inj in H; subst t.
  apply one_line_app; [destruct (1 <? d1); [apply one_line_app; [apply one_line_int|]|]; apply one_line_lit; reflexivity|].
  apply one_line_app; [destruct (d1 =? 1); [apply one_line_app; [apply one_line_int|]|]; apply one_line_lit; reflexivity|].
  apply one_line_app; [apply one_line_pad2|]. apply one_line_app; [apply one_line_lit; reflexivity|].
  apply one_line_app; [apply one_line_pad2|]. apply one_line_app; [apply one_line_lit; reflexivity|]. apply one_line_pad2.
Qed.
Lemma one_line_size n p t : num_bytes_to_string n p = Ok t -> one_line t.
Proof.
  unfold num_bytes_to_string. destruct (n <? 1000).
  - destruct (n <? - 2 ^ 31); [discriminate|]. intros H. apply ok_inj in H; subst t. apply one_line_app; [apply one_line_int|apply one_line_lit; reflexivity].
  - destruct (n <? 10 ^ 6), (n <? 10 ^ 9), (n <? 10 ^ 12); intros H; apply ok_inj in H; subst t;
      (apply one_line_app; [apply one_line_fixed|apply one_line_lit; reflexivity]).
Qed.

Lemma moves_files files t : (forall name n, In (name, n) files -> one_line name) -> file_lines files = Ok t -> moves t (Z.of_nat (List.length files)).
Proof.
  revert t. induction files as [|[name n] r IH]; intros t H E; cbn [file_lines] in E.
  - injection E as <-. apply (moves_line []). intros c [].
  - destruct (num_bytes_to_string n 2) as [size|] eqn:ES; [|discriminate E]. cbn [bind] in E.
    destruct (file_lines r) as [rest|] eqn:ER; [|discriminate E]. cbn [bind] in E. apply ok_inj in E; subst t.
    assert (M : moves rest (Z.of_nat (List.length r))) by (apply IH; [intros nm k G; apply (H nm k); right; exact G|reflexivity]).
    replace (Z.of_nat (List.length ((name, n) :: r))) with (0 + (0 + (0 + (0 + (0 + (1 + Z.of_nat (List.length r))))))) by (cbn [List.length]; lia).
    apply moves_app; [apply moves_line, one_line_lit; reflexivity|].
    apply moves_app; [apply moves_line, (H name n); left; reflexivity|].
    apply moves_app; [apply moves_line, one_line_lit; reflexivity|].
    apply moves_app; [apply moves_line, (one_line_size n 2); exact ES|].
    apply moves_app; [apply moves_erase|]. apply moves_app; [apply moves_nl|exact M].
Qed.
Lemma moves_ups k : moves (List.concat (repeat up k)) (- Z.of_nat k).
Proof.
  induction k as [|k IH]; [apply (moves_line []); intros c []|]. cbn [repeat List.concat].
  replace (- Z.of_nat (S k)) with (-1 + - Z.of_nat k) by lia. apply moves_app; [apply moves_up|exact IH].
Qed.

(** The status lines leave the cursor at the start of the row it was in, both when drawn
    automatically and when drawn after an event. *)
Definition stays (t : bytes) : Prop := forall s r c, screen (t ++ s) r c = screen s r 0.

Theorem C82_cursor clock ev num old start now files t : (forall z, one_line (clock z)) -> (forall name n, In (name, n) files -> one_line name) ->
  status_lines clock ev num old start now files = Ok t -> stays t /\ stays (cleared t).
Proof.
  intros Hc Hf E. unfold status_lines, elapsed_time_string in E.
  destruct (duration_to_string (now - start) NS) as [el|] eqn:E1; [|discriminate E]. cbn [bind] in E.
  destruct (duration_to_string _ (NS * (ev - old))) as [tot|] eqn:E2; [|discriminate E]. cbn [bind] in E.
  destruct (file_lines files) as [fl|] eqn:E3; [|discriminate E]. cbn [bind] in E.
  destruct (negb _); [discriminate E|]. destruct (negb _); [discriminate E|].
  pose proof (moves_files files fl Hf E3) as MF. set (n := Z.of_nat (List.length files)) in *.
  assert (ME : t = ([nl] ++ b "Event Count = " ++ show_int ev ++ b "/" ++ show_int num ++ b " (" ++ format_number (SFmul 53 1024 (SFdiv 53 1024 (dbl_of_int ev) (dbl_of_int num)) (dbl_of_int 100))
      ++ b "% complete, " ++ format_number (SFdiv 53 1024 (dbl_of_int (ev - old)) (SFdiv 53 1024 (dbl_of_int (now - start)) (dbl_of_int NS))) ++ b " events / s)" ++ erase ++ [nl]
      ++ b "Elapsed time: " ++ el ++ b " (Estimated total run time: " ++ tot ++ b ")" ++ erase ++ [nl]
      ++ fl ++ b "MARLEY is estimated to terminate on " ++ clock (start + Z.quot ((now - start) * (num - old)) (ev - old)) ++ [nl]
      ++ List.concat (repeat up (List.length files)) ++ up ++ up ++ up) ++ up).
  { assert (E' : forall x y : bytes, Ok x = Ok y -> y = x) by (intros x y G; injection G as ->; reflexivity).
    rewrite (E' _ _ E). repeat (rewrite <- app_assoc). reflexivity. }
  rewrite ME. clear ME E.
  match goal with |- stays (?p ++ _) /\ _ => assert (M : moves p 1) end.
  { replace 1 with (1 + (0 + (0 + (0 + (0 + (0 + (0 + (0 + (0 + (0 + (0 + (1 + (0 + (0 + (0 + (0 + (0 + (0 + (1 + (n + (0 + (0 + (1 + (- n + (-1 + (-1 + -1)))))))))))))))))))))))))) by lia.
    repeat first [ apply moves_line; first [ apply one_line_int | apply one_line_fixed | apply (one_line_duration _ _ _ E1) | apply (one_line_duration _ _ _ E2) | apply Hc | apply one_line_lit; reflexivity ]
                 | apply moves_nl | apply moves_erase | apply moves_up | exact MF | apply moves_ups | apply moves_app ]. }
  destruct M as [M1 M2]. rewrite cleared_app. change (cleared up) with up. split; intros s r c; rewrite <- app_assoc.
  - destruct (M1 (up ++ s) r c) as [c' ->]. rewrite screen_up. f_equal. lia.
  - destruct (M2 (up ++ s) r c) as [c' ->]. rewrite screen_up. f_equal. lia.
Qed.
Print Assumptions C82_cursor.

(** The name of a file may contain a newline; then it does not. *)
Theorem C82_cursor_refuted : ~ (forall clock ev num old start now files t, (forall z, one_line (clock z)) ->
  status_lines clock ev num old start now files = Ok t -> stays t).
Proof.
  intros H. destruct (status_lines (fun _ => []) 1 10 0 0 1 [([nl], 5)]) as [t|e] eqn:E.
  - assert (O : forall z : Z, one_line ((fun _ => []) z)) by (intros z c []). specialize (H _ _ _ _ _ _ _ _ O E [] 0 0).
    revert E. match goal with |- status_lines ?f ?a ?b ?c ?d ?e ?g = _ -> _ => let v := eval vm_compute in (status_lines f a b c d e g) in
      replace (status_lines f a b c d e g) with v by (vm_compute; reflexivity) end.
    intros E. injection E as <-. vm_compute in H. discriminate H.
  - revert E. vm_compute. discriminate.
Qed.
Print Assumptions C82_cursor_refuted.

(** ** The log on the screen *)

(** The automatic status lines are on unless switched off last; a line is new if nothing has
    been written, or a newline was written last. *)
Definition enabled (past : list sop) : bool := fold_left (fun a o => match o with Switch on => on | Put _ _ => a end) past true.
Definition last_char (past : list sop) : option ascii := fold_left (fun a o => match o with Put c _ => Some c | Switch _ => a end) past None.
Definition new_line (past : list sop) : Prop := last_char past = None \/ last_char past = Some nl.

Lemma srun_app l o : srun (l ++ [o]) = sstep (srun l) o.
Proof. unfold srun. rewrite fold_left_app. reflexivity. Qed.

Lemma srun_flags l : i_status (srun l) = enabled l /\ (i_start (srun l) = true <-> new_line l).
Proof.
  induction l as [|o l IH] using rev_ind.
  - split; [reflexivity|]. split; intros _; [left|]; reflexivity.
  - rewrite srun_app. unfold enabled, new_line, last_char in *. rewrite !fold_left_app. cbn [fold_left]. destruct IH as [I1 I2].
    destruct o as [c st|on]; cbn [sstep overflow i_status i_start].
    + split; [exact I1|]. unfold ceq. rewrite Ascii.eqb_eq. split; [intros ->; right; reflexivity|intros [G|G]; [discriminate G|injection G as ->; reflexivity]].
    + split; [reflexivity|exact I2].
Qed.

(** What a character adds to the screen: itself, after the sequence that clears the rest of
    the line if it is a newline, and after the status lines if they are on and the line is
    new. Nothing else is ever added, removed or reordered. *)
Theorem C82_messages past : i_dest (srun []) = [] /\ (forall on, i_dest (srun (past ++ [Switch on])) = i_dest (srun past)) /\
  (forall c st, new_line past -> enabled past = true ->
     i_dest (srun (past ++ [Put c st])) = i_dest (srun past) ++ st ++ (if Ascii.eqb c nl then erase else []) ++ [c]) /\
  (forall c st, ~ new_line past \/ enabled past = false ->
     i_dest (srun (past ++ [Put c st])) = i_dest (srun past) ++ (if Ascii.eqb c nl then erase else []) ++ [c]).
Proof.
  destruct (srun_flags past) as [F1 F2]. split; [reflexivity|]. split; [intros on; rewrite srun_app; reflexivity|]. split; intros c st.
  - intros N E. rewrite srun_app. cbn [sstep overflow i_dest]. rewrite F1, E, (proj2 F2 N). cbn [andb]. unfold ceq.
    destruct (Ascii.eqb c nl); rewrite <- ?app_assoc; reflexivity.
  - intros N. rewrite srun_app. cbn [sstep overflow i_dest]. replace (i_status (srun past) && i_start (srun past)) with false.
    + unfold ceq. destruct (Ascii.eqb c nl); rewrite <- ?app_assoc; reflexivity.
    + symmetry. rewrite F1. destruct N as [N|N]; [|rewrite N; reflexivity]. destruct (i_start (srun past)); [exfalso; apply N, F2; reflexivity|apply andb_false_r].
Qed.
Print Assumptions C82_messages.

Definition puts (l : list (ascii * bytes)) : list sop := map (fun p => Put (fst p) (snd p)) l.

Lemma plain_puts past l : l <> [] -> one_line (map fst l) -> (new_line past -> enabled past = true -> stays (snd (hd (nl, []) l))) ->
  enabled (past ++ puts l) = enabled past /\ ~ new_line (past ++ puts l) /\
  exists text, i_dest (srun (past ++ puts l)) = i_dest (srun past) ++ text ++ map fst l /\
    text = (if i_status (srun past) && i_start (srun past) then snd (hd (nl, []) l) else []).
Proof.
  destruct l as [|[c st] l]; intros Hn Hl Hs; [congruence|]. clear Hn Hs. revert l Hl.
  induction l as [|[c1 s1] l IH] using rev_ind; intros Hl.
  - unfold puts. cbn [map fst snd hd]. destruct (Hl c (or_introl eq_refl)) as [N _]. split; [|split].
    + unfold enabled. rewrite fold_left_app. reflexivity.
    + unfold new_line, last_char. rewrite fold_left_app. cbn [fold_left]. intros [G|G]; [discriminate G|injection G as G; contradiction].
    + rewrite srun_app. cbn [sstep overflow i_dest]. unfold ceq. rewrite (proj2 (Ascii.eqb_neq c nl) N). eexists. split; [|reflexivity].
      destruct (i_status (srun past) && i_start (srun past)); rewrite <- ?app_assoc; reflexivity.
  - assert (Hl' : one_line (map fst ((c, st) :: l))).
    { intros y Hy. apply Hl. cbn [map] in *. rewrite map_app. destruct Hy as [Hy|Hy]; [left; exact Hy|right; apply in_app_iff; left; exact Hy]. }
    destruct (IH Hl') as (I1 & I2 & text & I3 & I4). unfold puts in *. change ((c, st) :: l ++ [(c1, s1)]) with (((c, st) :: l) ++ [(c1, s1)]).
    rewrite map_app, app_assoc. cbn [map fst snd] in *. set (P := past ++ Put c st :: map _ l) in *.
    assert (N : c1 <> nl). { apply (Hl c1). right. rewrite map_app. apply in_app_iff. right. left. reflexivity. }
    split; [|split].
    + unfold enabled in *. rewrite fold_left_app. exact I1.
    + unfold new_line, last_char. rewrite fold_left_app. cbn [fold_left]. intros [G|G]; [discriminate G|injection G as G; contradiction].
    + exists text. split; [|exact I4]. destruct (C82_messages P) as (_ & _ & _ & G). rewrite (G c1 s1) by (left; exact I2).
      rewrite (proj2 (Ascii.eqb_neq c1 nl) N). rewrite I3. rewrite map_app. cbn [map fst app]. rewrite <- ?app_assoc. reflexivity.
Qed.

(** A message that starts a line while the status lines are on is written at the start of
    the row of the cursor, the status lines are drawn below it first, and afterwards the
    cursor is at the start of the next row. *)
Theorem C82_screen past l st : enabled past = true -> new_line past -> l <> [] -> one_line (map fst l) -> stays (snd (hd (nl, []) l)) ->
  exists added, i_dest (srun (past ++ puts l ++ [Put nl st])) = i_dest (srun past) ++ added /\
    added = snd (hd (nl, []) l) ++ map fst l ++ erase ++ [nl] /\
    (forall s r c, screen (added ++ s) r c = screen s (r + 1) 0) /\
    enabled (past ++ puts l ++ [Put nl st]) = true /\ new_line (past ++ puts l ++ [Put nl st]).
Proof.
  intros He Hn Hl H1 Hs. destruct (plain_puts past l Hl H1 (fun _ _ => Hs)) as (I1 & I2 & text & I3 & I4).
  destruct (srun_flags past) as [F1 F2]. rewrite F1, He, (proj2 F2 Hn) in I4. cbn [andb] in I4. subst text.
  eexists. split; [|split; [reflexivity|split; [|split]]].
  - rewrite app_assoc. destruct (C82_messages (past ++ puts l)) as (_ & _ & _ & G). rewrite (G nl st) by (left; exact I2).
    rewrite I3, Ascii.eqb_refl. rewrite <- ?app_assoc. reflexivity.
  - intros s r c. rewrite <- ?app_assoc. rewrite Hs. destruct (shifts_line _ H1 (erase ++ [nl] ++ s) r 0) as [c' ->]. rewrite Z.add_0_r. reflexivity.
  - rewrite app_assoc. unfold enabled in *. rewrite fold_left_app. cbn [fold_left]. congruence.
  - right. rewrite app_assoc. unfold last_char. rewrite fold_left_app. reflexivity.
Qed.
Print Assumptions C82_screen.

Lemma off_puts text past : enabled past = false ->
  i_dest (srun (past ++ map (fun c => Put c []) text)) = i_dest (srun past) ++ cleared text /\
  enabled (past ++ map (fun c => Put c []) text) = false /\
  (text <> [] -> last_char (past ++ map (fun c => Put c []) text) = Some (last text nl)).
Proof.
  intros He. induction text as [|c text IH] using rev_ind.
  - cbn [map]. rewrite !app_nil_r. split; [reflexivity|]. split; [exact He|congruence].
  - rewrite map_app, app_assoc. cbn [map]. set (P := past ++ map _ text) in *. destruct IH as (I1 & I2 & _).
    destruct (C82_messages P) as (_ & _ & _ & G). rewrite (G c []) by (right; exact I2). rewrite I1. split; [|split].
    + unfold cleared. rewrite flat_map_app. cbn [flat_map]. rewrite app_nil_r. destruct (Ascii.eqb c nl); rewrite <- ?app_assoc; reflexivity.
    + unfold enabled in *. rewrite fold_left_app. exact I2.
    + intros _. unfold last_char. rewrite fold_left_app, last_last. reflexivity.
Qed.

Lemma ends_up clock ev num old start now files t : status_lines clock ev num old start now files = Ok t -> exists p, t = p ++ up.
Proof.
  unfold status_lines. destruct (elapsed_time_string start now) as [el|]; cbn [bind]; [|discriminate].
  destruct (duration_to_string _ (NS * (ev - old))) as [tot|]; cbn [bind]; [|discriminate].
  destruct (file_lines files) as [fl|]; cbn [bind]; [|discriminate].
  destruct (negb _); [discriminate|]. destruct (negb _); [discriminate|]. intros E. apply ok_inj in E. subst t.
  rewrite !app_assoc. eexists. reflexivity.
Qed.

(** After an event the status lines are drawn once, and the automatic ones are on again. But
    what was written last is not a newline, so that the next message is written without
    the status lines, although it starts a row of the screen. *)
Theorem C82_update past clock ev num old start now files t c st : status_lines clock ev num old start now files = Ok t ->
  i_dest (srun (past ++ update t)) = i_dest (srun past) ++ cleared t /\ enabled (past ++ update t) = true /\
  i_dest (srun ((past ++ update t) ++ [Put c st])) = i_dest (srun (past ++ update t)) ++ (if Ascii.eqb c nl then erase else []) ++ [c].
Proof.
  intros E. destruct (ends_up _ _ _ _ _ _ _ _ E) as [p ->]. clear E. unfold update.
  assert (A : past ++ Switch false :: map (fun c => Put c []) (p ++ up) ++ [Switch true] =
    ((past ++ [Switch false]) ++ map (fun c => Put c []) (p ++ up)) ++ [Switch true]) by (rewrite <- !app_assoc; reflexivity).
  rewrite A. assert (O : enabled (past ++ [Switch false]) = false) by (unfold enabled; rewrite fold_left_app; reflexivity).
  destruct (off_puts (p ++ up) _ O) as (I1 & I2 & I3). set (P := (past ++ [Switch false]) ++ map _ (p ++ up)) in *.
  destruct (C82_messages P) as (_ & G & _). rewrite (G true), I1. destruct (C82_messages past) as (_ & G2 & _). rewrite (G2 false).
  assert (N : ~ new_line (P ++ [Switch true])).
  { unfold new_line, last_char. rewrite fold_left_app. cbn [fold_left]. fold (last_char P). rewrite I3 by (destruct p; discriminate).
    change up with ([esc; "["%char] ++ ["F"%char]). rewrite app_assoc, last_last. intros [X|X]; discriminate X. }
  split; [reflexivity|]. split; [unfold enabled; rewrite fold_left_app; reflexivity|].
  destruct (C82_messages (P ++ [Switch true])) as (_ & _ & _ & G3). rewrite (G3 c st) by (left; exact N). rewrite (G true), I1, (G2 false). reflexivity.
Qed.
Print Assumptions C82_update.

(** A complete example: one event of ten of a continued run, two files, 61 seconds. *)
Example C82_case : exists t, status_lines (fun _ => b "Mon Nov 16 2026 UTC" ++ [chr 0]) 21 30 20 (100 * NS) (161 * NS) [(b "a.json", 2048); (b "b.ascii", 12)] = Ok t
  /\ stays t /\ t = [nl] ++ b "Event Count = 21/30 (70.0% complete, 0.0 events / s)" ++ erase ++ [nl]
    ++ b "Elapsed time: 00:01:01 (Estimated total run time: 00:10:10)" ++ erase ++ [nl]
    ++ b "Data written to a.json 2.05 kB" ++ erase ++ [nl] ++ b "Data written to b.ascii 12 B" ++ erase ++ [nl]
    ++ b "MARLEY is estimated to terminate on Mon Nov 16 2026 UTC" ++ [chr 0] ++ [nl] ++ up ++ up ++ up ++ up ++ up ++ up.
Proof.
  eexists. split; [vm_compute; reflexivity|]. split; [|vm_compute; reflexivity].
  refine (proj1 (C82_cursor (fun _ => b "Mon Nov 16 2026 UTC" ++ [chr 0]) 21 30 20 (100 * NS) (161 * NS) [(b "a.json", 2048); (b "b.ascii", 12)] _ _ _ _)).
  - intros z. apply one_line_lit. reflexivity.
  - intros name n [H|[H|[]]]; injection H as <- <-; apply one_line_lit; reflexivity.
  - vm_compute. reflexivity.
Qed.

Example C82_screen_case : let st := [nl] ++ b "Status" ++ [nl] ++ up ++ up in
  stays st /\ i_dest (srun (puts [("h"%char, st); ("i"%char, st)] ++ [Put nl st; Put "x"%char st])) = st ++ b "hi" ++ erase ++ [nl] ++ st ++ b "x".
Proof. split; [|vm_compute; reflexivity]. intros s r c. change (screen s (r + 1 + 1 - 1 - 1) 0 = screen s r 0). f_equal. lia. Qed.
