(** The steps for the factors 2, 3, 4 and 5. *)
From Coq Require Import List Reals Bool Arith Lra Lia.
From Verif Require Import Base QuadThms Fft FftMath FftStep.
Import ListNotations.
Open Scope R_scope.

(** ** Every element of a block is one of these *)
Inductive slot (ip ido : nat) : nat -> nat -> Prop :=
| slot_first s : (2 * s + 1 <= ip)%nat -> slot ip ido 1 (2 * s + 1)
| slot_last s : (1 <= s)%nat -> (2 * s <= ip)%nat -> slot ip ido ido (2 * s)
| slot_dre p s : (1 <= p)%nat -> (2 * p < ido)%nat -> (2 * s + 1 <= ip)%nat -> slot ip ido (2 * p) (2 * s + 1)
| slot_dim p s : (1 <= p)%nat -> (2 * p < ido)%nat -> (2 * s + 1 <= ip)%nat -> slot ip ido (2 * p + 1) (2 * s + 1)
| slot_mre p s : (1 <= p)%nat -> (2 * p < ido)%nat -> (1 <= s)%nat -> (2 * s <= ip)%nat -> slot ip ido (ido - 2 * p) (2 * s)
| slot_mim p s : (1 <= p)%nat -> (2 * p < ido)%nat -> (1 <= s)%nat -> (2 * s <= ip)%nat -> slot ip ido (ido + 1 - 2 * p) (2 * s)
| slot_hre h s : (1 <= h)%nat -> (ido = 2 * h)%nat -> (2 * s + 1 <= ip)%nat -> slot ip ido ido (2 * s + 1)
| slot_him h s : (1 <= h)%nat -> (ido = 2 * h)%nat -> (2 * s + 2 <= ip)%nat -> slot ip ido 1 (2 * s + 2).

Lemma slots ip ido i j : (1 <= i <= ido)%nat -> (1 <= j <= ip)%nat -> slot ip ido i j.
Proof.
  intros Hi Hj. destruct (Nat.Even_or_Odd j) as [(s & ->)|(s & ->)].
  - destruct (Nat.eq_dec i ido) as [->|NE]; [apply slot_last; lia|].
    destruct (Nat.Even_or_Odd (ido - i)) as [(p & E)|(p & E)].
    + replace i with (ido - 2 * p)%nat by lia. apply slot_mre; lia.
    + destruct (Nat.eq_dec i 1) as [->|N1].
      * replace (2 * s)%nat with (2 * (s - 1) + 2)%nat by lia. apply (slot_him _ _ (S p)); lia.
      * replace i with (ido + 1 - 2 * S p)%nat by lia. apply slot_mim; lia.
  - destruct (Nat.Even_or_Odd i) as [(p & ->)|(p & ->)].
    + destruct (Nat.eq_dec (2 * p) ido) as [E|NE]; [rewrite E; apply (slot_hre _ _ p); lia|]. apply slot_dre; lia.
    + destruct p; [apply slot_first; lia|]. apply slot_dim; lia.
Qed.

Lemma at3_eq d1 d2 i j k i' j' k' : i = i' -> j = j' -> k = k' -> at3 d1 d2 i j k = at3 d1 d2 i' j' k'.
Proof. intros -> -> ->. reflexivity. Qed.

(** A step is a list of assignments, each of the right value, to all elements of the result
    and to no other. *)
Definition step_ok (ip ido l1 : nat) (Z : nat -> nat -> R) (ch out : arr) : Prop :=
  (forall x, (1 <= x <= ido * ip * l1)%nat -> out x = target ip ido Z x) /\
  (forall x, ~ (1 <= x <= ido * ip * l1)%nat -> out x = ch x).

Lemma step_ok_intro ip ido l1 Z ch ws : (1 <= ip)%nat -> (1 <= ido)%nat ->
  (forall s, In s ws -> (forall a, snd s a = target ip ido Z (fst s)) /\ exists i j k, (1 <= i <= ido)%nat /\ (1 <= j <= ip)%nat /\ (1 <= k <= l1)%nat /\ fst s = at3 ido ip i j k) ->
  (forall i j k, slot ip ido i j -> (1 <= k <= l1)%nat -> In (at3 ido ip i j k) (map fst ws)) ->
  step_ok ip ido l1 Z ch (run ws ch).
Proof.
  intros Hip Hido HS HC. split; intros x Hx.
  - apply run_target; [intros s Hs; apply HS; exact Hs|]. left. destruct (at3_onto _ _ _ _ Hx) as (i & j & k & Hi & Hj & Hk & ->). apply HC; [|exact Hk]. apply slots; assumption.
  - apply run_frame. intros HI. apply in_map_iff in HI. destruct HI as (s & <- & Hs). destruct (HS s Hs) as (_ & i & j & k & Hi & Hj & Hk & E).
    apply Hx. rewrite E. apply at3_bounds; assumption.
Qed.

(** ** Sines and cosines *)
Lemma turn_0 ip s : turn ip s 0 = 0. Proof. unfold turn. cbn [INR]. unfold Rdiv. ring. Qed.
Lemma turn_s0 ip j : turn ip 0 j = 0. Proof. unfold turn. cbn [INR]. unfold Rdiv. ring. Qed.
Lemma half_turn_0 ip s : half_turn ip s 0 = 0. Proof. unfold half_turn. cbn [INR]. unfold Rdiv. ring. Qed.
Lemma cos_t0 ip s : cos (turn ip s 0) = 1. Proof. rewrite turn_0. apply cos_0. Qed.
Lemma sin_t0 ip s : sin (turn ip s 0) = 0. Proof. rewrite turn_0. apply sin_0. Qed.
Lemma cos_ts0 ip j : cos (turn ip 0 j) = 1. Proof. rewrite turn_s0. apply cos_0. Qed.
Lemma sin_ts0 ip j : sin (turn ip 0 j) = 0. Proof. rewrite turn_s0. apply sin_0. Qed.
Lemma cos_h0 ip s : cos (half_turn ip s 0) = 1. Proof. rewrite half_turn_0. apply cos_0. Qed.
Lemma sin_h0 ip s : sin (half_turn ip s 0) = 0. Proof. rewrite half_turn_0. apply sin_0. Qed.

Lemma turn_mul ip s j a : (s * j = a)%nat -> turn ip s j = 2 * PI * INR a / INR ip.
Proof. intros <-. unfold turn. rewrite mult_INR. unfold Rdiv. ring. Qed.
Lemma half_mul ip s j a : ((2 * s + 1) * j = a)%nat -> half_turn ip s j = PI * INR a / INR ip.
Proof. intros <-. unfold half_turn. rewrite mult_INR. unfold Rdiv. ring. Qed.

(** Multiples of a quarter. *)
Lemma quarter_1 : cos (2 * PI * INR 1 / INR 4) = 0 /\ sin (2 * PI * INR 1 / INR 4) = 1.
Proof. replace (2 * PI * INR 1 / INR 4) with (PI / 2) by (cbn; field). split; [apply cos_PI2|apply sin_PI2]. Qed.
Lemma quarter_2 : cos (2 * PI * INR 2 / INR 4) = -1 /\ sin (2 * PI * INR 2 / INR 4) = 0.
Proof. replace (2 * PI * INR 2 / INR 4) with PI by (cbn; field). split; [apply cos_PI|apply sin_PI]. Qed.
Lemma quarter_3 : cos (2 * PI * INR 3 / INR 4) = 0 /\ sin (2 * PI * INR 3 / INR 4) = -1.
Proof. replace (2 * PI * INR 3 / INR 4) with (3 * (PI / 2)) by (cbn; field). split; [apply cos_3PI2|apply sin_3PI2]. Qed.
Lemma quarter_4 : cos (2 * PI * INR 4 / INR 4) = 1 /\ sin (2 * PI * INR 4 / INR 4) = 0.
Proof. replace (2 * PI * INR 4 / INR 4) with (2 * PI) by (cbn; field). split; [apply cos_2PI|apply sin_2PI]. Qed.
Lemma quarter_6 : cos (2 * PI * INR 6 / INR 4) = -1 /\ sin (2 * PI * INR 6 / INR 4) = 0.
Proof. replace (2 * PI * INR 6 / INR 4) with (PI + 2 * INR 1 * PI) by (cbn; field). rewrite cos_period, sin_period. split; [apply cos_PI|apply sin_PI]. Qed.
Lemma half_1 : cos (2 * PI * INR 1 / INR 2) = -1 /\ sin (2 * PI * INR 1 / INR 2) = 0.
Proof. replace (2 * PI * INR 1 / INR 2) with PI by (cbn; field). split; [apply cos_PI|apply sin_PI]. Qed.
Lemma third_1 : cos (2 * PI * INR 1 / INR 3) = taur /\ sin (2 * PI * INR 1 / INR 3) = taui.
Proof. replace (2 * PI * INR 1 / INR 3) with (2 * (PI / 3)) by (cbn; field). rewrite cos_2PI3, sin_2PI3. unfold taur, taui. split; lra. Qed.
Lemma third_2 : cos (2 * PI * INR 2 / INR 3) = taur /\ sin (2 * PI * INR 2 / INR 3) = - taui.
Proof.
  replace (2 * PI * INR 2 / INR 3) with (- (2 * (PI / 3)) + 2 * INR 1 * PI) by (cbn; field). rewrite cos_period, sin_period, cos_neg, sin_neg, cos_2PI3, sin_2PI3.
  unfold taur, taui. split; lra.
Qed.

(** Multiples of a fifth. *)
Lemma fifth_1 : cos (2 * PI * INR 1 / INR 5) = tr11 /\ sin (2 * PI * INR 1 / INR 5) = ti11.
Proof. unfold tr11, ti11. replace (2 * PI * INR 1 / INR 5) with (2 * PI / 5) by (cbn; field). split; reflexivity. Qed.
Lemma fifth_2 : cos (2 * PI * INR 2 / INR 5) = tr12 /\ sin (2 * PI * INR 2 / INR 5) = ti12.
Proof. unfold tr12, ti12. replace (2 * PI * INR 2 / INR 5) with (4 * PI / 5) by (cbn; field). split; reflexivity. Qed.
Lemma fifth_back a m x : 2 * PI * INR a / INR 5 = - x + 2 * INR m * PI -> cos (2 * PI * INR a / INR 5) = cos x /\ sin (2 * PI * INR a / INR 5) = - sin x.
Proof. intros ->. rewrite cos_period, sin_period, cos_neg, sin_neg. split; reflexivity. Qed.
Lemma fifth_forth a m x : 2 * PI * INR a / INR 5 = x + 2 * INR m * PI -> cos (2 * PI * INR a / INR 5) = cos x /\ sin (2 * PI * INR a / INR 5) = sin x.
Proof. intros ->. rewrite cos_period, sin_period. split; reflexivity. Qed.
Lemma fifth_3 : cos (2 * PI * INR 3 / INR 5) = tr12 /\ sin (2 * PI * INR 3 / INR 5) = - ti12.
Proof. apply (fifth_back 3 1). cbn. field. Qed.
Lemma fifth_4 : cos (2 * PI * INR 4 / INR 5) = tr11 /\ sin (2 * PI * INR 4 / INR 5) = - ti11.
Proof. apply (fifth_back 4 1). cbn. field. Qed.
Lemma fifth_6 : cos (2 * PI * INR 6 / INR 5) = tr11 /\ sin (2 * PI * INR 6 / INR 5) = ti11.
Proof. apply (fifth_forth 6 1). cbn. field. Qed.
Lemma fifth_8 : cos (2 * PI * INR 8 / INR 5) = tr12 /\ sin (2 * PI * INR 8 / INR 5) = - ti12.
Proof. apply (fifth_back 8 2). cbn. field. Qed.

(** Odd multiples of an eighth of a turn. *)
Lemma eighth_1 : cos (PI * INR 1 / INR 4) = hsqt2 /\ sin (PI * INR 1 / INR 4) = hsqt2.
Proof. replace (PI * INR 1 / INR 4) with (PI / 4) by (cbn; field). rewrite cos_PI4, sin_PI4. unfold hsqt2. pose proof sqrt2_neq_0. split; field; assumption. Qed.
Lemma eighth_2 : cos (PI * INR 2 / INR 4) = 0 /\ sin (PI * INR 2 / INR 4) = 1.
Proof. replace (PI * INR 2 / INR 4) with (PI / 2) by (cbn; field). split; [apply cos_PI2|apply sin_PI2]. Qed.
Lemma eighth_3 : cos (PI * INR 3 / INR 4) = - hsqt2 /\ sin (PI * INR 3 / INR 4) = hsqt2.
Proof. replace (PI * INR 3 / INR 4) with (3 * (PI / 4)) by (cbn; field). rewrite cos_3PI4, sin_3PI4. unfold hsqt2. pose proof sqrt2_neq_0. split; field; assumption. Qed.
Lemma eighth_6 : cos (PI * INR 6 / INR 4) = 0 /\ sin (PI * INR 6 / INR 4) = -1.
Proof. replace (PI * INR 6 / INR 4) with (3 * (PI / 2)) by (cbn; field). split; [apply cos_3PI2|apply sin_3PI2]. Qed.
Lemma eighth_9 : cos (PI * INR 9 / INR 4) = hsqt2 /\ sin (PI * INR 9 / INR 4) = hsqt2.
Proof. replace (PI * INR 9 / INR 4) with (PI / 4 + 2 * INR 1 * PI) by (cbn; field). rewrite cos_period, sin_period, cos_PI4, sin_PI4. unfold hsqt2. pose proof sqrt2_neq_0. split; field; assumption. Qed.
Lemma halfway_1 : cos (PI * INR 1 / INR 2) = 0 /\ sin (PI * INR 1 / INR 2) = 1.
Proof. replace (PI * INR 1 / INR 2) with (PI / 2) by (cbn; field). split; [apply cos_PI2|apply sin_PI2]. Qed.

(** ** Radix 2 *)
Lemma A_j0 ip ido y p : Aj ip ido y p 0 = Cj ip ido y p 0.
Proof. unfold Aj, angle. cbn [INR]. replace (2 * PI * INR p * 0 / INR (ip * ido)) with 0 by (unfold Rdiv; ring). rewrite cos_0, sin_0. ring. Qed.
Lemma B_j0 ip ido y p : Bj ip ido y p 0 = Sj ip ido y p 0.
Proof. unfold Bj, angle. cbn [INR]. replace (2 * PI * INR p * 0 / INR (ip * ido)) with 0 by (unfold Rdiv; ring). rewrite cos_0, sin_0. ring. Qed.

(** Rewriting all sines and cosines of a sum written out. *)
Ltac turns :=
  rewrite ?cos_t0, ?sin_t0, ?cos_ts0, ?sin_ts0, ?cos_h0, ?sin_h0;
  repeat match goal with
  | |- context [turn ?ip ?s ?j] => let a := eval compute in (s * j)%nat in rewrite (turn_mul ip s j a eq_refl)
  | |- context [half_turn ?ip ?s ?j] => let a := eval compute in ((2 * s + 1) * j)%nat in rewrite (half_mul ip s j a eq_refl)
  end;
  rewrite ?(proj1 half_1), ?(proj2 half_1), ?(proj1 third_1), ?(proj2 third_1), ?(proj1 third_2), ?(proj2 third_2),
    ?(proj1 quarter_1), ?(proj2 quarter_1), ?(proj1 quarter_2), ?(proj2 quarter_2), ?(proj1 quarter_3), ?(proj2 quarter_3),
    ?(proj1 quarter_4), ?(proj2 quarter_4), ?(proj1 quarter_6), ?(proj2 quarter_6),
    ?(proj1 fifth_1), ?(proj2 fifth_1), ?(proj1 fifth_2), ?(proj2 fifth_2), ?(proj1 fifth_3), ?(proj2 fifth_3),
    ?(proj1 fifth_4), ?(proj2 fifth_4), ?(proj1 fifth_6), ?(proj2 fifth_6), ?(proj1 fifth_8), ?(proj2 fifth_8),
    ?(proj1 eighth_1), ?(proj2 eighth_1), ?(proj1 eighth_2), ?(proj2 eighth_2), ?(proj1 eighth_3), ?(proj2 eighth_3),
    ?(proj1 eighth_6), ?(proj2 eighth_6), ?(proj1 eighth_9), ?(proj2 eighth_9), ?(proj1 halfway_1), ?(proj2 halfway_1).

Section Factors.
  Variables (ido l1 : nat) (Z : nat -> nat -> R) (cc ch : arr).
  Hypothesis Hido : (1 <= ido)%nat.

  (** One assignment is right: by [E], what the target has there, and the input. *)
  Definition right (ip : nat) (s : asg R) : Prop :=
    (forall a, snd s a = target ip ido Z (fst s)) /\
    exists i j k, (1 <= i <= ido)%nat /\ (1 <= j <= ip)%nat /\ (1 <= k <= l1)%nat /\ fst s = at3 ido ip i j k.
  Lemma right_intro ip i j k v u : (1 <= i <= ido)%nat -> (1 <= j <= ip)%nat -> (1 <= k <= l1)%nat ->
    target ip ido Z (at3 ido ip i j k) = u -> v = u -> right ip (set (at3 ido ip i j k) v).
  Proof. intros Hi Hj Hk E <-. split; [intros a; cbn [fst snd set]; symmetry; exact E|]. exists i, j, k. repeat split; try lia. Qed.
  Lemma right_eq ip i j k i' j' v u : i = i' -> j = j' -> (1 <= i' <= ido)%nat -> (1 <= j' <= ip)%nat -> (1 <= k <= l1)%nat ->
    target ip ido Z (at3 ido ip i' j' k) = u -> v = u -> right ip (set (at3 ido ip i j k) v).
  Proof. intros -> ->. apply right_intro. Qed.

  (** The structure of the steps for even and for odd factors. *)
  Lemma four_way ip F M L : (1 <= ip)%nat -> (forall s, In s F -> right ip s) -> (forall s, In s M -> right ip s) ->
    (forall h, (1 <= h)%nat -> (ido = 2 * h)%nat -> forall s, In s L -> right ip s) ->
    (forall i j k, slot ip ido i j -> (1 <= k <= l1)%nat -> In (at3 ido ip i j k) (map fst F) \/
       In (at3 ido ip i j k) (map fst M) /\ (2 < ido)%nat \/ In (at3 ido ip i j k) (map fst L) /\ exists h, ido = (2 * h)%nat) ->
    step_ok ip ido l1 Z ch
      (if Nat.ltb ido 2 then run F ch else if Nat.eqb ido 2 then run L (run F ch)
       else if Nat.eqb (ido mod 2) 1 then run M (run F ch) else run L (run M (run F ch))).
  Proof.
    intros Hip HF HM HL HC.
    destruct (Nat.ltb_spec ido 2) as [H|H]; [|destruct (Nat.eqb_spec ido 2) as [H2|H2]; [|destruct (Nat.eqb_spec (ido mod 2) 1) as [H1|H1]]].
    - apply step_ok_intro; [exact Hip|exact Hido|exact HF|]. intros i j k S Hk. destruct (HC i j k S Hk) as [C|[(C & Hlt)|(C & h & Hh)]]; [exact C|lia|lia].
    - rewrite <- run_app. apply step_ok_intro; [exact Hip|exact Hido| |].
      + intros s Hs. apply in_app_or in Hs. destruct Hs as [Hs|Hs]; [apply HF; exact Hs|apply (HL 1%nat); [lia|lia|exact Hs]].
      + intros i j k S Hk. rewrite map_app. apply in_or_app. destruct (HC i j k S Hk) as [C|[(C & Hlt)|(C & h & Hh)]]; [left; exact C|lia|right; exact C].
    - rewrite <- run_app. apply step_ok_intro; [exact Hip|exact Hido| |].
      + intros s Hs. apply in_app_or in Hs. destruct Hs as [Hs|Hs]; [apply HF; exact Hs|apply HM; exact Hs].
      + intros i j k S Hk. rewrite map_app. apply in_or_app. destruct (HC i j k S Hk) as [C|[(C & Hlt)|(C & h & Hh)]]; [left; exact C|right; exact C|].
        exfalso. rewrite Hh, Nat.mul_comm, Nat.mod_mul in H1 by lia. discriminate.
    - rewrite <- !run_app. apply step_ok_intro; [exact Hip|exact Hido| |].
      + intros s Hs. apply in_app_or in Hs. destruct Hs as [Hs|Hs]; [apply HF; exact Hs|apply in_app_or in Hs; destruct Hs as [Hs|Hs]; [apply HM; exact Hs|]].
        apply (HL (ido / 2)%nat); [| |exact Hs].
        * apply Nat.div_le_lower_bound; lia.
        * pose proof (Nat.div_mod ido 2 ltac:(lia)). pose proof (Nat.mod_upper_bound ido 2 ltac:(lia)). lia.
      + intros i j k S Hk. rewrite !map_app. destruct (HC i j k S Hk) as [C|[(C & Hlt)|(C & h & Hh)]]; apply in_or_app; [left; exact C|right; apply in_or_app; left; exact C|right; apply in_or_app; right; exact C].
  Qed.
  Lemma two_way ip F M : (1 <= ip)%nat -> (forall s, In s F -> right ip s) -> (forall s, In s M -> right ip s) ->
    (forall i j k, slot ip ido i j -> (1 <= k <= l1)%nat -> In (at3 ido ip i j k) (map fst F) \/ In (at3 ido ip i j k) (map fst M) /\ (2 < ido)%nat) ->
    step_ok ip ido l1 Z ch (if Nat.eqb ido 1 then run F ch else run M (run F ch)).
  Proof.
    intros Hip HF HM HC. destruct (Nat.eqb_spec ido 1) as [H|H].
    - apply step_ok_intro; [exact Hip|exact Hido|exact HF|]. intros i j k S Hk. destruct (HC i j k S Hk) as [C|(C & Hlt)]; [exact C|lia].
    - rewrite <- run_app. apply step_ok_intro; [exact Hip|exact Hido| |].
      + intros s Hs. apply in_app_or in Hs. destruct Hs as [Hs|Hs]; [apply HF; exact Hs|apply HM; exact Hs].
      + intros i j k S Hk. rewrite map_app. apply in_or_app. destruct (HC i j k S Hk) as [C|(C & Hlt)]; [left; exact C|right; exact C].
  Qed.

  Ltac here E :=
    match type of E with
    | target ?ip _ _ (at3 _ _ ?i ?j ?k) = ?u =>
        apply (right_eq ip _ _ k i j _ u); [lia|lia|lia|lia|assumption|exact E|cbn [sumn]; turns; rewrite ?A_j0, ?B_j0; ring]
    end.
  Ltac each := let s := fresh "s" in let H := fresh "Hs" in intros s H; cbn [In] in H; repeat (destruct H as [<-|H]); [..|contradiction].
  Ltac among := cbn [map fst set In]; repeat (first [left; apply at3_eq; lia | right]).

  Lemma Aj_fold ip y p j : cos (angle ip ido p j) * Cj ip ido y p j + sin (angle ip ido p j) * Sj ip ido y p j = Aj ip ido y p j.
  Proof. reflexivity. Qed.
  Lemma Bj_fold ip y p j : cos (angle ip ido p j) * Sj ip ido y p j - sin (angle ip ido p j) * Cj ip ido y p j = Bj ip ido y p j.
  Proof. reflexivity. Qed.

  Lemma radf2_ok w : input_ok 2 ido l1 Z cc -> table_ok 2 ido w -> step_ok 2 ido l1 Z ch (radf2 ido l1 cc ch (w 1%nat)).
  Proof.
    intros Hin Hw. unfold radf2.
    match goal with |- context [if ido <? 2 then run ?F ch else if _ then run ?L _ else if _ then run ?M _ else _] => set (F1 := F); set (L1 := L); set (M1 := M) end.
    assert (HF : forall s, In s F1 -> right 2 s).
    { apply flat_map_sound. intros k Hk. apply In_upto1 in Hk. cbv zeta. rewrite !(in_0 2 ido l1 Z cc) by (assumption || lia). each.
      - pose proof (out_0 2 ido Z ltac:(lia) Hido k ltac:(lia)) as E. here E.
      - pose proof (out_whole_re 2 ido Z ltac:(lia) Hido 1 k ltac:(lia) ltac:(lia) ltac:(lia)) as E. here E. }
    assert (HM : forall s, In s M1 -> right 2 s).
    { apply flat_map_sound. intros k Hk. apply In_upto1 in Hk. apply flat_map_sound. intros i Hi. apply In_odds in Hi. destruct Hi as (p & Hp & -> & H2). cbv zeta.
      replace (2 * p + 1 - 1)%nat with (2 * p)%nat by lia. replace (2 * p + 1 - 2)%nat with (2 * p - 1)%nat by lia.
      rewrite !(in_re 2 ido l1 Z cc), !(in_im 2 ido l1 Z cc) by (assumption || lia).
      destruct (Hw 1%nat p ltac:(lia) Hp H2) as [-> ->].
      rewrite !Aj_fold, !Bj_fold. each.
      - pose proof (out_direct_im 2 ido Z ltac:(lia) Hido p 0 k Hp H2 ltac:(lia) ltac:(lia)) as E. here E.
      - pose proof (out_mirror_im 2 ido Z ltac:(lia) Hido p 1 k Hp H2 ltac:(lia) ltac:(lia) ltac:(lia)) as E. here E.
      - pose proof (out_direct_re 2 ido Z ltac:(lia) Hido p 0 k Hp H2 ltac:(lia) ltac:(lia)) as E. here E.
      - pose proof (out_mirror_re 2 ido Z ltac:(lia) Hido p 1 k Hp H2 ltac:(lia) ltac:(lia) ltac:(lia)) as E. here E. }
    assert (HL : forall h, (1 <= h)%nat -> (ido = 2 * h)%nat -> forall s, In s L1 -> right 2 s).
    { intros h Hh Eh. apply flat_map_sound. intros k Hk. apply In_upto1 in Hk. cbv zeta.
      rewrite !(at3_eq ido l1 ido k _ (2 * h) k _) with (1 := Eh) (2 := eq_refl) (3 := eq_refl).
      rewrite !(in_re 2 ido l1 Z cc) by (assumption || lia). each.
      - pose proof (out_half_im 2 ido Z ltac:(lia) Hido h 0 k Hh Eh ltac:(lia) ltac:(lia)) as E. here E.
      - pose proof (out_half_re 2 ido Z ltac:(lia) Hido h 0 k Hh Eh ltac:(lia) ltac:(lia)) as E. here E. }
    apply four_way; [lia|exact HF|exact HM|exact HL|].
    intros i j k S Hk. apply In_upto1 in Hk. destruct S as [s Hs|s Hs1 Hs|p s Hp H2 Hs|p s Hp H2 Hs|p s Hp H2 Hs1 Hs|p s Hp H2 Hs1 Hs|h s Hh E Hs|h s Hh E Hs].
    1,2: left; apply (flat_map_cover _ _ _ k Hk); (destruct s as [|[|[|s]]]; try lia; among).
    1,2,3,4: right; left; split; [|lia]; apply (flat_map_cover _ _ _ k Hk); apply (flat_map_cover _ _ _ (2 * p + 1)); [apply In_odds; exists p; lia|(destruct s as [|[|[|s]]]; try lia; among)].
    1,2: right; right; split; [|exists h; exact E]; apply (flat_map_cover _ _ _ k Hk); (destruct s as [|[|[|s]]]; try lia; among).
  Qed.

  (** Radix 3. *)
  Lemma radf3_ok w : Nat.odd ido = true -> input_ok 3 ido l1 Z cc -> table_ok 3 ido w -> step_ok 3 ido l1 Z ch (radf3 ido l1 cc ch (w 1%nat) (w 2%nat)).
  Proof.
    intros Hodd Hin Hw. unfold radf3.
    match goal with |- context [if ido =? 1 then run ?F ch else run ?M _] => set (F1 := F); set (M1 := M) end.
    assert (HF : forall s, In s F1 -> right 3 s).
    { apply flat_map_sound. intros k Hk. apply In_upto1 in Hk. cbv zeta. rewrite !(in_0 3 ido l1 Z cc) by (assumption || lia). each.
      - pose proof (out_0 3 ido Z ltac:(lia) Hido k ltac:(lia)) as E. here E.
      - pose proof (out_whole_im 3 ido Z ltac:(lia) Hido 1 k ltac:(lia) ltac:(lia) ltac:(lia)) as E. here E.
      - pose proof (out_whole_re 3 ido Z ltac:(lia) Hido 1 k ltac:(lia) ltac:(lia) ltac:(lia)) as E. here E. }
    assert (HM : forall s, In s M1 -> right 3 s).
    { apply flat_map_sound. intros k Hk. apply In_upto1 in Hk. apply flat_map_sound. intros i Hi. apply In_odds in Hi. destruct Hi as (p & Hp & -> & H2). cbv zeta.
      replace (2 * p + 1 - 1)%nat with (2 * p)%nat by lia. replace (2 * p + 1 - 2)%nat with (2 * p - 1)%nat by lia.
      rewrite !(in_re 3 ido l1 Z cc), !(in_im 3 ido l1 Z cc) by (assumption || lia).
      destruct (Hw 1%nat p ltac:(lia) Hp H2) as [-> ->].
      destruct (Hw 2%nat p ltac:(lia) Hp H2) as [-> ->].
      rewrite !Aj_fold, !Bj_fold. each.
      - pose proof (out_direct_re 3 ido Z ltac:(lia) Hido p 0 k Hp H2 ltac:(lia) ltac:(lia)) as E. here E.
      - pose proof (out_direct_im 3 ido Z ltac:(lia) Hido p 0 k Hp H2 ltac:(lia) ltac:(lia)) as E. here E.
      - pose proof (out_direct_re 3 ido Z ltac:(lia) Hido p 1 k Hp H2 ltac:(lia) ltac:(lia)) as E. here E.
      - pose proof (out_mirror_re 3 ido Z ltac:(lia) Hido p 1 k Hp H2 ltac:(lia) ltac:(lia) ltac:(lia)) as E. here E.
      - pose proof (out_direct_im 3 ido Z ltac:(lia) Hido p 1 k Hp H2 ltac:(lia) ltac:(lia)) as E. here E.
      - pose proof (out_mirror_im 3 ido Z ltac:(lia) Hido p 1 k Hp H2 ltac:(lia) ltac:(lia) ltac:(lia)) as E. here E. }
    apply two_way; [lia|exact HF|exact HM|].
    intros i j k S Hk. apply In_upto1 in Hk. destruct S as [s Hs|s Hs1 Hs|p s Hp H2 Hs|p s Hp H2 Hs|p s Hp H2 Hs1 Hs|p s Hp H2 Hs1 Hs|h s Hh E Hs|h s Hh E Hs].
    1,2: left; apply (flat_map_cover _ _ _ k Hk); (destruct s as [|[|[|s]]]; try lia; among).
    1,2,3,4: right; split; [|lia]; apply (flat_map_cover _ _ _ k Hk); apply (flat_map_cover _ _ _ (2 * p + 1)); [apply In_odds; exists p; lia|(destruct s as [|[|[|s]]]; try lia; among)].
    1,2: exfalso; rewrite E, Nat.odd_mul in Hodd; discriminate.
  Qed.

  (** Radix 4. *)
  Lemma radf4_ok w : input_ok 4 ido l1 Z cc -> table_ok 4 ido w -> step_ok 4 ido l1 Z ch (radf4 ido l1 cc ch (w 1%nat) (w 2%nat) (w 3%nat)).
  Proof.
    intros Hin Hw. unfold radf4.
    match goal with |- context [if ido <? 2 then run ?F ch else if _ then run ?L _ else if _ then run ?M _ else _] => set (F1 := F); set (L1 := L); set (M1 := M) end.
    assert (HF : forall s, In s F1 -> right 4 s).
    { apply flat_map_sound. intros k Hk. apply In_upto1 in Hk. cbv zeta. rewrite !(in_0 4 ido l1 Z cc) by (assumption || lia). each.
      - pose proof (out_0 4 ido Z ltac:(lia) Hido k ltac:(lia)) as E. here E.
      - pose proof (out_whole_re 4 ido Z ltac:(lia) Hido 2 k ltac:(lia) ltac:(lia) ltac:(lia)) as E. here E.
      - pose proof (out_whole_re 4 ido Z ltac:(lia) Hido 1 k ltac:(lia) ltac:(lia) ltac:(lia)) as E. here E.
      - pose proof (out_whole_im 4 ido Z ltac:(lia) Hido 1 k ltac:(lia) ltac:(lia) ltac:(lia)) as E. here E. }
    assert (HM : forall s, In s M1 -> right 4 s).
    { apply flat_map_sound. intros k Hk. apply In_upto1 in Hk. apply flat_map_sound. intros i Hi. apply In_odds in Hi. destruct Hi as (p & Hp & -> & H2). cbv zeta.
      replace (2 * p + 1 - 1)%nat with (2 * p)%nat by lia. replace (2 * p + 1 - 2)%nat with (2 * p - 1)%nat by lia.
      rewrite !(in_re 4 ido l1 Z cc), !(in_im 4 ido l1 Z cc) by (assumption || lia).
      destruct (Hw 1%nat p ltac:(lia) Hp H2) as [-> ->].
      destruct (Hw 2%nat p ltac:(lia) Hp H2) as [-> ->].
      destruct (Hw 3%nat p ltac:(lia) Hp H2) as [-> ->].
      rewrite !Aj_fold, !Bj_fold. each.
      - pose proof (out_direct_re 4 ido Z ltac:(lia) Hido p 0 k Hp H2 ltac:(lia) ltac:(lia)) as E. here E.
      - pose proof (out_mirror_re 4 ido Z ltac:(lia) Hido p 2 k Hp H2 ltac:(lia) ltac:(lia) ltac:(lia)) as E. here E.
      - pose proof (out_direct_im 4 ido Z ltac:(lia) Hido p 0 k Hp H2 ltac:(lia) ltac:(lia)) as E. here E.
      - pose proof (out_mirror_im 4 ido Z ltac:(lia) Hido p 2 k Hp H2 ltac:(lia) ltac:(lia) ltac:(lia)) as E. here E.
      - pose proof (out_direct_re 4 ido Z ltac:(lia) Hido p 1 k Hp H2 ltac:(lia) ltac:(lia)) as E. here E.
      - pose proof (out_mirror_re 4 ido Z ltac:(lia) Hido p 1 k Hp H2 ltac:(lia) ltac:(lia) ltac:(lia)) as E. here E.
      - pose proof (out_direct_im 4 ido Z ltac:(lia) Hido p 1 k Hp H2 ltac:(lia) ltac:(lia)) as E. here E.
      - pose proof (out_mirror_im 4 ido Z ltac:(lia) Hido p 1 k Hp H2 ltac:(lia) ltac:(lia) ltac:(lia)) as E. here E. }
    assert (HL : forall h, (1 <= h)%nat -> (ido = 2 * h)%nat -> forall s, In s L1 -> right 4 s).
    { intros h Hh Eh. apply flat_map_sound. intros k Hk. apply In_upto1 in Hk. cbv zeta.
      rewrite !(at3_eq ido l1 ido k _ (2 * h) k _) with (1 := Eh) (2 := eq_refl) (3 := eq_refl).
      rewrite !(in_re 4 ido l1 Z cc) by (assumption || lia). each.
      - pose proof (out_half_re 4 ido Z ltac:(lia) Hido h 0 k Hh Eh ltac:(lia) ltac:(lia)) as E. here E.
      - pose proof (out_half_re 4 ido Z ltac:(lia) Hido h 1 k Hh Eh ltac:(lia) ltac:(lia)) as E. here E.
      - pose proof (out_half_im 4 ido Z ltac:(lia) Hido h 0 k Hh Eh ltac:(lia) ltac:(lia)) as E. here E.
      - pose proof (out_half_im 4 ido Z ltac:(lia) Hido h 1 k Hh Eh ltac:(lia) ltac:(lia)) as E. here E. }
    apply four_way; [lia|exact HF|exact HM|exact HL|].
    intros i j k S Hk. apply In_upto1 in Hk. destruct S as [s Hs|s Hs1 Hs|p s Hp H2 Hs|p s Hp H2 Hs|p s Hp H2 Hs1 Hs|p s Hp H2 Hs1 Hs|h s Hh E Hs|h s Hh E Hs].
    1,2: left; apply (flat_map_cover _ _ _ k Hk); (destruct s as [|[|[|s]]]; try lia; among).
    1,2,3,4: right; left; split; [|lia]; apply (flat_map_cover _ _ _ k Hk); apply (flat_map_cover _ _ _ (2 * p + 1)); [apply In_odds; exists p; lia|(destruct s as [|[|[|s]]]; try lia; among)].
    1,2: right; right; split; [|exists h; exact E]; apply (flat_map_cover _ _ _ k Hk); (destruct s as [|[|[|s]]]; try lia; among).
  Qed.

  (** Radix 5. *)
  Lemma radf5_ok w : Nat.odd ido = true -> input_ok 5 ido l1 Z cc -> table_ok 5 ido w -> step_ok 5 ido l1 Z ch (radf5 ido l1 cc ch (w 1%nat) (w 2%nat) (w 3%nat) (w 4%nat)).
  Proof.
    intros Hodd Hin Hw. unfold radf5.
    match goal with |- context [if ido =? 1 then run ?F ch else run ?M _] => set (F1 := F); set (M1 := M) end.
    assert (HF : forall s, In s F1 -> right 5 s).
    { apply flat_map_sound. intros k Hk. apply In_upto1 in Hk. cbv zeta. rewrite !(in_0 5 ido l1 Z cc) by (assumption || lia). each.
      - pose proof (out_0 5 ido Z ltac:(lia) Hido k ltac:(lia)) as E. here E.
      - pose proof (out_whole_re 5 ido Z ltac:(lia) Hido 1 k ltac:(lia) ltac:(lia) ltac:(lia)) as E. here E.
      - pose proof (out_whole_im 5 ido Z ltac:(lia) Hido 1 k ltac:(lia) ltac:(lia) ltac:(lia)) as E. here E.
      - pose proof (out_whole_re 5 ido Z ltac:(lia) Hido 2 k ltac:(lia) ltac:(lia) ltac:(lia)) as E. here E.
      - pose proof (out_whole_im 5 ido Z ltac:(lia) Hido 2 k ltac:(lia) ltac:(lia) ltac:(lia)) as E. here E. }
    assert (HM : forall s, In s M1 -> right 5 s).
    { apply flat_map_sound. intros k Hk. apply In_upto1 in Hk. apply flat_map_sound. intros i Hi. apply In_odds in Hi. destruct Hi as (p & Hp & -> & H2). cbv zeta.
      replace (2 * p + 1 - 1)%nat with (2 * p)%nat by lia. replace (2 * p + 1 - 2)%nat with (2 * p - 1)%nat by lia.
      rewrite !(in_re 5 ido l1 Z cc), !(in_im 5 ido l1 Z cc) by (assumption || lia).
      destruct (Hw 1%nat p ltac:(lia) Hp H2) as [-> ->].
      destruct (Hw 2%nat p ltac:(lia) Hp H2) as [-> ->].
      destruct (Hw 3%nat p ltac:(lia) Hp H2) as [-> ->].
      destruct (Hw 4%nat p ltac:(lia) Hp H2) as [-> ->].
      rewrite !Aj_fold, !Bj_fold. each.
      - pose proof (out_direct_re 5 ido Z ltac:(lia) Hido p 0 k Hp H2 ltac:(lia) ltac:(lia)) as E. here E.
      - pose proof (out_direct_im 5 ido Z ltac:(lia) Hido p 0 k Hp H2 ltac:(lia) ltac:(lia)) as E. here E.
      - pose proof (out_direct_re 5 ido Z ltac:(lia) Hido p 1 k Hp H2 ltac:(lia) ltac:(lia)) as E. here E.
      - pose proof (out_mirror_re 5 ido Z ltac:(lia) Hido p 1 k Hp H2 ltac:(lia) ltac:(lia) ltac:(lia)) as E. here E.
      - pose proof (out_direct_im 5 ido Z ltac:(lia) Hido p 1 k Hp H2 ltac:(lia) ltac:(lia)) as E. here E.
      - pose proof (out_mirror_im 5 ido Z ltac:(lia) Hido p 1 k Hp H2 ltac:(lia) ltac:(lia) ltac:(lia)) as E. here E.
      - pose proof (out_direct_re 5 ido Z ltac:(lia) Hido p 2 k Hp H2 ltac:(lia) ltac:(lia)) as E. here E.
      - pose proof (out_mirror_re 5 ido Z ltac:(lia) Hido p 2 k Hp H2 ltac:(lia) ltac:(lia) ltac:(lia)) as E. here E.
      - pose proof (out_direct_im 5 ido Z ltac:(lia) Hido p 2 k Hp H2 ltac:(lia) ltac:(lia)) as E. here E.
      - pose proof (out_mirror_im 5 ido Z ltac:(lia) Hido p 2 k Hp H2 ltac:(lia) ltac:(lia) ltac:(lia)) as E. here E. }
    apply two_way; [lia|exact HF|exact HM|].
    intros i j k S Hk. apply In_upto1 in Hk. destruct S as [s Hs|s Hs1 Hs|p s Hp H2 Hs|p s Hp H2 Hs|p s Hp H2 Hs1 Hs|p s Hp H2 Hs1 Hs|h s Hh E Hs|h s Hh E Hs].
    1,2: left; apply (flat_map_cover _ _ _ k Hk); (destruct s as [|[|[|s]]]; try lia; among).
    1,2,3,4: right; split; [|lia]; apply (flat_map_cover _ _ _ k Hk); apply (flat_map_cover _ _ _ (2 * p + 1)); [apply In_odds; exists p; lia|(destruct s as [|[|[|s]]]; try lia; among)].
    1,2: exfalso; rewrite E, Nat.odd_mul in Hodd; discriminate.
  Qed.
End Factors.
