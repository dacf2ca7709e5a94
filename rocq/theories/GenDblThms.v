(** C94: total cross sections in floating point. *)
From Coq Require Import List ZArith Bool Lia Reals Lra Psatz Sorted.
From Coq Require Import Floats.SpecFloat.
From Flocq Require Import Core BinarySingleNaN.
From Verif Require Import Base Pdg Dbl EventSpec DblArith SampleDbl DrawDblThms TargetDbl GenDbl.
Import ListNotations.
Local Open Scope R_scope.

(** Reaction [j] is for this atom and projectile and has the positive cross section [x]. *)
Definition serves (rx : list rxn_dbl) (pdg : Z) (E : spec_float) (atom : Z) (j : nat) (x : spec_float) : Prop :=
  exists r, nth_error rx j = Some r /\ dx_atom r = atom /\ dx_proj r = pdg /\ dx_xs r pdg E = x /\ SFltb (S754_zero false) x = true.

Lemma loop_spec pdg E atom : forall rx j s is ws s' is' ws', total_dbl_loop rx pdg E atom j s is ws = (s', is', ws') ->
  exists js xs, is' = is ++ js /\ ws' = ws ++ xs /\ s' = fold_left (SFadd 53 1024) xs s /\ length js = length xs /\ StronglySorted lt js /\ Forall (fun k => (j <= k)%nat) js /\
  forall k x, serves rx pdg E atom k x <-> exists i, nth_error js i = Some (j + k)%nat /\ nth_error xs i = Some x.
Proof.
  induction rx as [|r rx IH]; intros j s is ws s' is' ws' H; cbn [total_dbl_loop] in H.
  - injection H as <- <- <-. exists [], []. rewrite !app_nil_r. repeat (split; [reflexivity || constructor|]).
    intros k x. split; [intros (r & E1 & _); destruct k; discriminate|intros ([|i] & E1 & _); discriminate].
  - set (keep := Z.eqb atom (dx_atom r) && Z.eqb pdg (dx_proj r) && SFltb (S754_zero false) (dx_xs r pdg E)).
    assert (G : total_dbl_loop rx pdg E atom (S j) (if keep then SFadd 53 1024 s (dx_xs r pdg E) else s)
                  (if keep then is ++ [j] else is) (if keep then ws ++ [dx_xs r pdg E] else ws) = (s', is', ws')).
    { unfold keep. destruct (Z.eqb atom (dx_atom r)); cbn [negb andb] in *; [|exact H]. destruct (Z.eqb pdg (dx_proj r)); cbn [negb andb] in *; [|exact H].
      destruct (SFltb (S754_zero false) (dx_xs r pdg E)); exact H. }
    clear H. destruct (IH _ _ _ _ _ _ _ G) as (js & xs & E1 & E2 & E3 & L & SS & LB & SP).
    assert (K : keep = true <-> serves (r :: rx) pdg E atom 0 (dx_xs r pdg E)).
    { unfold keep. rewrite !andb_true_iff, !Z.eqb_eq. split.
      - intros [[A B] C]. exists r. repeat split; congruence.
      - intros (r' & A & B & C & _ & D). injection A as <-. repeat split; congruence. }
    assert (SX : forall k x, serves (r :: rx) pdg E atom (S k) x <-> serves rx pdg E atom k x) by (intros; reflexivity).
    assert (S0 : forall x, serves (r :: rx) pdg E atom 0 x -> x = dx_xs r pdg E) by (intros x (r' & A & _ & _ & B & _); injection A as <-; congruence).
    destruct keep.
    + exists (j :: js), (dx_xs r pdg E :: xs). rewrite <- !app_assoc in *. cbn [app] in *. split; [exact E1|]. split; [exact E2|]. split; [exact E3|].
      split; [cbn [length]; congruence|]. split; [constructor; [exact SS|]; apply (Forall_impl _ (P := fun k => (S j <= k)%nat)); [intros; lia|exact LB]|].
      split; [constructor; [lia|]; apply (Forall_impl _ (P := fun k => (S j <= k)%nat)); [intros; lia|exact LB]|].
      intros [|k] x.
      * rewrite Nat.add_0_r. split.
        { intros V. exists 0%nat. rewrite (S0 _ V). split; reflexivity. }
        { intros ([|i] & A & B); cbn [nth_error] in A, B.
          - injection B as <-. apply K. reflexivity.
          - exfalso. apply nth_error_In in A. rewrite Forall_forall in LB. specialize (LB _ A). lia. }
      * rewrite SX, SP. replace (j + S k)%nat with (S j + k)%nat by lia. split.
        { intros (i & A & B). exists (S i). split; assumption. }
        { intros ([|i] & A & B); cbn [nth_error] in A, B; [injection A as A; lia|]. exists i. split; assumption. }
    + exists js, xs. split; [exact E1|]. split; [exact E2|]. split; [exact E3|]. split; [exact L|]. split; [exact SS|].
      split; [apply (Forall_impl _ (P := fun k => (S j <= k)%nat)); [intros; lia|exact LB]|]. intros [|k] x.
      * rewrite Nat.add_0_r. split.
        { intros V. pose proof (S0 _ V) as ->. apply K in V. discriminate. }
        { intros (i & A & _). exfalso. apply nth_error_In in A. rewrite Forall_forall in LB. specialize (LB _ A). lia. }
      * rewrite SX, SP. replace (j + S k)%nat with (S j + k)%nat by lia. reflexivity.
Qed.

(** The lists hold exactly the reactions that can happen, in their order, with their cross
    sections. *)
Theorem C94_lists rx pdg E atom s is ws : total_xs_dbl rx pdg E atom = (s, is, ws) ->
  length is = length ws /\ StronglySorted lt is /\ forall j x, serves rx pdg E atom j x <-> exists k, nth_error is k = Some j /\ nth_error ws k = Some x.
Proof.
  intros H. destruct (loop_spec _ _ _ _ _ _ _ _ _ _ _ H) as (js & xs & -> & -> & _ & L & SS & _ & SP). cbn [app]. split; [exact L|]. split; [exact SS|]. exact SP.
Qed.
Print Assumptions C94_lists.

Lemma total_is rx pdg E atom s is ws : total_xs_dbl rx pdg E atom = (s, is, ws) -> s = fold_left (SFadd 53 1024) ws (S754_zero false).
Proof. intros H. destruct (loop_spec _ _ _ _ _ _ _ _ _ _ _ H) as (js & xs & -> & -> & E1 & _). exact E1. Qed.

(** The sum is right up to rounding. *)
Theorem C94_total rx pdg E atom s is ws : total_xs_dbl rx pdg E atom = (s, is, ws) -> Forall finite_dbl ws -> total ws <= bpow radix2 1000 ->
  (Z.of_nat (length ws) <= 2 ^ 51)%Z ->
  finite_dbl s /\ Rabs (val s - total ws) <= INR (length ws) / 2 ^ 52 * total ws /\ (ws <> [] -> 0 < total ws).
Proof.
  intros H F B N. pose proof (C94_lists _ _ _ _ _ _ _ H) as (L & _ & SP).
  assert (ZF : finite_dbl (S754_zero false)) by (split; reflexivity).
  assert (P : Forall (fun x => finite_dbl x /\ 0 < val x) ws).
  { apply Forall_forall. intros x Hx. rewrite Forall_forall in F. split; [apply F; exact Hx|]. destruct (In_nth_error _ _ Hx) as [k Ek].
    destruct (nth_error is k) as [j|] eqn:Ej; [|apply nth_error_None in Ej; assert (k < length ws)%nat by (apply nth_error_Some; rewrite Ek; discriminate); lia].
    destruct (proj2 (SP j x)) as (r & _ & _ & _ & _ & T); [exists k; split; assumption|]. apply (ltb_finite _ _ ZF (F x Hx)) in T. exact T. }
  assert (W : Forall weight ws) by (apply (Forall_impl _ (P := fun x => finite_dbl x /\ 0 < val x)); [intros x [A C]; split; [exact A|lra]|exact P]).
  destruct (sum_spec ws (S754_zero false) (total ws) W) as [[A1 _] A2].
  - split; [exact ZF|]. change (val (S754_zero false)) with 0. lra.
  - change (val (S754_zero false)) with 0. lra.
  - exact B.
  - rewrite INR_IZR_INZ. apply IZR_le in N. destruct eps_small as (_ & -> & _). lra.
  - rewrite <- (total_is _ _ _ _ _ _ _ H) in A1, A2. split; [exact A1|]. change (val (S754_zero false)) with 0 in A2. rewrite Rplus_0_l in A2. split.
    + apply (Rle_trans _ _ _ A2). right. destruct eps_small as (_ & -> & _). field.
    + intros NE. destruct ws as [|w ws']; [congruence|]. pose proof (Forall_inv P) as [_ Q]. rewrite total_cons. pose proof (total_nonneg ws' (Forall_inv_tail W)). lra.
Qed.
Print Assumptions C94_total.

(** ** The choice *)

Definition above (x : spec_float) : Prop := x = S754_infinity false \/ (finite_dbl x /\ 0 < val x).

Lemma add_above x y : x = S754_zero false \/ above x -> above y -> above (SFadd 53 1024 x y).
Proof.
  intros [->|[->|[Fx Px]]] Hy.
  - destruct Hy as [->|[Fy Py]]; [left; reflexivity|]. right. destruct y as [sy|sy| |sy m e]; try (destruct Fy; discriminate); [change (val (S754_zero sy)) with 0 in Py; lra|]. split; assumption.
  - destruct Hy as [->|[Fy Py]]; [left; reflexivity|]. left. destruct y as [sy|sy| |sy m e]; try (destruct Fy; discriminate); reflexivity.
  - destruct Hy as [->|[Fy Py]].
    + left. destruct x as [sx|sx| |sx m e]; try (destruct Fx; discriminate); reflexivity.
    + destruct (finite_float x Fx) as (f & <- & Ff & Vf). destruct (finite_float y Fy) as (g & <- & Fg & Vg). rewrite (add_equiv f g).
      pose proof (Bplus_correct 53 1024 Hprec Hmax mode_NE f g Ff Fg) as C.
      match type of C with (if ?t then _ else _) => destruct t end.
      * destruct C as (C1 & C2 & _). right. destruct (float_finite _ C2) as [A1 A2]. split; [exact A1|]. rewrite A2, C1, Vf, Vg.
        apply (Rlt_le_trans _ (val (B2SF g))); [exact Py|]. rewrite <- (rnd_id (val (B2SF g))) at 1 by (apply val_format; exact Fy). apply rnd_le. lra.
      * destruct C as (C1 & C2). left. rewrite C1. assert (SG : Bsign f = false); [|rewrite SG; reflexivity].
        rewrite <- Vf in Px. destruct f as [sf|sf| |sf m e B]; try discriminate; cbn in Px; [lra|]. destruct sf; [|reflexivity]. exfalso.
        assert (val (S754_finite true m e) < 0) by (apply F2R_lt_0; reflexivity). unfold val in *. cbn in *. lra.
Qed.

Lemma sum_above ws : forall s, s = S754_zero false \/ above s -> Forall above ws -> ws <> [] -> above (fold_left (SFadd 53 1024) ws s).
Proof.
  induction ws as [|w ws IH]; intros s Hs HF NE; [congruence|]. cbn [fold_left]. pose proof (add_above s w Hs (Forall_inv HF)) as A.
  destruct ws as [|w' ws]; [exact A|]. apply IH; [right; exact A|exact (Forall_inv_tail HF)|discriminate].
Qed.

Lemma above_leb x : above x -> SFleb x (S754_zero false) = false.
Proof.
  intros [->|[Fx Px]]; [reflexivity|]. destruct x as [s|s| |s m e]; try (destruct Fx; discriminate); [change (val (S754_zero s)) with 0 in Px; lra|].
  destruct s; [|reflexivity]. exfalso. assert (val (S754_finite true m e) < 0) by (apply F2R_lt_0; reflexivity). lra.
Qed.

(** Every cross section is a double, which may be infinite or NaN. *)
Definition doubles (rx : list rxn_dbl) : Prop := forall r pdg E, In r rx -> valid_dbl (dx_xs r pdg E) = true.

(** An event is refused exactly if no reaction can happen; otherwise a reaction is chosen that
    can, even if cross sections are infinite or NaN or their sum overflows. *)
Theorem C94_pick rx pdg E atom u : doubles rx -> SFltb dbl_one u = false ->
  (forall j, pick_dbl rx pdg E atom u = Ok j -> exists x, serves rx pdg E atom j x) /\
  ((exists j x, serves rx pdg E atom j x) -> exists j, pick_dbl rx pdg E atom u = Ok j) /\
  ((forall j x, ~ serves rx pdg E atom j x) -> pick_dbl rx pdg E atom u = Er MarleyErr).
Proof.
  intros D HU. destruct (total_xs_dbl rx pdg E atom) as [[s is] ws] eqn:H. pose proof (C94_lists _ _ _ _ _ _ _ H) as (L & _ & SP). pose proof (total_is _ _ _ _ _ _ _ H) as TS.
  assert (AB : Forall above ws).
  { apply Forall_forall. intros x Hx. destruct (In_nth_error _ _ Hx) as [k Ek].
    destruct (nth_error is k) as [j|] eqn:Ej; [|apply nth_error_None in Ej; assert (k < length ws)%nat by (apply nth_error_Some; rewrite Ek; discriminate); lia].
    destruct (proj2 (SP j x)) as (r & I1 & _ & _ & <- & T); [exists k; split; assumption|]. pose proof (D r pdg E (nth_error_In _ _ I1)) as V.
    destruct (dx_xs r pdg E) as [sg|sg| |sg m e]; try discriminate T; destruct sg; try discriminate T; [left; reflexivity|].
    right. split; [split; [reflexivity|exact V]|apply F2R_gt_0; reflexivity]. }
  assert (CH : ws <> [] -> exists j x, pick_dbl rx pdg E atom u = Ok j /\ serves rx pdg E atom j x).
  { intros NE. unfold pick_dbl. rewrite H, TS. rewrite (above_leb _ (sum_above ws _ (or_introl eq_refl) AB NE)).
    pose proof (C76_choice ws u NE HU) as LT. destruct (nth_error ws (dbl_choice ws u)) as [x|] eqn:Ex; [|apply nth_error_None in Ex; lia].
    destruct (nth_error is (dbl_choice ws u)) as [j|] eqn:Ej; [|apply nth_error_None in Ej; lia].
    assert (SV : serves rx pdg E atom j x) by (apply SP; exists (dbl_choice ws u); split; assumption). exists j, x. split; [|exact SV].
    destruct SV as (r & -> & _). destruct ws; [congruence|]. reflexivity. }
  assert (NO : ws = [] -> pick_dbl rx pdg E atom u = Er MarleyErr) by (intros E0; unfold pick_dbl; rewrite H, E0; reflexivity).
  split; [|split].
  - intros j P. destruct ws as [|w ws']; [rewrite NO in P by reflexivity; discriminate|]. destruct CH as (j' & x & A & B); [discriminate|]. exists x. congruence.
  - intros (j & x & SV). apply SP in SV. destruct SV as (k & _ & B). destruct CH as (j' & y & A & _); [intros ->; destruct k; discriminate|]. exists j'. exact A.
  - intros N. apply NO. destruct ws as [|w ws']; [reflexivity|]. destruct CH as (j' & y & _ & A); [discriminate|]. exfalso. exact (N _ _ A).
Qed.
Print Assumptions C94_pick.

(** The choice follows the cross sections up to rounding: the draw lies between the shares of the
    reactions before the chosen one and of those up to it. *)
Theorem C94_share rx pdg E atom u s is ws j : total_xs_dbl rx pdg E atom = (s, is, ws) -> Forall finite_dbl ws ->
  bpow radix2 (-1000) <= total ws <= bpow radix2 1000 -> (Z.of_nat (length ws) <= 2 ^ 20)%Z -> finite_dbl u -> 0 <= val u < 1 ->
  pick_dbl rx pdg E atom u = Ok j -> exists k, nth_error is k = Some j /\
  total (firstn k ws) / total ws - INR (length ws) / 2 ^ 49 <= val u <= total (firstn (S k) ws) / total ws + INR (length ws) / 2 ^ 49.
Proof.
  intros H F B N Fu U P. pose proof (C94_lists _ _ _ _ _ _ _ H) as (L & _ & SP).
  assert (ZF : finite_dbl (S754_zero false)) by (split; reflexivity).
  assert (W : Forall weight ws).
  { apply Forall_forall. intros x Hx. rewrite Forall_forall in F. split; [apply F; exact Hx|]. destruct (In_nth_error _ _ Hx) as [k Ek].
    destruct (nth_error is k) as [i|] eqn:Ej; [|apply nth_error_None in Ej; assert (k < length ws)%nat by (apply nth_error_Some; rewrite Ek; discriminate); lia].
    destruct (proj2 (SP i x)) as (r & _ & _ & _ & _ & T); [exists k; split; assumption|]. apply (ltb_finite _ _ ZF (F x Hx)) in T. change (val (S754_zero false)) with 0 in T. lra. }
  exists (dbl_choice ws u). split.
  - unfold pick_dbl in P. rewrite H in P. destruct (_ || _); [discriminate|]. destruct (nth_error is (dbl_choice ws u)) as [i|]; [|discriminate].
    destruct (nth_error rx i); [|discriminate]. injection P as ->. reflexivity.
  - apply C76_choice_share; auto. apply Nat2Z.inj_le. rewrite Nat2Z.inj_pow. exact N.
Qed.
Print Assumptions C94_share.

(** ** The average over the target *)

Definition share_of (t : option (list (Z * spec_float))) (n : Z) : R := match t with Some t' => val (atom_fraction_dbl t' n) | None => 1 end.
Fixpoint exact_average (t : option (list (Z * spec_float))) (rx : list rxn_dbl) (pdg : Z) (E : spec_float) : R :=
  match rx with [] => 0 | r :: rest => val (dx_xs r pdg E) * share_of t (dx_atom r) + exact_average t rest pdg E end.
Definition fractions (t : option (list (Z * spec_float))) (rx : list rxn_dbl) : Prop :=
  match t with Some t' => Forall (fun r => finite_dbl (atom_fraction_dbl t' (dx_atom r)) /\ 0 <= val (atom_fraction_dbl t' (dx_atom r)) <= 1) rx | None => True end.

Definition product_dbl (t : option (list (Z * spec_float))) (pdg : Z) (E : spec_float) (r : rxn_dbl) : spec_float :=
  match t with Some t' => SFmul 53 1024 (dx_xs r pdg E) (atom_fraction_dbl t' (dx_atom r)) | None => dx_xs r pdg E end.

Lemma average_is t pdg E : forall rx s, average_dbl_loop t rx pdg E s = fold_left (SFadd 53 1024) (map (product_dbl t pdg E) rx) s.
Proof. induction rx as [|r rx IH]; intros s; [reflexivity|]. cbn [average_dbl_loop map fold_left]. rewrite IH. reflexivity. Qed.

Lemma products t pdg E : forall rx, fractions t rx -> Forall (fun r => finite_dbl (dx_xs r pdg E) /\ 0 <= val (dx_xs r pdg E) <= bpow radix2 990) rx ->
  let ys := map (product_dbl t pdg E) rx in
  Forall weight ys /\ 0 <= exact_average t rx pdg E /\ Rabs (total ys - exact_average t rx pdg E) <= eps * exact_average t rx pdg E + INR (length rx) * eta.
Proof.
  destruct eps_small as (E0 & _ & E1). induction rx as [|r rx IH]; intros HT HX; cbv zeta; cbn [map exact_average length].
  - split; [constructor|]. split; [lra|]. change (total []) with 0. rewrite Rminus_0_r, Rabs_R0. cbn [INR]. lra.
  - pose proof (Forall_inv HX) as [Fx [Px Bx]].
    assert (HT' : fractions t rx) by (destruct t; [exact (Forall_inv_tail HT)|constructor]).
    destruct (IH HT' (Forall_inv_tail HX)) as (W & A & B). cbv zeta in *.
    set (a := val (dx_xs r pdg E) * share_of t (dx_atom r)).
    assert (Y : weight (product_dbl t pdg E r) /\ 0 <= a /\ Rabs (val (product_dbl t pdg E r) - a) <= eps * a + eta).
    { unfold a, product_dbl, share_of. destruct t as [t'|].
      - pose proof (Forall_inv HT) as [Ff [F0 F1]]. set (f := atom_fraction_dbl t' (dx_atom r)) in *. set (x := dx_xs r pdg E) in *.
        assert (P0 : 0 <= val x * val f) by nra.
        assert (HB : val x * val f <= huge). { apply (Rle_trans _ (bpow radix2 990)); [nra|]. apply bpow_le. lia. }
        destruct (mul_finite x f Fx Ff) as [M1 M2]; [rewrite Rabs_pos_eq by exact P0; exact HB|].
        split; [split; [exact M1|]|split; [exact P0|]].
        + rewrite M2, <- rnd_0. apply rnd_le. exact P0.
        + rewrite M2. pose proof (rnd_error (val x * val f)) as RE. rewrite (Rabs_pos_eq (val x * val f) P0) in RE. exact RE.
      - rewrite Rmult_1_r. split; [split; [exact Fx|exact Px]|]. split; [exact Px|]. rewrite Rminus_diag_eq by reflexivity. rewrite Rabs_R0. nra. }
    destruct Y as (Y1 & Y2 & Y3). split; [constructor; [exact Y1|exact W]|]. split; [lra|]. rewrite total_cons, S_INR.
    apply Rabs_le_inv in B. apply Rabs_le_inv in Y3. apply Rabs_le. split; nra.
Qed.

(** The average is right up to rounding. *)
Theorem C94_average t rx pdg E : fractions t rx -> Forall (fun r => finite_dbl (dx_xs r pdg E) /\ 0 <= val (dx_xs r pdg E) <= bpow radix2 990) rx ->
  exact_average t rx pdg E <= bpow radix2 990 -> (Z.of_nat (length rx) <= 2 ^ 46)%Z ->
  let s := average_xs_dbl t rx pdg E in
  finite_dbl s /\ 0 <= val s /\ Rabs (val s - exact_average t rx pdg E) <= INR (length rx) * (exact_average t rx pdg E / 2 ^ 51 + bpow radix2 (-1074)).
Proof.
  intros HT HX HB HN. cbv zeta. unfold average_xs_dbl. rewrite average_is. destruct (products t pdg E rx HT HX) as (W & A & B). cbv zeta in *.
  set (ys := map (product_dbl t pdg E) rx) in *. set (a := exact_average t rx pdg E) in *. destruct eps_small as (E0 & E1 & E2).
  assert (LY : length ys = length rx) by apply map_length. set (n := INR (length rx)) in *.
  assert (NB : 0 <= n <= 2 ^ 46) by (unfold n; split; [apply pos_INR|]; rewrite INR_IZR_INZ; apply IZR_le in HN; lra).
  assert (NE : n * eps <= / 128) by (rewrite E1; lra).
  assert (T1 : 1 <= bpow radix2 990) by (change 1 with (bpow radix2 0); apply bpow_le; lia).
  assert (T2 : bpow radix2 1000 = 1024 * bpow radix2 990) by (change 1000%Z with (10 + 990)%Z; rewrite bpow_plus; reflexivity).
  assert (T3 : bpow radix2 (-1074) = 2 * eta) by (unfold eta; change (-1074)%Z with (1 + -1075)%Z; rewrite bpow_plus; reflexivity).
  assert (T4 : eta <= eps) by (unfold eta, eps; apply bpow_le; lia).
  assert (TB : total ys <= a * (1 + eps) + n * eta) by (apply Rabs_le_inv in B; lra).
  assert (TN : n * eta <= / 128) by nra. assert (E3 : eps <= / 1024) by (rewrite E1; lra).
  destruct (sum_spec ys (S754_zero false) (total ys) W) as [[S1 S2] S3].
  - split; [split; reflexivity|]. change (val (S754_zero false)) with 0. lra.
  - change (val (S754_zero false)) with 0. lra.
  - rewrite T2. nra.
  - rewrite LY. fold n. lra.
  - change (val (S754_zero false)) with 0 in S3. rewrite Rplus_0_l, LY in S3. fold n in S3. split; [exact S1|]. split; [exact S2|].
    assert (N1 : n = 0 \/ 1 <= n).
    { unfold n. destruct (length rx) as [|k]; [left; reflexivity|right]. rewrite S_INR. pose proof (pos_INR k). lra. }
    set (v := val (fold_left (SFadd 53 1024) ys (S754_zero false))) in *.
    assert (G : Rabs (v - a) <= 2 * n * (eps * total ys) + (eps * a + n * eta)).
    { replace (v - a) with ((v - total ys) + (total ys - a)) by ring. apply (Rle_trans _ _ _ (Rabs_triang _ _)). lra. }
    destruct N1 as [N0|N1].
    + assert (rx = []) as -> by (destruct rx; [reflexivity|exfalso; unfold n in N0; cbn [length] in N0; rewrite S_INR in N0; pose proof (pos_INR (length rx)); lra]).
      unfold a in *. cbn [exact_average] in *. rewrite N0 in *. apply (Rle_trans _ _ _ G). lra.
    + apply (Rle_trans _ _ _ G). rewrite T3.
      assert (2 * n * (eps * total ys) <= 2 * (n * eps) * (a * (1 + eps) + n * eta)).
      { replace (2 * n * (eps * total ys)) with (2 * (n * eps) * total ys) by ring. apply Rmult_le_compat_l; [nra|exact TB]. }
      assert (n * (a / 2 ^ 51) = 4 * (n * eps) * a) by (rewrite E1; field).
      assert (0 <= n * eps) by nra. assert (0 <= n * eta) by nra.
      assert ((n * eps) * (n * eta) <= / 128 * (n * eta)) by (apply Rmult_le_compat_r; lra).
      assert (eps * a <= (n * eps) * a) by (apply Rmult_le_compat_r; [exact A|nra]).
      assert ((n * eps) * a * eps <= (n * eps) * a * / 1024) by (apply Rmult_le_compat_l; [nra|lra]).
      assert (0 <= (n * eps) * a) by nra.
      nra.
Qed.
Print Assumptions C94_average.

(** A cross section that is not a number is ignored for one kind of atom, but spoils the average;
    an infinite one spoils it even if the target does not contain the atom. *)
Definition demo_rx (x : spec_float) : list rxn_dbl := [mkrxn_dbl 1000180400 12 (fun _ _ => dbl_one); mkrxn_dbl 1000010010 12 (fun _ _ => x); mkrxn_dbl 1000180400 12 (fun _ _ => x)].
Theorem C94_nan_refuted E : exists rx, total_xs_dbl rx 12 E 1000180400 = (dbl_one, [0%nat], [dbl_one]) /\ total_xs_dbl rx 12 E 1000010010 = (S754_zero false, [], []) /\
  average_xs_dbl None rx 12 E = S754_nan.
Proof. exists (demo_rx S754_nan). split; [reflexivity|]. split; reflexivity. Qed.
Print Assumptions C94_nan_refuted.
Theorem C94_infinite_refuted E : exists t rx, make_target_dbl true [1000180400%Z] [dbl_one] = Ok t /\
  (forall r, In r rx -> dx_xs r 12 E <> S754_nan) /\ (forall j, ~ serves rx 12 E 1000180400 j (S754_infinity false)) /\ average_xs_dbl (Some t) rx 12 E = S754_nan.
Proof.
  exists [(1000180400%Z, dbl_one)], (firstn 2 (demo_rx (S754_infinity false))). split; [vm_compute; reflexivity|]. split; [|split].
  - intros r [<-|[<-|[]]]; discriminate.
  - intros j (r & A & B & _ & C & _). destruct j as [|[|[|]]]; cbn in A; try discriminate; injection A as <-; cbn in B, C; discriminate.
  - vm_compute. reflexivity.
Qed.
Print Assumptions C94_infinite_refuted.

Example C94_case E : let rx := demo_rx dbl_one in
  doubles rx /\ total_xs_dbl rx 12 E 1000180400 = (dint 2, [0; 2]%nat, [dbl_one; dbl_one]) /\ pick_dbl rx 12 E 1000180400 last_draw = Ok 2%nat /\
  pick_dbl rx (-12) E 1000180400 last_draw = Er MarleyErr /\ total [dbl_one; dbl_one] = 2 /\
  fractions (Some [(1000180400%Z, dbl_one)]) rx /\ Forall (fun r => finite_dbl (dx_xs r 12 E) /\ 0 <= val (dx_xs r 12 E) <= bpow radix2 990) rx /\
  exact_average (Some [(1000180400%Z, dbl_one)]) rx 12 E = 2 /\ average_xs_dbl (Some [(1000180400%Z, dbl_one)]) rx 12 E = dint 2.
Proof.
  cbv zeta. pose proof val_one as V. assert (FO : finite_dbl dbl_one) by (split; reflexivity).
  assert (B1 : 1 <= bpow radix2 990) by (change 1 with (bpow radix2 0); apply bpow_le; lia).
  split; [intros r pdg E' [<-|[<-|[<-|[]]]]; reflexivity|]. split; [vm_compute; reflexivity|]. split; [vm_compute; reflexivity|]. split; [reflexivity|].
  split; [rewrite !total_cons, V; change (total []) with 0; lra|]. split; [|split; [|split]].
  - assert (FZ : finite_dbl (S754_zero false)) by (split; reflexivity). assert (VZ : val (S754_zero false) = 0) by reflexivity.
    unfold fractions. apply Forall_forall. intros r [<-|[<-|[<-|[]]]]; unfold atom_fraction_dbl;
      cbn [dx_atom assoc Z.eqb Pos.eqb]; (split; [assumption|]); rewrite ?V, ?VZ; lra.
  - unfold demo_rx. apply Forall_forall. intros r [<-|[<-|[<-|[]]]]; cbn [dx_xs]; (split; [exact FO|]); rewrite V; lra.
  - cbn [exact_average demo_rx dx_xs dx_atom share_of]. unfold atom_fraction_dbl. cbn [assoc Z.eqb Pos.eqb]. rewrite V. change (val (S754_zero false)) with 0. lra.
  - vm_compute. reflexivity.
Qed.
