(** Lemmas about de-excitation. *)
From Coq Require Import List ZArith Reals Lra Lia Bool FinFun.
From Verif Require Import Base Pdg Kin KinSpec KinProofs KinThms Sample SampleProofs Mass Decay DecaySpec.
Import ListNotations.
Local Open Scope R_scope.

(** ** Four-momentum sums *)

Lemma total_app f l l' : total f (l ++ l') = total f l + total f l'.
Proof. induction l as [|p l IH]; cbn [app total fold_right]; [unfold total; cbn; lra|]. fold (total f (l ++ l')). rewrite IH. unfold total. lra. Qed.
Lemma total_cons f p l : total f (p :: l) = f p + total f l.
Proof. reflexivity. Qed.
Lemma total_nil f : total f [] = 0.
Proof. reflexivity. Qed.

Lemma same_p4_trans a b c : same_p4 a b -> same_p4 b c -> same_p4 a c.
Proof. unfold same_p4. intros (A1 & A2 & A3 & A4) (B1 & B2 & B3 & B4). repeat split; congruence. Qed.
Lemma same_p4_refl a : same_p4 a a.
Proof. unfold same_p4. repeat split. Qed.
Ltac p4 := unfold same_p4 in *; repeat rewrite ?total_app, ?total_cons, ?total_nil in *; intuition lra.

(** ** One two-body decay *)

Lemma decay_step p0 p1 p2 ct phi q1 q2 :
  two_body_decay p0 p1 p2 ct phi = Ok (q1, q2) ->
  on_shell p0 -> 0 < mass p0 -> 0 <= mass p1 -> 0 <= mass p2 -> -1 <= ct <= 1 ->
  on_shell q1 /\ on_shell q2 /\ same_kind p1 q1 /\ same_kind p2 q2 /\ same_p4 [p0] [q1; q2] /\ mass p1 + mass p2 <= mass p0.
Proof.
  intros H H0 HM H1 H2 Hc. destruct (Rle_dec (mass p1 + mass p2) (mass p0)) as [L|L].
  - destruct (C44_conserves p0 p1 p2 ct phi H0 HM H1 H2 L Hc) as (r1 & r2 & E & R). rewrite H in E. injection E as <- <-. intuition.
  - rewrite C44_refused in H by lra. discriminate.
Qed.

Lemma uniform_unit lo hi u : lo <= hi -> unit_draw u -> lo <= uniform lo hi u <= hi.
Proof. intros H Hu. apply uniform_in; assumption. Qed.

Lemma nth_discrete_pos {A} (w : A -> R) (l : list A) u x :
  Forall (fun a => 0 <= w a) l -> 0 < sumR (map w l) -> 0 < u <= 1 ->
  nth_error l (discrete (map w l) u) = Some x -> In x l /\ 0 < w x.
Proof.
  intros Hn Hs Hu Hx. split; [eapply nth_error_In; exact Hx|].
  assert (Hm : nonneg (map w l)) by (unfold nonneg; apply Forall_map; exact Hn).
  apply (discrete_positive (map w l) u (w x) Hm Hs Hu). apply map_nth_error. exact Hx.
Qed.

Lemma nth_discrete_some {A} (w : A -> R) (l : list A) u : l <> [] -> exists x, nth_error l (discrete (map w l) u) = Some x.
Proof.
  intros H. assert (L : (discrete (map w l) u < length (map w l))%nat) by (apply discrete_lt; destruct l; [contradiction|discriminate]).
  rewrite map_length in L. destruct (nth_error l (discrete (map w l) u)) eqn:E; [eexists; reflexivity|].
  apply nth_error_None in E. lia.
Qed.

(** ** Loops *)

Lemma in_range2 lo hi x : In x (range2 lo hi) <-> (lo <= x <= hi)%Z /\ Z.even (x - lo) = true.
Proof.
  unfold range2. rewrite in_map_iff. split.
  - intros (i & <- & Hi). apply in_seq in Hi.
    pose proof (Z.mul_div_le (hi - lo) 2 ltac:(lia)). split; [lia|].
    replace (lo + 2 * Z.of_nat i - lo)%Z with (2 * Z.of_nat i)%Z by ring. apply Z.even_mul.
  - intros [H1 H2]. apply Z.even_spec in H2. destruct H2 as [q Hq]. exists (Z.to_nat q). split; [lia|].
    apply in_seq. assert (q <= (hi - lo) / 2)%Z by (apply Z.div_le_lower_bound; lia). lia.
Qed.

Lemma nodup_range2 lo hi : NoDup (range2 lo hi).
Proof. unfold range2. apply Injective_map_NoDup; [intros a b H; lia|apply seq_NoDup]. Qed.

Lemma in_range1 lo hi x : In x (range1 lo hi) <-> (lo <= x <= hi)%Z.
Proof.
  unfold range1. rewrite in_map_iff. split.
  - intros (i & <- & Hi). apply in_seq in Hi. lia.
  - intros H. exists (Z.to_nat (x - lo)). split; [lia|]. apply in_seq. lia.
Qed.

Lemma nodup_range1 lo hi : NoDup (range1 lo hi).
Proof. unfold range1. apply Injective_map_NoDup; [intros a b H; lia|apply seq_NoDup]. Qed.

Lemma even_flip z : Z.even (z + 1) = negb (Z.even z).
Proof. rewrite Z.even_add. destruct (Z.even z); reflexivity. Qed.

Lemma in_l_loop Pi n : forall P l x, In x (l_loop Pi P l n) <->
  (l <= x < l + Z.of_nat n)%Z /\ Pi = (if Z.even (x - l) then P else negb P).
Proof.
  induction n as [|n IH]; intros P l x; cbn [l_loop].
  - split; [intros []|]. intros [H _]. lia.
  - rewrite in_app_iff, IH. unfold parity_eqb, parity_neg.
    assert (E : forall z, Z.even (z - (l + 1)) = negb (Z.even (z - l))).
    { intros z. replace (z - l)%Z with (z - (l + 1) + 1)%Z by ring. rewrite even_flip, negb_involutive. reflexivity. }
    rewrite E. split.
    + intros [H|[H1 H2]].
      * destruct (eqb Pi P) eqn:EP; [|destruct H]. destruct H as [<-|[]]. split; [lia|].
        rewrite Z.sub_diag. apply eqb_prop in EP. exact EP.
      * split; [lia|]. rewrite H2. destruct (Z.even (x - l)); cbn [negb]; [apply negb_involutive|reflexivity].
    + intros [H1 H2]. destruct (Z.eq_dec x l) as [->|N].
      * left. rewrite Z.sub_diag in H2. cbn in H2. subst Pi. rewrite eqb_reflx. left. reflexivity.
      * right. split; [lia|]. rewrite H2. destruct (Z.even (x - l)); cbn [negb]; [symmetry; apply negb_involutive|reflexivity].
Qed.

Lemma nodup_l_loop Pi n : forall P l, NoDup (l_loop Pi P l n).
Proof.
  induction n as [|n IH]; intros P l; cbn [l_loop]; [constructor|].
  destruct (parity_eqb Pi P); cbn [app]; [|apply IH]. constructor; [|apply IH]. rewrite in_l_loop. lia.
Qed.

Lemma NoDup_app {A} (l l' : list A) : NoDup l -> NoDup l' -> (forall x, In x l -> ~ In x l') -> NoDup (l ++ l').
Proof.
  induction 1 as [|x l Hx Hl IH]; intros H' Hd; [exact H'|]. cbn [app]. constructor.
  - rewrite in_app_iff. intros [C|C]; [contradiction|]. apply (Hd x); [left; reflexivity|exact C].
  - apply IH; [exact H'|]. intros y Hy. apply Hd. right. exact Hy.
Qed.

Lemma NoDup_flat_map {A B} (f : A -> list B) (k : B -> A) l :
  NoDup l -> (forall a, In a l -> NoDup (f a)) -> (forall a b, In b (f a) -> k b = a) -> NoDup (flat_map f l).
Proof.
  intros Hl Hf Hk. induction Hl as [|a l Ha Hl IH]; [constructor|]. cbn [flat_map]. apply NoDup_app.
  - apply Hf. left. reflexivity.
  - apply IH. intros b Hb. apply Hf. right. exact Hb.
  - intros x Hx Hx'. apply in_flat_map in Hx'. destruct Hx' as (b & Hb & Hx'). apply Hk in Hx. apply Hk in Hx'. congruence.
Qed.

Lemma even_abs_sub a b : Z.even (Z.abs (a - b)) = Z.even (a + b).
Proof.
  assert (Z.even (Z.abs (a - b)) = Z.even (a - b)).
  { destruct (Z.abs_spec (a - b)) as [[_ ->]|[_ ->]]; [reflexivity|apply Z.even_opp]. }
  rewrite H, Z.even_sub, Z.even_add. reflexivity.
Qed.

Lemma quot2_even a : (0 <= a)%Z -> Z.even a = true -> (2 * Z.quot a 2 = a)%Z.
Proof.
  intros H He. rewrite Z.quot_div_nonneg by lia. apply Z.even_spec in He. destruct He as [q ->].
  rewrite Z.mul_comm at 1. rewrite (Z.mul_comm 2 q), Z.div_mul by lia. reflexivity.
Qed.

Lemma sign_sub_even l x : minus_one_to x = if Z.even (x - l) then minus_one_to l else (- minus_one_to l)%Z.
Proof. unfold minus_one_to. rewrite Z.even_sub. destruct (Z.even x), (Z.even l); reflexivity. Qed.

Lemma parity_step Pi Pf Pa l x :
  Pi = (if Z.even (x - l) then parity_mul (parity_mul Pf Pa) (negb (Z.odd l)) else negb (parity_mul (parity_mul Pf Pa) (negb (Z.odd l)))) <->
  sign Pi = (sign Pf * sign Pa * minus_one_to x)%Z.
Proof.
  rewrite (sign_sub_even l x), <- Z.negb_even, negb_involutive. unfold parity_mul, sign, minus_one_to.
  destruct Pi, Pf, Pa, (Z.even (x - l)), (Z.even l); cbn; split; intros H; try reflexivity; discriminate.
Qed.

(** The pairs summed over for a level are exactly the allowed ones. *)
Lemma in_discrete_terms Ji Pi Jf Pf s Pa two_j l : (0 <= Ji)%Z -> (0 <= Jf)%Z -> (0 <= s)%Z -> Z.even (Ji + Jf + s) = true ->
  In (two_j, l) (discrete_terms Ji Pi Jf Pf s Pa) <-> fragment_allowed Ji Pi Jf Pf s Pa two_j l.
Proof.
  intros H1 H2 H3 He. unfold discrete_terms. rewrite in_flat_map. unfold fragment_allowed, triangle. split.
  - intros (tj & Hr & Hl). apply in_range2 in Hr. cbv zeta in Hl. apply in_map_iff in Hl. destruct Hl as (l' & E & Hl).
    injection E as -> ->. apply in_l_loop in Hl. destruct Hl as [Hl HP]. destruct Hr as [Hr Hev].
    rewrite Z.even_sub, even_abs_sub in Hev. apply eqb_prop in Hev.
    assert (He2 : Z.even (two_j + s) = true) by (rewrite Z.even_add, Hev; rewrite Z.even_add in He; exact He).
    assert (Q1 : (2 * Z.quot (two_j + s) 2 = two_j + s)%Z) by (apply quot2_even; [lia|exact He2]).
    assert (Q2 : (2 * Z.quot (Z.abs (two_j - s)) 2 = Z.abs (two_j - s))%Z) by (apply quot2_even; [lia|rewrite even_abs_sub; exact He2]).
    split; [split; [lia|]|split; [split; [lia|]|]].
    + rewrite Z.even_add, Hev. destruct (Z.even (Ji + Jf)); reflexivity.
    + rewrite Z.even_add, He2, Z.even_mul. reflexivity.
    + apply parity_step in HP. exact HP.
  - intros ((Hr & Hev) & (Ht & Hev') & HP). exists two_j. split.
    + apply in_range2. split; [exact Hr|]. rewrite Z.even_sub, even_abs_sub. rewrite Z.even_add in Hev. 
      destruct (Z.even two_j), (Z.even (Ji + Jf)); try reflexivity; discriminate.
    + cbv zeta. apply in_map_iff. exists l. split; [reflexivity|]. apply in_l_loop.
      assert (He2 : Z.even (two_j + s) = true) by (rewrite Z.even_add, Z.even_mul in Hev'; destruct (Z.even (two_j + s)); [reflexivity|discriminate]).
      assert (Q1 : (2 * Z.quot (two_j + s) 2 = two_j + s)%Z) by (apply quot2_even; [lia|exact He2]).
      assert (Q2 : (2 * Z.quot (Z.abs (two_j - s)) 2 = Z.abs (two_j - s))%Z) by (apply quot2_even; [lia|rewrite even_abs_sub; exact He2]).
      split; [lia|]. apply parity_step. exact HP.
Qed.

Lemma nodup_discrete_terms Ji Pi Jf Pf s Pa : NoDup (discrete_terms Ji Pi Jf Pf s Pa).
Proof.
  unfold discrete_terms. apply NoDup_flat_map with (k := fst).
  - apply nodup_range2.
  - intros a _. apply Injective_map_NoDup; [intros x y H; congruence|apply nodup_l_loop].
  - intros a b H. apply in_map_iff in H. destruct H as (l & <- & _). reflexivity.
Qed.

Lemma in_multipolarities Ji Jf m : (0 <= Ji)%Z -> (0 <= Jf)%Z -> Z.even (Ji + Jf) = true ->
  In m (multipolarities Ji Jf) <-> gamma_allowed Ji Jf m.
Proof.
  intros H1 H2 He. unfold multipolarities, gamma_allowed, triangle. rewrite in_range1.
  assert (Q1 : (2 * Z.quot (Ji + Jf) 2 = Ji + Jf)%Z) by (apply quot2_even; [lia|exact He]).
  assert (Q2 : (2 * Z.quot (Z.abs (Ji - Jf)) 2 = Z.abs (Ji - Jf))%Z) by (apply quot2_even; [lia|rewrite even_abs_sub; exact He]).
  split.
  - intros H. split; [lia|]. split; [lia|]. rewrite Z.even_add, He, Z.even_mul. reflexivity.
  - intros (A & B & _). lia.
Qed.

Lemma electric_iff Pi m Pf : is_electric Pi m Pf = true <-> sign Pi = (sign Pf * minus_one_to m)%Z.
Proof.
  unfold is_electric, parity_eqb, parity_mul, sign, minus_one_to. rewrite <- Z.negb_even, negb_involutive.
  destruct Pi, Pf, (Z.even m); cbn; split; intros H; try reflexivity; discriminate.
Qed.

Lemma in_continuum_l Ji s n : forall P l0 l two_j Jf Pf, (0 <= Ji)%Z -> (0 <= s)%Z -> (0 <= l0)%Z ->
  In (l, two_j, Jf, Pf) (continuum_l Ji s P l0 n) <->
  (l0 <= l < l0 + Z.of_nat n)%Z /\ Pf = (if Z.even (l - l0) then P else negb P) /\
  triangle two_j s (2 * l) /\ triangle Ji Jf two_j.
Proof.
  induction n as [|n IH]; intros P l0 l two_j Jf Pf H1 H2 H3; cbn [continuum_l].
  - split; [intros []|]. intros [H _]. lia.
  - rewrite in_app_iff, IH by lia. unfold parity_neg.
    assert (E : forall z, Z.even (z - (l0 + 1)) = negb (Z.even (z - l0))).
    { intros z. replace (z - l0)%Z with (z - (l0 + 1) + 1)%Z by ring. rewrite even_flip, negb_involutive. reflexivity. }
    rewrite E.
    assert (HF : In (l, two_j, Jf, Pf) (flat_map (fun two_j => map (fun twoJf => (l0, two_j, twoJf, P))
        (range2 (Z.abs (Ji - two_j)) (Ji + two_j))) (range2 (Z.abs (2 * l0 - s)) (2 * l0 + s))) <->
      l = l0 /\ Pf = P /\ triangle two_j s (2 * l) /\ triangle Ji Jf two_j).
    { rewrite in_flat_map. unfold triangle. split.
      - intros (tj & Hr & Hm). apply in_map_iff in Hm. destruct Hm as (J & EE & Hm). injection EE as <- -> -> <-.
        apply in_range2 in Hr. apply in_range2 in Hm. destruct Hr as [Hr Er]. destruct Hm as [Hm Em].
        rewrite Z.even_sub, even_abs_sub, Z.even_add, Z.even_mul in Er.
        rewrite Z.even_sub, even_abs_sub, Z.even_add in Em.
        rewrite !Z.even_add, Z.even_mul.
        repeat split; try lia; destruct (Z.even two_j), (Z.even s), (Z.even Ji), (Z.even Jf); try reflexivity; discriminate.
      - intros (-> & -> & (Ht & Et) & Hm & Em). exists two_j. split.
        + apply in_range2. split; [lia|]. rewrite Z.even_sub, even_abs_sub, Z.even_add, Z.even_mul.
          rewrite !Z.even_add, Z.even_mul in Et. destruct (Z.even two_j), (Z.even s); try reflexivity; discriminate.
        + apply in_map_iff. exists Jf. split; [reflexivity|]. apply in_range2. split; [lia|].
          rewrite Z.even_sub, even_abs_sub, Z.even_add. rewrite !Z.even_add in Em.
          destruct (Z.even two_j), (Z.even Ji), (Z.even Jf); try reflexivity; discriminate. }
    rewrite HF. split.
    + intros [(-> & -> & A & B)|(A & -> & B & C)].
      * split; [lia|]. rewrite Z.sub_diag. split; [reflexivity|]. split; assumption.
      * split; [lia|]. split; [|split; assumption]. destruct (Z.even (l - l0)); cbn [negb]; [apply negb_involutive|reflexivity].
    + intros (A & -> & B & C). destruct (Z.eq_dec l l0) as [->|N].
      * left. rewrite Z.sub_diag. repeat split; try reflexivity; try apply B; try apply C.
      * right. split; [lia|]. split; [|split; assumption]. destruct (Z.even (l - l0)); cbn [negb]; [symmetry; apply negb_involutive|reflexivity].
Qed.

Lemma nodup_continuum_l Ji s n : forall P l0, NoDup (continuum_l Ji s P l0 n).
Proof.
  assert (K : forall n P l0 x, In x (continuum_l Ji s P l0 n) -> (l0 <= fst (fst (fst x)))%Z).
  { clear n. induction n as [|n IH]; intros P l0 x; cbn [continuum_l]; [intros []|]. rewrite in_app_iff. intros [H|H].
    - apply in_flat_map in H. destruct H as (tj & _ & H). apply in_map_iff in H. destruct H as (J & <- & _). cbn [fst]. lia.
    - apply IH in H. lia. }
  induction n as [|n IH]; intros P l0; cbn [continuum_l]; [constructor|]. apply NoDup_app.
  - apply NoDup_flat_map with (k := fun x => snd (fst (fst x))).
    + apply nodup_range2.
    + intros a _. apply Injective_map_NoDup; [intros x y H; congruence|apply nodup_range2].
    + intros a b H. apply in_map_iff in H. destruct H as (J & <- & _). reflexivity.
  - apply IH.
  - intros x Hx Hx'. apply K in Hx'. apply in_flat_map in Hx. destruct Hx as (tj & _ & Hx). apply in_map_iff in Hx.
    destruct Hx as (J & <- & _). cbn [fst] in Hx'. lia.
Qed.

(** The terms summed over for the continuum are exactly the allowed ones up to the
    maximal orbital angular momentum. *)
Lemma in_fragment_terms Ji Pi s Pa lmax l two_j Jf Pf : (0 <= Ji)%Z -> (0 <= s)%Z ->
  In (l, two_j, Jf, Pf) (fragment_terms Ji Pi s Pa lmax) <->
  (0 <= l <= lmax)%Z /\ fragment_allowed Ji Pi Jf Pf s Pa two_j l.
Proof.
  intros H1 H2. unfold fragment_terms. rewrite in_continuum_l by lia. unfold fragment_allowed.
  assert (HP : Pf = (if Z.even (l - 0) then (if parity_eqb Pi Pa then true else false) else negb (if parity_eqb Pi Pa then true else false)) <->
    sign Pi = (sign Pf * sign Pa * minus_one_to l)%Z).
  { rewrite Z.sub_0_r. unfold parity_eqb, sign, minus_one_to.
    destruct Pi, Pf, Pa, (Z.even l); cbn; split; intros H; try reflexivity; discriminate. }
  rewrite HP. split.
  - intros (A & B & C & D). split; [lia|]. repeat split; try apply C; try apply D; exact B.
  - intros (A & B & C & D). split; [lia|]. repeat split; try apply C; try apply B; exact D.
Qed.

Lemma in_gamma_terms Ji lmax m Jf Pf : (0 <= Ji)%Z ->
  In (m, Jf, Pf) (gamma_terms Ji lmax) <-> (m <= lmax)%Z /\ gamma_allowed Ji Jf m.
Proof.
  intros H1. unfold gamma_terms, gamma_allowed, triangle. rewrite in_flat_map. split.
  - intros (m' & Hm & H). apply in_range1 in Hm. apply in_flat_map in H. destruct H as (J & HJ & H).
    assert (E : m' = m /\ J = Jf) by (destruct H as [H|[H|[]]]; injection H as -> -> _; split; reflexivity).
    destruct E as [-> ->]. apply in_range2 in HJ. destruct HJ as [HJ HE].
    rewrite Z.even_sub, even_abs_sub, Z.even_add, Z.even_mul in HE.
    rewrite !Z.even_add, Z.even_mul. repeat split; try lia. destruct (Z.even Ji), (Z.even Jf); try reflexivity; discriminate.
  - intros (A & B & C & D). exists m. split; [apply in_range1; lia|]. apply in_flat_map. exists Jf. split.
    + apply in_range2. split; [lia|]. rewrite Z.even_sub, even_abs_sub, Z.even_add, Z.even_mul.
      rewrite !Z.even_add, Z.even_mul in D. destruct (Z.even Ji), (Z.even Jf); try reflexivity; discriminate.
    + destruct Pf; [left|right; left]; reflexivity.
Qed.

Lemma nodup_gamma_terms Ji lmax : NoDup (gamma_terms Ji lmax).
Proof.
  unfold gamma_terms. apply NoDup_flat_map with (k := fun x => fst (fst x)).
  - apply nodup_range1.
  - intros m _. apply NoDup_flat_map with (k := fun x => snd (fst x)).
    + apply nodup_range2.
    + intros J _. constructor; [intros [H|[]]; discriminate|]. constructor; [intros []|constructor].
    + intros a b [<-|[<-|[]]]; reflexivity.
  - intros m b H. apply in_flat_map in H. destruct H as (J & _ & [<-|[<-|[]]]); reflexivity.
Qed.
