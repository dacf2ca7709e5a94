(** The step for any odd factor. *)
From Coq Require Import List Reals Bool Arith Lra Lia.
From Verif Require Import Base QuadThms Fft FftMath FftStep FftRadix.
Import ListNotations.
Open Scope R_scope.

(** ** Loops with a state *)
Lemma upto_seq lo hi : upto lo hi 1 = seq lo (S hi - lo).
Proof.
  unfold upto. rewrite Nat.div_1_r, Nat.add_1_r. generalize (S hi - lo)%nat. intros n. revert lo.
  induction n as [|n IH]; intros lo; [reflexivity|]. rewrite <- (cons_seq n lo), <- (IH (S lo)), <- cons_seq. cbn [map]. f_equal; [lia|].
  rewrite <- seq_shift, map_map. apply map_ext. intros t. lia.
Qed.
Lemma upto_snoc lo hi : (lo <= S hi)%nat -> upto lo (S hi) 1 = upto lo hi 1 ++ [S hi].
Proof. intros H. rewrite !upto_seq. replace (S (S hi) - lo)%nat with (S (S hi - lo)) by lia. rewrite seq_S. do 2 f_equal. lia. Qed.
Lemma fold_seq {X} (I : nat -> X -> Prop) (f : X -> nat -> X) : forall n lo s, I lo s ->
  (forall j s, (lo <= j < lo + n)%nat -> I j s -> I (S j) (f s j)) -> I (lo + n)%nat (fold_left f (seq lo n) s).
Proof.
  induction n as [|n IH]; intros lo s H0 HS; [rewrite Nat.add_0_r; exact H0|].
  cbn [seq fold_left]. rewrite Nat.add_succ_r. apply (IH (S lo)); [apply HS; [lia|exact H0]|]. intros j s' Hj. apply HS. lia.
Qed.
Lemma fold_upto {X} (I : nat -> X -> Prop) (f : X -> nat -> X) lo hi s : (lo <= S hi)%nat -> I lo s ->
  (forall j s, (lo <= j <= hi)%nat -> I j s -> I (S j) (f s j)) -> I (S hi) (fold_left f (upto lo hi 1) s).
Proof.
  intros H H0 HS. rewrite upto_seq. replace (S hi) with (lo + (S hi - lo))%nat at 1 by lia. apply fold_seq; [exact H0|]. intros j s' Hj. apply HS. lia.
Qed.

Lemma at2_inj d i j i' j' : (1 <= i <= d)%nat -> (1 <= j)%nat -> (1 <= i' <= d)%nat -> (1 <= j')%nat -> at2 d i j = at2 d i' j' -> i = i' /\ j = j'.
Proof.
  unfold at2. intros Hi Hj Hi' Hj' E. assert (E1 : (d * (j - 1) + (i - 1) = d * (j' - 1) + (i' - 1))%nat) by lia.
  apply Nat.div_mod_unique in E1; [|lia|lia]. lia.
Qed.
Lemma at2_split ido l1 ik : (1 <= ik <= ido * l1)%nat -> exists i k, (1 <= i <= ido)%nat /\ (1 <= k <= l1)%nat /\ forall j, (1 <= j)%nat -> at2 (ido * l1) ik j = at3 ido l1 i k j.
Proof.
  intros H. destruct (at3_onto ido l1 1 ik) as (i & k & j0 & Hi & Hk & Hj & E); [lia|]. assert (j0 = 1%nat) by lia. subst j0.
  exists i, k. split; [exact Hi|]. split; [exact Hk|]. intros j H1. unfold at2. rewrite E. unfold at3. replace (1 - 1)%nat with 0%nat by lia. ring.
Qed.
Lemma at2_join ido l1 i k : (1 <= i <= ido)%nat -> (1 <= k <= l1)%nat -> exists ik, (1 <= ik <= ido * l1)%nat /\ forall j, at2 (ido * l1) ik j = at3 ido l1 i k j.
Proof.
  intros Hi Hk. exists (at3 ido l1 i k 1). split; [pose proof (at3_bounds ido l1 1 i k 1 Hi Hk); lia|]. intros j. unfold at2, at3. replace (1 - 1)%nat with 0%nat by lia. ring.
Qed.

(** A loop that changes two elements for every [ik]. *)
Section Pairs.
  Variables (d l lc : nat) (f g : nat -> R -> R) (ch : arr).
  Hypothesis Hl : (1 <= l)%nat.
  Hypothesis Hlc : (1 <= lc)%nat.
  Hypothesis Hne : l <> lc.
  Definition pairs (n : nat) : list (asg R) :=
    flat_map (fun ik => [ (at2 d ik l, fun a : arr => f ik (a (at2 d ik l))); (at2 d ik lc, fun a : arr => g ik (a (at2 d ik lc))) ]) (upto 1 n 1).
  Lemma pairs_value n : (n <= d)%nat -> forall ik j, (1 <= ik <= d)%nat -> (1 <= j)%nat ->
    run (pairs n) ch (at2 d ik j) =
    if Nat.leb ik n then (if Nat.eqb j l then f ik (ch (at2 d ik l)) else if Nat.eqb j lc then g ik (ch (at2 d ik lc)) else ch (at2 d ik j)) else ch (at2 d ik j).
  Proof.
    induction n as [|n IH]; intros Hn ik j Hik Hj.
    - destruct (Nat.leb_spec ik 0); [lia|reflexivity].
    - unfold pairs. rewrite upto_snoc by lia. rewrite flat_map_app. rewrite (run_app (A := R) (flat_map _ (upto 1 n 1))). fold (pairs n). set (r := run (pairs n) ch) in *. cbn [flat_map app]. rewrite !(run_cons (A := R)). unfold run at 1. cbn [fold_left fst snd].
      assert (NE1 : at2 d (S n) lc <> at2 d (S n) l) by (intros E; apply at2_inj in E; lia).
      rewrite (put_other r (at2 d (S n) l) _ (at2 d (S n) lc)) by exact NE1.
      rewrite !(IH ltac:(lia) (S n)) by lia. replace (Nat.leb (S n) n) with false by (symmetry; apply Nat.leb_gt; lia).
      destruct (Nat.eq_dec ik (S n)) as [->|NE].
      + replace (Nat.leb (S n) (S n)) with true by (symmetry; apply Nat.leb_le; lia).
        destruct (Nat.eqb_spec j l) as [->|Nl].
        * rewrite put_other by (intros E; apply NE1; symmetry; exact E). apply put_same.
        * destruct (Nat.eqb_spec j lc) as [->|Nlc]; [apply put_same|].
          rewrite put_other by (intros E; apply at2_inj in E; lia). rewrite put_other by (intros E; apply at2_inj in E; lia).
          rewrite (IH ltac:(lia)) by lia. replace (Nat.leb (S n) n) with false by (symmetry; apply Nat.leb_gt; lia). reflexivity.
      + rewrite put_other by (intros E; apply at2_inj in E; lia). rewrite put_other by (intros E; apply at2_inj in E; lia).
        rewrite (IH ltac:(lia)) by lia. destruct (Nat.leb_spec ik n), (Nat.leb_spec ik (S n)); try lia; reflexivity.
  Qed.
  Lemma pairs_frame n x : (n <= d)%nat -> ~ (1 <= x <= d * Nat.max l lc)%nat -> run (pairs n) ch x = ch x.
  Proof.
    intros Hn Hx. apply run_frame.
    assert (H : forall y, In y (map fst (pairs n)) -> y <> x); [|intros E; exact (H x E eq_refl)].
    apply flat_map_touch. intros ik Hik y Hy. apply In_upto1 in Hik. cbn [map fst In] in Hy.
    assert (B : forall j, (1 <= j <= Nat.max l lc)%nat -> (1 <= at2 d ik j <= d * Nat.max l lc)%nat).
    { intros j Hj. unfold at2. split; [set (m := (d * _)%nat); lia|]. transitivity (d * S (j - 1))%nat; [rewrite Nat.mul_succ_r; lia|]. apply Nat.mul_le_mono_l. lia. }
    destruct Hy as [<-|[<-|[]]]; intros <-; apply Hx; apply B; lia.
  Qed.
End Pairs.

(** ** The sums *)
Section Sums.
  Variables (ip d m : nat) (c2 : arr).
  Hypothesis Em : ip = (2 * m + 1)%nat.
  Hypothesis Hm : (1 <= m)%nat.

  Lemma ipph_m : ((ip + 1) / 2 = m + 1)%nat.
  Proof. rewrite Em. replace (2 * m + 1 + 1)%nat with ((m + 1) * 2)%nat by lia. apply Nat.div_mul. lia. Qed.

  Definition csum (s ik n : nat) : R := sumn (fun t => cos (turn ip s (S t)) * c2 (at2 d ik (t + 2))) n.
  Definition ssum (s ik n : nat) : R := sumn (fun t => sin (turn ip s (S t)) * c2 (at2 d ik (ip - t))) n.

  Lemma turn_S s j : turn ip s (S j) = turn ip s 1 + turn ip s j.
  Proof. unfold turn. rewrite S_INR. cbn [INR]. unfold Rdiv. ring. Qed.
  Lemma turn_sS s : turn ip (S s) 1 = turn ip 1 1 + turn ip s 1.
  Proof. unfold turn. rewrite S_INR. cbn [INR]. unfold Rdiv. ring. Qed.

  Lemma sum_j s l lc ch : l = S s -> (1 <= s <= m)%nat -> lc = (ip + 2 - l)%nat ->
    (forall ik, (1 <= ik <= d)%nat -> ch (at2 d ik l) = c2 (at2 d ik 1) + csum s ik 1 /\ ch (at2 d ik lc) = ssum s ik 1) ->
    let r := radfg_sum_j ip d l lc (cos (turn ip s 1)) (sin (turn ip s 1)) c2 (cos (turn ip s 1), sin (turn ip s 1), ch) in
    (forall ik, (1 <= ik <= d)%nat -> snd r (at2 d ik l) = c2 (at2 d ik 1) + csum s ik m /\ snd r (at2 d ik lc) = ssum s ik m) /\
    (forall ik j, (1 <= ik <= d)%nat -> (1 <= j)%nat -> j <> l -> j <> lc -> snd r (at2 d ik j) = ch (at2 d ik j)) /\
    (forall x, ~ (1 <= x <= d * ip)%nat -> snd r x = ch x).
  Proof.
    intros -> Hs -> H0 r. 
    pose (I := fun (j : nat) (st : R * R * arr) =>
      fst (fst st) = cos (turn ip s (j - 2)) /\ snd (fst st) = sin (turn ip s (j - 2)) /\
      (forall ik, (1 <= ik <= d)%nat -> snd st (at2 d ik (S s)) = c2 (at2 d ik 1) + csum s ik (j - 2) /\ snd st (at2 d ik (ip + 2 - S s)) = ssum s ik (j - 2)) /\
      (forall ik j, (1 <= ik <= d)%nat -> (1 <= j)%nat -> j <> S s -> j <> (ip + 2 - S s)%nat -> snd st (at2 d ik j) = ch (at2 d ik j)) /\
      (forall x, ~ (1 <= x <= d * ip)%nat -> snd st x = ch x)).
    assert (HI : I (S (m + 1)) r).
    { unfold r, radfg_sum_j. rewrite ipph_m. apply fold_upto; [lia|..].
      - unfold I. cbn [fst snd Nat.sub]. split; [reflexivity|]. split; [reflexivity|]. split; [exact H0|]. split; reflexivity.
      - intros j [[ar2 ai2] a] Hj (E1 & E2 & E3 & E4 & E5). cbn [fst snd] in E1, E2, E3, E4, E5. unfold I.
        replace (S j - 2)%nat with (S (j - 2)) by lia. cbv zeta. cbn [fst snd].
        set (ar := cos (turn ip s 1) * ar2 - sin (turn ip s 1) * ai2). set (ai := cos (turn ip s 1) * ai2 + sin (turn ip s 1) * ar2).
        assert (Ear : ar = cos (turn ip s (S (j - 2)))) by (unfold ar; rewrite (turn_S s (j - 2)), cos_plus, E1, E2; reflexivity).
        assert (Eai : ai = sin (turn ip s (S (j - 2)))) by (unfold ai; rewrite (turn_S s (j - 2)), sin_plus, E1, E2; ring).
        change (flat_map _ (upto 1 d 1)) with (pairs d (S s) (ip + 2 - S s) (fun ik v => v + ar * c2 (at2 d ik j)) (fun ik v => v + ai * c2 (at2 d ik (ip + 2 - j))) d).
        split; [exact Ear|]. split; [exact Eai|]. split; [|split].
        + intros ik Hik. destruct (E3 ik Hik) as [E31 E32]. split; rewrite pairs_value by lia; replace (ik <=? d)%nat with true by (symmetry; apply Nat.leb_le; lia).
          * rewrite Nat.eqb_refl, E31, Ear. unfold csum. cbn [sumn]. replace (j - 2 + 2)%nat with j by lia. ring.
          * destruct (Nat.eqb_spec (ip + 2 - S s) (S s)); [lia|]. rewrite Nat.eqb_refl, E32, Eai. unfold ssum. cbn [sumn]. replace (ip - (j - 2))%nat with (ip + 2 - j)%nat by lia. ring.
        + intros ik j' Hik Hj' N1 N2. rewrite pairs_value by lia. destruct (Nat.eqb_spec j' (S s)); [contradiction|]. destruct (Nat.eqb_spec j' (ip + 2 - S s)); [contradiction|]. rewrite (E4 ik j' Hik Hj' N1 N2). destruct (ik <=? d)%nat; reflexivity.
        + intros x Hx. rewrite pairs_frame; [apply E5; exact Hx|lia|lia|lia|lia|]. intros Hx2. apply Hx. split; [lia|]. transitivity (d * Nat.max (S s) (ip + 2 - S s))%nat; [lia|]. apply Nat.mul_le_mono_l. lia. }
    destruct HI as (_ & _ & E3 & E4 & E5). replace (S (m + 1) - 2)%nat with m in E3 by lia. split; [exact E3|]. split; assumption.
  Qed.

  Lemma sum_l ch :
    let r := radfg_sum_l ip d c2 ch in
    (forall ik, (1 <= ik <= d)%nat -> r (at2 d ik 1) = ch (at2 d ik 1)) /\
    (forall s ik, (1 <= s <= m)%nat -> (1 <= ik <= d)%nat -> r (at2 d ik (S s)) = c2 (at2 d ik 1) + csum s ik m /\ r (at2 d ik (ip + 1 - s)) = ssum s ik m) /\
    (forall x, ~ (1 <= x <= d * ip)%nat -> r x = ch x).
  Proof.
    intros r.
    pose (I := fun (l : nat) (st : R * R * arr) =>
      fst (fst st) = cos (turn ip (l - 2) 1) /\ snd (fst st) = sin (turn ip (l - 2) 1) /\
      (forall ik, (1 <= ik <= d)%nat -> snd st (at2 d ik 1) = ch (at2 d ik 1)) /\
      (forall s ik, (1 <= s <= l - 2)%nat -> (1 <= ik <= d)%nat -> snd st (at2 d ik (S s)) = c2 (at2 d ik 1) + csum s ik m /\ snd st (at2 d ik (ip + 1 - s)) = ssum s ik m) /\
      (forall x, ~ (1 <= x <= d * ip)%nat -> snd st x = ch x)).
    assert (HI : exists st, r = snd st /\ I (S (m + 1)) st).
    { unfold r, radfg_sum_l. rewrite ipph_m. eexists. split; [reflexivity|]. apply fold_upto; [lia|..].
      - unfold I. cbn [fst snd Nat.sub]. rewrite cos_ts0, sin_ts0. repeat split; try lia; reflexivity.
      - intros l [[ar1 ai1] a] Hl (E1 & E2 & E3 & E4 & E5). cbn [fst snd] in E1, E2, E3, E4, E5. unfold I.
        replace (S l - 2)%nat with (S (l - 2)) by lia. cbv zeta.
        set (ar := cos (2 * PI / INR ip) * ar1 - sin (2 * PI / INR ip) * ai1). set (ai := cos (2 * PI / INR ip) * ai1 + sin (2 * PI / INR ip) * ar1).
        assert (T1 : turn ip 1 1 = 2 * PI / INR ip) by (unfold turn; cbn [INR]; unfold Rdiv; ring).
        assert (Ear : ar = cos (turn ip (S (l - 2)) 1)) by (unfold ar; rewrite (turn_sS (l - 2)), cos_plus, T1, E1, E2; reflexivity).
        assert (Eai : ai = sin (turn ip (S (l - 2)) 1)) by (unfold ai; rewrite (turn_sS (l - 2)), sin_plus, T1, E1, E2; ring).
        change (flat_map _ (upto 1 d 1)) with (pairs d l (ip + 2 - l) (fun ik _ => c2 (at2 d ik 1) + ar * c2 (at2 d ik 2)) (fun ik _ => ai * c2 (at2 d ik ip)) d).
        set (a1 := run (pairs _ _ _ _ _ _) a). cbn [fst snd]. split; [exact Ear|]. split; [exact Eai|].
        assert (V : forall ik j, (1 <= ik <= d)%nat -> (1 <= j)%nat -> a1 (at2 d ik j) = if Nat.eqb j l then c2 (at2 d ik 1) + ar * c2 (at2 d ik 2) else if Nat.eqb j (ip + 2 - l) then ai * c2 (at2 d ik ip) else a (at2 d ik j)).
        { intros ik j Hik Hj. unfold a1. rewrite pairs_value by lia. replace (ik <=? d)%nat with true by (symmetry; apply Nat.leb_le; lia). reflexivity. }
        rewrite Ear, Eai. destruct (sum_j (S (l - 2)) l (ip + 2 - l) a1) as (S1 & S2 & S3); [lia|lia|lia| |].
        { intros ik Hik. rewrite !V by lia. rewrite !Nat.eqb_refl. destruct (Nat.eqb_spec (ip + 2 - l) l); [lia|]. unfold csum, ssum. cbn [sumn Nat.add]. rewrite Nat.sub_0_r, Ear, Eai. split; ring. }
        rewrite Ear, Eai in *. split; [|split].
        + intros ik Hik. rewrite S2 by lia. rewrite V by lia. destruct (Nat.eqb_spec 1 l); [lia|]. destruct (Nat.eqb_spec 1 (ip + 2 - l)); [lia|]. apply E3. exact Hik.
        + intros s ik Hs Hik. destruct (Nat.eq_dec s (S (l - 2))) as [->|NE].
          * destruct (S1 ik Hik) as [S11 S12]. replace (S (S (l - 2))) with l by lia. replace (ip + 1 - S (l - 2))%nat with (ip + 2 - l)%nat by lia. split; assumption.
          * destruct (E4 s ik ltac:(lia) Hik) as [E41 E42]. rewrite !S2 by lia. rewrite !V by lia.
            destruct (Nat.eqb_spec (S s) l); [lia|]. destruct (Nat.eqb_spec (S s) (ip + 2 - l)); [lia|]. destruct (Nat.eqb_spec (ip + 1 - s) l); [lia|]. destruct (Nat.eqb_spec (ip + 1 - s) (ip + 2 - l)); [lia|]. split; assumption.
        + intros x Hx. rewrite S3 by exact Hx. unfold a1. rewrite pairs_frame; [apply E5; exact Hx|lia|lia|lia|lia|]. intros Hx2. apply Hx. split; [lia|]. transitivity (d * Nat.max l (ip + 2 - l))%nat; [lia|]. apply Nat.mul_le_mono_l. lia. }
    destruct HI as (st & -> & _ & _ & E3 & E4 & E5). replace (S (m + 1) - 2)%nat with m in E4 by lia. repeat split; try apply E4; auto.
  Qed.
End Sums.

(** A loop that changes one element for every [ik]. *)
Definition row (d l : nat) (f : nat -> R -> R) (n : nat) : list (asg R) :=
  map (fun ik => (at2 d ik l, fun a : arr => f ik (a (at2 d ik l)))) (upto 1 n 1).
Lemma row_value (d l : nat) (f : nat -> R -> R) (ch : arr) n : (1 <= l)%nat -> (n <= d)%nat -> forall ik j, (1 <= ik <= d)%nat -> (1 <= j)%nat ->
  run (row d l f n) ch (at2 d ik j) =
  if Nat.leb ik n then (if Nat.eqb j l then f ik (ch (at2 d ik l)) else ch (at2 d ik j)) else ch (at2 d ik j).
Proof.
  intros Hl. induction n as [|n IH]; intros Hn ik j Hik Hj.
  - destruct (Nat.leb_spec ik 0); [lia|reflexivity].
  - unfold row. rewrite upto_snoc by lia. rewrite map_app. rewrite (run_app (A := R) (map _ (upto 1 n 1))). change (map _ (upto 1 n 1)) with (row d l f n). set (r := run (row d l f n) ch) in *. cbn [map]. rewrite (run_cons (A := R)). unfold run at 1. cbn [fold_left fst snd].
    rewrite (IH ltac:(lia) (S n) l) by lia. replace (Nat.leb (S n) n) with false by (symmetry; apply Nat.leb_gt; lia).
    destruct (Nat.eq_dec ik (S n)) as [->|NE].
    + rewrite Nat.leb_refl. destruct (Nat.eqb_spec j l) as [->|Nl]; [apply put_same|].
      rewrite put_other by (intros E; apply at2_inj in E; lia). rewrite (IH ltac:(lia)) by lia. replace (Nat.leb (S n) n) with false by (symmetry; apply Nat.leb_gt; lia). reflexivity.
    + rewrite put_other by (intros E; apply at2_inj in E; lia). rewrite (IH ltac:(lia)) by lia. destruct (Nat.leb_spec ik n), (Nat.leb_spec ik (S n)); try lia; reflexivity.
Qed.
Lemma run_flat {A} (f : nat -> list (asg A)) l : forall a, run (flat_map f l) a = fold_left (fun a j => run (f j) a) l a.
Proof. induction l as [|x l IH]; intros a; [reflexivity|]. cbn [flat_map fold_left]. rewrite run_app. apply IH. Qed.

Lemma at2_range d l ik : (1 <= l)%nat -> (1 <= ik <= d)%nat -> (1 <= at2 d ik l <= d * l)%nat.
Proof.
  intros Hl Hik. unfold at2. split; [set (q := (d * _)%nat); lia|]. transitivity (d * S (l - 1))%nat; [rewrite Nat.mul_succ_r; lia|]. apply Nat.mul_le_mono_l. lia.
Qed.

Lemma sum_1 ip d m c2 ch : ip = (2 * m + 1)%nat -> (1 <= m)%nat ->
  let r := radfg_sum_1 ip d c2 ch in
  (forall ik, (1 <= ik <= d)%nat -> r (at2 d ik 1) = ch (at2 d ik 1) + sumn (fun t => c2 (at2 d ik (t + 2))) m) /\
  (forall ik j, (1 <= ik <= d)%nat -> (2 <= j)%nat -> r (at2 d ik j) = ch (at2 d ik j)) /\
  (forall x, ~ (1 <= x <= d * ip)%nat -> r x = ch x).
Proof.
  intros Em Hm r.
  pose (I := fun (j : nat) (a : arr) =>
    (forall ik, (1 <= ik <= d)%nat -> a (at2 d ik 1) = ch (at2 d ik 1) + sumn (fun t => c2 (at2 d ik (t + 2))) (j - 2)) /\
    (forall ik j, (1 <= ik <= d)%nat -> (2 <= j)%nat -> a (at2 d ik j) = ch (at2 d ik j)) /\
    (forall x, ~ (1 <= x <= d * ip)%nat -> a x = ch x)).
  assert (HI : I (S (m + 1)) r).
  { unfold r, radfg_sum_1. rewrite (ipph_m ip m Em Hm). rewrite (run_flat (A := R)). apply fold_upto; [lia|..].
    - unfold I. cbn [Nat.sub sumn]. split; [intros; ring|]. split; reflexivity.
    - intros j a Hj (E1 & E2 & E3). unfold I. replace (S j - 2)%nat with (S (j - 2)) by lia. split; [|split].
      + intros ik Hik. pose proof (row_value d 1 (fun ik v => v + c2 (at2 d ik j)) a d ltac:(lia) ltac:(lia) ik 1 Hik ltac:(lia)) as V. cbv beta in V. etransitivity; [exact V|].
        replace (ik <=? d)%nat with true by (symmetry; apply Nat.leb_le; lia). cbn [Nat.eqb sumn]. rewrite E1 by exact Hik. replace (j - 2 + 2)%nat with j by lia. ring.
      + intros ik j' Hik Hj'. pose proof (row_value d 1 (fun ik v => v + c2 (at2 d ik j)) a d ltac:(lia) ltac:(lia) ik j' Hik ltac:(lia)) as V. cbv beta in V. etransitivity; [exact V|].
        destruct (Nat.eqb_spec j' 1); [lia|]. rewrite E2 by assumption. destruct (ik <=? d)%nat; reflexivity.
      + intros x Hx. rewrite run_frame; [apply E3; exact Hx|]. rewrite map_map. cbn [fst]. intros HI. apply in_map_iff in HI. destruct HI as (ik & <- & Hik). apply In_upto1 in Hik. apply Hx.
        pose proof (at2_range d 1 ik ltac:(lia) Hik). split; [lia|]. transitivity (d * 1)%nat; [lia|]. apply Nat.mul_le_mono_l. lia. }
  destruct HI as (E1 & E2 & E3). replace (S (m + 1) - 2)%nat with m in E1 by lia. split; [exact E1|]. split; assumption.
Qed.

(** Assignments to elements of a three-dimensional array, each of the right value. *)
Section Grid.
  Variables (d1 d2 d3 : nat) (F : nat -> nat -> nat -> R).
  Definition grid (x : nat) : R := F (S ((x - 1) mod d1)) (S (((x - 1) / d1) mod d2)) (S ((x - 1) / d1 / d2)).
  Lemma grid_at i j k : (1 <= i <= d1)%nat -> (1 <= j <= d2)%nat -> (1 <= k)%nat -> grid (at3 d1 d2 i j k) = F i j k.
  Proof.
    intros Hi Hj Hk. unfold grid, at3.
    replace (i + d1 * (j - 1 + d2 * (k - 1)) - 1)%nat with ((i - 1) + (j - 1 + d2 * (k - 1)) * d1)%nat by (rewrite (Nat.mul_comm d1); set (q := (_ * d1)%nat); lia).
    rewrite Nat.div_add, Nat.mod_add by lia. rewrite (Nat.div_small (i - 1)), (Nat.mod_small (i - 1)) by lia. cbn [Nat.add].
    rewrite (Nat.mul_comm d2), Nat.div_add, Nat.mod_add by lia. rewrite (Nat.div_small (j - 1)), (Nat.mod_small (j - 1)) by lia.
    f_equal; lia.
  Qed.
  Definition fills (s : asg R) : Prop := exists i j k, (1 <= i <= d1)%nat /\ (1 <= j <= d2)%nat /\ (1 <= k <= d3)%nat /\ fst s = at3 d1 d2 i j k /\ forall a, snd s a = F i j k.
  Lemma fills_set i j k v : (1 <= i <= d1)%nat -> (1 <= j <= d2)%nat -> (1 <= k <= d3)%nat -> v = F i j k -> fills (set (at3 d1 d2 i j k) v).
  Proof. intros Hi Hj Hk ->. exists i, j, k. repeat split; try lia. Qed.
  Lemma fills_eq i j k i' j' k' v : i = i' -> j = j' -> k = k' -> (1 <= i' <= d1)%nat -> (1 <= j' <= d2)%nat -> (1 <= k' <= d3)%nat -> v = F i' j' k' -> fills (set (at3 d1 d2 i j k) v).
  Proof. intros -> -> ->. apply fills_set. Qed.
  Lemma run_grid ws a : (forall s, In s ws -> fills s) ->
    (forall i j k, (1 <= i <= d1)%nat -> (1 <= j <= d2)%nat -> (1 <= k <= d3)%nat -> In (at3 d1 d2 i j k) (map fst ws) \/ a (at3 d1 d2 i j k) = F i j k -> run ws a (at3 d1 d2 i j k) = F i j k) /\
    (forall x, ~ (1 <= x <= d1 * d2 * d3)%nat -> run ws a x = a x).
  Proof.
    intros H. split.
    - intros i j k Hi Hj Hk HC. rewrite <- (grid_at i j k) by lia. apply run_target.
      + intros s Hs b. destruct (H s Hs) as (i' & j' & k' & Hi' & Hj' & Hk' & E & V). rewrite E, grid_at by lia. apply V.
      + rewrite grid_at by lia. exact HC.
    - intros x Hx. apply run_frame. intros HI. apply in_map_iff in HI. destruct HI as (s & <- & Hs). destruct (H s Hs) as (i' & j' & k' & Hi' & Hj' & Hk' & E & V).
      apply Hx. rewrite E. apply at3_bounds; assumption.
  Qed.
End Grid.

(** ** The step *)
Lemma sumn_rev f n : sumn f n = sumn (fun t => f (n - 1 - t)%nat) n.
Proof.
  induction n as [|n IH]; [reflexivity|]. rewrite (sumn_first (fun t => f (S n - 1 - t)%nat)). cbn [sumn]. rewrite IH, Rplus_comm. f_equal; [f_equal; lia|].
  apply sumn_ext. intros t Ht. f_equal. lia.
Qed.
Lemma sumn_pairs f m : sumn f (2 * m + 1) = f 0%nat + sumn (fun t => f (S t) + f (2 * m - t)%nat) m.
Proof.
  replace (2 * m + 1)%nat with (S (m + m)) by lia. rewrite sumn_first. rewrite sumn_split, sumn_plus. f_equal. f_equal.
  rewrite sumn_rev. apply sumn_ext. intros t Ht. f_equal. lia.
Qed.

Section General_step.
  Variables (ip ido l1 m h : nat) (Z : nat -> nat -> R).
  Hypothesis Em : ip = (2 * m + 1)%nat.
  Hypothesis Hm : (1 <= m)%nat.
  Hypothesis Ei : ido = (2 * h + 1)%nat.

  Lemma cos_back s j : (j <= ip)%nat -> cos (turn ip s (ip - j)) = cos (turn ip s j).
  Proof.
    intros Hj. replace (turn ip s (ip - j)) with (- turn ip s j + 2 * PI * INR s).
    - rewrite cos_turn. apply cos_neg.
    - unfold turn. rewrite minus_INR by exact Hj. field. apply not_0_INR. lia.
  Qed.
  Lemma sin_back s j : (j <= ip)%nat -> sin (turn ip s (ip - j)) = - sin (turn ip s j).
  Proof.
    intros Hj. replace (turn ip s (ip - j)) with (- turn ip s j + 2 * PI * INR s).
    - rewrite sin_turn. apply sin_neg.
    - unfold turn. rewrite minus_INR by exact Hj. field. apply not_0_INR. lia.
  Qed.

  (** The parts times powers of the root of unity, and the same times minus the imaginary
      unit. *)
  Definition EE (i k j : nat) : R :=
    if Nat.eqb i 1 then Cj ip ido (Z (k - 1)) 0 j else if Nat.even i then Aj ip ido (Z (k - 1)) (i / 2) j else Bj ip ido (Z (k - 1)) (i / 2) j.
  Definition EE' (i k j : nat) : R :=
    if Nat.eqb i 1 then - Cj ip ido (Z (k - 1)) 0 j else if Nat.even i then Bj ip ido (Z (k - 1)) (i / 2) j else - Aj ip ido (Z (k - 1)) (i / 2) j.
  Lemma EE_1 k j : EE 1 k j = Cj ip ido (Z (k - 1)) 0 j. Proof. reflexivity. Qed.
  Lemma EE'_1 k j : EE' 1 k j = - Cj ip ido (Z (k - 1)) 0 j. Proof. reflexivity. Qed.
  Lemma half_even p : (2 * p / 2 = p)%nat. Proof. rewrite Nat.mul_comm. apply Nat.div_mul. lia. Qed.
  Lemma half_odd p : ((2 * p + 1) / 2 = p)%nat. Proof. rewrite Nat.mul_comm, Nat.div_add_l by lia. cbn. lia. Qed.
  Lemma even_odd p : Nat.even (2 * p + 1) = false. Proof. rewrite Nat.even_add, even_2. reflexivity. Qed.
  Lemma EE_re p k j : EE (2 * p) k j = Aj ip ido (Z (k - 1)) p j.
  Proof. unfold EE. destruct (Nat.eqb_spec (2 * p) 1); [lia|]. rewrite even_2, half_even. reflexivity. Qed.
  Lemma EE_im p k j : (1 <= p)%nat -> EE (2 * p + 1) k j = Bj ip ido (Z (k - 1)) p j.
  Proof. intros Hp. unfold EE. destruct (Nat.eqb_spec (2 * p + 1) 1); [lia|]. rewrite even_odd, half_odd. reflexivity. Qed.
  Lemma EE'_re p k j : EE' (2 * p) k j = Bj ip ido (Z (k - 1)) p j.
  Proof. unfold EE'. destruct (Nat.eqb_spec (2 * p) 1); [lia|]. rewrite even_2, half_even. reflexivity. Qed.
  Lemma EE'_im p k j : (1 <= p)%nat -> EE' (2 * p + 1) k j = - Aj ip ido (Z (k - 1)) p j.
  Proof. intros Hp. unfold EE'. destruct (Nat.eqb_spec (2 * p + 1) 1); [lia|]. rewrite even_odd, half_odd. reflexivity. Qed.

  Lemma cases_i i : (1 <= i <= ido)%nat -> i = 1%nat \/ exists p, (1 <= p)%nat /\ (2 * p < ido)%nat /\ (i = (2 * p)%nat \/ i = (2 * p + 1)%nat).
  Proof.
    intros Hi. destruct (Nat.Even_or_Odd i) as [(p & ->)|(p & ->)].
    - right. exists p. repeat split; try lia.
    - destruct p; [left; reflexivity|]. right. exists (S p). repeat split; try lia.
  Qed.

  (** The first elements of the input are not multiplied. *)
  Lemma input_first c : input_ok ip ido l1 Z c -> forall i k, (1 <= i <= ido)%nat -> (1 <= k <= l1)%nat -> c (at3 ido l1 i k 1) = EE i k 0.
  Proof.
    intros Hin i k Hi Hk. destruct (cases_i i Hi) as [->|(p & Hp & H2 & [->| ->])].
    - rewrite (in_0 ip ido l1 Z c) by (assumption || lia). reflexivity.
    - rewrite (in_re ip ido l1 Z c) by (assumption || lia). rewrite EE_re, A_j0. reflexivity.
    - rewrite (in_im ip ido l1 Z c) by (assumption || lia). rewrite EE_im, B_j0 by exact Hp. reflexivity.
  Qed.

  Definition F1 (i k j : nat) : R := EE i k (j - 1).
  Definition parts (ch : arr) : Prop := forall i k j, (1 <= i <= ido)%nat -> (1 <= k <= l1)%nat -> (1 <= j <= ip)%nat -> ch (at3 ido l1 i k j) = F1 i k j.

  Lemma twiddle_ok wa c ch : input_ok ip ido l1 Z c -> table_ok ip ido (fun j => from wa ((j - 1) * ido + 1)) ->
    let r := radfg_twiddle ido ip l1 (ido * l1) wa c ch in parts r /\ forall x, ~ (1 <= x <= ido * l1 * ip)%nat -> r x = ch x.
  Proof.
    intros Hin Hw r. unfold r, radfg_twiddle. clear r.
    match goal with |- context [run (map ?f ?l) ch] => set (L1 := map f l) end.
    match goal with |- context [run ?l (run L1 ch)] => set (L2 := l) end.
    assert (H1 : forall s, In s L1 -> fills ido l1 ip F1 s).
    { unfold L1. intros s Hs. apply in_map_iff in Hs. destruct Hs as (ik & <- & Hik). apply In_upto1 in Hik. destruct (at2_split _ _ _ Hik) as (i & k & Hi & Hk & E). rewrite !E by lia.
      apply fills_set; try lia. unfold F1. apply input_first; assumption. }
    assert (H2 : forall s, In s L2 -> fills ido l1 ip F1 s).
    { apply flat_map_sound. intros j Hj. apply In_upto1 in Hj. intros s Hs. apply in_map_iff in Hs. destruct Hs as (k & <- & Hk). apply In_upto1 in Hk. apply fills_set; try lia. 
      unfold F1. rewrite EE_1. replace j with (S (j - 1)) at 1 by lia. apply (in_0 ip ido l1 Z c); (assumption || lia). }
    assert (HB : forall i k j, In i (upto 3 ido 2) -> In k (upto 1 l1 1) -> In j (upto 2 ip 1) -> forall s,
      In s [ set (at3 ido l1 (i - 1) k j) (wa ((j - 2) * ido + (i - 1) - 1)%nat * c (at3 ido l1 (i - 1) k j) + wa ((j - 2) * ido + (i - 1))%nat * c (at3 ido l1 i k j));
        set (at3 ido l1 i k j) (wa ((j - 2) * ido + (i - 1) - 1)%nat * c (at3 ido l1 i k j) - wa ((j - 2) * ido + (i - 1))%nat * c (at3 ido l1 (i - 1) k j)) ] -> fills ido l1 ip F1 s).
    { intros i k j Hi Hk Hj s Hs. apply In_upto1 in Hk, Hj. apply In_odds in Hi. destruct Hi as (p & Hp & -> & H2p).
      destruct (Hw (j - 1)%nat p ltac:(lia) Hp H2p) as [W1 W2]. unfold from in W1, W2. replace (j - 1 - 1)%nat with (j - 2)%nat in W1, W2 by lia.
      replace ((j - 2) * ido + 1 + (2 * p - 1) - 1)%nat with ((j - 2) * ido + (2 * p + 1 - 1) - 1)%nat in W1 by (set (q := ((j - 2) * ido)%nat); lia).
      replace ((j - 2) * ido + 1 + 2 * p - 1)%nat with ((j - 2) * ido + (2 * p + 1 - 1))%nat in W2 by (set (q := ((j - 2) * ido)%nat); lia).
      rewrite W1, W2 in Hs. replace (2 * p + 1 - 1)%nat with (2 * p)%nat in Hs by lia.
      assert (C1 : c (at3 ido l1 (2 * p) k j) = Cj ip ido (Z (k - 1)) p (j - 1)) by (replace j with (S (j - 1)) at 1 by lia; apply (in_re ip ido l1 Z c); (assumption || lia)).
      assert (C2 : c (at3 ido l1 (2 * p + 1) k j) = Sj ip ido (Z (k - 1)) p (j - 1)) by (replace j with (S (j - 1)) at 1 by lia; apply (in_im ip ido l1 Z c); (assumption || lia)).
      rewrite C1, C2 in Hs. destruct Hs as [<-|[<-|[]]]; apply fills_set; try lia; unfold F1.
      - rewrite EE_re. reflexivity.
      - rewrite EE_im by exact Hp. reflexivity. }
    assert (G : forall L3, (forall s, In s L3 -> fills ido l1 ip F1 s) ->
      (forall p k j, (1 <= p)%nat -> (2 * p < ido)%nat -> (1 <= k <= l1)%nat -> (2 <= j <= ip)%nat -> In (at3 ido l1 (2 * p) k j) (map fst L3) /\ In (at3 ido l1 (2 * p + 1) k j) (map fst L3)) ->
      parts (run L3 (run L2 (run L1 ch))) /\ forall x, ~ (1 <= x <= ido * l1 * ip)%nat -> run L3 (run L2 (run L1 ch)) x = ch x).
    { intros L3 H3 C3. rewrite <- !run_app. destruct (run_grid ido l1 ip F1 (L1 ++ (L2 ++ L3)) ch) as [V FR].
      { intros s Hs. apply in_app_or in Hs. destruct Hs as [Hs|Hs]; [apply H1; exact Hs|]. apply in_app_or in Hs. destruct Hs as [Hs|Hs]; [apply H2; exact Hs|apply H3; exact Hs]. }
      split; [|exact FR]. intros i k j Hi Hk Hj. apply V; try assumption. left. rewrite !map_app.
      destruct (Nat.eq_dec j 1) as [->|Nj].
      - apply in_or_app. left. unfold L1. destruct (at2_join ido l1 i k Hi Hk) as (ik & Hik & E). rewrite <- E. rewrite map_map. cbn [fst set]. apply in_map_iff. exists ik. split; [reflexivity|]. apply In_upto1. exact Hik.
      - apply in_or_app. right. apply in_or_app. destruct (cases_i i Hi) as [->|(p & Hp & H2p & [->| ->])].
        + left. apply (flat_map_cover _ _ _ j); [apply In_upto1; lia|]. rewrite map_map. cbn [fst set]. apply in_map_iff. exists k. split; [reflexivity|]. apply In_upto1. exact Hk.
        + right. apply C3; lia.
        + right. apply C3; lia. }
    cbv zeta. destruct (Nat.ltb l1 ((ido - 1) / 2)); apply G.
    - apply flat_map_sound. intros j Hj. apply flat_map_sound. intros k Hk. apply flat_map_sound. intros i Hi. apply HB; assumption.
    - intros p k j Hp H2p Hk Hj. split.
      all: apply (flat_map_cover _ _ _ j); [apply In_upto1; lia|]; apply (flat_map_cover _ _ _ k); [apply In_upto1; lia|]; apply (flat_map_cover _ _ _ (2 * p + 1)); [apply In_odds; exists p; lia|]; cbn [map fst set In]; replace (2 * p + 1 - 1)%nat with (2 * p)%nat by lia; tauto.
    - apply flat_map_sound. intros j Hj. apply flat_map_sound. intros i Hi. apply flat_map_sound. intros k Hk. apply HB; assumption.
    - intros p k j Hp H2p Hk Hj. split.
      all: apply (flat_map_cover _ _ _ j); [apply In_upto1; lia|]; apply (flat_map_cover _ _ _ (2 * p + 1)); [apply In_odds; exists p; lia|]; apply (flat_map_cover _ _ _ k); [apply In_upto1; lia|]; cbn [map fst set In]; replace (2 * p + 1 - 1)%nat with (2 * p)%nat by lia; tauto.
  Qed.

  (** Sums and differences of opposite terms. *)
  Definition F3 (i k j : nat) : R :=
    if Nat.eqb j 1 then EE i k 0
    else if Nat.leb j (m + 1) then EE i k (j - 1) + EE i k (ip + 1 - j)
    else EE' i k (ip + 1 - j) - EE' i k (j - 1).
  Definition folded (c : arr) : Prop := forall i k j, (1 <= i <= ido)%nat -> (1 <= k <= l1)%nat -> (1 <= j <= ip)%nat -> c (at3 ido l1 i k j) = F3 i k j.
  Lemma F3_low i k j : (2 <= j <= m + 1)%nat -> F3 i k j = EE i k (j - 1) + EE i k (ip + 1 - j).
  Proof. intros Hj. unfold F3. destruct (Nat.eqb_spec j 1); [lia|]. destruct (Nat.leb_spec j (m + 1)); [reflexivity|lia]. Qed.
  Lemma F3_high i k j : (2 <= j <= m + 1)%nat -> F3 i k (ip + 2 - j) = EE' i k (j - 1) - EE' i k (ip + 1 - j).
  Proof. intros Hj. unfold F3. destruct (Nat.eqb_spec (ip + 2 - j) 1); [lia|]. destruct (Nat.leb_spec (ip + 2 - j) (m + 1)); [lia|]. replace (ip + 1 - (ip + 2 - j))%nat with (j - 1)%nat by lia. replace (ip + 2 - j - 1)%nat with (ip + 1 - j)%nat by lia. reflexivity. Qed.

  (** What is left of the array before the loop for the first elements. *)
  Lemma fold1_ok c0 ws ch : parts ch -> (forall s, In s ws -> fills ido l1 ip F3 s) ->
    (forall i k, (1 <= i <= ido)%nat -> (1 <= k <= l1)%nat -> In (at3 ido l1 i k 1) (map fst ws) \/ c0 (at3 ido l1 i k 1) = EE i k 0) ->
    (forall p k j, (1 <= p)%nat -> (2 * p < ido)%nat -> (1 <= k <= l1)%nat -> (2 <= j <= ip)%nat -> In (at3 ido l1 (2 * p) k j) (map fst ws) /\ In (at3 ido l1 (2 * p + 1) k j) (map fst ws)) ->
    let r := radfg_fold1 ido ip l1 (run ws c0) ch in folded r /\ forall x, ~ (1 <= x <= ido * l1 * ip)%nat -> r x = c0 x.
  Proof.
    intros Hch Hws C1 C3 r. unfold r, radfg_fold1. clear r. rewrite (ipph_m ip m Em Hm).
    match goal with |- context [run ?l (run ws c0)] => set (L := l) end.
    rewrite <- run_app. destruct (run_grid ido l1 ip F3 (ws ++ L) c0) as [V FR].
    { intros s Hs. apply in_app_or in Hs. destruct Hs as [Hs|Hs]; [apply Hws; exact Hs|]. revert s Hs. apply flat_map_sound. intros j Hj. apply In_upto1 in Hj. cbv zeta. apply flat_map_sound. intros k Hk. apply In_upto1 in Hk. intros s Hs.
      rewrite !Hch in Hs by lia. unfold F1 in Hs. replace (ip + 2 - j - 1)%nat with (ip + 1 - j)%nat in Hs by lia.
      destruct Hs as [<-|[<-|[]]]; apply fills_set; try lia.
      - rewrite F3_low by lia. reflexivity.
      - rewrite F3_high by lia. rewrite !EE'_1, !EE_1. ring. }
    split; [|exact FR]. intros i k j Hi Hk Hj. apply V; try assumption. rewrite map_app.
    destruct (Nat.eq_dec j 1) as [->|Nj].
    - destruct (C1 i k Hi Hk) as [C|C]; [left; apply in_or_app; left; exact C|right; exact C].
    - left. apply in_or_app. destruct (cases_i i Hi) as [->|(p & Hp & H2p & [->| ->])].
      + right. destruct (Nat.le_gt_cases j (m + 1)) as [Lj|Lj].
        * apply (flat_map_cover _ _ _ j); [apply In_upto1; lia|]. cbv zeta. apply (flat_map_cover _ _ _ k); [apply In_upto1; lia|]. cbn [map fst set In]. tauto.
        * apply (flat_map_cover _ _ _ (ip + 2 - j)); [apply In_upto1; lia|]. cbv zeta. apply (flat_map_cover _ _ _ k); [apply In_upto1; lia|]. cbn [map fst set In].
          right. left. apply at3_eq; lia.
      + left. apply C3; lia.
      + left. apply C3; lia.
  Qed.

  Lemma fold_ok c ch : parts ch -> input_ok ip ido l1 Z c ->
    let r := radfg_fold1 ido ip l1 (radfg_fold ido ip l1 c ch) ch in folded r /\ forall x, ~ (1 <= x <= ido * l1 * ip)%nat -> r x = c x.
  Proof.
    intros Hch Hin. unfold radfg_fold. rewrite (ipph_m ip m Em Hm).
    assert (HB : forall i k j, In i (upto 3 ido 2) -> In k (upto 1 l1 1) -> In j (upto 2 (m + 1) 1) -> forall s,
      In s [ set (at3 ido l1 (i - 1) k j) (ch (at3 ido l1 (i - 1) k j) + ch (at3 ido l1 (i - 1) k (ip + 2 - j)));
        set (at3 ido l1 (i - 1) k (ip + 2 - j)) (ch (at3 ido l1 i k j) - ch (at3 ido l1 i k (ip + 2 - j)));
        set (at3 ido l1 i k j) (ch (at3 ido l1 i k j) + ch (at3 ido l1 i k (ip + 2 - j)));
        set (at3 ido l1 i k (ip + 2 - j)) (ch (at3 ido l1 (i - 1) k (ip + 2 - j)) - ch (at3 ido l1 (i - 1) k j)) ] -> fills ido l1 ip F3 s).
    { intros i k j Hi Hk Hj s Hs. apply In_upto1 in Hk, Hj. apply In_odds in Hi. destruct Hi as (p & Hp & -> & H2p).
      replace (2 * p + 1 - 1)%nat with (2 * p)%nat in Hs by lia. rewrite !Hch in Hs by lia. unfold F1 in Hs. replace (ip + 2 - j - 1)%nat with (ip + 1 - j)%nat in Hs by lia.
      destruct Hs as [<-|[<-|[<-|[<-|[]]]]]; apply fills_set; try lia.
      - rewrite F3_low by lia. reflexivity.
      - rewrite F3_high by lia. rewrite !EE'_re, !EE_im by exact Hp. reflexivity.
      - rewrite F3_low by lia. reflexivity.
      - rewrite F3_high by lia. rewrite !EE'_im, !EE_re by exact Hp. ring. }
    cbv zeta. destruct (Nat.ltb ((ido - 1) / 2) l1); apply fold1_ok.
    1,5: exact Hch.
    - apply flat_map_sound. intros j Hj. apply flat_map_sound. intros i Hi. apply flat_map_sound. intros k Hk. apply HB; assumption.
    - intros i k Hi Hk. right. apply input_first; assumption.
    - intros p k j Hp H2p Hk Hj. destruct (Nat.le_gt_cases j (m + 1)) as [Lj|Lj]; split.
      1,2: apply (flat_map_cover _ _ _ j); [apply In_upto1; lia|]; apply (flat_map_cover _ _ _ (2 * p + 1)); [apply In_odds; exists p; lia|]; apply (flat_map_cover _ _ _ k); [apply In_upto1; lia|]; cbn [map fst set In]; replace (2 * p + 1 - 1)%nat with (2 * p)%nat by lia; tauto.
      all: apply (flat_map_cover _ _ _ (ip + 2 - j)); [apply In_upto1; lia|]; apply (flat_map_cover _ _ _ (2 * p + 1)); [apply In_odds; exists p; lia|]; apply (flat_map_cover _ _ _ k); [apply In_upto1; lia|]; cbn [map fst set In]; replace (2 * p + 1 - 1)%nat with (2 * p)%nat by lia; replace (ip + 2 - (ip + 2 - j))%nat with j by lia; tauto.
    - apply flat_map_sound. intros j Hj. apply flat_map_sound. intros k Hk. apply flat_map_sound. intros i Hi. apply HB; assumption.
    - intros i k Hi Hk. right. apply input_first; assumption.
    - intros p k j Hp H2p Hk Hj. destruct (Nat.le_gt_cases j (m + 1)) as [Lj|Lj]; split.
      1,2: apply (flat_map_cover _ _ _ j); [apply In_upto1; lia|]; apply (flat_map_cover _ _ _ k); [apply In_upto1; lia|]; apply (flat_map_cover _ _ _ (2 * p + 1)); [apply In_odds; exists p; lia|]; cbn [map fst set In]; replace (2 * p + 1 - 1)%nat with (2 * p)%nat by lia; tauto.
      all: apply (flat_map_cover _ _ _ (ip + 2 - j)); [apply In_upto1; lia|]; apply (flat_map_cover _ _ _ k); [apply In_upto1; lia|]; apply (flat_map_cover _ _ _ (2 * p + 1)); [apply In_odds; exists p; lia|]; cbn [map fst set In]; replace (2 * p + 1 - 1)%nat with (2 * p)%nat by lia; replace (ip + 2 - (ip + 2 - j))%nat with j by lia; tauto.
  Qed.

  Lemma copy_ok c ch : ido = 1%nat -> parts ch ->
    let r := radfg_fold1 ido ip l1 (radfg_copy (ido * l1) c ch) ch in folded r /\ forall x, ~ (1 <= x <= ido * l1 * ip)%nat -> r x = c x.
  Proof.
    intros E1 Hch. unfold radfg_copy. apply fold1_ok; [exact Hch|..].
    - intros s Hs. apply in_map_iff in Hs. destruct Hs as (ik & <- & Hik). apply In_upto1 in Hik. destruct (at2_split _ _ _ Hik) as (i & k & Hi & Hk & E). rewrite !E by lia. apply fills_set; try lia. apply Hch; lia.
    - intros i k Hi Hk. left. destruct (at2_join ido l1 i k Hi Hk) as (ik & Hik & E). rewrite <- E. rewrite map_map. cbn [fst set]. apply in_map_iff. exists ik. split; [reflexivity|]. apply In_upto1. exact Hik.
    - intros p k j Hp H2p. lia.
  Qed.

  (** The sums over all parts. *)
  Definition summed (ch : arr) : Prop := forall i k, (1 <= i <= ido)%nat -> (1 <= k <= l1)%nat ->
    ch (at3 ido l1 i k 1) = sumn (EE i k) ip /\
    forall s, (1 <= s <= m)%nat -> ch (at3 ido l1 i k (S s)) = sumn (fun j => cos (turn ip s j) * EE i k j) ip /\
      ch (at3 ido l1 i k (ip + 1 - s)) = sumn (fun j => sin (turn ip s j) * EE' i k j) ip.

  Lemma sums_ok c ch : folded c -> parts ch ->
    let r := radfg_sum_1 ip (ido * l1) c (radfg_sum_l ip (ido * l1) c ch) in summed r /\ forall x, ~ (1 <= x <= ido * l1 * ip)%nat -> r x = ch x.
  Proof.
    intros Hc Hch r. set (ch1 := radfg_sum_l ip (ido * l1) c ch) in *.
    destruct (sum_l ip (ido * l1) m c Em Hm ch) as (A1 & A2 & A3). fold ch1 in A1, A2, A3.
    destruct (sum_1 ip (ido * l1) m c ch1 Em Hm) as (B1 & B2 & B3). fold r in B1, B2, B3.
    split; [|intros x Hx; rewrite B3, A3 by exact Hx; reflexivity].
    intros i k Hi Hk. destruct (at2_join ido l1 i k Hi Hk) as (ik & Hik & E).
    assert (Low : forall t, (t < m)%nat -> c (at2 (ido * l1) ik (t + 2)) = EE i k (S t) + EE i k (2 * m - t)).
    { intros t Ht. rewrite E, Hc, F3_low by lia. f_equal; f_equal; lia. }
    assert (High : forall t, (t < m)%nat -> c (at2 (ido * l1) ik (ip - t)) = EE' i k (S t) - EE' i k (2 * m - t)).
    { intros t Ht. rewrite E. replace (ip - t)%nat with (ip + 2 - (t + 2))%nat by lia. rewrite Hc, F3_high by lia. replace (t + 2 - 1)%nat with (S t) by lia. replace (ip + 1 - (t + 2))%nat with (2 * m - t)%nat by lia. reflexivity. }
    split.
    - rewrite <- E, B1, A1, E, Hch by lia. pose proof (sumn_pairs (EE i k) m) as P. rewrite <- Em in P. rewrite P. f_equal. apply sumn_ext. exact Low.
    - intros s Hs. destruct (A2 s ik Hs Hik) as [A21 A22]. split; rewrite <- E, B2 by lia.
      + rewrite A21. rewrite E, Hc by lia. unfold csum. pose proof (sumn_pairs (fun j => cos (turn ip s j) * EE i k j) m) as P. rewrite <- Em in P. rewrite P, cos_t0. f_equal; [unfold F3; cbn [Nat.eqb]; ring|].
        apply sumn_ext. intros t Ht. rewrite Low by exact Ht. replace (2 * m - t)%nat with (ip - S t)%nat by lia. rewrite cos_back by lia. ring.
      + rewrite A22. unfold ssum. pose proof (sumn_pairs (fun j => sin (turn ip s j) * EE' i k j) m) as P. rewrite <- Em in P. rewrite P, sin_t0, Rmult_0_l, Rplus_0_l.
        apply sumn_ext. intros t Ht. rewrite High by exact Ht. replace (2 * m - t)%nat with (ip - S t)%nat by lia. rewrite sin_back by lia. ring.
  Qed.

  Lemma at3_o d1 d2 i j k i' j' k' : (i = i' /\ j = j' /\ k = k')%nat -> at3 d1 d2 i j k = at3 d1 d2 i' j' k'.
  Proof. intros (-> & -> & ->). reflexivity. Qed.

  Lemma result_ok c ch : summed ch -> step_ok ip ido l1 Z c (radfg_result ido ip l1 c ch).
  Proof.
    intros Hs. unfold radfg_result. rewrite (ipph_m ip m Em Hm).
    assert (Hido : (1 <= ido)%nat) by lia. assert (Hip : (1 <= ip)%nat) by lia.
    Ltac place E := match type of E with target ?ip ?ido ?Z (at3 _ _ ?i ?j ?k) = ?u => apply (right_eq ido _ Z ltac:(lia) ip _ _ k i j _ u); [lia|lia|lia|lia|lia|exact E|] end.
    (* the three groups of assignments *)
    assert (HA : forall i k, In i (upto 1 ido 1) -> In k (upto 1 l1 1) -> right ido l1 Z ip (set (at3 ido ip i 1 k) (ch (at3 ido l1 i k 1)))).
    { intros i k Hi Hk. apply In_upto1 in Hi, Hk. destruct (Hs i k Hi Hk) as [-> _]. destruct (cases_i i Hi) as [->|(p & Hp & H2 & [->| ->])].
      - assert (E : _) by (apply (out_0 ip ido Z Hip Hido k); lia); place E. reflexivity.
      - assert (E : _) by (apply (out_direct_re ip ido Z Hip Hido p 0 k); lia); place E. apply sumn_ext. intros j Hj. rewrite cos_ts0, sin_ts0, EE_re. ring.
      - assert (E : _) by (apply (out_direct_im ip ido Z Hip Hido p 0 k); lia); place E. apply sumn_ext. intros j Hj. rewrite cos_ts0, sin_ts0, EE_im by exact Hp. ring. }
    assert (HB : forall j k, In j (upto 2 (m + 1) 1) -> In k (upto 1 l1 1) -> forall s,
      In s [ set (at3 ido ip ido (j + j - 2) k) (ch (at3 ido l1 1 k j)); set (at3 ido ip 1 (j + j - 1) k) (ch (at3 ido l1 1 k (ip + 2 - j))) ] -> right ido l1 Z ip s).
    { intros j k Hj Hk s HI. apply In_upto1 in Hj, Hk. destruct (Hs 1%nat k ltac:(lia) Hk) as [_ S1]. destruct (S1 (j - 1)%nat ltac:(lia)) as [S11 S12].
      replace (S (j - 1)) with j in S11 by lia. replace (ip + 1 - (j - 1))%nat with (ip + 2 - j)%nat in S12 by lia. rewrite S11, S12 in HI. destruct HI as [<-|[<-|[]]].
      - assert (E : _) by (apply (out_whole_re ip ido Z Hip Hido (j - 1) k); lia); place E. reflexivity.
      - assert (E : _) by (apply (out_whole_im ip ido Z Hip Hido (j - 1) k); lia); place E. apply sumn_ext. intros j' Hj'. rewrite EE'_1. ring. }
    assert (HC : forall i k j, In i (upto 3 ido 2) -> In k (upto 1 l1 1) -> In j (upto 2 (m + 1) 1) -> forall s,
      In s [ set (at3 ido ip (i - 1) (j + j - 1) k) (ch (at3 ido l1 (i - 1) k j) + ch (at3 ido l1 (i - 1) k (ip + 2 - j)));
        set (at3 ido ip (ido + 2 - i - 1) (j + j - 2) k) (ch (at3 ido l1 (i - 1) k j) - ch (at3 ido l1 (i - 1) k (ip + 2 - j)));
        set (at3 ido ip i (j + j - 1) k) (ch (at3 ido l1 i k j) + ch (at3 ido l1 i k (ip + 2 - j)));
        set (at3 ido ip (ido + 2 - i) (j + j - 2) k) (ch (at3 ido l1 i k (ip + 2 - j)) - ch (at3 ido l1 i k j)) ] -> right ido l1 Z ip s).
    { intros i k j Hi Hk Hj s HI. apply In_upto1 in Hk, Hj. apply In_odds in Hi. destruct Hi as (p & Hp & -> & H2). replace (2 * p + 1 - 1)%nat with (2 * p)%nat in HI by lia.
      destruct (Hs (2 * p)%nat k ltac:(lia) Hk) as [_ S1]. destruct (S1 (j - 1)%nat ltac:(lia)) as [S11 S12]. destruct (Hs (2 * p + 1)%nat k ltac:(lia) Hk) as [_ S2]. destruct (S2 (j - 1)%nat ltac:(lia)) as [S21 S22]. clear S1 S2.
      replace (S (j - 1)) with j in S11, S21 by lia. replace (ip + 1 - (j - 1))%nat with (ip + 2 - j)%nat in S12, S22 by lia. rewrite S11, S12, S21, S22 in HI.
      destruct HI as [<-|[<-|[<-|[<-|[]]]]].
      - assert (E : _) by (apply (out_direct_re ip ido Z Hip Hido p (j - 1) k); lia); place E. rewrite <- sumn_plus. apply sumn_ext. intros j' Hj'. rewrite EE_re, EE'_re. ring.
      - assert (E : _) by (apply (out_mirror_re ip ido Z Hip Hido p (j - 1) k); lia); place E. unfold Rminus at 1. rewrite <- (Rmult_1_l (sumn (fun j0 => sin _ * _) ip)), Ropp_mult_distr_l, <- sumn_scal, <- sumn_plus. apply sumn_ext. intros j' Hj'. rewrite EE_re, EE'_re. ring.
      - assert (E : _) by (apply (out_direct_im ip ido Z Hip Hido p (j - 1) k); lia); place E. rewrite <- sumn_plus. apply sumn_ext. intros j' Hj'. rewrite EE_im, EE'_im by exact Hp. ring.
      - assert (E : _) by (apply (out_mirror_im ip ido Z Hip Hido p (j - 1) k); lia); place E. unfold Rminus at 1. rewrite <- (Rmult_1_l (sumn (fun j0 => cos _ * _) ip)), Ropp_mult_distr_l, <- sumn_scal, <- sumn_plus. apply sumn_ext. intros j' Hj'. rewrite EE_im, EE'_im by exact Hp. ring. }
    match goal with |- context [run ?l (if (ido <? l1)%nat then run ?a1 c else run ?a2 c)] => set (A1 := a1); set (A2 := a2); set (B := l) end.
    assert (HB' : forall s, In s B -> right ido l1 Z ip s).
    { apply flat_map_sound. intros j Hj. cbv zeta. apply flat_map_sound. intros k Hk. apply HB; assumption. }
    assert (CB : forall s k, (1 <= s <= m)%nat -> (1 <= k <= l1)%nat -> In (at3 ido ip ido (2 * s) k) (map fst B) /\ In (at3 ido ip 1 (2 * s + 1) k) (map fst B)).
    { intros s k Hs' Hk. split; (apply (flat_map_cover _ _ _ (S s)); [apply In_upto1; lia|]); cbv zeta; (apply (flat_map_cover _ _ _ k); [apply In_upto1; lia|]); cbn [map fst set In].
      - left. apply at3_o. lia.
      - right. left. apply at3_o. lia. }
    assert (GA : exists A, (if (ido <? l1)%nat then run A1 c else run A2 c) = run A c /\ (forall s, In s A -> right ido l1 Z ip s) /\ (forall i k, (1 <= i <= ido)%nat -> (1 <= k <= l1)%nat -> In (at3 ido ip i 1 k) (map fst A))).
    { destruct (ido <? l1)%nat; eexists; (split; [reflexivity|]); split.
      - apply flat_map_sound. intros i Hi s HI. apply in_map_iff in HI. destruct HI as (k & <- & Hk). apply HA; assumption.
      - intros i k Hi Hk. apply (flat_map_cover _ _ _ i); [apply In_upto1; lia|]. rewrite map_map. cbn [fst set]. apply in_map_iff. exists k. split; [reflexivity|]. apply In_upto1. exact Hk.
      - apply flat_map_sound. intros k Hk s HI. apply in_map_iff in HI. destruct HI as (i & <- & Hi). apply HA; assumption.
      - intros i k Hi Hk. apply (flat_map_cover _ _ _ k); [apply In_upto1; lia|]. rewrite map_map. cbn [fst set]. apply in_map_iff. exists i. split; [reflexivity|]. apply In_upto1. exact Hi. }
    destruct GA as (A & -> & HA' & CA). clear A1 A2 HA.
    assert (G : forall C, (forall s, In s C -> right ido l1 Z ip s) ->
      (forall p s k, (1 <= p)%nat -> (2 * p < ido)%nat -> (1 <= s <= m)%nat -> (1 <= k <= l1)%nat ->
        In (at3 ido ip (2 * p) (2 * s + 1) k) (map fst C) /\ In (at3 ido ip (2 * p + 1) (2 * s + 1) k) (map fst C) /\
        In (at3 ido ip (ido - 2 * p) (2 * s) k) (map fst C) /\ In (at3 ido ip (ido + 1 - 2 * p) (2 * s) k) (map fst C)) ->
      step_ok ip ido l1 Z c (run C (run B (run A c)))).
    { intros C HC' CC. rewrite <- !run_app. apply step_ok_intro; [exact Hip|exact Hido|..].
      - intros s HI. apply in_app_or in HI. destruct HI as [HI|HI]; [apply HA'; exact HI|]. apply in_app_or in HI. destruct HI as [HI|HI]; [apply HB'; exact HI|apply HC'; exact HI].
      - intros i j k S Hk. rewrite !map_app. rewrite !in_app_iff.
        destruct S as [s Hs'|s Hs1 Hs'|p s Hp H2 Hs'|p s Hp H2 Hs'|p s Hp H2 Hs1 Hs'|p s Hp H2 Hs1 Hs'|h' s Hh E Hs'|h' s Hh E Hs'].
        + destruct s; [left; apply CA; lia|]. right. left. apply CB; lia.
        + right. left. apply CB; lia.
        + destruct s; [left; apply CA; lia|]. right. right. apply CC; lia.
        + destruct s; [left; apply CA; lia|]. right. right. apply CC; lia.
        + right. right. apply CC; lia.
        + right. right. apply CC; lia.
        + lia.
        + lia. }
    cbv zeta. destruct (Nat.eqb_spec ido 1) as [E1|E1]; [|destruct (Nat.ltb ((ido - 1) / 2) l1)].
    - apply (G []); [intros s []|]. intros p s k Hp H2. lia.
    - apply G.
      + apply flat_map_sound. intros j Hj. apply flat_map_sound. intros i Hi. apply flat_map_sound. intros k Hk. apply HC; assumption.
      + intros p s k Hp H2 Hs' Hk. repeat split.
        all: apply (flat_map_cover _ _ _ (S s)); [apply In_upto1; lia|]; apply (flat_map_cover _ _ _ (2 * p + 1)); [apply In_odds; exists p; lia|]; apply (flat_map_cover _ _ _ k); [apply In_upto1; lia|]; cbn [map fst set In].
        * left. apply at3_o. lia.
        * right. right. left. apply at3_o. lia.
        * right. left. apply at3_o. lia.
        * right. right. right. left. apply at3_o. lia.
    - apply G.
      + apply flat_map_sound. intros j Hj. apply flat_map_sound. intros k Hk. apply flat_map_sound. intros i Hi. apply HC; assumption.
      + intros p s k Hp H2 Hs' Hk. repeat split.
        all: apply (flat_map_cover _ _ _ (S s)); [apply In_upto1; lia|]; apply (flat_map_cover _ _ _ k); [apply In_upto1; lia|]; apply (flat_map_cover _ _ _ (2 * p + 1)); [apply In_odds; exists p; lia|]; cbn [map fst set In].
        * left. apply at3_o. lia.
        * right. right. left. apply at3_o. lia.
        * right. left. apply at3_o. lia.
        * right. right. right. left. apply at3_o. lia.
  Qed.

  Lemma radfg_ok c ch wa : input_ok ip ido l1 Z (if Nat.eqb ido 1 then ch else c) -> table_ok ip ido (fun j => from wa ((j - 1) * ido + 1)) ->
    step_ok ip ido l1 Z c (fst (radfg ido ip l1 (ido * l1) c ch wa)) /\
    forall x, ~ (1 <= x <= ido * ip * l1)%nat -> snd (radfg ido ip l1 (ido * l1) c ch wa) x = ch x.
  Proof.
    intros Hin Hw. unfold radfg. replace (ido * ip * l1)%nat with (ido * l1 * ip)%nat by ring.
    assert (G : forall c1 ch1, folded c1 -> parts ch1 -> (forall x, ~ (1 <= x <= ido * l1 * ip)%nat -> c1 x = c x) -> (forall x, ~ (1 <= x <= ido * l1 * ip)%nat -> ch1 x = ch x) ->
      let r := radfg_sum_1 ip (ido * l1) c1 (radfg_sum_l ip (ido * l1) c1 ch1) in
      step_ok ip ido l1 Z c (radfg_result ido ip l1 c1 r) /\ forall x, ~ (1 <= x <= ido * l1 * ip)%nat -> r x = ch x).
    { intros c1 ch1 H1 H2 F1' F2' r. destruct (sums_ok c1 ch1 H1 H2) as [S1 S2]. fold r in S1, S2. destruct (result_ok c1 r S1) as [R1 R2]. split.
      - split; [exact R1|]. intros x Hx. rewrite R2 by exact Hx. apply F1'. replace (ido * l1 * ip)%nat with (ido * ip * l1)%nat by ring. exact Hx.
      - intros x Hx. rewrite S2, F2' by exact Hx. reflexivity. }
    destruct (Nat.eqb_spec ido 1) as [E1|E1].
    - assert (Hp : parts ch).
      { intros i k j Hi Hk Hj. assert (i = 1%nat) by lia. subst i. unfold F1. rewrite EE_1. replace j with (S (j - 1)) at 1 by lia. apply (in_0 ip ido l1 Z ch); (assumption || lia). }
      destruct (copy_ok c ch E1 Hp) as [C1 C2]. apply (G _ ch C1 Hp C2). reflexivity.
    - destruct (twiddle_ok wa c ch Hin Hw) as [T1 T2]. destruct (fold_ok c _ T1 Hin) as [C1 C2]. apply (G _ _ C1 T1 C2 T2).
  Qed.
End General_step.
