(** The factors and the table of sines and cosines of the fast transform. *)
From Coq Require Import List Reals Bool Arith Lra Lia.
From Verif Require Import Base QuadThms Fft FftMath FftStep FftGeneral.
Import ListNotations.
Open Scope nat_scope.

Definition product (l : list nat) : nat := fold_right Nat.mul 1 l.
Lemma product_app l k : product (l ++ k) = product l * product k.
Proof. unfold product. induction l as [|x l IH]; cbn [app fold_right]; [lia|]. rewrite IH. ring. Qed.
Lemma product_snoc l x : product (l ++ [x]) = product l * x.
Proof. rewrite product_app. cbn. lia. Qed.
Lemma product_cons x l : product (x :: l) = x * product l.
Proof. reflexivity. Qed.

(** The list of factors as stored from element 3 on. *)
Definition stored (ifac : nat -> nat) (fs : list nat) : Prop := forall i, i < length fs -> ifac (i + 3) = nth i fs 0.
Lemma stored_map ifac fs : stored ifac fs <-> map (fun i => ifac (i + 3)) (seq 0 (length fs)) = fs.
Proof.
  split.
  - intros H. apply (nth_ext _ _ 0 0); [rewrite map_length, seq_length; reflexivity|]. rewrite map_length, seq_length. intros i Hi.
    rewrite (nth_indep _ 0 (ifac (0 + 3))) by (rewrite map_length, seq_length; exact Hi). rewrite (map_nth (fun i => ifac (i + 3)) _ 0), seq_nth by exact Hi. apply H. exact Hi.
  - intros E i Hi. rewrite <- E at 1. rewrite (nth_indep _ 0 (ifac (0 + 3))) by (rewrite map_length, seq_length; exact Hi). rewrite (map_nth (fun i => ifac (i + 3)) _ 0), seq_nth by exact Hi. reflexivity.
Qed.

(** Moving all factors up by one. *)
Definition shifts (nf M : nat) : list (asg nat) := map (fun i => let ib := nf - i + 2 in (ib + 2, fun a : nat -> nat => a (ib + 1))) (upto 2 M 1).
Lemma shift_value nf (a : nat -> nat) M : M <= nf -> 1 <= M -> forall x,
  run (shifts nf M) a x =
  if andb (Nat.leb (nf + 4 - M) x) (Nat.leb x (nf + 2)) then a (x - 1) else a x.
Proof.
  induction M as [|M IH]; intros HM H1 x; [lia|].
  destruct (Nat.eq_dec M 0) as [->|N0].
  - unfold shifts, upto. cbn [Nat.add Nat.sub Nat.div Nat.divmod fst seq map]. unfold run. cbn [fold_left].
    destruct (Nat.leb_spec (nf + 4 - 1) x), (Nat.leb_spec x (nf + 2)); try reflexivity. lia.
  - unfold shifts. rewrite upto_snoc by lia. rewrite map_app, (run_app (A := nat)). change (map _ (upto 2 M 1)) with (shifts nf M). cbn [map]. rewrite (run_cons (A := nat)). unfold run at 1. cbn [fold_left fst snd].
    rewrite (IH ltac:(lia) ltac:(lia) (nf - S M + 2 + 1)). 
    destruct (Nat.leb_spec (nf + 4 - M) (nf - S M + 2 + 1)); [lia|]. cbn [andb].
    destruct (Nat.eq_dec x (nf - S M + 2 + 2)) as [->|NE].
    + rewrite put_same. destruct (Nat.leb_spec (nf + 4 - S M) (nf - S M + 2 + 2)); [|lia]. destruct (Nat.leb_spec (nf - S M + 2 + 2) (nf + 2)); [|lia]. cbn [andb]. f_equal. lia.
    + rewrite put_other by exact NE. rewrite (IH ltac:(lia) ltac:(lia) x).
      destruct (Nat.leb_spec (nf + 4 - M) x), (Nat.leb_spec (nf + 4 - S M) x); try lia; reflexivity.
Qed.

Lemma store_other ntry fs ifac : ntry <> 2 -> stored ifac fs ->
  stored (store_factor ntry (S (length fs)) ifac) (fs ++ [ntry]) /\ forall x, ~ (3 <= x <= length fs + 3) -> store_factor ntry (S (length fs)) ifac x = ifac x.
Proof.
  intros HN HS. unfold store_factor. destruct (Nat.eqb_spec ntry 2); [contradiction|]. cbn [negb]. split.
  - intros i Hi. rewrite app_length in Hi. cbn [length] in Hi. destruct (Nat.eq_dec i (length fs)) as [->|NE].
    + replace (length fs + 3) with (S (length fs) + 2) by lia. rewrite put_same, app_nth2, Nat.sub_diag by lia. reflexivity.
    + rewrite put_other by lia. rewrite app_nth1 by lia. apply HS. lia.
  - intros x Hx. apply put_other. lia.
Qed.
Lemma store_two fs ifac : stored ifac fs ->
  stored (store_factor 2 (S (length fs)) ifac) (2 :: fs) /\ forall x, ~ (3 <= x <= length fs + 3) -> store_factor 2 (S (length fs)) ifac x = ifac x.
Proof.
  intros HS. unfold store_factor. change (2 =? 2) with true. cbn [negb]. destruct (Nat.eqb_spec (S (length fs)) 1) as [E|E].
  - destruct fs as [|f fs]; [|cbn in E; lia]. cbn [length]. split.
    + intros i Hi. cbn [length] in Hi. assert (i = 0) by lia. subst i. reflexivity.
    + intros x Hx. apply put_other. lia.
  - split.
    + intros i Hi. cbn [length] in Hi. destruct i as [|i]; [apply put_same|]. rewrite put_other by lia. change (map _ _) with (shifts (S (length fs)) (S (length fs))). rewrite shift_value by lia.
      destruct (Nat.leb_spec (S (length fs) + 4 - S (length fs)) (S i + 3)); [|lia]. destruct (Nat.leb_spec (S i + 3) (S (length fs) + 2)); [|lia]. cbn [andb].
      rewrite put_other by lia. replace (S i + 3 - 1) with (i + 3) by lia. cbn [nth]. apply HS. lia.
    + intros x Hx. rewrite put_other by lia. change (map _ _) with (shifts (S (length fs)) (S (length fs))). rewrite shift_value by lia.
      destruct (Nat.leb_spec (S (length fs) + 4 - S (length fs)) x), (Nat.leb_spec x (S (length fs) + 2)); cbn [andb]; try (apply put_other; lia). lia.
Qed.

(** What the list of factors is like: twos and fours before odd factors. *)
Definition good_factors (fs : list nat) : Prop := exists ev od, fs = ev ++ od /\ (forall f, In f ev -> f = 2 \/ f = 4) /\ (forall f, In f od -> Nat.odd f = true /\ 3 <= f).

Lemma div_no_rest nl d : 1 <= d -> nl - d * (nl / d) = 0 -> nl = d * (nl / d).
Proof. intros Hd H. pose proof (Nat.mul_div_le nl d ltac:(lia)). lia. Qed.
Lemma no_div_rest nl d : 1 <= d -> nl - d * (nl / d) <> 0 -> ~ Nat.divide d nl.
Proof. intros Hd H (q & ->). apply H. rewrite Nat.div_mul by lia. lia. Qed.

Lemma odd_step d : Nat.odd (d + 2) = Nat.odd d.
Proof. rewrite Nat.odd_add. cbn. destruct (Nat.odd d); reflexivity. Qed.
Lemma odd_or nl : Nat.odd nl = false -> Nat.divide 2 nl.
Proof. intros H. unfold Nat.odd in H. apply negb_false_iff in H. apply Nat.even_spec in H. destruct H as (q & ->). exists q. lia. Qed.

Definition found (n : nat) (ifac : nat -> nat) (r : res (nat * (nat -> nat))) : Prop :=
  exists fs ifac', r = Ok (length fs, ifac') /\ stored ifac' fs /\ product fs = n /\ good_factors fs /\ 1 <= length fs /\ forall x, ~ (3 <= x <= length fs + 2) -> ifac' x = ifac x.

Lemma next_odd j d : 3 <= j -> (j = 3 -> d = 3) -> next_try (S j) d = d + 2.
Proof. intros Hj H. destruct j as [|[|[|[|j]]]]; try lia. - rewrite H by reflexivity. reflexivity. - reflexivity. Qed.

Section Find.
  Variables (n : nat) (ifac0 : nat -> nat).

  Lemma find_odd : forall fuel j d nl fs ifac, 3 <= j -> (j = 3 -> d = 3) -> Nat.odd d = true -> 3 <= d -> 2 <= nl -> Nat.odd nl = true ->
    (forall e, Nat.odd e = true -> 3 <= e < d -> ~ Nat.divide e nl) -> nl + 1 - d <= fuel ->
    stored ifac fs -> product fs * nl = n -> good_factors fs -> (forall x, ~ (3 <= x <= length fs + 2) -> ifac x = ifac0 x) ->
    found n ifac0 (find_factors j d nl (length fs) ifac fuel).
  Proof.
    induction fuel as [|fuel IH]; intros j d nl fs ifac Hj Hj3 Hd H3 Hnl Ho Hno Hf HS HP HG HF.
    - exfalso. apply (Hno nl Ho); [|exists 1; lia]. split; [|lia]. destruct nl as [|[|[|nl]]]; cbn in Ho; try discriminate; lia.
    - assert (Hle : d <= nl).
      { destruct (Nat.le_gt_cases d nl) as [L|L]; [exact L|]. exfalso. apply (Hno nl Ho); [|exists 1; lia]. split; [|lia]. destruct nl as [|[|[|nl]]]; cbn in Ho; try discriminate; lia. }
      cbn [find_factors]. destruct (Nat.eqb_spec (nl - d * (nl / d)) 0) as [E|E]; cbn [negb].
      + apply div_no_rest in E; [|lia]. set (q := nl / d) in *.
        destruct (store_other d fs ifac) as [S1 S2]; [intros ->; discriminate|exact HS|].
        assert (HG' : good_factors (fs ++ [d])).
        { destruct HG as (ev & od & -> & G1 & G2). exists ev, (od ++ [d]). rewrite app_assoc. split; [reflexivity|]. split; [exact G1|]. intros f Hf'. apply in_app_or in Hf'. destruct Hf' as [Hf'|[<-|[]]]; [apply G2; exact Hf'|split; assumption]. }
        assert (HP' : product (fs ++ [d]) * q = n) by (rewrite product_snoc, <- Nat.mul_assoc, <- E; exact HP).
        assert (LL : length (fs ++ [d]) = S (length fs)) by (rewrite app_length; cbn; lia).
        assert (Oq : Nat.odd q = true) by (rewrite E, Nat.odd_mul in Ho; apply andb_true_iff in Ho; tauto).
        destruct (Nat.eqb_spec q 1) as [Q1|Q1]; cbn [negb].
        * exists (fs ++ [d]), (store_factor d (S (length fs)) ifac). rewrite LL. split; [reflexivity|]. split; [exact S1|]. split; [rewrite Q1 in HP'; lia|]. split; [exact HG'|]. split; [lia|].
          intros x Hx. rewrite S2 by lia. apply HF. lia.
        * rewrite <- LL. apply IH; try assumption.
          -- destruct q as [|[|q]]; [discriminate|lia|lia].
          -- intros e He Hlt Hdv. apply (Hno e He Hlt). rewrite E. apply Nat.divide_mul_r. exact Hdv.
          -- assert (q < nl) by (rewrite E; destruct q; [discriminate|nia]). lia.
          -- rewrite LL. exact S1 || exact S1.
          -- rewrite LL. intros x Hx. rewrite S2 by lia. apply HF. lia.
      + assert (ND : ~ Nat.divide d nl) by (apply no_div_rest; [lia|exact E]).
        rewrite next_odd by assumption. apply IH; try assumption; try lia.
        * rewrite odd_step. exact Hd.
        * intros e He Hlt Hdv. destruct (Nat.eq_dec e d) as [->|NE]; [exact (ND Hdv)|].
          destruct (Nat.eq_dec e (S d)) as [->|NE2]; [rewrite Nat.odd_succ in He; unfold Nat.odd in Hd; rewrite He in Hd; discriminate|]. apply (Hno e He); [lia|exact Hdv].
  Qed.

  Lemma find_two : forall fuel nl fs ifac, 2 <= nl -> ~ Nat.divide 4 nl -> nl + 2 <= fuel -> (forall f, In f fs -> f = 2 \/ f = 4) ->
    stored ifac fs -> product fs * nl = n -> (forall x, ~ (3 <= x <= length fs + 2) -> ifac x = ifac0 x) ->
    found n ifac0 (find_factors 2 2 nl (length fs) ifac fuel).
  Proof.
    induction fuel as [|fuel IH]; intros nl fs ifac Hnl H4 Hf HG HS HP HF; [lia|].
    cbn [find_factors]. destruct (Nat.eqb_spec (nl - 2 * (nl / 2)) 0) as [E|E]; cbn [negb].
    - apply div_no_rest in E; [|lia]. set (q := nl / 2) in *.
      destruct (store_two fs ifac HS) as [S1 S2].
      assert (HG' : forall f, In f (2 :: fs) -> f = 2 \/ f = 4) by (intros f [<-|Hf']; [left; reflexivity|apply HG; exact Hf']).
      assert (HP' : product (2 :: fs) * q = n) by (rewrite product_cons, <- HP, E; ring).
      destruct (Nat.eqb_spec q 1) as [Q1|Q1]; cbn [negb].
      + exists (2 :: fs), (store_factor 2 (S (length fs)) ifac). split; [reflexivity|]. split; [exact S1|]. split; [rewrite Q1 in HP'; lia|].
        split; [exists (2 :: fs), []; rewrite app_nil_r; split; [reflexivity|]; split; [exact HG'|intros f []]|]. split; [cbn; lia|].
        cbn [length]. intros x Hx. rewrite S2 by lia. apply HF. lia.
      + change (S (length fs)) with (length (2 :: fs)). apply IH; try assumption.
        * lia.
        * intros (a & Ha). apply H4. exists (2 * a). lia.
        * lia.
        * cbn [length]. intros x Hx. rewrite S2 by lia. apply HF. lia.
    - assert (ND : ~ Nat.divide 2 nl) by (apply no_div_rest; [lia|exact E]).
      change (next_try 3 2) with 3. apply find_odd; try assumption; try lia; try reflexivity.
      + destruct (Nat.odd nl) eqn:O; [reflexivity|]. exfalso. apply ND. apply odd_or. exact O.
      + exists fs, []. rewrite app_nil_r. split; [reflexivity|]. split; [exact HG|intros f []].
  Qed.

  Lemma find_four : forall fuel nl fs ifac, 2 <= nl -> nl + 3 <= fuel -> (forall f, In f fs -> f = 2 \/ f = 4) ->
    stored ifac fs -> product fs * nl = n -> (forall x, ~ (3 <= x <= length fs + 2) -> ifac x = ifac0 x) ->
    found n ifac0 (find_factors 1 4 nl (length fs) ifac fuel).
  Proof.
    induction fuel as [|fuel IH]; intros nl fs ifac Hnl Hf HG HS HP HF; [lia|].
    cbn [find_factors]. destruct (Nat.eqb_spec (nl - 4 * (nl / 4)) 0) as [E|E]; cbn [negb].
    - apply div_no_rest in E; [|lia]. set (q := nl / 4) in *.
      destruct (store_other 4 fs ifac ltac:(lia) HS) as [S1 S2].
      assert (HG' : forall f, In f (fs ++ [4]) -> f = 2 \/ f = 4) by (intros f Hf'; apply in_app_or in Hf'; destruct Hf' as [Hf'|[<-|[]]]; [apply HG; exact Hf'|right; reflexivity]).
      assert (HP' : product (fs ++ [4]) * q = n) by (rewrite product_snoc, <- Nat.mul_assoc, <- E; exact HP).
      assert (LL : length (fs ++ [4]) = S (length fs)) by (rewrite app_length; cbn; lia).
      destruct (Nat.eqb_spec q 1) as [Q1|Q1]; cbn [negb].
      + exists (fs ++ [4]), (store_factor 4 (S (length fs)) ifac). rewrite LL. split; [reflexivity|]. split; [exact S1|]. split; [rewrite Q1 in HP'; lia|].
        split; [exists (fs ++ [4]), []; rewrite app_nil_r; split; [reflexivity|]; split; [exact HG'|intros f []]|]. split; [lia|].
        intros x Hx. rewrite S2 by lia. apply HF. lia.
      + rewrite <- LL. apply IH; try assumption.
        * lia.
        * lia.
        * rewrite LL. exact S1.
        * rewrite LL. intros x Hx. rewrite S2 by lia. apply HF. lia.
    - assert (ND : ~ Nat.divide 4 nl) by (apply no_div_rest; [lia|exact E]).
      change (next_try 2 4) with 2. apply find_two; try assumption; lia.
  Qed.
End Find.

Lemma find_ok n ifac : 2 <= n -> found n ifac (find_factors 1 (next_try 1 0) n 0 ifac (2 * n + 8)).
Proof.
  intros Hn. apply (find_four n ifac _ n [] ifac); try lia.
  - intros f [].
  - intros i Hi. cbn in Hi. lia.
  - cbn. lia.
Qed.

(** ** The table *)
Lemma fold_length {X A} (I : nat -> X -> Prop) (f : X -> A -> X) : forall l s t, I t s -> (forall t s a, In a l -> I t s -> I (S t) (f s a)) -> I (t + length l) (fold_left f l s).
Proof.
  induction l as [|a l IH]; intros s t H0 HS; [rewrite Nat.add_0_r; exact H0|]. cbn [fold_left length]. rewrite Nat.add_succ_r. apply (IH _ (S t)); [apply HS; [left; reflexivity|exact H0]|].
  intros t' s' a' Ha. apply HS. right. exact Ha.
Qed.
Lemma length_odds ido : 1 <= ido -> length (upto 3 ido 2) = (ido - 1) / 2.
Proof. intros H. unfold upto. rewrite map_length, seq_length. f_equal. lia. Qed.
Lemma below_half p ido : 1 <= ido -> p <= (ido - 1) / 2 <-> 2 * p < ido.
Proof.
  intros Hi. split; intros H.
  - pose proof (Nat.mul_div_le (ido - 1) 2 ltac:(lia)). lia.
  - apply Nat.div_le_lower_bound; lia.
Qed.

Definition cell (t : R) (i p : nat) (wa : arr) : Prop := wa (i + 2 * p - 1) = cos (INR p * t) /\ wa (i + 2 * p) = sin (INR p * t).

Lemma table_ii_ok ido i t wa : 1 <= ido ->
  (forall p, 1 <= p -> 2 * p < ido -> cell t i p (table_ii ido i t wa)) /\ forall x, ~ (i < x < i + ido) -> table_ii ido i t wa x = wa x.
Proof.
  intros Hido. unfold table_ii.
  match goal with |- context [fold_left ?f ?l ?s0] => set (step := f); set (st0 := s0) end.
  pose (I := fun (k : nat) (s : nat * R * arr) => fst (fst s) = i + 2 * k /\ snd (fst s) = INR k /\
    (k <= (ido - 1) / 2 -> (forall p, 1 <= p <= k -> cell t i p (snd s)) /\ forall x, ~ (i < x < i + ido) -> snd s x = wa x)).
  assert (HI : I (0 + length (upto 3 ido 2)) (fold_left step (upto 3 ido 2) st0)).
  { apply (fold_length I).
    - unfold I, st0. cbn [fst snd INR]. split; [lia|]. split; [reflexivity|]. intros _. split; [intros p Hp; lia|reflexivity].
    - intros k [[i' fi] a] x _ (E1 & E2 & E3). cbn [fst snd] in E1, E2, E3. unfold I, step. cbn [fst snd]. split; [lia|]. split; [rewrite E2, S_INR; reflexivity|].
      intros Hk. apply (below_half (S k) ido Hido) in Hk. destruct E3 as [E3 E4]; [apply (below_half k ido Hido); lia|]. subst i' fi. split.
      + intros p Hp. unfold cell. destruct (Nat.eq_dec p (S k)) as [->|NE].
        * replace (i + 2 * S k) with (i + 2 * k + 2) by lia. rewrite put_other by lia. rewrite !put_same, S_INR. split; reflexivity.
        * rewrite !put_other by lia. apply E3. lia.
      + intros y Hy. rewrite !put_other by lia. apply E4. exact Hy. }
  rewrite Nat.add_0_l, length_odds in HI by exact Hido. destruct HI as (_ & _ & HI). destruct (HI (le_n _)) as [H1 H2]. split; [|exact H2].
  intros p Hp H2p. apply H1. split; [exact Hp|]. apply below_half; assumption.
Qed.

Lemma table_j_ok ido ipm l1 argh is wa : 1 <= ido ->
  exists wa', table_j ido ipm l1 argh (0, is, wa) = (ipm * l1, is + ipm * ido, wa') /\
  (forall j p, 1 <= j <= ipm -> 1 <= p -> 2 * p < ido -> cell (INR (j * l1) * argh) (is + (j - 1) * ido) p wa') /\
  (forall x, ~ (is < x < is + ipm * ido) -> wa' x = wa x).
Proof.
  intros Hido. unfold table_j.
  match goal with |- context [fold_left ?f ?l ?s0] => set (step := f); set (st0 := s0) end.
  pose (I := fun (j : nat) (s : nat * nat * arr) => fst (fst s) = (j - 1) * l1 /\ snd (fst s) = is + (j - 1) * ido /\
    (forall j' p, 1 <= j' < j -> 1 <= p -> 2 * p < ido -> cell (INR (j' * l1) * argh) (is + (j' - 1) * ido) p (snd s)) /\
    (forall x, ~ (is < x < is + (j - 1) * ido) -> snd s x = wa x)).
  assert (HI : I (S ipm) (fold_left step (upto 1 ipm 1) st0)).
  { apply fold_upto; [lia|..].
    - unfold I, st0. cbn [fst snd Nat.sub Nat.mul]. split; [reflexivity|]. split; [lia|]. split; [intros j' p Hj; lia|reflexivity].
    - intros j [[ld is'] a] Hj (E1 & E2 & E3 & E4). cbn [fst snd] in E1, E2, E3, E4. unfold I, step. cbn [fst snd].
      assert (ES : forall u, (S j - 1) * u = (j - 1) * u + u) by (intros u; replace (S j - 1) with (S (j - 1)) by lia; cbn [Nat.mul]; lia).
      split; [rewrite ES; lia|]. split; [rewrite ES; lia|].
      destruct (table_ii_ok ido is' (INR (ld + l1) * argh) a Hido) as [T1 T2]. subst ld is'. split.
      + intros j' p Hj' Hp H2p. destruct (Nat.eq_dec j' j) as [->|NE].
        * replace (j * l1) with ((j - 1) * l1 + l1) by (replace j with (S (j - 1)) at 2 by lia; cbn [Nat.mul]; lia). apply T1; assumption.
        * assert (B : (j' - 1) * ido + ido <= (j - 1) * ido).
          { transitivity (S (j' - 1) * ido); [cbn [Nat.mul]; lia|]. apply Nat.mul_le_mono_r. lia. }
          set (u := (j' - 1) * ido) in *. set (v := (j - 1) * ido) in *.
          unfold cell. rewrite !T2 by lia. apply E3; (assumption || lia).
      + intros x Hx. rewrite ES in Hx. set (v := (j - 1) * ido) in *. rewrite T2 by lia. apply E4. lia. }
  destruct (fold_left step (upto 1 ipm 1) st0) as [[ld is'] wa'] eqn:EF. destruct HI as (E1 & E2 & E3 & E4). cbn [fst snd] in E1, E2, E3, E4.
  replace (S ipm - 1) with ipm in E1, E2, E4 by lia. subst ld is'. exists wa'. split; [reflexivity|]. split; [|exact E4]. intros j p Hj. apply E3. lia.
Qed.

(** The table for all factors. *)
Definition table_good (n : nat) (fs : list nat) (wa : arr) : Prop := forall pre ip post, fs = pre ++ ip :: post ->
  table_ok ip (product post) (fun j => from wa (n + 1 - ip * product post + (j - 1) * product post)).

Lemma product_pos fs : (forall f, In f fs -> 2 <= f) -> 1 <= product fs.
Proof. induction fs as [|f fs IH]; intros H; [cbn; lia|]. rewrite product_cons. assert (2 <= f) by (apply H; left; reflexivity). assert (1 <= product fs) by (apply IH; intros; apply H; right; assumption). nia. Qed.

Definition table_fold (n : nat) (argh : R) (s : nat * nat * arr) (ip : nat) : nat * nat * arr :=
  let '(is, l1, wa) := s in
  let '(_, is, wa) := table_j (n / (l1 * ip)) (ip - 1) l1 argh (0, is, wa) in (is, l1 * ip, wa).
Lemma table_fold_ok n argh : argh = (2 * PI / INR n)%R -> forall fs1 pre last wa, (forall f, In f (pre ++ fs1 ++ [last]) -> 2 <= f) -> product (pre ++ fs1 ++ [last]) = n ->
  exists wa', fold_left (table_fold n argh) fs1 (n - product (fs1 ++ [last]), product pre, wa) = (n - last, product (pre ++ fs1), wa') /\
  (forall x, ~ (n - product (fs1 ++ [last]) < x < n) -> wa' x = wa x) /\
  forall pre' ip post, fs1 = pre' ++ ip :: post -> table_ok ip (product (post ++ [last])) (fun j => from wa' (n + 1 - ip * product (post ++ [last]) + (j - 1) * product (post ++ [last]))).
Proof.
  intros Ea. induction fs1 as [|ip fs1 IH]; intros pre last wa H2 HP.
  - exists wa. cbn [fold_left app]. rewrite app_nil_r. split; [f_equal; f_equal; cbn; lia|]. split; [reflexivity|]. intros pre' ip post E. destruct pre'; discriminate.
  - cbn [fold_left]. unfold table_fold at 2. set (rest := product (fs1 ++ [last])).
    assert (Hrest : 1 <= rest) by (apply product_pos; intros f Hf; apply H2; apply in_or_app; right; right; exact Hf).
    assert (Hip : 2 <= ip) by (apply H2; apply in_or_app; right; left; reflexivity).
    assert (Hpre : 1 <= product pre) by (apply product_pos; intros f Hf; apply H2; apply in_or_app; left; exact Hf).
    assert (En : n = product pre * ip * rest) by (rewrite <- HP, product_app; cbn [app]; rewrite product_cons; fold rest; ring).
    assert (Ei : n / (product pre * ip) = rest) by (rewrite En, (Nat.mul_comm _ rest); apply Nat.div_mul; nia).
    rewrite Ei. cbn [app]. rewrite product_cons. fold rest.
    destruct (table_j_ok rest (ip - 1) (product pre) argh (n - ip * rest) wa Hrest) as (wa1 & -> & T1 & T2).
    assert (Hle : ip * rest <= n) by (rewrite En; nia).
    assert (Es : n - ip * rest + (ip - 1) * rest = n - rest).
    { replace (ip * rest) with ((ip - 1) * rest + rest) in * by (replace ip with (S (ip - 1)) at 2 by lia; cbn [Nat.mul]; lia). set (u := (ip - 1) * rest) in *. lia. }
    rewrite Es in *.
    destruct (IH (pre ++ [ip]) last wa1) as (wa' & E & F1 & F2).
    { rewrite <- app_assoc. exact H2. } { rewrite <- app_assoc. exact HP. }
    rewrite (product_snoc pre ip) in E. fold rest in E, F1. exists wa'. split; [rewrite E; rewrite <- app_assoc; reflexivity|]. split.
    + intros x Hx. assert (rest <= ip * rest) by nia. rewrite F1 by lia. apply T2. lia.
    + intros pre' ip' post Ep. destruct pre' as [|a pre']; cbn [app] in Ep; injection Ep as -> ->; [|apply (F2 pre' ip' post eq_refl)].
      fold rest. intros j p Hj Hp H2p. destruct (T1 j p ltac:(lia) Hp H2p) as [C1 C2]. 
      assert (Bj : (j - 1) * rest + rest <= (ip' - 1) * rest) by (transitivity (S (j - 1) * rest); [cbn [Nat.mul]; lia|apply Nat.mul_le_mono_r; lia]).
      assert (Ebase : n - ip' * rest + (ip' - 1) * rest = n - rest) by exact Es.
      assert (EA : (INR p * (INR (j * product pre) * argh) = angle ip' rest p j)%R).
      { rewrite Ea. unfold angle. rewrite En. rewrite !mult_INR. field. repeat split; apply not_0_INR; lia. }
      rewrite EA in C1, C2. unfold from. set (b := n - ip' * rest) in *. set (u := (j - 1) * rest) in *. set (v := (ip' - 1) * rest) in *.
      assert (Hb : n + 1 - ip' * rest = b + 1) by (unfold b; lia). rewrite Hb. clearbody b u v.
      split; rewrite F1 by lia; [rewrite <- C1|rewrite <- C2]; f_equal; lia.
Qed.

Lemma good_two fs : good_factors fs -> forall f, In f fs -> 2 <= f.
Proof. intros (ev & od & -> & G1 & G2) f Hf. apply in_app_or in Hf. destruct Hf as [Hf|Hf]; [destruct (G1 f Hf); lia|destruct (G2 f Hf); lia]. Qed.

Lemma table_ok_all n fs ifac wa : fs <> [] -> stored ifac fs -> product fs = n -> good_factors fs ->
  let wa' := table n (length fs) ifac (2 * PI / INR n)%R wa in
  table_good n fs wa' /\ forall x, ~ (0 < x < n) -> wa' x = wa x.
Proof.
  intros Hne HS HP HG wa'. destruct (exists_last Hne) as (fs1 & last & E). pose proof (good_two fs HG) as H2.
  assert (EL : map (fun k1 => ifac (k1 + 2)) (upto 1 (length fs - 1) 1) = fs1).
  { rewrite upto_seq. assert (L : length fs1 = length fs - 1) by (rewrite E, app_length; cbn; lia). replace (S (length fs - 1) - 1) with (length fs1) by lia.
    rewrite <- seq_shift, map_map. rewrite (map_ext _ (fun i => ifac (i + 3))) by (intros i; f_equal; lia).
    apply stored_map. intros i Hi. rewrite HS by lia. rewrite E, app_nth1 by exact Hi. reflexivity. }
  assert (EF : forall l s, fold_left (fun s k1 => let '(is, l1, wa) := s in let ip := ifac (k1 + 2) in let l2 := l1 * ip in let ido := n / l2 in let ipm := ip - 1 in
      let '(_, is, wa) := table_j ido ipm l1 (2 * PI / INR n)%R (0, is, wa) in (is, l2, wa)) l s = fold_left (table_fold n (2 * PI / INR n)%R) (map (fun k1 => ifac (k1 + 2)) l) s).
  { induction l as [|k l IH]; intros s; [reflexivity|]. cbn [fold_left map]. rewrite <- IH. reflexivity. }
  assert (E1 : wa' = snd (fold_left (table_fold n (2 * PI / INR n)%R) fs1 (0, 1, wa))) by (unfold wa', table; rewrite <- EL; f_equal; apply EF).
  destruct (table_fold_ok n (2 * PI / INR n)%R eq_refl fs1 [] last wa) as (wa2 & E2 & F1 & F2).
  { cbn [app]. rewrite <- E. exact H2. } { cbn [app]. rewrite <- E. exact HP. }
  assert (E0 : product (fs1 ++ [last]) = n) by (rewrite <- E; exact HP). rewrite E0, Nat.sub_diag in E2, F1. cbn [product fold_right] in E2.
  assert (Ewa : wa' = wa2) by (rewrite E1, E2; reflexivity). rewrite Ewa. split; [|exact F1].
  intros pre ip post Ep. destruct (rev post) as [|z rp] eqn:ER.
  - assert (post = []) by (rewrite <- (rev_involutive post), ER; reflexivity). subst post. intros j p Hj Hp Hlt. cbn in Hlt. lia.
  - assert (Epost : post = rev rp ++ [z]) by (rewrite <- (rev_involutive post), ER; reflexivity).
    assert (EE : fs1 ++ [last] = (pre ++ ip :: rev rp) ++ [z]) by (rewrite <- E, Ep, Epost, <- app_assoc; reflexivity).
    apply app_inj_tail in EE. destruct EE as [E3 <-]. rewrite Epost. apply (F2 pre ip (rev rp)). exact E3.
Qed.

Lemma rffti_ok n wa ifac : 2 <= n -> exists fs wa' ifac', rffti n wa ifac = Ok (wa', ifac') /\
  ifac' 2 = length fs /\ stored ifac' fs /\ product fs = n /\ good_factors fs /\ table_good n fs wa' /\
  (forall x, ~ (0 < x < n) -> wa' x = wa x) /\ (forall x, ~ (1 <= x <= length fs + 2) -> ifac' x = ifac x).
Proof.
  intros Hn. unfold rffti. destruct (Nat.eqb_spec n 1); [lia|].
  destruct (find_ok n ifac Hn) as (fs & ifac1 & -> & HS & HP & HG & HL & HF). cbn [bind].
  set (ifac2 := put (put ifac1 1 n) 2 (length fs)).
  assert (HS2 : stored ifac2 fs) by (intros i Hi; unfold ifac2; rewrite !put_other by lia; apply HS; exact Hi).
  destruct (table_ok_all n fs ifac2 wa) as [T1 T2]; [intros ->; cbn in HL; lia|exact HS2|exact HP|exact HG|].
  exists fs, (table n (length fs) ifac2 (2 * PI / INR n)%R wa), ifac2. split; [reflexivity|]. split; [apply put_same|]. split; [exact HS2|]. split; [exact HP|]. split; [exact HG|]. split; [exact T1|]. split; [exact T2|].
  intros x Hx. unfold ifac2. rewrite !put_other by lia. apply HF. lia.
Qed.
