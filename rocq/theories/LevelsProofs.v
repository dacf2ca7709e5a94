(** Lemmas on sorted level lists and rounding. *)
From Coq Require Import List Ascii String ZArith Bool Lia Sorted Permutation.
From Coq Require Import Floats.SpecFloat.
From Verif Require Import Base Dbl Stream Pdg Event Levels.
Import ListNotations.
Local Open Scope Z_scope.

(** ** Rounding to 53 bits is monotone *)

Lemma rne_div_range : forall n d, 0 < d -> n / d <= rne_div n d <= n / d + 1.
Proof.
  intros n d Hd. unfold rne_div. destruct (_ <? d); [lia|]. destruct (_ <? _); [lia|]. destruct (Z.even _); lia.
Qed.

Lemma rne_div_exact : forall m d, 0 < d -> rne_div (m * d) d = m.
Proof.
  intros m d Hd. unfold rne_div. rewrite Z.mod_mul, Z.div_mul by lia. destruct (Z.ltb_spec (2 * 0) d); lia.
Qed.

Lemma rne_div_mono : forall n n' d, 0 < d -> n <= n' -> rne_div n d <= rne_div n' d.
Proof.
  intros n n' d Hd H. pose proof (Z.div_le_mono n n' d Hd H) as Hq.
  destruct (Z.eq_dec (n / d) (n' / d)) as [E|Ne].
  - pose proof (Z.div_mod n d ltac:(lia)). pose proof (Z.div_mod n' d ltac:(lia)).
    assert (Hr : n mod d <= n' mod d) by lia. unfold rne_div. rewrite <- E.
    destruct (Z.ltb_spec (2 * (n mod d)) d), (Z.ltb_spec d (2 * (n mod d))),
      (Z.ltb_spec (2 * (n' mod d)) d), (Z.ltb_spec d (2 * (n' mod d))), (Z.even (n / d)); lia.
  - pose proof (rne_div_range n d Hd). pose proof (rne_div_range n' d Hd). lia.
Qed.

Definition round_pos (z : Z) : Z := let k := Z.max 0 (Z.log2 z - 52) in rne_div z (2 ^ k) * 2 ^ k.

Lemma round_pos_lower : forall z, 0 < z -> 2 ^ Z.log2 z <= round_pos z.
Proof.
  intros z Hz. unfold round_pos. set (k := Z.max 0 (Z.log2 z - 52)). cbv zeta.
  pose proof (Z.log2_nonneg z). pose proof (Z.log2_spec z Hz) as [Hl _].
  assert (Hk : 0 < 2 ^ k) by (apply Z.pow_pos_nonneg; lia).
  destruct (Z.le_gt_cases (Z.log2 z) 52) as [L|L].
  - replace k with 0 by lia. rewrite Z.pow_0_r. pose proof (rne_div_exact z 1 ltac:(lia)) as E. rewrite Z.mul_1_r in E. rewrite E. lia.
  - assert (Hp : 2 ^ Z.log2 z = 2 ^ 52 * 2 ^ k) by (rewrite <- Z.pow_add_r by lia; f_equal; lia).
    rewrite Hp. apply Z.mul_le_mono_nonneg_r; [lia|].
    rewrite <- (rne_div_exact (2 ^ 52) (2 ^ k)) by lia. apply rne_div_mono; lia.
Qed.

Lemma round_pos_upper : forall z, 0 < z -> round_pos z <= 2 ^ (Z.log2 z + 1).
Proof.
  intros z Hz. unfold round_pos. set (k := Z.max 0 (Z.log2 z - 52)). cbv zeta.
  pose proof (Z.log2_nonneg z). pose proof (Z.log2_spec z Hz) as [_ Hl]. unfold Z.succ in Hl.
  assert (Hk : 0 < 2 ^ k) by (apply Z.pow_pos_nonneg; lia).
  assert (Hp : 2 ^ (Z.log2 z + 1) = 2 ^ (Z.log2 z + 1 - k) * 2 ^ k) by (rewrite <- Z.pow_add_r by lia; f_equal; lia).
  rewrite Hp. apply Z.mul_le_mono_nonneg_r; [lia|].
  rewrite <- (rne_div_exact (2 ^ (Z.log2 z + 1 - k)) (2 ^ k)) by lia. apply rne_div_mono; lia.
Qed.

Lemma round_pos_mono : forall x y, 0 <= x -> x <= y -> round_pos x <= round_pos y.
Proof.
  intros x y Hx Hxy. destruct (Z.eq_dec x 0) as [->|Nx].
  - replace (round_pos 0) with 0 by reflexivity. unfold round_pos.
    set (k := Z.max 0 (Z.log2 y - 52)). cbv zeta. assert (Hk : 0 < 2 ^ k) by (apply Z.pow_pos_nonneg; lia).
    apply Z.mul_nonneg_nonneg; [|lia]. pose proof (rne_div_range y (2 ^ k) Hk).
    pose proof (Z.div_pos y (2 ^ k) ltac:(lia) Hk). lia.
  - pose proof (Z.log2_le_mono x y Hxy) as HL. destruct (Z.eq_dec (Z.log2 x) (Z.log2 y)) as [E|Ne].
    + unfold round_pos. rewrite <- E. set (k := Z.max 0 (Z.log2 x - 52)). cbv zeta.
      assert (Hk : 0 < 2 ^ k) by (apply Z.pow_pos_nonneg; lia). apply Z.mul_le_mono_nonneg_r; [lia|].
      apply rne_div_mono; lia.
    + pose proof (round_pos_upper x ltac:(lia)). pose proof (round_pos_lower y ltac:(lia)).
      pose proof (Z.pow_le_mono_r 2 (Z.log2 x + 1) (Z.log2 y) ltac:(lia) ltac:(lia)). lia.
Qed.

Lemma dist_pos : forall x y, dist x y = round_pos (Z.abs (units x - units y)).
Proof.
  intros x y. unfold dist, round53. cbv zeta. set (z := units x - units y). rewrite Z.abs_mul.
  fold (round_pos (Z.abs z)). pose proof (round_pos_mono 0 (Z.abs z) ltac:(lia) ltac:(lia)) as H.
  replace (round_pos 0) with 0 in H by reflexivity. rewrite (Z.abs_eq (round_pos _)) by lia.
  destruct (Z.eq_dec z 0) as [E|N].
  - rewrite E. reflexivity.
  - replace (Z.abs (Z.sgn z)) with 1 by lia. lia.
Qed.

Lemma dist_mono : forall e x y, Z.abs (units e - units x) <= Z.abs (units e - units y) -> dist e x <= dist e y.
Proof. intros e x y H. rewrite !dist_pos. apply round_pos_mono; [lia|exact H]. Qed.

(** ** Order of the levels *)

Notation en := (fun p : nat * level => units (energy_of p)).

(** Ascending energy; of two equal ones the later addition comes first. *)
Definition before (p q : nat * level) : Prop := en p < en q \/ (en p = en q /\ (fst q < fst p)%nat).

Definition ordered (l : list (nat * level)) : Prop := StronglySorted before l.

Lemma lb_spec : forall e l, ordered l ->
  let i := lower_bound_index e l in
  (i <= List.length l)%nat /\
  Forall (fun p => en p < units e) (firstn i l) /\ Forall (fun p => units e <= en p) (skipn i l).
Proof.
  intros e l H. induction H as [|p l Hl IH Hp]; cbn [lower_bound_index].
  - cbn. repeat constructor.
  - unfold dlt. destruct (Z.ltb_spec (units (energy_of p)) (units e)) as [L|L].
    + destruct IH as (I1 & I2 & I3). cbn [List.length firstn skipn]. split; [lia|]. split; [constructor; assumption|exact I3].
    + cbn [firstn skipn]. split; [lia|]. split; [constructor|]. constructor; [exact L|].
      eapply Forall_impl; [|exact Hp]. cbv beta. intros q [Hq|[Hq _]]; lia.
Qed.

Lemma insert_at_split : forall {A} i (x : A) l, insert_at i x l = firstn i l ++ x :: skipn i l.
Proof.
  intros A i x l. revert i. induction l as [|y l IH]; intros [|i]; cbn [insert_at firstn skipn app]; try reflexivity.
  rewrite IH. reflexivity.
Qed.

Lemma ordered_app : forall l1 l2, ordered (l1 ++ l2) <->
  ordered l1 /\ ordered l2 /\ (forall p q, In p l1 -> In q l2 -> before p q).
Proof.
  intros l1 l2. induction l1 as [|x l1 IH]; cbn [app].
  - split; [intros H; split; [constructor|split; [exact H|intros p q []]]|tauto].
  - split.
    + intros H. inversion H as [|? ? Hs Hf]; subst. apply IH in Hs as (A & B & C). apply Forall_app in Hf as [F1 F2].
      split; [constructor; assumption|]. split; [exact B|]. intros p q [<-|Hp] Hq; [|apply C; assumption].
      rewrite Forall_forall in F2. apply F2. exact Hq.
    + intros (A & B & C). inversion A as [|? ? Hs Hf]; subst. constructor.
      * apply IH. split; [exact Hs|]. split; [exact B|]. intros p q Hp Hq. apply C; [right; exact Hp|exact Hq].
      * apply Forall_app. split; [exact Hf|]. apply Forall_forall. intros q Hq. apply C; [left; reflexivity|exact Hq].
Qed.

(** Addresses in use are below [s_next]. *)
Definition fresh_ok (s : scheme) : Prop := Forall (fun p => (fst p < s_next s)%nat) (s_levels s).

Lemma add_level_ordered : forall lev s, fresh_ok s -> ordered (s_levels s) ->
  ordered (s_levels (snd (add_level lev s))) /\ fresh_ok (snd (add_level lev s)).
Proof.
  intros lev s HF HO. unfold add_level. cbn [snd s_levels s_next]. rewrite insert_at_split.
  destruct (lb_spec (l_energy lev) (s_levels s) HO) as (_ & H1 & H2). cbv zeta in H1, H2.
  set (i := lower_bound_index (l_energy lev) (s_levels s)) in *.
  unfold fresh_ok in *. cbn [s_levels s_next].
  rewrite <- (firstn_skipn i (s_levels s)) in HF, HO. apply ordered_app in HO as (O1 & O2 & O3).
  apply Forall_app in HF as [F1 F2]. split.
  - apply ordered_app. split; [exact O1|]. split.
    + constructor; [exact O2|]. rewrite Forall_forall in *. intros q Hq. specialize (H2 q Hq). specialize (F2 q Hq).
      cbv beta in H2, F2. unfold before. cbn [fst]. change (units (energy_of (s_next s, lev))) with (units (l_energy lev)). lia.
    + intros p q Hp [<-|Hq]; [|apply O3; assumption]. rewrite Forall_forall in H1. left. apply (H1 p Hp).
  - apply Forall_app. split; [eapply Forall_impl; [|exact F1]; cbv beta; intros; lia|].
    constructor; [cbn; lia|]. eapply Forall_impl; [|exact F2]. cbv beta. intros; lia.
Qed.

Definition add_gamma_to (a : nat) (g : gamma) (p : nat * level) : nat * level :=
  if Nat.eqb (fst p) a
  then (fst p, mkl (l_energy (snd p)) (l_twoJ (snd p)) (l_parity (snd p)) (l_gammas (snd p) ++ [g]))
  else p.

Lemma add_gamma_levels : forall a g s, s_levels (add_gamma a g s) = map (add_gamma_to a g) (s_levels s).
Proof. reflexivity. Qed.

Lemma add_gamma_to_fst : forall a g p, fst (add_gamma_to a g p) = fst p.
Proof. intros a g [x l]. unfold add_gamma_to. destruct (Nat.eqb _ _); reflexivity. Qed.

Lemma add_gamma_to_en : forall a g p, energy_of (add_gamma_to a g p) = energy_of p.
Proof. intros a g [x l]. unfold add_gamma_to. destruct (Nat.eqb _ _); reflexivity. Qed.

Lemma ordered_map : forall f l, (forall p : nat * level, fst (f p) = fst p /\ energy_of (f p) = energy_of p) ->
  ordered l -> ordered (map f l).
Proof.
  intros f l Hf H. induction H as [|p l Hl IH Hp]; [constructor|]. cbn [map]. constructor; [exact IH|].
  rewrite Forall_forall in *. intros q Hq. apply in_map_iff in Hq as (q' & <- & Hq'). specialize (Hp q' Hq').
  unfold before in *. destruct (Hf p) as [-> ->]. destruct (Hf q') as [-> ->]. exact Hp.
Qed.

Lemma add_gamma_ordered : forall a g s, fresh_ok s -> ordered (s_levels s) ->
  ordered (s_levels (add_gamma a g s)) /\ fresh_ok (add_gamma a g s).
Proof.
  intros a g s HF HO. rewrite add_gamma_levels. split.
  - apply ordered_map; [|exact HO]. intros p. split; [apply add_gamma_to_fst|apply add_gamma_to_en].
  - unfold fresh_ok in *. rewrite add_gamma_levels. cbn [add_gamma s_next]. rewrite Forall_forall in *. intros q Hq.
    apply in_map_iff in Hq as (q' & <- & Hq'). rewrite add_gamma_to_fst. apply HF. exact Hq'.
Qed.

Lemma apply_ordered : forall c s, fresh_ok s -> ordered (s_levels s) ->
  ordered (s_levels (apply_edit s c)) /\ fresh_ok (apply_edit s c).
Proof. intros [lev|a g] s HF HO; cbn [apply_edit]; [apply add_level_ordered|apply add_gamma_ordered]; assumption. Qed.

Lemma history_ordered : forall cs s, fresh_ok s -> ordered (s_levels s) ->
  ordered (s_levels (fold_left apply_edit cs s)) /\ fresh_ok (fold_left apply_edit cs s).
Proof.
  induction cs as [|c cs IH]; intros s HF HO; [split; assumption|]. cbn [fold_left].
  destruct (apply_ordered c s HF HO) as [A B]. apply IH; assumption.
Qed.

(** ** Nothing lost *)

Lemma insert_at_perm : forall {A} i (x : A) l, Permutation (insert_at i x l) (l ++ [x]).
Proof.
  intros A i x l. rewrite insert_at_split. rewrite <- Permutation_middle. rewrite firstn_skipn.
  apply Permutation_cons_append.
Qed.

(** ** Closest level *)

Lemma nth_firstn_last : forall {A} (l : list A) j q, nth_error l j = Some q -> firstn (S j) l = firstn j l ++ [q].
Proof.
  intros A l. induction l as [|x l IH]; intros [|j] q H; cbn [nth_error] in H; try discriminate.
  - injection H as ->. reflexivity.
  - cbn [firstn app]. f_equal. apply (IH j q H).
Qed.

Lemma nth_skipn_first : forall {A} (l : list A) j q, nth_error l j = Some q -> skipn j l = q :: skipn (S j) l.
Proof.
  intros A l. induction l as [|x l IH]; intros [|j] q H; cbn [nth_error] in H; try discriminate.
  - injection H as ->. reflexivity.
  - apply (IH j q H).
Qed.

Definition nearest (e : spec_float) (l : list (nat * level)) (p : nat * level) : Prop :=
  In p l /\ forall q, In q l -> dist e (energy_of p) <= dist e (energy_of q) /\
    (Z.abs (units e - en q) = Z.abs (units e - en p) -> en q <= en p).

Lemma closest_spec : forall e l, ordered l ->
  match closest_index e l with
  | None => l = []
  | Some i => exists p, nth_error l i = Some p /\ nearest e l p
  end.
Proof.
  intros e l HO. destruct l as [|x l']; [reflexivity|]. set (l := x :: l') in *.
  unfold closest_index. subst l. set (l := x :: l') in *. cbv beta iota. destruct (lb_spec e l HO) as (H0 & H1 & H2).
  cbv zeta in H0, H1, H2. set (i := lower_bound_index e l) in *. clearbody i.
  rewrite <- (firstn_skipn i l) in HO. pose proof HO as HO'. apply ordered_app in HO as (O1 & O2 & O3).
  rewrite Forall_forall in H1, H2.
  assert (Hin : forall q, In q l -> In q (firstn i l) \/ In q (skipn i l)).
  { intros q Hq. apply in_app_or. rewrite firstn_skipn. exact Hq. }
  destruct (Nat.eqb_spec i (List.length l)) as [E|Ne].
  - (* above every level *)
    destruct (nth_error l (i - 1)) as [p|] eqn:Ep.
    2:{ exfalso. apply nth_error_None in Ep. subst l. cbn [List.length] in *. lia. }
    exists p. split; [exact Ep|]. split; [eapply nth_error_In; exact Ep|]. intros q Hq.
    assert (EF : firstn i l = l) by (rewrite E; apply firstn_all).
    assert (ES : skipn i l = []) by (apply skipn_all2; lia). rewrite EF, ES in *.
    assert (Hle : en q <= en p).
    { destruct (In_nth_error _ _ Hq) as [j Hj]. assert (j < i)%nat by (rewrite E; apply nth_error_Some; congruence).
      destruct (Nat.eq_dec j (i - 1)) as [->|Nj]; [replace q with p by congruence; lia|].
      rewrite app_nil_r in HO'. pose proof (nth_skipn_first l (i - 1) p Ep) as Hs.
      rewrite <- (firstn_skipn (i - 1) l) in HO'. apply ordered_app in HO' as (_ & _ & B). rewrite Hs in B.
      assert (Hq' : In q (firstn (i - 1) l)).
      { apply nth_error_In with j. clear - Hj Nj H. revert j i Hj Nj H. induction l as [|y l IH]; intros j i Hj Nj H.
        - destruct j; discriminate Hj.
        - destruct j as [|j]; destruct (i - 1)%nat as [|m] eqn:Ei; [lia| |lia|]; cbn [firstn nth_error] in *; [exact Hj|].
          specialize (IH j (S m)). replace (S m - 1)%nat with m in IH by lia. apply IH; lia || exact Hj. }
      destruct (B q p Hq' (or_introl eq_refl)) as [B'|[B' _]]; lia. }
    pose proof (H1 q Hq). pose proof (H1 p (nth_error_In _ _ Ep)). cbv beta in *.
    split; [apply dist_mono; lia|lia].
  - destruct i as [|j].
    + exists x. split; [reflexivity|]. split; [left; reflexivity|]. intros q Hq. cbn [skipn firstn] in *.
      assert (Hle : en x <= en q).
      { destruct Hq as [<-|Hq]; [lia|]. inversion O2 as [|? ? _ Hf]; subst. rewrite Forall_forall in Hf.
        destruct (Hf q Hq) as [?|[? _]]; lia. }
      pose proof (H2 x (or_introl eq_refl)). cbv beta in *. split; [apply dist_mono; lia|lia].
    + destruct (nth_error l (S j)) as [p|] eqn:Ep.
      2:{ exfalso. apply nth_error_None in Ep. lia. }
      destruct (nth_error l j) as [r|] eqn:Er.
      2:{ exfalso. apply nth_error_None in Er. lia. }
      rewrite (nth_firstn_last l j r Er) in *. rewrite (nth_skipn_first l (S j) p Ep) in *.
      assert (HP : forall q, In q (p :: skipn (S (S j)) l) -> en p <= en q).
      { intros q [<-|Hq]; [lia|]. inversion O2 as [|? ? _ Hf]; subst. rewrite Forall_forall in Hf.
        destruct (Hf q Hq) as [?|[? _]]; lia. }
      assert (HR : forall q, In q (firstn j l ++ [r]) -> en q <= en r).
      { intros q Hq. apply in_app_or in Hq as [Hq|[<-|[]]]; [|lia]. apply ordered_app in O1 as (_ & _ & B).
        destruct (B q r Hq (or_introl eq_refl)) as [?|[? _]]; lia. }
      assert (Hr : en r < units e) by (apply H1; apply in_or_app; right; left; reflexivity).
      pose proof (H2 p (or_introl eq_refl)) as Hp. cbv beta in Hr, Hp.
      destruct (Z.ltb_spec (dist e (energy_of r)) (dist e (energy_of p))) as [L|L].
      * exists r. split; [exact Er|]. split; [eapply nth_error_In; exact Er|]. intros q Hq.
        assert (Hlt : Z.abs (units e - en r) < Z.abs (units e - en p)).
        { apply Z.nle_gt. intros Hc. apply dist_mono in Hc. lia. }
        destruct (Hin q Hq) as [Hq'|Hq'].
        -- pose proof (HR q Hq'). pose proof (H1 q Hq'). cbv beta in *. split; [apply dist_mono; lia|lia].
        -- pose proof (HP q Hq'). pose proof (H2 q Hq'). cbv beta in *. split; [apply dist_mono; lia|lia].
      * exists p. split; [exact Ep|]. split; [eapply nth_error_In; exact Ep|]. intros q Hq.
        destruct (Hin q Hq) as [Hq'|Hq'].
        -- pose proof (HR q Hq'). pose proof (H1 q Hq'). cbv beta in *.
           split; [|lia]. etransitivity; [exact L|]. apply dist_mono. lia.
        -- pose proof (HP q Hq'). pose proof (H2 q Hq'). cbv beta in *. split; [apply dist_mono; lia|lia].
Qed.

Lemma closest_level_spec : forall e s, ordered (s_levels s) ->
  match closest_level e s with
  | None => s_levels s = []
  | Some p => nearest e (s_levels s) p
  end.
Proof.
  intros e s HO. unfold closest_level. pose proof (closest_spec e (s_levels s) HO) as H.
  destruct (closest_index e (s_levels s)) as [i|]; [|exact H]. destruct H as (p & -> & Hp). exact Hp.
Qed.
