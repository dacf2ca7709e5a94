(** Property C48: targets. *)
From Coq Require Import List ZArith Reals Bool Lia Lra Permutation Sorted.
From Verif Require Import Base Pdg Names Sample SampleProofs Target.
Import ListNotations.
Open Scope R_scope.

(** Some naming failure: the element of the atom has no symbol in the table. *)
Definition nameless (n : Z) : Prop := assoc (particle_Z n) element_symbols = None.

(** What the constructor needs of its arguments. *)
Definition target_args (lg : bool) (ns : list Z) (fs : list R) : Prop :=
  length ns = length fs /\ Forall (fun f => 0 <= f) fs /\ 0 < sumR fs /\ NoDup ns /\
  (lg = true -> Forall (fun p => snd p = 0 -> ~ nameless (fst p)) (combine ns fs)).

Lemma atom_name_ok n : ~ nameless n -> exists s, atom_name n = Ok s.
Proof.
  unfold nameless, atom_name, element_symbol. destruct (assoc (particle_Z n) element_symbols); intros H; [eexists; reflexivity|].
  exfalso. apply H. reflexivity.
Qed.

Lemma atom_name_er n : nameless n -> atom_name n = Er StdRange.
Proof. unfold nameless, atom_name, element_symbol. intros ->. reflexivity. Qed.

Lemma nameless_dec n : {nameless n} + {~ nameless n}.
Proof. unfold nameless. destruct (assoc (particle_Z n) element_symbols); [right; discriminate|left; reflexivity]. Qed.

Lemma check_ok lg : forall ns fs s x, length ns = length fs -> check_fracs lg ns fs s = Ok x ->
  Forall (fun f => 0 <= f) fs /\ x = s + sumR fs /\
  (lg = true -> Forall (fun p => snd p = 0 -> ~ nameless (fst p)) (combine ns fs)).
Proof.
  induction ns as [|n ns IH]; intros [|f fs] s x L H; try discriminate L.
  - cbn [check_fracs] in H. injection H as <-. cbn [sumR combine]. split; [constructor|]. split; [lra|intros; constructor].
  - injection L as L. cbn [check_fracs] in H. destruct (Rlt_dec f 0) as [Hf|Hf].
    { destruct (atom_name n); discriminate. }
    destruct (Req_EM_T f 0) as [E|N].
    + destruct lg.
      * destruct (nameless_dec n) as [B|B]; [rewrite (atom_name_er _ B) in H; discriminate|].
        destruct (atom_name_ok _ B) as [w EW]. rewrite EW in H. cbn [bind] in H.
        destruct (IH _ _ _ L H) as (A & -> & C). split; [constructor; [lra|exact A]|]. split; [cbn [sumR]; lra|].
        intros _. cbn [combine]. constructor; [intros _; exact B|exact (C eq_refl)].
      * cbn [bind] in H. destruct (IH _ _ _ L H) as (A & -> & C). split; [constructor; [lra|exact A]|]. split; [cbn [sumR]; lra|discriminate].
    + destruct (IH _ _ _ L H) as (A & -> & C). split; [constructor; [lra|exact A]|]. split; [cbn [sumR]; lra|].
      intros G. cbn [combine]. constructor; [cbn [snd]; intros; contradiction|exact (C G)].
Qed.

Lemma check_accepts lg : forall ns fs s, length ns = length fs -> Forall (fun f => 0 <= f) fs ->
  (lg = true -> Forall (fun p => snd p = 0 -> ~ nameless (fst p)) (combine ns fs)) -> check_fracs lg ns fs s = Ok (s + sumR fs).
Proof.
  induction ns as [|n ns IH]; intros [|f fs] s L HF HN; try discriminate L.
  - cbn [check_fracs sumR]. f_equal. lra.
  - injection L as L. cbn [check_fracs sumR]. pose proof (Forall_inv HF) as Hf. pose proof (Forall_inv_tail HF) as HF'.
    cbv beta in Hf. destruct (Rlt_dec f 0); [lra|].
    assert (R : check_fracs lg ns fs (s + f) = Ok (s + (f + sumR fs))).
    { rewrite IH; [f_equal; lra|exact L|exact HF'|]. intros G. exact (Forall_inv_tail (HN G)). }
    destruct (Req_EM_T f 0) as [E|N]; [|exact R]. destruct lg; [|exact R].
    pose proof (Forall_inv (HN eq_refl)) as B. destruct (atom_name_ok n (B E)) as [w ->]. cbn [bind]. exact R.
Qed.

Definition lt_key {A} (p q : Z * A) : Prop := (fst p < fst q)%Z.

Lemma put_fresh {A} k (v : A) m : assoc k m = None -> Permutation (put k v m) ((k, v) :: m).
Proof.
  induction m as [|[k' v'] r IH]; cbn [put assoc]; intros H; [reflexivity|].
  destruct (Z.ltb_spec k k'); [reflexivity|]. destruct (Z.eqb_spec k k') as [->|N]; [discriminate|].
  rewrite (IH H). apply perm_swap.
Qed.

Lemma put_sorted {A} k (v : A) m : StronglySorted lt_key m -> StronglySorted lt_key (put k v m).
Proof.
  induction m as [|[k' v'] r IH]; cbn [put]; intros H; [repeat constructor|].
  apply StronglySorted_inv in H. destruct H as [H1 H2].
  destruct (Z.ltb_spec k k') as [L|L].
  - constructor; [constructor; assumption|]. constructor; [exact L|]. eapply Forall_impl; [|exact H2]. unfold lt_key. cbn. intros [a c]; cbn; lia.
  - destruct (Z.eqb_spec k k') as [->|N]; [constructor; assumption|]. constructor; [exact (IH H1)|].
    assert (LT : (k' < k)%Z) by lia. clear - H2 LT. induction r as [|[k2 v2] r IH]; cbn [put]; [constructor; [exact LT|constructor]|].
    pose proof (Forall_inv H2) as A1. pose proof (Forall_inv_tail H2) as A2. unfold lt_key in A1; cbn in A1.
    destruct (Z.ltb k k2); [constructor; [exact LT|exact H2]|]. destruct (Z.eqb k k2); [constructor; [exact LT|exact A2]|].
    constructor; [exact A1|exact (IH A2)].
Qed.

Lemma assoc_none {A} k (m : list (Z * A)) : assoc k m = None <-> ~ In k (map fst m).
Proof.
  induction m as [|[k' v'] r IH]; cbn [assoc map fst In]; [split; [intros _ []|reflexivity]|].
  destruct (Z.eqb_spec k k') as [->|N]; [split; [discriminate|intros H; exfalso; apply H; left; reflexivity]|].
  rewrite IH. split; [intros H [E|E]; [congruence|exact (H E)]|intros H E; apply H; right; exact E].
Qed.

Lemma assoc_in {A} k (v : A) m : NoDup (map fst m) -> In (k, v) m -> assoc k m = Some v.
Proof.
  induction m as [|[k' v'] r IH]; cbn [assoc map fst In]; [intros _ []|]. intros HD [E|E].
  - injection E as -> ->. rewrite Z.eqb_refl. reflexivity.
  - apply NoDup_cons_iff in HD. destruct HD as [HN HD]. destruct (Z.eqb_spec k k') as [->|_]; [|exact (IH HD E)].
    exfalso. apply HN. apply (in_map fst) in E. exact E.
Qed.

Lemma fill_ok : forall l t t', fill l t = Ok t' -> StronglySorted lt_key t ->
  Permutation t' (rev l ++ t) /\ StronglySorted lt_key t' /\ NoDup (map fst l) /\ (forall n, In n (map fst l) -> ~ In n (map fst t)).
Proof.
  induction l as [|[n f] r IH]; intros t t' H HS; cbn [fill] in H.
  - injection H as <-. split; [reflexivity|]. split; [exact HS|]. split; [constructor|intros ? []].
  - destruct (assoc n t) eqn:E; [destruct (atom_name n); discriminate|].
    destruct (IH _ _ H (put_sorted _ _ _ HS)) as (P & S & D & F). pose proof (put_fresh n f t E) as PF. cbn [map fst].
    assert (NT : ~ In n (map fst t)) by (apply assoc_none; exact E). split; [|split; [exact S|split]].
    + cbn [rev]. rewrite P, PF, <- app_assoc. reflexivity.
    + constructor; [|exact D]. intros I. apply (F _ I). apply (Permutation_in n (Permutation_map fst (Permutation_sym PF))). left. reflexivity.
    + intros m [<-|I]; [exact NT|]. intros J. apply (F _ I). apply (Permutation_in m (Permutation_map fst (Permutation_sym PF))). right. exact J.
Qed.

Lemma fill_accepts : forall l t, NoDup (map fst l) -> (forall n, In n (map fst l) -> ~ In n (map fst t)) -> exists t', fill l t = Ok t'.
Proof.
  induction l as [|[n f] r IH]; intros t HD HF; cbn [fill]; [eexists; reflexivity|]. cbn [map fst] in *.
  pose proof (HF n (or_introl eq_refl)) as A. apply assoc_none in A. rewrite A. apply NoDup_cons_iff in HD. destruct HD as [H1 H2].
  apply IH; [exact H2|]. intros m I J. apply (Permutation_in m (Permutation_map fst (put_fresh n f t A))) in J. destruct J as [J|J].
  - cbn in J. subst m. exact (H1 I).
  - exact (HF m (or_intror I) J).
Qed.

Lemma fill_errors : forall l t e, fill l t = Er e -> e = MarleyErr \/ e = StdRange.
Proof.
  induction l as [|[n f] r IH]; intros t e H; cbn [fill] in H; [discriminate|]. destruct (assoc n t); [|exact (IH _ _ H)].
  destruct (nameless_dec n) as [B|B]; [rewrite (atom_name_er _ B) in H; injection H as <-; right; reflexivity|].
  destruct (atom_name_ok _ B) as [w EW]. rewrite EW in H. injection H as <-. left. reflexivity.
Qed.

Lemma check_errors lg : forall ns fs s e, check_fracs lg ns fs s = Er e -> e = MarleyErr \/ e = StdRange.
Proof.
  induction ns as [|n ns IH]; intros [|f fs] s e H; try discriminate H. cbn [check_fracs] in H.
  destruct (Rlt_dec f 0).
  - destruct (nameless_dec n) as [B|B]; [rewrite (atom_name_er _ B) in H; injection H as <-; right; reflexivity|].
    destruct (atom_name_ok _ B) as [w EW]. rewrite EW in H. injection H as <-. left. reflexivity.
  - destruct (Req_EM_T f 0); [|exact (IH _ _ _ H)]. destruct lg; [|exact (IH _ _ _ H)].
    destruct (nameless_dec n) as [B|B]; [rewrite (atom_name_er _ B) in H; injection H as <-; right; reflexivity|].
    destruct (atom_name_ok _ B) as [w EW]. rewrite EW in H. cbn [bind] in H. exact (IH _ _ _ H).
Qed.

Lemma map_fst_combine {A B} (l : list A) : forall (m : list B), length l = length m -> map fst (combine l m) = l.
Proof. induction l as [|a l IH]; intros [|x m] H; try discriminate H; [reflexivity|]. cbn [combine map fst]. f_equal. apply IH. injection H as H. exact H. Qed.

Lemma map_snd_combine {A B} (l : list A) : forall (m : list B), length l = length m -> map snd (combine l m) = m.
Proof. induction l as [|a l IH]; intros [|x m] H; try discriminate H; [reflexivity|]. cbn [combine map snd]. f_equal. apply IH. injection H as H. exact H. Qed.

Lemma combine_map_r {A B C} (f : B -> C) (l : list A) : forall m, combine l (map f m) = map (fun p => (fst p, f (snd p))) (combine l m).
Proof. induction l as [|a l IH]; intros [|x m]; cbn [combine map fst snd]; [reflexivity..|]. rewrite IH. reflexivity. Qed.

Lemma sumR_perm l m : Permutation l m -> sumR l = sumR m.
Proof. induction 1; cbn [sumR]; lra. Qed.

Lemma sumR_scale c l : sumR (map (fun x => x / c) l) = sumR l / c.
Proof. induction l as [|a l IH]; cbn [map sumR]; [unfold Rdiv; lra|]. rewrite IH. unfold Rdiv. lra. Qed.

Lemma sorted_nodup {A} (l : list (Z * A)) : StronglySorted lt_key l -> NoDup (map fst l).
Proof.
  induction 1 as [|a l _ IH H]; cbn [map]; constructor; [|exact IH]. intros I. apply in_map_iff in I. destruct I as (p & E & I).
  rewrite Forall_forall in H. specialize (H p I). unfold lt_key in H. rewrite E in H. lia.
Qed.

(** A sorted map is determined by its set of entries. *)
Lemma sorted_unique {A} : forall l m : list (Z * A), StronglySorted lt_key l -> StronglySorted lt_key m -> Permutation l m -> l = m.
Proof.
  induction l as [|a l IH]; intros m Hl Hm P; [apply Permutation_nil in P; subst; reflexivity|].
  destruct m as [|c m]; [apply Permutation_sym, Permutation_nil in P; discriminate|].
  apply StronglySorted_inv in Hl, Hm. destruct Hl as [L1 L2], Hm as [M1 M2].
  assert (a = c).
  { assert (I : In a (c :: m)) by (apply (Permutation_in a P); left; reflexivity).
    assert (J : In c (a :: l)) by (apply (Permutation_in c (Permutation_sym P)); left; reflexivity).
    destruct I as [I|I]; [symmetry; exact I|]. destruct J as [J|J]; [exact J|].
    rewrite Forall_forall in L2, M2. specialize (L2 _ J). specialize (M2 _ I). unfold lt_key in *. lia. }
  subst c. f_equal. apply IH; [exact L1|exact M1|]. exact (Permutation_cons_inv P).
Qed.

Lemma make_inv lg ns fs t : make_target lg ns fs = Ok t ->
  target_args lg ns fs /\ Permutation t (combine ns (map (fun f => f / sumR fs) fs)) /\ StronglySorted lt_key t.
Proof.
  unfold make_target. destruct (Nat.eqb_spec (length ns) (length fs)) as [L|]; cbn [negb]; [|discriminate].
  destruct (Nat.eqb_spec (length ns) 0); [discriminate|]. destruct (check_fracs lg ns fs 0) as [x|] eqn:E; [|discriminate]. cbn [bind].
  destruct (check_ok _ _ _ _ _ L E) as (A & -> & C). rewrite Rplus_0_l. destruct (Rle_dec (sumR fs) 0) as [|NS]; [discriminate|]. intros H.
  assert (L' : length ns = length (map (fun f => f / sumR fs) fs)) by (rewrite map_length; exact L).
  destruct (fill_ok _ _ _ H ltac:(constructor)) as (P & S & D & _). rewrite (map_fst_combine _ _ L') in D. rewrite app_nil_r in P.
  split; [split; [exact L|]; split; [exact A|]; split; [lra|]; split; [exact D|exact C]|]. split; [|exact S].
  rewrite P. symmetry. apply Permutation_rev.
Qed.

Lemma make_accepts lg ns fs : target_args lg ns fs -> exists t, make_target lg ns fs = Ok t.
Proof.
  intros (L & A & S & D & C). unfold make_target. rewrite L, Nat.eqb_refl. cbn [negb].
  destruct fs as [|f fs']; [cbn in S; lra|]. cbn [length Nat.eqb]. rewrite (check_accepts _ _ _ _ L A C), Rplus_0_l. cbn [bind].
  destruct (Rle_dec (sumR (f :: fs')) 0); [lra|]. apply fill_accepts.
  - rewrite map_fst_combine; [exact D|]. rewrite map_length. exact L.
  - intros k _ [].
Qed.

(** A target that could be built holds exactly the given atoms, each once, in order of
    their codes; the fractions are those given divided by their sum, non-negative and sum
    to one; every other atom has fraction zero. *)
Theorem C48_fractions lg ns fs t : make_target lg ns fs = Ok t ->
  (forall j n f, nth_error ns j = Some n -> nth_error fs j = Some f -> atom_fraction t n = f / sumR fs) /\
  (forall n, ~ In n ns -> atom_fraction t n = 0) /\
  Permutation (map fst t) ns /\ StronglySorted Z.lt (map fst t) /\ NoDup (map fst t) /\
  Forall (fun p => 0 <= snd p) t /\ sumR (map snd t) = 1.
Proof.
  intros H. destruct (make_inv _ _ _ _ H) as ((L & A & S & D & C) & P & SS).
  assert (L' : length ns = length (map (fun f => f / sumR fs) fs)) by (rewrite map_length; exact L).
  assert (PK : Permutation (map fst t) ns) by (rewrite <- (map_fst_combine ns _ L'); apply Permutation_map; exact P).
  assert (PV : Permutation (map snd t) (map (fun f => f / sumR fs) fs)) by (rewrite <- (map_snd_combine ns _ L'); apply Permutation_map; exact P).
  pose proof (sorted_nodup _ SS) as ND.
  split; [|split; [|split; [exact PK|split; [|split; [exact ND|split]]]]].
  - intros j n f En Ef. unfold atom_fraction. rewrite (assoc_in n (f / sumR fs) t ND); [reflexivity|].
    apply (Permutation_in _ (Permutation_sym P)). apply (nth_error_In _ j). clear - En Ef. remember (sumR fs) as s. clear Heqs. revert fs j En Ef.
    induction ns as [|a ns IH]; intros [|c fs] [|j] En Ef; try discriminate; cbn [combine map nth_error] in *; [congruence|apply IH; assumption].
  - intros n HN. unfold atom_fraction. assert (E : assoc n t = None) by (apply assoc_none; intros I; apply HN; exact (Permutation_in n PK I)).
    rewrite E. reflexivity.
  - clear - SS. induction SS as [|a l _ IH H]; cbn [map]; constructor; [exact IH|]. apply Forall_map. exact H.
  - apply Forall_forall. intros [n q] I. cbn [snd]. apply (in_map snd) in I. cbn [snd] in I. apply (Permutation_in q PV) in I.
    apply in_map_iff in I. destruct I as (f & <- & I). rewrite Forall_forall in A. specialize (A f I). unfold Rdiv.
    apply Rmult_le_pos; [exact A|]. apply Rlt_le, Rinv_0_lt_compat. exact S.
  - rewrite (sumR_perm _ _ PV), sumR_scale. field. lra.
Qed.
Print Assumptions C48_fractions.

(** Exactly the good arguments are accepted: lists of equal length, no negative fraction,
    a positive sum (so at least one atom), no atom given twice, and, if a log stream
    receives warnings, every atom with fraction zero belongs to an element with a symbol.
    Everything else is an exception: marley::Error, or std::out_of_range when the message
    itself cannot be built. *)
Theorem C48_accepts lg ns fs :
  ((exists t, make_target lg ns fs = Ok t) <-> target_args lg ns fs) /\
  (forall e, make_target lg ns fs = Er e -> e = MarleyErr \/ e = StdRange).
Proof.
  split; [split; [intros [t H]; exact (proj1 (make_inv _ _ _ _ H))|apply make_accepts]|]. intros e. unfold make_target.
  destruct (negb _); [intros H; injection H as <-; left; reflexivity|]. destruct (Nat.eqb _ _); [intros H; injection H as <-; left; reflexivity|].
  destruct (check_fracs lg ns fs 0) as [x|e'] eqn:E; cbn [bind].
  - destruct (Rle_dec x 0); [intros H; injection H as <-; left; reflexivity|apply fill_errors].
  - intros H. injection H as <-. exact (check_errors _ _ _ _ _ E).
Qed.
Print Assumptions C48_accepts.

(** The errors are marley::Error when every atom given belongs to a named element. *)
Theorem C48_rejects lg ns fs : Forall (fun n => ~ nameless n) ns -> ~ target_args lg ns fs -> make_target lg ns fs = Er MarleyErr.
Proof.
  intros HN HB. destruct (make_target lg ns fs) as [t|e] eqn:E; [exfalso; apply HB; exact (proj1 (make_inv _ _ _ _ E))|].
  revert E. unfold make_target. destruct (negb _); [congruence|]. destruct (Nat.eqb _ _); [congruence|].
  assert (CK : forall ns fs s e, Forall (fun n => ~ nameless n) ns -> check_fracs lg ns fs s = Er e -> e = MarleyErr).
  { clear. induction ns as [|n ns IH]; intros [|f fs] s e HN H; try discriminate H. cbn [check_fracs] in H.
    destruct (atom_name_ok _ (Forall_inv HN)) as [w EW]. rewrite EW in H. cbn [bind] in H. pose proof (Forall_inv_tail HN) as HN'.
    destruct (Rlt_dec f 0); [congruence|]. destruct (Req_EM_T f 0); [destruct lg|]; eapply IH; eassumption. }
  destruct (check_fracs lg ns fs 0) as [x|e'] eqn:EC; cbn [bind]; [|intros H; injection H as <-; f_equal; exact (CK _ _ _ _ HN EC)].
  destruct (Rle_dec x 0); [congruence|].
  assert (FK : forall l t, Forall (fun n => ~ nameless n) (map fst l) -> fill l t = Er e -> e = MarleyErr).
  { clear. induction l as [|[n f] r IH]; intros t HN H; cbn [fill] in H; [discriminate|]. cbn [map fst] in HN.
    destruct (assoc n t); [|exact (IH _ (Forall_inv_tail HN) H)]. destruct (atom_name_ok _ (Forall_inv HN)) as [w EW]. rewrite EW in H. cbn [bind] in H. congruence. }
  intros H. f_equal.
  refine (FK _ _ _ H). apply Forall_forall. intros k I. rewrite Forall_forall in HN. apply HN. apply in_map_iff in I. destruct I as ([a c] & <- & I).
  exact (in_combine_l _ _ _ _ I).
Qed.
Print Assumptions C48_rejects.

(** Only the ratios of the fractions and the set of entries matter: scaling all fractions
    by a positive number, or listing the atoms in another order, gives the same target. *)
Theorem C48_canonical lg ns fs t : make_target lg ns fs = Ok t ->
  (forall c, 0 < c -> make_target lg ns (map (fun f => f / c) fs) = Ok t) /\
  (forall ns' fs', length ns' = length fs' -> Permutation (combine ns fs) (combine ns' fs') -> make_target lg ns' fs' = Ok t).
Proof.
  intros H. destruct (make_inv _ _ _ _ H) as ((L & A & S & D & C) & P & SS). split.
  - intros c Hc.
    assert (AR : target_args lg ns (map (fun f => f / c) fs)).
    { split; [rewrite map_length; exact L|]. split; [|split; [|split; [exact D|]]].
      - apply Forall_map. eapply Forall_impl; [|exact A]. cbv beta. intros f Hf. unfold Rdiv. apply Rmult_le_pos; [exact Hf|]. apply Rlt_le, Rinv_0_lt_compat. exact Hc.
      - rewrite sumR_scale. apply Rdiv_lt_0_compat; assumption.
      - intros G. rewrite combine_map_r. apply Forall_map. eapply Forall_impl; [|exact (C G)]. intros [n f]. cbn [fst snd]. intros B E. apply B.
        apply (Rmult_eq_reg_r (/ c)); [|apply Rinv_neq_0_compat; lra]. unfold Rdiv in E. lra. }
    destruct (make_accepts _ _ _ AR) as [t' E']. rewrite E'. f_equal. destruct (make_inv _ _ _ _ E') as (_ & P' & SS').
    apply sorted_unique; [exact SS'|exact SS|]. rewrite P', P, sumR_scale, map_map.
    replace (map (fun x => x / c / (sumR fs / c)) fs) with (map (fun f => f / sumR fs) fs); [reflexivity|].
    apply map_ext. intros f. field. split; lra.
  - intros ns' fs' L2 PP.
    assert (PF : Permutation fs fs') by (rewrite <- (map_snd_combine ns fs L), <- (map_snd_combine ns' fs' L2); apply Permutation_map; exact PP).
    assert (PN : Permutation ns ns') by (rewrite <- (map_fst_combine ns fs L), <- (map_fst_combine ns' fs' L2); apply Permutation_map; exact PP).
    assert (AR : target_args lg ns' fs').
    { split; [exact L2|]. split; [rewrite <- PF; exact A|]. split; [rewrite <- (sumR_perm _ _ PF); exact S|]. split; [rewrite <- PN; exact D|].
      intros G. rewrite <- PP. exact (C G). }
    destruct (make_accepts _ _ _ AR) as [t' E']. rewrite E'. f_equal. destruct (make_inv _ _ _ _ E') as (_ & P' & SS').
    apply sorted_unique; [exact SS'|exact SS|]. rewrite P', P, !combine_map_r, <- (sumR_perm _ _ PF), PP. reflexivity.
Qed.
Print Assumptions C48_canonical.

(** Membership: the target contains an atom exactly if it was given with a positive
    fraction. *)
Theorem C48_contains lg ns fs t n : make_target lg ns fs = Ok t ->
  (target_contains t n = true <-> exists j f, nth_error ns j = Some n /\ nth_error fs j = Some f /\ 0 < f) /\
  (has_single_nuclide t = true <-> length ns = 1%nat).
Proof.
  intros H. destruct (C48_fractions _ _ _ _ H) as (F1 & F2 & PK & _). destruct (make_inv _ _ _ _ H) as ((L & A & S & _) & _).
  split.
  - unfold target_contains. split.
    + intros T. destruct (in_dec Z.eq_dec n ns) as [I|I]; [|rewrite (F2 n I) in T; destruct (Req_EM_T 0 0); [discriminate|lra]].
      destruct (In_nth_error _ _ I) as [j Ej]. destruct (nth_error fs j) as [f|] eqn:Ef.
      * exists j, f. split; [exact Ej|]. split; [exact Ef|]. rewrite (F1 _ _ _ Ej Ef) in T. rewrite Forall_forall in A.
        pose proof (A f (nth_error_In _ _ Ef)). destruct (Req_dec f 0) as [->|]; [|lra]. destruct (Req_EM_T (0 / sumR fs) 0) as [|N]; [discriminate|].
        exfalso. apply N. unfold Rdiv. lra.
      * apply nth_error_None in Ef. assert (j < length ns)%nat by (apply nth_error_Some; rewrite Ej; discriminate). lia.
    + intros (j & f & Ej & Ef & Hf). rewrite (F1 _ _ _ Ej Ef). pose proof (Rdiv_lt_0_compat f (sumR fs) Hf S). destruct (Req_EM_T (f / sumR fs) 0); [lra|reflexivity].
  - unfold has_single_nuclide. rewrite <- (Permutation_length PK), map_length. destruct (Nat.eqb_spec (length t) 1); split; congruence.
Qed.
Print Assumptions C48_contains.

(** A target made of a single nuclide has fraction one for it and zero for anything else;
    codes without a positive mass number are refused. *)
Theorem C48_single lg pdg :
  ((particle_A pdg <= 0)%Z -> single_target lg pdg = Er MarleyErr) /\
  ((0 < particle_A pdg)%Z -> single_target lg pdg = Ok [(pdg, 1)] /\
     (forall t n, single_target lg pdg = Ok t -> atom_fraction t n = if Z.eq_dec n pdg then 1 else 0)).
Proof.
  unfold single_target, target_atom. split; intros H.
  - destruct (Z.leb_spec (particle_A pdg) 0); [reflexivity|lia].
  - destruct (Z.leb_spec (particle_A pdg) 0); [lia|]. cbn [bind].
    assert (E : make_target lg [pdg] [1] = Ok [(pdg, 1)]).
    { unfold make_target. cbn [length Nat.eqb negb check_fracs]. destruct (Rlt_dec 1 0); [lra|]. destruct (Req_EM_T 1 0); [lra|]. cbn [bind].
      destruct (Rle_dec (0 + 1) 0); [lra|]. cbn [combine map fill assoc put]. repeat f_equal. lra. }
    split; [exact E|]. intros t n. rewrite E. intros T. injection T as <-. unfold atom_fraction. cbn [assoc].
    destruct (Z.eqb_spec n pdg), (Z.eq_dec n pdg); congruence.
Qed.
Print Assumptions C48_single.

(** Water by atoms, unnormalised and out of order; and a refused duplicate. *)
Example C48_case : exists t, make_target true [1000080160; 1000010010]%Z [5; 10] = Ok t /\
  map fst t = [1000010010; 1000080160]%Z /\ atom_fraction t 1000080160 = 1 / 3.
Proof.
  assert (AR : target_args true [1000080160; 1000010010]%Z [5; 10]).
  { split; [reflexivity|]. split; [repeat constructor; lra|]. split; [cbn; lra|]. split; [|intros _; repeat constructor; cbn; intros; lra].
    constructor; [intros [E|[]]; discriminate E|]. constructor; [intros []|constructor]. }
  destruct (make_accepts _ _ _ AR) as [t E]. exists t. split; [exact E|]. destruct (C48_fractions _ _ _ _ E) as (F1 & _ & P & SS & _).
  split; [|rewrite (F1 0%nat 1000080160%Z 5 eq_refl eq_refl); cbn; lra].
  destruct (map fst t) as [|a [|c [|d r]]] eqn:EK; apply Permutation_length in P as PL; try discriminate PL.
  apply StronglySorted_inv in SS. destruct SS as [_ SS]. apply Forall_inv in SS.
  assert (IA : In a [1000080160; 1000010010]%Z) by (apply (Permutation_in a P); left; reflexivity).
  assert (IC : In c [1000080160; 1000010010]%Z) by (apply (Permutation_in c P); right; left; reflexivity).
  destruct IA as [<-|[<-|[]]], IC as [<-|[<-|[]]]; try lia. reflexivity.
Qed.

Example C48_duplicate : make_target true [1000080160; 1000080160]%Z [5; 10] = Er MarleyErr.
Proof.
  apply C48_rejects.
  - repeat constructor; unfold nameless; vm_compute; discriminate.
  - intros (_ & _ & _ & D & _). apply NoDup_cons_iff in D. apply (proj1 D). left. reflexivity.
Qed.
