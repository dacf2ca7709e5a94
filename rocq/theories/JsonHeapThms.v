(** C72: JSON values in memory behave like trees of their own. *)
From Coq Require Import List Ascii String ZArith Bool Lia PeanoNat.
From Coq Require Import Floats.SpecFloat.
From Verif Require Import Base Json JsonSpec JsonRtProofs JsonExtraProofs JsonHeap JsonHeapSpec JsonHeapProofs.
Import ListNotations.

(** For every program: the variables hold the trees they are meant to hold, an exception is
    thrown when it is meant to be, and no node is used that was deleted, or deleted twice. *)
Theorem C72_values p : Forall stmt_ok p ->
  match effects p no_trees with
  | Ok e => exists m, run p start = Ok m /\ stands_for m e
  | Er x => run p start = Er x
  end.
Proof.
  intros P. pose proof (run_ok p start no_trees [] [] start_state P) as Q. destruct (effects p no_trees); [|exact Q]. destruct Q as (m & js & L & E & S & _). exists m. split; [exact E|]. eapply state_stands. exact S.
Qed.
Print Assumptions C72_values.

(** The variables a statement may change. *)
Definition changes (c : stmt) : list nat :=
  match c with
  | Declare x | Destroy x => [x]
  | Assign d _ | Append d _ | Copy d _ | SelfCopy d | SelfMove d | Touch d => [fst d]
  | Move d s => [fst d; fst s]
  | CopyNew x _ => [x]
  | MoveNew x s => [x; fst s]
  end.

Lemma effect_other c e e' x : effect_of c e = Ok e' -> ~ In x (changes c) -> e' x = e x.
Proof.
  assert (SET : forall d f e e', set_at d f e = Ok e' -> x <> fst d -> e' x = e x).
  { intros d f e0 e0' H N. unfold set_at, var in H. destruct (e0 (fst d)); cbn [bind] in H; [|discriminate H]. injection H as <-. unfold with_tree. destruct (Nat.eqb_spec (fst d) x); congruence. }
  assert (NEW : forall y j e e', new_var y j e = Ok e' -> x <> y -> e' x = e x).
  { intros y j e0 e0' H N. unfold new_var in H. destruct (e0 y); [discriminate H|]. injection H as <-. unfold with_tree. destruct (Nat.eqb_spec y x); congruence. }
  destruct c as [y|d v|d s|d s|d s|y s|y s|d|d|d|y]; cbn [effect_of changes In]; intros H N.
  - eapply NEW; [exact H|]. intuition congruence.
  - eapply SET; [exact H|]. intuition congruence.
  - destruct (Nat.eqb (fst d) (fst s)); [discriminate H|]. destruct (read_at s e); cbn [bind] in H; [|discriminate H]. eapply SET; [exact H|]. intuition congruence.
  - destruct (Nat.eqb (fst d) (fst s)); [discriminate H|]. destruct (read_at s e); cbn [bind] in H; [|discriminate H]. eapply SET; [exact H|]. intuition congruence.
  - destruct (Nat.eqb (fst d) (fst s)); [discriminate H|]. destruct (var (fst s) e); cbn [bind] in H; [|discriminate H]. destruct (set_at s (fun _ => JNull) e) as [e1|] eqn:E1; cbn [bind] in H; [|discriminate H].
    rewrite (SET _ _ _ _ H) by intuition congruence. eapply SET; [exact E1|]. intuition congruence.
  - destruct (read_at s e); cbn [bind] in H; [|discriminate H]. eapply NEW; [exact H|]. intuition congruence.
  - destruct (var (fst s) e); cbn [bind] in H; [|discriminate H]. destruct (set_at s (fun _ => JNull) e) as [e1|] eqn:E1; cbn [bind] in H; [|discriminate H].
    rewrite (NEW _ _ _ _ H) by intuition congruence. eapply SET; [exact E1|]. intuition congruence.
  - eapply SET; [exact H|]. intuition congruence.
  - eapply SET; [exact H|]. intuition congruence.
  - eapply SET; [exact H|]. intuition congruence.
  - destruct (var y e); cbn [bind] in H; [|discriminate H]. injection H as <-. unfold with_tree. destruct (Nat.eqb_spec y x); intuition congruence.
Qed.

Lemma run_app p q m : run (p ++ q) m = do m1 <- run p m; run q m1.
Proof. revert m. induction p as [|c p IH]; intros m; cbn [app run bind]; [reflexivity|]. destruct (exec c m); cbn [bind]; [apply IH|reflexivity]. Qed.

(** Copies share nothing: whatever a program does next to other variables - changing,
    moving or destroying them - a variable keeps its value. *)
Theorem C72_independent p q m m' x : Forall stmt_ok (p ++ q) -> run p start = Ok m -> run q m = Ok m' -> ~ In x (flat_map changes q) ->
  forall v j, In (x, v) (m_vars m) -> means (m_heap m) v j -> exists v', In (x, v') (m_vars m') /\ means (m_heap m') v' j.
Proof.
  intros P R1 R2 N v j I M. apply Forall_app in P as [P1 P2]. pose proof (run_ok p start no_trees [] [] start_state P1) as Q. destruct (effects p no_trees) as [e|]; [|congruence].
  destruct Q as (m0 & js & L & E & S & _). assert (m0 = m) by congruence. subst m0. clear E R1 P1.
  assert (J : e x = Some j).
  { destruct S as [S1 S2 S3 S4 S5 S6]. rewrite S6. pose proof (owns_get _ _ _ _ x S1) as Q. apply vget_in in I; [|exact S5]. rewrite I in Q. destruct Q as (j' & _ & Lx & _ & -> & _ & R & _).
    f_equal. clear - R M. revert v j' Lx j R M.
    assert (F : (forall v j' Lx, rep (m_heap m) v j' Lx -> forall j, means (m_heap m) v j -> j' = j) /\ (forall vs js L, reps (m_heap m) vs js L -> forall js', Forall2 (means (m_heap m)) vs js' -> js = js') /\
      (forall kvs js L, repk (m_heap m) kvs js L -> forall js', map fst kvs = map fst js' -> Forall2 (means (m_heap m)) (map snd kvs) (map snd js') -> js = js')).
    { apply (rep_mutind (m_heap m) (fun v j' Lx => forall j, means (m_heap m) v j -> j' = j) (fun vs js L => forall js', Forall2 (means (m_heap m)) vs js' -> js = js')
        (fun kvs js L => forall js', map fst kvs = map fst js' -> Forall2 (means (m_heap m)) (map snd kvs) (map snd js') -> js = js')).
      - intros j M. inversion M. reflexivity.
      - intros b j M. inversion M. reflexivity.
      - intros b j M. inversion M. reflexivity.
      - intros b j M. inversion M. reflexivity.
      - intros l s H j M. inversion M. congruence.
      - intros l vs js L H _ IH j M. inversion M; subst. f_equal. apply IH. congruence.
      - intros l kvs js L H _ _ IH j M. inversion M; subst. f_equal. apply IH; congruence.
      - intros js' M. inversion M. reflexivity.
      - intros v vs j js L1 L2 _ IH1 _ IH2 js' M. inversion M; subst. f_equal; [apply IH1; assumption|apply IH2; assumption].
      - intros [|[k j] js'] K M; [reflexivity|]. inversion M.
      - intros k v vs j js L1 L2 _ IH1 _ IH2 [|[k' j0] js'] K M; [inversion M|]. cbn [map fst snd] in *. inversion M; subst. injection K as -> K. f_equal; [f_equal; apply IH1; assumption|apply IH2; assumption]. }
    intros v j' Lx j R M. apply (proj1 F v j' Lx R j M). }
  clear I M v. revert m e js L S J R2 N. induction q as [|c q IH]; intros m e js L S J R2 N.
  - cbn [run] in R2. injection R2 as <-. pose proof (state_stands _ _ _ _ S x) as Q. rewrite J in Q. exact Q.
  - cbn [run] in R2. cbn [flat_map] in N. rewrite in_app_iff in N. inversion P2 as [|? ? P3 P4]; subst. pose proof (exec_ok c m e js L S P3) as Q.
    destruct (effect_of c e) as [e1|] eqn:E; [|rewrite Q in R2; discriminate R2]. destruct Q as (m1 & js1 & L1 & E1 & S1 & _). rewrite E1 in R2. cbn [bind] in R2.
    apply (IH P4 m1 e1 js1 L1 S1); [|exact R2|tauto]. rewrite (effect_other c e e1 x E) by tauto. exact J.
Qed.
Print Assumptions C72_independent.

(** Reaching for an element that is there changes nothing. *)
Theorem C72_reading p d e v : Forall stmt_ok p -> effects p no_trees = Ok e -> read_at d e = Ok v ->
  exists e', effect_of (Touch d) e = Ok e' /\ forall x, e' x = e x.
Proof.
  intros P E R. pose proof (run_ok p start no_trees [] [] start_state P) as Q. rewrite E in Q. destruct Q as (m & js & L & _ & [S1 S2 S3 S4 S5 S6] & _).
  unfold read_at, var in R. cbn [effect_of]. unfold set_at, var. rewrite S6 in *. pose proof (owns_get _ _ _ _ (fst d) S1) as Q. destruct (vget (fst d) (m_vars m)) as [u|]; [|rewrite Q in R; discriminate R].
  destruct Q as (j & _ & Lx & _ & G & _ & RX & _). rewrite G in *. cbn [bind] in *. destruct (update_same _ _ _ _ _ _ RX R) as [-> _]. eexists. split; [reflexivity|]. intros x. unfold with_tree. destruct (Nat.eqb_spec (fst d) x) as [<-|]; [rewrite S6; congruence|reflexivity].
Qed.
Print Assumptions C72_reading.

(** Nothing is lost as long as copy and move assignment are not used on a value that holds
    strings, arrays or objects: when the last variable is gone, so is every node. *)
Theorem C72_no_leak p m : Forall stmt_ok p -> all_tidy p no_trees -> run p start = Ok m -> m_vars m = [] -> forall l, h_at (m_heap m) l = None.
Proof.
  intros P T R V l. pose proof (run_ok p start no_trees [] [] start_state P) as Q. destruct (effects p no_trees) as [e|]; [|congruence]. destruct Q as (m' & js & L & E & S & C). assert (m' = m) by congruence. subst m'.
  destruct (h_at (m_heap m) l) eqn:H; [|reflexivity]. exfalso. assert (K : In l L). { apply C; [exact T| |congruence]. intros x Hx. cbn [start m_heap h_at] in Hx. congruence. }
  destruct S as [S1 _ _ _ _ _]. rewrite V in S1. inversion S1; subst. destruct K.
Qed.
Print Assumptions C72_no_leak.

(** ** What is not so *)

(** Assignment of a JSON value over an object leaves the old one on the heap for ever. *)
Theorem C72_leak_refuted : exists p m l, Forall stmt_ok p /\ run p start = Ok m /\ m_vars m = [] /\ h_at (m_heap m) l <> None.
Proof.
  exists [Declare 0; Assign (0%nat, [Key (b "a")]) (SInt 1); Declare 1; Copy (0%nat, []) (1%nat, []); Destroy 0; Destroy 1].
  eexists. exists 0%nat. split; [repeat constructor|]. split; [vm_compute; reflexivity|]. split; [reflexivity|]. discriminate.
Qed.
Print Assumptions C72_leak_refuted.

(** Moving a value to itself loses it, although copying it to itself does not. *)
Theorem C72_self_move_refuted : exists p e, effects p no_trees = Ok e /\ e 0%nat = Some (JInt 5) /\
  (exists e', effect_of (SelfMove (0%nat, [])) e = Ok e' /\ e' 0%nat = Some JNull) /\ (exists e', effect_of (SelfCopy (0%nat, [])) e = Ok e' /\ e' 0%nat = Some (JInt 5)).
Proof.
  exists [Declare 0; Assign (0%nat, []) (SInt 5)]. eexists. split; [reflexivity|]. split; [reflexivity|]. split; eexists; (split; [reflexivity|reflexivity]).
Qed.
Print Assumptions C72_self_move_refuted.

(** Reaching for a key that is not there adds it; reaching for a key in an array deletes
    the array. *)
Theorem C72_reading_refuted : exists p e, effects p no_trees = Ok e /\ e 0%nat = Some (JObj [(b "a", JArr [JInt 1])]) /\
  (exists e', effect_of (Touch (0%nat, [Key (b "x")])) e = Ok e' /\ e' 0%nat = Some (JObj [(b "a", JArr [JInt 1]); (b "x", JNull)])) /\
  (exists e', effect_of (Touch (0%nat, [Key (b "a"); Key (b "x")])) e = Ok e' /\ e' 0%nat = Some (JObj [(b "a", JObj [(b "x", JNull)])])).
Proof.
  exists [Declare 0; Assign (0%nat, [Key (b "a"); Idx 0]) (SInt 1)]. eexists. split; [reflexivity|]. split; [reflexivity|]. split; eexists; (split; [reflexivity|reflexivity]).
Qed.
Print Assumptions C72_reading_refuted.

(** The largest index makes the array empty, and the element that is then used is not
    there. *)
Theorem C72_largest_index_refuted : run [Declare 0; Assign (0%nat, [Idx (2 ^ 32 - 1)]) (SInt 1)] start = Er Undefined.
Proof. lazy. reflexivity. Qed.
Print Assumptions C72_largest_index_refuted.

(** The const at on a value that is no object uses the wrong member of the union. *)
Theorem C72_const_at_refuted : run [Declare 0; Assign (0%nat, []) (SInt 1); CopyNew 1 (0%nat, [Key (b "a")])] start = Er Undefined.
Proof. vm_compute. reflexivity. Qed.
Print Assumptions C72_const_at_refuted.

(** ** A case *)
Definition sample : list stmt :=
  [Declare 0; Assign (0%nat, [Key (b "b"); Idx 2]) (SStr (b "s")); Assign (0%nat, [Key (b "a")]) (SBool true); CopyNew 1 (0%nat, []);
   Append (0%nat, [Key (b "b")]) (1%nat, [Key (b "a")]); MoveNew 2 (0%nat, [Key (b "b"); Idx 2]); Move (1%nat, [Key (b "c")]) (2%nat, []); Destroy 2].
Example C72_case : Forall stmt_ok sample /\ all_tidy sample no_trees /\
  exists e, effects sample no_trees = Ok e /\ e 0%nat = Some (JObj [(b "a", JBool true); (b "b", JArr [JNull; JNull; JNull; JBool true])]) /\
    e 1%nat = Some (JObj [(b "a", JBool true); (b "b", JArr [JNull; JNull; JStr (b "s")]); (b "c", JStr (b "s"))]) /\ e 2%nat = None.
Proof.
  split; [|split].
  - unfold sample, stmt_ok. repeat (apply Forall_cons; [cbn [places snd]; repeat (apply Forall_cons || apply Forall_nil); cbn [snd]; repeat (apply Forall_cons || apply Forall_nil); cbn [index_ok]; lia|]). apply Forall_nil.
  - unfold sample. cbn [all_tidy tidy effect_of]. vm_compute. repeat split. intros j H. injection H as <-. exact I.
  - eexists. split; [reflexivity|]. split; [reflexivity|]. split; reflexivity.
Qed.
