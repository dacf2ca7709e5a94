(** Theorems about the ownership of particles by events (C12). *)
From Coq Require Import List ZArith Bool Permutation Lia.
From Coq Require Import Floats.SpecFloat.
From Verif Require Import Base Pdg Event EventHeap EventHeapSpec EventHeapProofs.
Import ListNotations.

(** Any history obeying C++ scoping, with any allocator, ends without undefined
    behaviour (no read or delete through a dead pointer). Every allocated
    particle is then held by exactly one event in scope, exactly once, and every
    pointer held is to an allocated particle. *)
Theorem C12_owned : forall (alloc : heap -> addr) l, (forall h, ~ In (alloc h) (map fst h)) -> scoped [] l ->
  exists w, history alloc l ([], []) = Ok w /\ owned w /\
    (forall v, In v (alive l) <-> exists o, get v (snd w) = Some o).
Proof.
  intros alloc l Ha Hl. destruct start_ok as [S1 S2].
  destruct (history_ok alloc Ha l [] ([], []) S1 S2 Hl) as (w & E1 & E2 & E3 & _).
  exists w. split; [exact E1|]. split; [apply inv_owned; exact E2|exact E3].
Qed.
Print Assumptions C12_owned.

(** When no event is left, no particle is left. *)
Theorem C12_no_leak : forall (alloc : heap -> addr) l w, (forall h, ~ In (alloc h) (map fst h)) -> scoped [] l ->
  alive l = [] -> history alloc l ([], []) = Ok w -> w = ([], []).
Proof.
  intros alloc l w Ha Hl Hn Hw. destruct (C12_owned alloc l Ha Hl) as (w' & E1 & (_ & _ & E2) & E3).
  rewrite Hw in E1. injection E1 as <-. rewrite Hn in E3. destruct w as [h s]. cbn [fst snd] in *.
  assert (Hs : s = []).
  { destruct s as [|[v o] s]; [reflexivity|]. exfalso. apply (proj2 (E3 v)). exists o. cbn [get].
    rewrite Nat.eqb_refl. reflexivity. }
  subst s. f_equal. destruct h as [|[a p] h]; [reflexivity|]. exfalso. apply (E2 a). left. reflexivity.
Qed.
Print Assumptions C12_no_leak.

(** Read through its pointers, every event has the value it would have if events
    were plain values: copying copies, moving leaves an event without particles,
    and no other event changes. *)
Theorem C12_values : forall (alloc : heap -> addr) l, (forall h, ~ In (alloc h) (map fst h)) -> scoped [] l ->
  exists w, history alloc l ([], []) = Ok w /\ forall v, value v w = values l (fun _ => None) v.
Proof.
  intros alloc l Ha Hl. destruct start_ok as [S1 S2].
  destruct (history_ok alloc Ha l [] ([], []) S1 S2 Hl) as (w & E1 & _ & _ & E4).
  exists w. split; [exact E1|]. apply E4. reflexivity.
Qed.
Print Assumptions C12_values.

(** In particular an event keeps its value through any operations on other
    events, including on the event it was copied from, and the destruction of that
    event. *)
Theorem C12_copy_independent : forall (alloc : heap -> addr) l v o l',
  (forall h, ~ In (alloc h) (map fst h)) -> scoped [] (l ++ CopyCtor v o :: l') ->
  Forall (fun op => ~ touches op v) l' ->
  exists w w', history alloc l ([], []) = Ok w /\ history alloc (l ++ CopyCtor v o :: l') ([], []) = Ok w' /\
    value v w' = value o w /\ exists ev, value v w' = Some ev.
Proof.
  intros alloc l v o l' Ha Hl Ht.
  assert (Hsplit : forall l live l2, scoped live (l ++ l2) -> scoped live l /\ scoped (fold_left after l live) l2).
  { induction l0 as [|x l0 IH]; intros live l2 H; [split; [exact I|exact H]|]. destruct H as [H1 H2].
    apply IH in H2 as [H2 H3]. split; [split; assumption|exact H3]. }
  destruct (Hsplit _ _ _ Hl) as [H1 H2]. destruct start_ok as [S1 S2].
  destruct (history_ok alloc Ha l [] ([], []) S1 S2 H1) as (w & A1 & A2 & A3 & A4).
  destruct (C12_values alloc _ Ha Hl) as (w' & B1 & B2).
  exists w, w'. split; [exact A1|]. split; [exact B1|].
  assert (E : value v w' = value o w).
  { rewrite B2, (A4 (fun _ => None)) by reflexivity. unfold values. rewrite fold_left_app. cbn [fold_left].
    change (values l' (vstep (CopyCtor v o) (values l (fun _ => None))) v = values l (fun _ => None) o).
    rewrite untouched by exact Ht. cbn [vstep]. apply upd_same. }
  split; [exact E|]. rewrite E. destruct H2 as [[_ H2] _]. apply A3 in H2 as [oo Ho]. destruct w as [h s].
  destruct (inv_reads h s o oo A2 Ho) as (i & f & _ & _ & R). rewrite R. eexists. reflexivity.
Qed.
Print Assumptions C12_copy_independent.

(** Assigning an event to itself loses all its particles. *)
Theorem C12_self_assignment : forall (alloc : heap -> addr) l v,
  (forall h, ~ In (alloc h) (map fst h)) -> scoped [] l -> In v (alive l) ->
  exists w ev, history alloc l ([], []) = Ok w /\ value v w = Some ev /\
    (exists w1, step alloc (CopyAssign v v) w = Ok w1 /\ value v w1 = Some (strip ev)) /\
    (exists w2, step alloc (MoveAssign v v) w = Ok w2 /\ value v w2 = Some empty_event).
Proof.
  intros alloc l v Ha Hl Hv. destruct start_ok as [S1 S2].
  destruct (history_ok alloc Ha l [] ([], []) S1 S2 Hl) as ([h s] & A1 & A2 & A3 & A4).
  pose proof Hv as Hv'. apply A3 in Hv' as [o Ho]. cbn [snd] in Ho.
  destruct (inv_reads h s v o A2 Ho) as (i & f & _ & _ & R). eexists (h, s), _. split; [exact A1|]. split; [exact R|]. split.
  - destruct (copy_assign_ok alloc Ha v v _ h s A2 A3 Hv Hv) as (w1 & E1 & _ & _ & E2). exists w1. split; [exact E1|].
    rewrite E2. cbn [vstep]. rewrite Nat.eqb_refl, upd_same, R. reflexivity.
  - destruct (move_assign_ok v v _ h s A2 A3 Hv Hv) as (w1 & E1 & _ & _ & E2). exists w1. split; [exact E1|].
    rewrite E2. cbn [vstep]. rewrite Nat.eqb_refl, upd_same. reflexivity.
Qed.
Print Assumptions C12_self_assignment.

(** An allocator that reuses freed addresses, and a history with every kind of
    operation. *)
Definition first_free (h : heap) : addr :=
  match find (fun k => match get k h with None => true | Some _ => false end) (seq 0 (List.length h)) with
  | Some k => k
  | None => S (fold_right Nat.max 0 (map fst h))
  end.
Definition sample_history : list op :=
  [New 1 dbl_zero; NewFrom 2 default_particle default_particle default_particle default_particle dbl_zero 2%Z true;
   AddFinal 1 (mkp 22 dbl_zero dbl_zero dbl_zero dbl_zero dbl_zero 0); CopyCtor 3 1; AddFinalOf 2 3 2; AddFinalOf 2 3 9;
   MoveCtor 4 2; MoveAssign 1 4; CopyAssign 2 1; CopyAssign 3 3; SetFinal 1 0 (mkp 11 dbl_zero dbl_zero dbl_zero dbl_zero dbl_zero (-1));
   MoveAssign 4 4; AddInitial 3 default_particle; Clear 2; Destroy 1; Destroy 3].

Example C12_example : (forall h, ~ In (first_free h) (map fst h)) /\ scoped [] sample_history /\ alive sample_history = [4; 2] /\
  exists w, history first_free sample_history ([], []) = Ok w /\ List.length (fst w) = 0.
Proof.
  split; [|split; [|split; [reflexivity|eexists; split; [vm_compute; reflexivity|reflexivity]]]].
  - intros h H. unfold first_free in H. destruct (find _ _) as [k|] eqn:E.
    + apply find_some in E as [_ E]. apply get_in in H as [x H]. rewrite H in E. discriminate E.
    + assert (G : forall l x, In x l -> x <= fold_right Nat.max 0 l).
      { clear. induction l as [|y l IH]; intros x Hx; [destruct Hx|]. cbn [fold_right].
        destruct Hx as [->|Hx]; [lia|]. apply IH in Hx. lia. }
      apply G in H. lia.
  - unfold sample_history. cbn. repeat split; try tauto; intros H; decompose [or] H; try discriminate; try contradiction.
Qed.

(** Destroying everything leaves nothing. *)
Example C12_example_leak : alive (sample_history ++ [Destroy 4; Destroy 2]) = [].
Proof. reflexivity. Qed.
