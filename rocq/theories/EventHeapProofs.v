(** Proofs for C12. *)
From Coq Require Import List ZArith Bool Permutation Lia.
From Coq Require Import Floats.SpecFloat.
From Verif Require Import Base Pdg Event EventHeap EventHeapSpec.
Import ListNotations.

Lemma get_in {A} : forall k (l : list (nat * A)), In k (map fst l) <-> exists x, get k l = Some x.
Proof.
  intros k l. induction l as [|[k' x] l IH]; cbn [map fst get In].
  - split; [tauto|intros [x H]; discriminate H].
  - destruct (Nat.eqb_spec k k') as [->|N].
    + split; [intros _; exists x; reflexivity|auto].
    + rewrite <- IH. split; [intros [H|H]; [congruence|exact H]|auto].
Qed.

Lemma get_none {A} : forall k (l : list (nat * A)), ~ In k (map fst l) <-> get k l = None.
Proof.
  intros k l. rewrite get_in. destruct (get k l) as [x|]; split; try congruence.
  - intros H. exfalso. apply H. exists x. reflexivity.
  - intros _ [y H]. discriminate H.
Qed.

Lemma get_del_same {A} : forall k (l : list (nat * A)), get k (del k l) = None.
Proof.
  intros k l. induction l as [|[k' x] l IH]; [reflexivity|]. cbn [del].
  destruct (Nat.eqb k k') eqn:E; [exact IH|]. cbn [get]. rewrite E. exact IH.
Qed.

Lemma get_del_other {A} : forall k k' (l : list (nat * A)), k <> k' -> get k (del k' l) = get k l.
Proof.
  intros k k' l N. induction l as [|[k2 x] l IH]; [reflexivity|]. cbn [del get].
  destruct (Nat.eqb_spec k' k2) as [<-|N2].
  - destruct (Nat.eqb_spec k k'); [contradiction|]. exact IH.
  - cbn [get]. destruct (Nat.eqb k k2); [reflexivity|exact IH].
Qed.

Lemma get_put_same {A} : forall k (x : A) l, get k (put k x l) = Some x.
Proof. intros k x l. unfold put. cbn [get]. rewrite Nat.eqb_refl. reflexivity. Qed.

Lemma get_put_other {A} : forall k k' (x : A) l, k <> k' -> get k (put k' x l) = get k l.
Proof.
  intros k k' x l N. unfold put. cbn [get]. destruct (Nat.eqb_spec k k'); [contradiction|].
  apply get_del_other. exact N.
Qed.

Lemma del_keys {A} : forall k (l : list (nat * A)) x, In x (map fst (del k l)) <-> x <> k /\ In x (map fst l).
Proof.
  intros k l x. rewrite !get_in. split.
  - intros [y H]. destruct (Nat.eq_dec x k) as [->|N]; [rewrite get_del_same in H; discriminate H|].
    rewrite get_del_other in H by exact N. split; [exact N|exists y; exact H].
  - intros [N [y H]]. exists y. rewrite get_del_other by exact N. exact H.
Qed.

Lemma del_nodup {A} : forall k (l : list (nat * A)), NoDup (map fst l) -> NoDup (map fst (del k l)).
Proof.
  intros k l. induction l as [|[k' x] l IH]; intros H; [exact H|]. cbn [map fst] in H. inversion H; subst.
  cbn [del]. destruct (Nat.eqb k k'); [auto|]. cbn [map fst]. constructor; [|auto].
  rewrite del_keys. tauto.
Qed.

Lemma put_nodup {A} : forall k (x : A) l, NoDup (map fst l) -> NoDup (map fst (put k x l)).
Proof.
  intros k x l H. unfold put. cbn [map fst]. constructor; [|apply del_nodup; exact H].
  rewrite del_keys. tauto.
Qed.

Lemma del_absent {A} : forall k (l : list (nat * A)), get k l = None -> del k l = l.
Proof.
  intros k l. induction l as [|[k' x] l IH]; intros H; [reflexivity|]. cbn [get] in H. cbn [del].
  destruct (Nat.eqb k k'); [discriminate H|]. rewrite IH by exact H. reflexivity.
Qed.

Lemma del_perm {A} : forall k (l : list (nat * A)) x, NoDup (map fst l) -> get k l = Some x ->
  Permutation l ((k, x) :: del k l).
Proof.
  intros k l x. induction l as [|[k' y] l IH]; intros ND H; [discriminate H|]. cbn [get] in H. cbn [map fst] in ND.
  inversion ND; subst. cbn [del]. destruct (Nat.eqb_spec k k') as [<-|N].
  - injection H as ->. rewrite del_absent; [reflexivity|]. apply get_none. assumption.
  - rewrite (IH H3 H) at 1. apply perm_swap.
Qed.

Lemma all_held_perm : forall s s', Permutation s s' -> Permutation (all_held s) (all_held s').
Proof. intros s s' H. unfold all_held. apply Permutation_flat_map. exact H. Qed.

Lemma held_focus : forall v s o, NoDup (map fst s) -> get v s = Some o ->
  Permutation (all_held s) (held o ++ all_held (del v s)).
Proof. intros v s o ND H. rewrite (all_held_perm _ _ (del_perm v s o ND H)). reflexivity. Qed.

Lemma held_get : forall v s o a, get v s = Some o -> In a (held o) -> In a (all_held s).
Proof.
  intros v s o a. induction s as [|[k x] s IH]; intros H Ha; [discriminate H|]. cbn [get] in H.
  unfold all_held. cbn [flat_map snd]. apply in_or_app. destruct (Nat.eqb v k).
  - injection H as ->. left. exact Ha.
  - right. apply IH; assumption.
Qed.

(** The invariant of all histories. *)
Definition inv (w : world) : Prop :=
  NoDup (map fst (snd w)) /\ NoDup (map fst (fst w)) /\ Permutation (map fst (fst w)) (all_held (snd w)).

Lemma inv_owned : forall w, inv w -> owned w.
Proof.
  intros w (H1 & H2 & H3). split; [exact H1|]. split.
  - eapply Permutation_NoDup; [exact H3|exact H2].
  - intros a. split; intros H; [eapply Permutation_in; [exact H3|exact H]|].
    eapply Permutation_in; [apply Permutation_sym; exact H3|exact H].
Qed.

Lemma read_frame : forall l h h', (forall a, In a l -> get a h' = get a h) -> read_all_ptrs l h' = read_all_ptrs l h.
Proof.
  induction l as [|a l IH]; intros h h' H; [reflexivity|]. cbn [read_all_ptrs].
  rewrite (H a (or_introl eq_refl)), (IH h h'); [reflexivity|]. intros x Hx. apply H. right. exact Hx.
Qed.

Lemma read_exists : forall l h, (forall a, In a l -> In a (map fst h)) -> exists ps, read_all_ptrs l h = Some ps.
Proof.
  induction l as [|a l IH]; intros h H; [exists []; reflexivity|]. cbn [read_all_ptrs].
  destruct (proj1 (get_in a h) (H a (or_introl eq_refl))) as [p ->].
  destruct (IH h) as [ps ->]; [intros x Hx; apply H; right; exact Hx|]. exists (p :: ps). reflexivity.
Qed.

Lemma read_app : forall l1 l2 h ps1 ps2, read_all_ptrs l1 h = Some ps1 -> read_all_ptrs l2 h = Some ps2 ->
  read_all_ptrs (l1 ++ l2) h = Some (ps1 ++ ps2).
Proof.
  induction l1 as [|a l1 IH]; intros l2 h ps1 ps2 H1 H2; cbn [read_all_ptrs app] in *.
  - injection H1 as <-. exact H2.
  - destruct (get a h) as [p|]; [|discriminate H1]. destruct (read_all_ptrs l1 h) as [q|] eqn:E; [|discriminate H1].
    injection H1 as <-. rewrite (IH l2 h q ps2 E H2). reflexivity.
Qed.

Lemma inv_in_heap : forall h s v o a, inv (h, s) -> get v s = Some o -> In a (held o) -> In a (map fst h).
Proof.
  intros h s v o a (H1 & H2 & H3) Ho Ha. cbn [fst snd] in *. eapply Permutation_in; [apply Permutation_sym; exact H3|].
  eapply held_get; eassumption.
Qed.

Lemma inv_reads : forall h s v o, inv (h, s) -> get v s = Some o ->
  exists i f, read_all_ptrs (o_init o) h = Some i /\ read_all_ptrs (o_fin o) h = Some f /\
    value v (h, s) = Some (mke i f (o_Ex o) (o_twoJ o) (o_par o)).
Proof.
  intros h s v o Hi Ho.
  destruct (read_exists (o_init o) h) as [i Ei].
  { intros a Ha. eapply inv_in_heap; [exact Hi|exact Ho|]. apply in_or_app. left. exact Ha. }
  destruct (read_exists (o_fin o) h) as [f Ef].
  { intros a Ha. eapply inv_in_heap; [exact Hi|exact Ho|]. apply in_or_app. right. exact Ha. }
  exists i, f. split; [exact Ei|]. split; [exact Ef|]. unfold value. cbn [fst snd]. rewrite Ho, Ei, Ef. reflexivity.
Qed.

Lemma value_frame : forall k h s h' s', get k s' = get k s ->
  (forall o a, get k s = Some o -> In a (held o) -> get a h' = get a h) -> value k (h', s') = value k (h, s).
Proof.
  intros k h s h' s' Hs Hh. unfold value. cbn [fst snd]. rewrite Hs. destruct (get k s) as [o|] eqn:E; [|reflexivity].
  rewrite (read_frame (o_init o) h h'), (read_frame (o_fin o) h h'); [reflexivity| |];
    intros a Ha; apply (Hh o a eq_refl); apply in_or_app; auto.
Qed.

(** Replacing the object of one variable, with the heap changed accordingly. *)
Lemma replace_obj : forall h s h' v o', inv (h, s) -> NoDup (map fst h') ->
  Permutation (map fst h') (held o' ++ all_held (del v s)) ->
  (forall a, In a (all_held (del v s)) -> get a h' = get a h) ->
  inv (h', put v o' s) /\ (forall k, k <> v -> value k (h', put v o' s) = value k (h, s)).
Proof.
  intros h s h' v o' (H1 & H2 & H3) ND HP HF. cbn [fst snd] in *. split.
  - split; [apply put_nodup; exact H1|]. split; [exact ND|]. exact HP.
  - intros k N. apply value_frame; [apply get_put_other; exact N|]. intros o a Ho Ha. apply HF.
    apply (held_get k _ o); [|exact Ha]. rewrite get_del_other by exact N. exact Ho.
Qed.

Lemma delete_all_ok : forall l h r, NoDup (map fst h) -> Permutation (map fst h) (l ++ r) ->
  exists h', delete_all l h = Ok h' /\ NoDup (map fst h') /\ Permutation (map fst h') r /\
    (forall a, In a r -> get a h' = get a h).
Proof.
  induction l as [|a l IH]; intros h r ND HP; cbn [delete_all].
  - exists h. split; [reflexivity|]. split; [exact ND|]. split; [exact HP|auto].
  - cbn [app] in HP.
    assert (Ha : In a (map fst h)) by (eapply Permutation_in; [apply Permutation_sym; exact HP|left; reflexivity]).
    destruct (proj1 (get_in a h) Ha) as [p Hp]. unfold delete. rewrite Hp. cbn [bind].
    assert (HP' : Permutation (map fst (del a h)) (l ++ r)).
    { apply (Permutation_cons_inv (a := a)). eapply Permutation_trans; [|exact HP]. apply Permutation_sym.
      apply (Permutation_map fst (del_perm a h p ND Hp)). }
    destruct (IH (del a h) r (del_nodup _ _ ND) HP') as (h' & E1 & E2 & E3 & E4).
    exists h'. split; [exact E1|]. split; [exact E2|]. split; [exact E3|]. intros x Hx. rewrite E4 by exact Hx.
    apply get_del_other. intros ->.
    assert (Hin : In a (map fst (del a h))).
    { eapply Permutation_in; [apply Permutation_sym; exact HP'|]. apply in_or_app. right. exact Hx. }
    apply del_keys in Hin. tauto.
Qed.

Section alloc.
Variable alloc : heap -> addr.
Hypothesis alloc_fresh : forall h, ~ In (alloc h) (map fst h).

Lemma new_all_ok : forall ps h, NoDup (map fst h) ->
  exists l h', new_all alloc ps h = (l, h') /\ NoDup (map fst h') /\ Permutation (map fst h') (l ++ map fst h) /\
    read_all_ptrs l h' = Some ps /\ (forall a, In a (map fst h) -> get a h' = get a h).
Proof.
  induction ps as [|p ps IH]; intros h ND; cbn [new_all].
  - exists [], h. split; [reflexivity|]. split; [exact ND|]. split; [reflexivity|]. split; [reflexivity|auto].
  - unfold new_particle. set (a := alloc h).
    assert (ND' : NoDup (map fst ((a, p) :: h))) by (cbn [map fst]; constructor; [apply alloc_fresh|exact ND]).
    destruct (IH ((a, p) :: h) ND') as (l & h' & E1 & E2 & E3 & E4 & E5). rewrite E1.
    exists (a :: l), h'. split; [reflexivity|]. split; [exact E2|]. split.
    + eapply Permutation_trans; [exact E3|]. cbn [map fst app]. apply Permutation_sym, Permutation_middle.
    + split.
      * cbn [read_all_ptrs]. rewrite E5 by (left; reflexivity). cbn [get]. rewrite Nat.eqb_refl, E4. reflexivity.
      * intros x Hx. rewrite E5 by (right; exact Hx). cbn [get]. destruct (Nat.eqb_spec x a) as [->|]; [|reflexivity].
        exfalso. apply (alloc_fresh h). exact Hx.
Qed.

Lemma copy_all_new : forall l ps h, read_all_ptrs l h = Some ps -> copy_all alloc l h = Ok (new_all alloc ps h).
Proof.
  induction l as [|a l IH]; intros ps h H; cbn [read_all_ptrs] in H.
  - injection H as <-. reflexivity.
  - destruct (get a h) as [p|] eqn:Ea; [|discriminate H].
    destruct (read_all_ptrs l h) as [q|] eqn:El; [|discriminate H]. injection H as <-.
    cbn [copy_all new_all]. unfold deref. rewrite Ea. cbn [bind]. unfold new_particle.
    rewrite (IH q); [cbn [bind]; destruct (new_all alloc q _); reflexivity|].
    rewrite <- El. apply read_frame. intros x Hx. cbn [get]. destruct (Nat.eqb_spec x (alloc h)) as [->|]; [|reflexivity].
    exfalso. apply (alloc_fresh h).
    assert (Hall : forall l q, read_all_ptrs l h = Some q -> forall x, In x l -> In x (map fst h)).
    { clear. induction l as [|y l IH]; intros q H x Hx; [destruct Hx|]. cbn [read_all_ptrs] in H.
      destruct (get y h) as [p|] eqn:E; [|discriminate H]. destruct (read_all_ptrs l h) as [r|]; [|discriminate H].
      destruct Hx as [->|Hx]; [apply get_in; exists p; exact E|]. eapply IH; [reflexivity|exact Hx]. }
    eapply Hall; eassumption.
Qed.

(** Two vectors of new particles. *)
Lemma new_two : forall ps qs h, NoDup (map fst h) ->
  exists li h1 lf h2, new_all alloc ps h = (li, h1) /\ new_all alloc qs h1 = (lf, h2) /\
    NoDup (map fst h2) /\ Permutation (map fst h2) ((li ++ lf) ++ map fst h) /\
    read_all_ptrs li h2 = Some ps /\ read_all_ptrs lf h2 = Some qs /\
    (forall a, In a (map fst h) -> get a h2 = get a h) /\
    (forall a, In a (map fst h) -> get a h1 = get a h).
Proof.
  intros ps qs h ND. destruct (new_all_ok ps h ND) as (li & h1 & A1 & A2 & A3 & A4 & A5).
  destruct (new_all_ok qs h1 A2) as (lf & h2 & B1 & B2 & B3 & B4 & B5).
  exists li, h1, lf, h2. split; [exact A1|]. split; [exact B1|]. split; [exact B2|]. split.
  { eapply Permutation_trans; [exact B3|]. eapply Permutation_trans; [apply Permutation_app_head; exact A3|].
    rewrite !app_assoc. apply Permutation_app_tail, Permutation_app_comm. }
  assert (Hin : forall a, In a li \/ In a (map fst h) -> In a (map fst h1)).
  { intros a Ha. eapply Permutation_in; [apply Permutation_sym; exact A3|]. apply in_or_app. exact Ha. }
  split.
  { rewrite <- A4. apply read_frame. intros a Ha. apply B5. apply Hin. left. exact Ha. }
  split; [exact B4|]. split; [|exact A5].
  intros a Ha. rewrite B5 by (apply Hin; right; exact Ha). apply A5. exact Ha.
Qed.

(** Giving a variable that holds nothing a set of new particles. *)
Lemma fill_obj : forall h s v ps qs Ex twoJ par, inv (h, s) ->
  all_held (del v s) = all_held s \/ Permutation (all_held (del v s)) (all_held s) ->
  exists li h1 lf h2, new_all alloc ps h = (li, h1) /\ new_all alloc qs h1 = (lf, h2) /\
    (let w' := (h2, put v (mko li lf Ex twoJ par) s) in
     inv w' /\ value v w' = Some (mke ps qs Ex twoJ par) /\
     forall k, k <> v -> value k w' = value k (h, s)) /\
    (forall a, In a (map fst h) -> get a h1 = get a h).
Proof.
  intros h s v ps qs Ex twoJ par Hi Hp.
  assert (Hp' : Permutation (all_held (del v s)) (all_held s)) by (destruct Hp as [->|Hp]; [reflexivity|exact Hp]).
  destruct Hi as (I1 & I2 & I3). cbn [fst snd] in *.
  destruct (new_two ps qs h I2) as (li & h1 & lf & h2 & E1 & E2 & E3 & E4 & E5 & E6 & E7 & E8).
  exists li, h1, lf, h2. split; [exact E1|]. split; [exact E2|]. split; [|exact E8]. cbv zeta.
  destruct (replace_obj h s h2 v (mko li lf Ex twoJ par)) as [J1 J2].
  - split; [exact I1|]. split; [exact I2|exact I3].
  - exact E3.
  - unfold held. cbn [o_init o_fin]. eapply Permutation_trans; [exact E4|]. apply Permutation_app_head.
    eapply Permutation_trans; [exact I3|]. apply Permutation_sym. exact Hp'.
  - intros a Ha. apply E7. eapply Permutation_in; [apply Permutation_sym; exact I3|].
    eapply Permutation_in; [exact Hp'|exact Ha].
  - split; [exact J1|]. split; [|exact J2]. unfold value. cbn [fst snd]. rewrite get_put_same.
    cbn [o_init o_fin o_Ex o_twoJ o_par]. rewrite E5, E6. reflexivity.
Qed.

Lemma del_held_absent : forall v s, get v s = None -> all_held (del v s) = all_held s.
Proof. intros v s H. rewrite del_absent by exact H. reflexivity. Qed.

Lemma put_put {A} : forall k (x y : A) l, put k y (put k x l) = put k y l.
Proof.
  intros k x y l. unfold put. cbn [del]. rewrite Nat.eqb_refl. f_equal.
  induction l as [|[k' z] l IH]; [reflexivity|]. cbn [del]. destruct (Nat.eqb k k') eqn:E; [exact IH|].
  cbn [del]. rewrite E, IH. reflexivity.
Qed.

Lemma del_put {A} : forall k (x : A) l, del k (put k x l) = del k l.
Proof.
  intros k x l. unfold put. cbn [del]. rewrite Nat.eqb_refl.
  induction l as [|[k' z] l IH]; [reflexivity|]. cbn [del]. destruct (Nat.eqb k k') eqn:E; [exact IH|].
  cbn [del]. rewrite E, IH. reflexivity.
Qed.

(** delete_particles empties the object and frees what it held. *)
Lemma delete_particles_ok : forall h s v o, inv (h, s) -> get v s = Some o ->
  exists h', delete_particles v (h, s) = Ok (h', put v (mko [] [] (o_Ex o) (o_twoJ o) (o_par o)) s) /\
    NoDup (map fst h') /\ Permutation (map fst h') (all_held (del v s)) /\
    (forall a, In a (all_held (del v s)) -> get a h' = get a h).
Proof.
  intros h s v o (I1 & I2 & I3) Ho. cbn [fst snd] in *. unfold delete_particles, var. rewrite Ho. cbn [bind].
  destruct (delete_all_ok (o_init o ++ o_fin o) h (all_held (del v s)) I2) as (h' & E1 & E2 & E3 & E4).
  { eapply Permutation_trans; [exact I3|]. apply held_focus; assumption. }
  exists h'. rewrite E1. cbn [bind]. auto.
Qed.

Lemma emptied : forall h s v o h' Ex twoJ par, inv (h, s) -> get v s = Some o -> NoDup (map fst h') ->
  Permutation (map fst h') (all_held (del v s)) -> (forall a, In a (all_held (del v s)) -> get a h' = get a h) ->
  let w' := (h', put v (mko [] [] Ex twoJ par) s) in
  inv w' /\ value v w' = Some (mke [] [] Ex twoJ par) /\ forall k, k <> v -> value k w' = value k (h, s).
Proof.
  intros h s v o h' Ex twoJ par Hi Ho N1 N2 N3. cbv zeta.
  destruct (replace_obj h s h' v (mko [] [] Ex twoJ par) Hi N1 N2 N3) as [J1 J2].
  split; [exact J1|]. split; [|exact J2]. unfold value. cbn [fst snd]. rewrite get_put_same. reflexivity.
Qed.

(** Objects rearranged, heap unchanged. *)
Lemma rearranged : forall h s s', inv (h, s) -> NoDup (map fst s') -> Permutation (all_held s) (all_held s') ->
  inv (h, s').
Proof.
  intros h s s' (I1 & I2 & I3) N P. split; [exact N|]. split; [exact I2|]. eapply Permutation_trans; [exact I3|exact P].
Qed.

Definition scope (live : list nat) (w : world) : Prop := forall v, In v live <-> exists o, get v (snd w) = Some o.

Lemma scope_put : forall live h s h' v o, scope live (h, s) -> In v live -> scope live (h', put v o s).
Proof.
  intros live h s h' v o H Hv k. cbn [snd]. destruct (Nat.eq_dec k v) as [->|N].
  - rewrite get_put_same. split; [exists o; reflexivity|auto].
  - rewrite get_put_other by exact N. apply H.
Qed.
Lemma scope_new : forall live h s h' v o, scope live (h, s) -> scope (v :: live) (h', put v o s).
Proof.
  intros live h s h' v o H k. cbn [snd In]. destruct (Nat.eq_dec k v) as [->|N].
  - rewrite get_put_same. split; [exists o; reflexivity|auto].
  - rewrite get_put_other by exact N. rewrite <- (H k). split; [intros [E|E]; [congruence|exact E]|auto].
Qed.
Lemma scope_none : forall live h s v, scope live (h, s) -> ~ In v live -> get v s = None.
Proof.
  intros live h s v H N. destruct (get v s) as [o|] eqn:E; [|reflexivity]. exfalso. apply N. apply H. exists o. exact E.
Qed.
Lemma scope_some : forall live h s v, scope live (h, s) -> In v live -> exists o, get v s = Some o.
Proof. intros live h s v H N. apply H in N. exact N. Qed.

Lemma upd_same : forall v x e, upd v x e v = x.
Proof. intros. unfold upd. rewrite Nat.eqb_refl. reflexivity. Qed.
Lemma upd_other : forall v x e k, k <> v -> upd v x e k = e k.
Proof. intros v x e k N. unfold upd. destruct (Nat.eqb_spec k v); [contradiction|reflexivity]. Qed.

(** What a step has to establish. *)
Definition good (o : op) (live : list nat) (w w' : world) : Prop :=
  inv w' /\ scope (after live o) w' /\ forall k, value k w' = vstep o (fun k => value k w) k.

Lemma one_var : forall v x (w w' : world), value v w' = x -> (forall k, k <> v -> value k w' = value k w) ->
  forall k, value k w' = upd v x (fun k => value k w) k.
Proof.
  intros v x w w' H1 H2 k. destruct (Nat.eq_dec k v) as [->|N]; [rewrite upd_same; exact H1|].
  rewrite upd_other by exact N. apply H2. exact N.
Qed.

Lemma construct_ok : forall v ini fin Ex twoJ par live h s, inv (h, s) -> scope live (h, s) -> ~ In v live ->
  exists w', construct alloc v ini fin Ex twoJ par (h, s) = Ok w' /\ inv w' /\ scope (v :: live) w' /\
    forall k, value k w' = upd v (Some (mke ini fin Ex twoJ par)) (fun k => value k (h, s)) k.
Proof.
  intros v ini fin Ex twoJ par live h s Hi Hs Hv. pose proof (scope_none _ _ _ _ Hs Hv) as Hn.
  destruct (fill_obj h s v ini fin Ex twoJ par Hi (or_introl (del_held_absent v s Hn)))
    as (li & h1 & lf & h2 & E1 & E2 & (E3 & E4 & E5) & _).
  unfold construct, undeclared. rewrite Hn. cbn [bind]. rewrite E1, E2. eexists. split; [reflexivity|].
  split; [exact E3|]. split; [eapply scope_new; exact Hs|]. apply one_var; assumption.
Qed.

Lemma copy_ctor_ok : forall v o live h s, inv (h, s) -> scope live (h, s) -> ~ In v live -> In o live ->
  exists w', copy_ctor alloc v o (h, s) = Ok w' /\ good (CopyCtor v o) live (h, s) w'.
Proof.
  intros v o live h s Hi Hs Hv Ho. pose proof (scope_none _ _ _ _ Hs Hv) as Hn.
  destruct (scope_some _ _ _ _ Hs Ho) as [oo Eo].
  destruct (inv_reads h s o oo Hi Eo) as (i & f & R1 & R2 & R3).
  destruct (fill_obj h s v i f (o_Ex oo) (o_twoJ oo) (o_par oo) Hi (or_introl (del_held_absent v s Hn)))
    as (li & h1 & lf & h2 & E1 & E2 & (E3 & E4 & E5) & E6).
  unfold copy_ctor, undeclared, var. rewrite Hn, Eo. cbn [bind]. rewrite (copy_all_new _ _ _ R1), E1. cbn [bind].
  rewrite (copy_all_new (o_fin oo) f h1).
  - rewrite E2. cbn [bind]. eexists. split; [reflexivity|]. split; [exact E3|]. split; [eapply scope_new; exact Hs|].
    cbn [vstep]. rewrite R3. apply one_var; assumption.
  - rewrite <- R2. apply read_frame. intros a Ha. apply E6. eapply inv_in_heap; [exact Hi|exact Eo|].
    apply in_or_app. right. exact Ha.
Qed.

Lemma move_ctor_ok : forall v o live h s, inv (h, s) -> scope live (h, s) -> ~ In v live -> In o live ->
  exists w', move_ctor v o (h, s) = Ok w' /\ good (MoveCtor v o) live (h, s) w'.
Proof.
  intros v o live h s Hi Hs Hv Ho. pose proof (scope_none _ _ _ _ Hs Hv) as Hn.
  destruct (scope_some _ _ _ _ Hs Ho) as [oo Eo].
  assert (N : v <> o) by congruence.
  destruct (inv_reads h s o oo Hi Eo) as (i & f & R1 & R2 & R3).
  unfold move_ctor, undeclared, var. rewrite Hn, Eo. cbn [bind]. eexists. split; [reflexivity|].
  set (e := mko [] [] dbl_zero (o_twoJ oo) (o_par oo)).
  assert (HI : inv (h, put v oo (put o e s))).
  { apply (rearranged h s); [exact Hi|apply put_nodup, put_nodup; apply Hi|].
    eapply Permutation_trans; [apply (held_focus o s oo); [apply Hi|exact Eo]|].
    change (put v oo (put o e s)) with ((v, oo) :: del v (put o e s)).
    rewrite (del_absent v (put o e s)) by (rewrite get_put_other by exact N; exact Hn). reflexivity. }
  split; [exact HI|]. split; [apply (scope_new live h); apply (scope_put live h s); [exact Hs|exact Ho]|].
  intros k. cbn [vstep]. destruct (Nat.eq_dec k v) as [->|Nv].
  - rewrite upd_same, R3. unfold value. cbn [fst snd]. rewrite get_put_same, R1, R2. reflexivity.
  - rewrite upd_other by exact Nv. destruct (Nat.eq_dec k o) as [->|No].
    + rewrite upd_same, R3. unfold value. cbn [fst snd]. rewrite get_put_other by congruence. rewrite get_put_same.
      reflexivity.
    + rewrite upd_other by exact No. apply value_frame; [|auto].
      rewrite !get_put_other by assumption. reflexivity.
Qed.

Lemma copy_assign_ok : forall v o live h s, inv (h, s) -> scope live (h, s) -> In v live -> In o live ->
  exists w', copy_assign alloc v o (h, s) = Ok w' /\ good (CopyAssign v o) live (h, s) w'.
Proof.
  intros v o live h s Hi Hs Hv Ho. destruct (scope_some _ _ _ _ Hs Ho) as [oo Eo].
  destruct (scope_some _ _ _ _ Hs Hv) as [ov Ev].
  unfold copy_assign, var at 1 2. rewrite Ev, Eo. cbn [bind]. cbv zeta.
  set (t := mko (o_init ov) (o_fin ov) (o_Ex oo) (o_twoJ oo) (o_par oo)).
  assert (Hi' : inv (h, put v t s)).
  { apply (rearranged h s); [exact Hi|apply put_nodup; apply Hi|]. apply (held_focus v s ov); [apply Hi|exact Ev]. }
  destruct (delete_particles_ok h (put v t s) v t Hi' (get_put_same _ _ _)) as (h' & D1 & D2 & D3 & D4).
  rewrite D1. cbn [bind o_Ex o_twoJ o_par t]. rewrite del_put in D3, D4. rewrite put_put.
  set (e := mko [] [] (o_Ex oo) (o_twoJ oo) (o_par oo)).
  destruct (emptied h s v ov h' (o_Ex oo) (o_twoJ oo) (o_par oo) Hi Ev D2 D3 D4) as (F1 & F2 & F3).
  fold e in F1, F2, F3. unfold good. cbn [vstep]. destruct (Nat.eqb_spec v o) as [<-|N].
  - unfold var. rewrite get_put_same. cbn [bind o_init o_fin e copy_all o_Ex o_twoJ o_par]. rewrite put_put. fold e.
    replace oo with ov in * by congruence.
    eexists. split; [reflexivity|]. split; [exact F1|]. split; [eapply scope_put; eassumption|].
    destruct (inv_reads h s v ov Hi Ev) as (i & f & _ & _ & R3). rewrite R3. apply one_var; assumption.
  - unfold var at 1. rewrite get_put_other by congruence. rewrite Eo. cbn [bind].
    assert (Eo' : get o (put v e s) = Some oo) by (rewrite get_put_other by congruence; exact Eo).
    destruct (inv_reads h s o oo Hi Eo) as (i & f & _ & _ & R3).
    destruct (inv_reads h' (put v e s) o oo F1 Eo') as (i' & f' & R1' & R2' & R3').
    assert (Hvv : Some (mke i' f' (o_Ex oo) (o_twoJ oo) (o_par oo)) = value o (h, s))
      by (rewrite <- R3'; apply F3; congruence).
    destruct (fill_obj h' (put v e s) v i' f' (o_Ex oo) (o_twoJ oo) (o_par oo) F1)
      as (li & h1 & lf & h2 & E1 & E2 & (E3 & E4 & E5) & E6).
    { left. rewrite del_put. reflexivity. }
    rewrite (copy_all_new _ _ _ R1'), E1. cbn [bind].
    rewrite (copy_all_new (o_fin oo) f' h1).
    + rewrite E2. cbn [bind]. unfold var. rewrite get_put_same. cbn [bind e o_Ex o_twoJ o_par].
      eexists. split; [reflexivity|]. split; [exact E3|].
      split; [rewrite put_put; apply (scope_put live h); assumption|].
      rewrite <- Hvv. intros k. destruct (Nat.eq_dec k v) as [->|Nk]; [rewrite upd_same; exact E4|].
      rewrite upd_other by exact Nk. etransitivity; [apply E5; exact Nk|]. apply F3. exact Nk.
    + rewrite <- R2'. apply read_frame. intros a Ha. apply E6. eapply inv_in_heap; [exact F1|exact Eo'|].
      apply in_or_app. right. exact Ha.
Qed.

Lemma move_assign_ok : forall v o live h s, inv (h, s) -> scope live (h, s) -> In v live -> In o live ->
  exists w', move_assign v o (h, s) = Ok w' /\ good (MoveAssign v o) live (h, s) w'.
Proof.
  intros v o live h s Hi Hs Hv Ho. destruct (scope_some _ _ _ _ Hs Ho) as [oo Eo].
  destruct (scope_some _ _ _ _ Hs Hv) as [ov Ev].
  unfold move_assign, good. cbn [vstep]. unfold var at 1 2. rewrite Ev, Eo. cbn [bind]. cbv zeta.
  set (t := mko (o_init ov) (o_fin ov) (o_Ex oo) (o_twoJ oo) (o_par oo)).
  destruct (Nat.eqb_spec v o) as [<-|N].
  - unfold var at 1. rewrite get_put_same. cbn [bind t o_init o_fin]. rewrite put_put.
    set (t2 := mko (o_init ov) (o_fin ov) dbl_zero 0%Z true).
    assert (Hi' : inv (h, put v t2 s)).
    { apply (rearranged h s); [exact Hi|apply put_nodup; apply Hi|]. apply (held_focus v s ov); [apply Hi|exact Ev]. }
    destruct (delete_particles_ok h (put v t2 s) v t2 Hi' (get_put_same _ _ _)) as (h' & D1 & D2 & D3 & D4).
    rewrite D1. cbn [bind]. unfold var. rewrite get_put_same. cbn [bind]. rewrite get_put_same.
    cbn [bind o_init o_fin o_Ex o_twoJ o_par t2]. rewrite !put_put. rewrite del_put in D3, D4.
    destruct (emptied h s v ov h' dbl_zero 0%Z true Hi Ev D2 D3 D4) as (F1 & F2 & F3).
    eexists. split; [reflexivity|]. split; [exact F1|]. split; [eapply scope_put; eassumption|].
    apply one_var; assumption.
  - unfold var at 1. rewrite get_put_other by congruence. rewrite Eo. cbn [bind].
    set (u := mko (o_init oo) (o_fin oo) dbl_zero 0%Z true).
    set (s1 := put o u (put v t s)).
    assert (G1 : get v s1 = Some t).
    { unfold s1. rewrite get_put_other by congruence. apply get_put_same. }
    assert (Hi' : inv (h, s1)).
    { apply (rearranged h (put v t s)).
      - apply (rearranged h s); [exact Hi|apply put_nodup; apply Hi|]. apply (held_focus v s ov); [apply Hi|exact Ev].
      - apply put_nodup, put_nodup. apply Hi.
      - apply (held_focus o (put v t s) oo); [apply put_nodup; apply Hi|].
        rewrite get_put_other by congruence. exact Eo. }
    destruct (delete_particles_ok h s1 v t Hi' G1) as (h' & D1 & D2 & D3 & D4).
    rewrite D1. cbn [bind]. unfold var. rewrite get_put_other by congruence. unfold s1 at 1. rewrite get_put_same.
    cbn [bind]. rewrite get_put_same. cbn [bind o_Ex o_twoJ o_par t]. rewrite get_put_other by congruence.
    rewrite get_put_other by congruence. unfold s1 at 1. rewrite get_put_same. cbn [bind u o_init o_fin o_Ex o_twoJ o_par].
    rewrite put_put. set (t' := mko (o_init oo) (o_fin oo) (o_Ex oo) (o_twoJ oo) (o_par oo)).
    set (e := mko [] [] dbl_zero 0%Z true).
    destruct (emptied h s1 v t h' (o_Ex oo) (o_twoJ oo) (o_par oo) Hi' G1 D2 D3 D4) as (F1 & F2 & F3).
    set (m := mko [] [] (o_Ex oo) (o_twoJ oo) (o_par oo)) in *.
    destruct (inv_reads h s o oo Hi Eo) as (i & f & R1 & R2 & R3).
    assert (G2 : get o (put v m s1) = Some u).
    { rewrite get_put_other by congruence. unfold s1. apply get_put_same. }
    assert (HI : inv (h', put o e (put v t' s1))).
    { apply (rearranged h' (put v m s1)); [exact F1|apply put_nodup, put_nodup; apply Hi'|].
      eapply Permutation_trans; [apply (held_focus o (put v m s1) u); [apply F1|exact G2]|].
      assert (G3 : get v (put o e (put v t' s1)) = Some t').
      { rewrite get_put_other by congruence. apply get_put_same. }
      eapply Permutation_trans; [|apply Permutation_sym, (held_focus v (put o e (put v t' s1)) t');
        [apply put_nodup, put_nodup; apply Hi'|exact G3]].
      replace (held t') with (held u) by reflexivity. apply Permutation_app_head.
      change (put v m s1) with ((v, m) :: del v s1).
      change (put o e (put v t' s1)) with ((o, e) :: del o (put v t' s1)).
      cbn [del]. destruct (Nat.eqb_spec o v); [congruence|]. destruct (Nat.eqb_spec v o); [congruence|].
      change (all_held ((v, m) :: del o (del v s1))) with (all_held (del o (del v s1))).
      change (all_held ((o, e) :: del v (del o (put v t' s1)))) with (all_held (del v (del o (put v t' s1)))).
      assert (HC : forall A (l : list (nat * A)), del v (del o l) = del o (del v l)).
      { intros A l. induction l as [|[k x] l IH]; [reflexivity|]. cbn [del].
        destruct (Nat.eqb o k) eqn:E1, (Nat.eqb v k) eqn:E2; cbn [del]; rewrite ?E1, ?E2, ?IH; reflexivity. }
      rewrite HC, del_put. reflexivity. }
    eexists. split; [reflexivity|]. split; [exact HI|]. split.
    { apply (scope_put live h); [|exact Ho]. apply (scope_put live h); [|exact Hv]. apply (scope_put live h); [|exact Ho].
      apply (scope_put live h); [exact Hs|exact Hv]. }
    intros k. destruct (Nat.eq_dec k o) as [->|Nk].
    + rewrite upd_same. unfold value. cbn [fst snd]. rewrite get_put_same. reflexivity.
    + rewrite upd_other by exact Nk. destruct (Nat.eq_dec k v) as [->|Nv].
      * rewrite upd_same. rewrite R3. unfold value. cbn [fst snd].
        rewrite get_put_other by congruence. rewrite get_put_same. cbn [t' o_init o_fin o_Ex o_twoJ o_par].
        assert (HF : forall a, In a (held oo) -> get a h' = get a h).
        { intros a Ha. apply D4. apply (held_get o _ u); [|exact Ha].
          rewrite get_del_other by congruence. unfold s1. apply get_put_same. }
        rewrite (read_frame (o_init oo) h h'), (read_frame (o_fin oo) h h'), R1, R2; [reflexivity| |];
          intros a Ha; apply HF; apply in_or_app; auto.
      * rewrite upd_other by exact Nv. etransitivity; [|etransitivity; [apply (F3 k Nv)|]].
        -- apply value_frame; [|auto]. rewrite !get_put_other by assumption. reflexivity.
        -- apply value_frame; [|auto]. unfold s1. rewrite !get_put_other by assumption. reflexivity.
Qed.

Lemma add_ok : forall v p live h s (isinit : bool), inv (h, s) -> scope live (h, s) -> In v live ->
  exists w', (if isinit then add_initial alloc v p (h, s) else add_final alloc v p (h, s)) = Ok w' /\
    good (if isinit then AddInitial v p else AddFinal v p) live (h, s) w'.
Proof.
  intros v p live h s isinit Hi Hs Hv. destruct (scope_some _ _ _ _ Hs Hv) as [o Ev].
  destruct (inv_reads h s v o Hi Ev) as (i & f & R1 & R2 & R3).
  destruct (new_all_ok [p] h (proj1 (proj2 Hi))) as (l & h' & E1 & E2 & E3 & E4 & E5).
  cbn [new_all] in E1. unfold new_particle in E1. injection E1 as <- <-. set (a := alloc h) in *.
  assert (HF : forall x, In x (held o) -> get x ((a, p) :: h) = get x h).
  { intros x Hx. apply E5. eapply inv_in_heap; eassumption. }
  assert (R1' : read_all_ptrs (o_init o) ((a, p) :: h) = Some i).
  { rewrite <- R1. apply read_frame. intros x Hx. apply HF. apply in_or_app; auto. }
  assert (R2' : read_all_ptrs (o_fin o) ((a, p) :: h) = Some f).
  { rewrite <- R2. apply read_frame. intros x Hx. apply HF. apply in_or_app; auto. }
  assert (HP : Permutation (map fst ((a, p) :: h)) ((a :: held o) ++ all_held (del v s))).
  { cbn [map fst app]. constructor. eapply Permutation_trans; [apply Hi|]. apply held_focus; [apply Hi|exact Ev]. }
  assert (HD : forall x, In x (all_held (del v s)) -> get x ((a, p) :: h) = get x h).
  { intros x Hx. apply E5. eapply Permutation_in; [apply Permutation_sym; apply Hi|].
    eapply Permutation_in; [apply Permutation_sym, (held_focus v s o); [apply Hi|exact Ev]|].
    apply in_or_app. right. exact Hx. }
  assert (RR : forall o' ev, Permutation (a :: held o) (held o') ->
    value v ((a, p) :: h, put v o' s) = Some ev ->
    let w' := ((a, p) :: h, put v o' s) in
    inv w' /\ scope live w' /\ forall k, value k w' = upd v (Some ev) (fun k => value k (h, s)) k).
  { intros o' ev Hperm Hval. cbv zeta. destruct (replace_obj h s ((a, p) :: h) v o' Hi E2) as [J1 J2].
    - eapply Permutation_trans; [exact HP|]. apply Permutation_app_tail. exact Hperm.
    - exact HD.
    - split; [exact J1|]. split; [eapply scope_put; eassumption|]. apply one_var; assumption. }
  unfold add_initial, add_final, var, new_particle. rewrite Ev. cbn [bind]. fold a.
  unfold good. destruct isinit; (eexists; split; [reflexivity|]); cbn [vstep after]; rewrite R3; cbn [option_map e_init e_fin e_Ex e_twoJ e_par];
    apply RR.
  - unfold held. cbn [o_init o_fin]. rewrite <- app_assoc. apply Permutation_middle.
  - unfold value. cbn [fst snd]. rewrite get_put_same. cbn [o_init o_fin o_Ex o_twoJ o_par].
    rewrite (read_app _ _ _ _ _ R1' E4), R2'. reflexivity.
  - unfold held. cbn [o_init o_fin]. rewrite app_assoc. apply Permutation_cons_append.
  - unfold value. cbn [fst snd]. rewrite get_put_same. cbn [o_init o_fin o_Ex o_twoJ o_par].
    rewrite (read_app _ _ _ _ _ R2' E4), R1'. reflexivity.
Qed.

Lemma read_nth : forall l h ps i, read_all_ptrs l h = Some ps ->
  match nth_error l i, nth_error ps i with
  | Some a, Some p => get a h = Some p
  | None, None => True
  | _, _ => False
  end.
Proof.
  induction l as [|a l IH]; intros h ps i H; cbn [read_all_ptrs] in H.
  - injection H as <-. destruct i; exact I.
  - destruct (get a h) as [p|] eqn:E; [|discriminate H]. destruct (read_all_ptrs l h) as [q|] eqn:E2; [|discriminate H].
    injection H as <-. destruct i as [|i]; cbn [nth_error]; [exact E|]. apply IH. exact E2.
Qed.

(** The result of a step, exceptions caught. *)
Definition outcome (o : op) (live : list nat) (w : world) (r : res world) : Prop :=
  (exists w', r = Ok w' /\ good o live w w') \/ (r = Er StdRange /\ good o live w w).

Lemma add_final_of_ok : forall v o i live h s, inv (h, s) -> scope live (h, s) -> In v live -> In o live ->
  outcome (AddFinalOf v o i) live (h, s) (add_final_of alloc v o i (h, s)).
Proof.
  intros v o i live h s Hi Hs Hv Ho. destruct (scope_some _ _ _ _ Hs Ho) as [oo Eo].
  destruct (scope_some _ _ _ _ Hs Hv) as [ov Ev]. destruct (inv_reads h s o oo Hi Eo) as (ii & f & R1 & R2 & R3).
  unfold add_final_of, var. cbn [snd fst]. rewrite Ev, Eo. cbn [bind]. unfold at_ptr.
  pose proof (read_nth (o_fin oo) h f i R2) as Hn.
  destruct (nth_error (o_fin oo) i) as [a|], (nth_error f i) as [p|] eqn:En; try contradiction.
  - cbn [bind]. unfold deref. rewrite Hn. cbn [bind].
    destruct (add_ok v p live h s false Hi Hs Hv) as (w' & E1 & E2 & E3 & E4). left. exists w'. split; [exact E1|].
    split; [exact E2|]. split; [exact E3|]. intros k. rewrite E4. cbn [vstep]. rewrite R3. cbn [e_fin]. rewrite En. reflexivity.
  - right. split; [reflexivity|]. split; [exact Hi|]. split; [exact Hs|]. intros k. cbn [vstep]. rewrite R3. cbn [e_fin].
    rewrite En. reflexivity.
Qed.

Lemma store_frame : forall (h : heap) a p x, x <> a -> get x (put a p h) = get x h.
Proof. intros. apply get_put_other. assumption. Qed.

Lemma replace_nth_read : forall l h i a p ps, NoDup l -> nth_error l i = Some a -> read_all_ptrs l h = Some ps ->
  read_all_ptrs l (put a p h) = Some (replace_nth i p ps).
Proof.
  induction l as [|x l IH]; intros h i a p ps ND Hn Hr; [destruct i; discriminate Hn|]. inversion ND; subst.
  cbn [read_all_ptrs] in Hr |- *. destruct (get x h) as [q|] eqn:Ex; [|discriminate Hr].
  destruct (read_all_ptrs l h) as [r|] eqn:El; [|discriminate Hr]. injection Hr as <-.
  destruct i as [|i]; cbn [nth_error] in Hn.
  - injection Hn as ->. rewrite get_put_same. rewrite (read_frame l h (put a p h)), El; [reflexivity|].
    intros y Hy. apply store_frame. congruence.
  - rewrite store_frame, Ex, (IH h i a p r H2 Hn El); [reflexivity|].
    intros ->. apply H1. eapply nth_error_In. exact Hn.
Qed.

Lemma replace_nth_beyond : forall ps i p, nth_error ps i = None -> replace_nth i p ps = ps.
Proof.
  induction ps as [|x ps IH]; intros i p H; [destruct i; reflexivity|]. destruct i as [|i]; [discriminate H|].
  cbn [replace_nth]. rewrite IH by exact H. reflexivity.
Qed.

Lemma event_eta : forall ev, mke (e_init ev) (e_fin ev) (e_Ex ev) (e_twoJ ev) (e_par ev) = ev.
Proof. intros []. reflexivity. Qed.

Lemma nodup_held : forall h s v o, inv (h, s) -> get v s = Some o ->
  NoDup (held o) /\ forall a, In a (held o) -> ~ In a (all_held (del v s)).
Proof.
  intros h s v o (I1 & I2 & I3) Ho. cbn [fst snd] in *.
  assert (ND : NoDup (held o ++ all_held (del v s))).
  { eapply Permutation_NoDup; [|exact I2]. eapply Permutation_trans; [exact I3|]. apply held_focus; assumption. }
  revert ND. generalize (held o), (all_held (del v s)). clear. induction l as [|x l IH]; intros l' H.
  - split; [constructor|intros a []].
  - cbn [app] in H. inversion H; subst. destruct (IH l' H3) as [J1 J2]. rewrite in_app_iff in H2. split.
    + constructor; tauto.
    + intros a [->|Ha]; [tauto|]. apply J2. exact Ha.
Qed.

Lemma put_keys {A} : forall k (x : A) l, NoDup (map fst l) -> In k (map fst l) -> Permutation (map fst (put k x l)) (map fst l).
Proof.
  intros k x l ND H. apply get_in in H as [y H]. unfold put. cbn [map fst]. apply Permutation_sym.
  apply (Permutation_map fst (del_perm k l y ND H)).
Qed.

Lemma set_ok : forall v i p live h s (isinit : bool), inv (h, s) -> scope live (h, s) -> In v live ->
  let o := if isinit then SetInitial v i p else SetFinal v i p in
  outcome o live (h, s) (step alloc o (h, s)).
Proof.
  intros v i p live h s isinit Hi Hs Hv. cbv zeta. destruct (scope_some _ _ _ _ Hs Hv) as [o Ev].
  destruct (inv_reads h s v o Hi Ev) as (ii & f & R1 & R2 & R3).
  destruct (nodup_held h s v o Hi Ev) as [ND1 ND2].
  assert (NDi : NoDup (o_init o) /\ NoDup (o_fin o) /\ forall a, In a (o_init o) -> ~ In a (o_fin o)).
  { unfold held in ND1. revert ND1. generalize (o_init o), (o_fin o). clear. induction l as [|x l IH]; intros l' H.
    - split; [constructor|]. split; [exact H|intros a []].
    - cbn [app] in H. inversion H; subst. destruct (IH l' H3) as (J1 & J2 & J3). rewrite in_app_iff in H2.
      split; [constructor; tauto|]. split; [exact J2|]. intros a [->|Ha]; [tauto|]. apply J3. exact Ha. }
  destruct NDi as (NDi & NDf & NDx).
  assert (ST : forall a ev, In a (held o) -> value v (put a p h, s) = Some ev ->
     let w' := (put a p h, s) in
     (exists q, get a h = Some q) /\ inv w' /\ scope live w' /\
     forall k, value k w' = upd v (Some ev) (fun k => value k (h, s)) k).
  { intros a ev Ha Hval. cbv zeta. assert (Hin : In a (map fst h)) by (eapply inv_in_heap; eassumption).
    split; [apply get_in; exact Hin|]. split.
    - destruct Hi as (I1 & I2 & I3). split; [exact I1|]. split; [apply put_nodup; exact I2|].
      eapply Permutation_trans; [apply put_keys; assumption|exact I3].
    - split; [exact Hs|]. apply one_var; [exact Hval|]. intros k Nk. apply value_frame; [reflexivity|].
      intros o' x Ho' Hx. apply store_frame. intros ->. apply (ND2 a Ha). apply (held_get k _ o'); [|exact Hx].
      rewrite get_del_other by exact Nk. exact Ho'. }
  unfold outcome, good. destruct isinit; cbn [step vstep after]; unfold set_initial, set_final, var; cbn [fst snd];
    rewrite Ev, R3; cbn [bind option_map e_init e_fin e_Ex e_twoJ e_par]; unfold at_ptr.
  - pose proof (read_nth _ _ _ i R1) as Hn.
    destruct (nth_error (o_init o) i) as [a|] eqn:Ea, (nth_error ii i) as [q|] eqn:Eq; try contradiction.
    + left. cbn [bind]. unfold store, deref. rewrite Hn. cbn [bind]. eexists. split; [reflexivity|].
      assert (Hain : In a (o_init o)) by (eapply nth_error_In; exact Ea).
      apply (ST a).
      * apply in_or_app. auto.
      * unfold value. cbn [fst snd]. rewrite Ev, (replace_nth_read _ _ _ _ p _ NDi Ea R1).
        rewrite (read_frame (o_fin o) h), R2; [reflexivity|]. intros x Hx. apply store_frame. intros ->.
        apply (NDx a Hain Hx).
    + right. split; [reflexivity|]. split; [exact Hi|]. split; [exact Hs|]. rewrite replace_nth_beyond by exact Eq.
      apply one_var; [exact R3|reflexivity].
  - pose proof (read_nth _ _ _ i R2) as Hn.
    destruct (nth_error (o_fin o) i) as [a|] eqn:Ea, (nth_error f i) as [q|] eqn:Eq; try contradiction.
    + left. cbn [bind]. unfold store, deref. rewrite Hn. cbn [bind]. eexists. split; [reflexivity|].
      assert (Hain : In a (o_fin o)) by (eapply nth_error_In; exact Ea).
      apply (ST a).
      * apply in_or_app. auto.
      * unfold value. cbn [fst snd]. rewrite Ev, (replace_nth_read _ _ _ _ p _ NDf Ea R2).
        rewrite (read_frame (o_init o) h), R1; [reflexivity|]. intros x Hx. apply store_frame. intros ->.
        apply (NDx a Hx Hain).
    + right. split; [reflexivity|]. split; [exact Hi|]. split; [exact Hs|]. rewrite replace_nth_beyond by exact Eq.
      apply one_var; [exact R3|reflexivity].
Qed.

Lemma clear_ok : forall v live h s, inv (h, s) -> scope live (h, s) -> In v live ->
  exists w', clear_event v (h, s) = Ok w' /\ good (Clear v) live (h, s) w'.
Proof.
  intros v live h s Hi Hs Hv. destruct (scope_some _ _ _ _ Hs Hv) as [o Ev].
  destruct (delete_particles_ok h s v o Hi Ev) as (h' & D1 & D2 & D3 & D4).
  unfold clear_event. rewrite D1. cbn [bind fst snd]. rewrite put_put.
  destruct (emptied h s v o h' dbl_zero 0%Z true Hi Ev D2 D3 D4) as (F1 & F2 & F3).
  eexists. split; [reflexivity|]. split; [exact F1|]. split; [eapply scope_put; eassumption|].
  apply one_var; assumption.
Qed.

Lemma destroy_ok : forall v live h s, inv (h, s) -> scope live (h, s) -> In v live ->
  exists w', destroy v (h, s) = Ok w' /\ good (Destroy v) live (h, s) w'.
Proof.
  intros v live h s Hi Hs Hv. destruct (scope_some _ _ _ _ Hs Hv) as [o Ev].
  destruct (delete_particles_ok h s v o Hi Ev) as (h' & D1 & D2 & D3 & D4).
  unfold destroy. rewrite D1. cbn [bind fst snd]. rewrite del_put.
  eexists. split; [reflexivity|]. split; [|split].
  - split; [apply del_nodup; apply Hi|]. split; [exact D2|exact D3].
  - intros k. cbn [after snd]. rewrite filter_In, (Hs k). cbn [snd]. destruct (Nat.eqb_spec v k) as [<-|N]; cbn [negb].
    + rewrite get_del_same. split; [intros [_ H]; discriminate H|intros [x H]; discriminate H].
    + rewrite get_del_other by congruence. tauto.
  - cbn [vstep]. apply one_var.
    + unfold value. cbn [fst snd]. rewrite get_del_same. reflexivity.
    + intros k N. apply value_frame; [apply get_del_other; exact N|]. intros o' a Ho Ha. apply D4.
      apply (held_get k _ o'); [|exact Ha]. rewrite get_del_other by exact N. exact Ho.
Qed.

Lemma step_ok : forall o live w, inv w -> scope live w -> in_scope live o -> outcome o live w (step alloc o w).
Proof.
  intros o live [h s] Hi Hs Ho.
  assert (L : forall r, (exists w', r = Ok w' /\ good o live (h, s) w') -> outcome o live (h, s) r) by (intros r H; left; exact H).
  destruct o; cbn [in_scope] in Ho.
  - apply L. destruct (construct_ok v [default_particle; default_particle] [default_particle; default_particle] Ex 0%Z true
      live h s Hi Hs Ho) as (w' & E1 & E2 & E3 & E4). exists w'. split; [exact E1|]. split; [exact E2|]. split; assumption.
  - apply L. destruct (construct_ok v [a; b] [c; d] Ex twoJ par
      live h s Hi Hs Ho) as (w' & E1 & E2 & E3 & E4). exists w'. split; [exact E1|]. split; [exact E2|]. split; assumption.
  - apply L. apply copy_ctor_ok; tauto.
  - apply L. apply move_ctor_ok; tauto.
  - apply L. apply copy_assign_ok; tauto.
  - apply L. apply move_assign_ok; tauto.
  - apply L. apply (add_ok v p live h s true); assumption.
  - apply L. apply (add_ok v p live h s false); assumption.
  - apply add_final_of_ok; tauto.
  - apply (set_ok v i p live h s true); assumption.
  - apply (set_ok v i p live h s false); assumption.
  - apply L. apply clear_ok; assumption.
  - apply L. apply destroy_ok; assumption.
Qed.

Lemma vstep_ext : forall o e e', (forall k, e k = e' k) -> forall k, vstep o e k = vstep o e' k.
Proof.
  intros o e e' H k.
  assert (U : forall v x f f', (forall k, f k = f' k) -> upd v x f k = upd v x f' k).
  { intros v x f f' Hf. unfold upd. destruct (Nat.eqb k v); [reflexivity|apply Hf]. }
  destruct o; cbn [vstep]; rewrite <- ?(H v), <- ?(H w); try (apply U; exact H).
  - apply U. intros k'. unfold upd. destruct (Nat.eqb k' w); [reflexivity|apply H].
  - destruct (Nat.eqb v w); apply U; exact H.
  - destruct (Nat.eqb v w); apply U; [exact H|]. intros k'. unfold upd. destruct (Nat.eqb k' v); [reflexivity|apply H].
  - destruct (e w) as [ew|]; [|apply H]. destruct (nth_error (e_fin ew) i); [|apply H]. apply U. exact H.
Qed.

Lemma history_ok : forall l live w, inv w -> scope live w -> scoped live l ->
  exists w', history alloc l w = Ok w' /\ inv w' /\ scope (fold_left after l live) w' /\
    forall e, (forall k, value k w = e k) -> forall k, value k w' = values l e k.
Proof.
  induction l as [|o l IH]; intros live w Hi Hs Hl.
  - exists w. split; [reflexivity|]. split; [exact Hi|]. split; [exact Hs|]. intros e H k. apply H.
  - destruct Hl as [Ho Hl]. cbn [history].
    assert (K : forall w1, good o live w w1 -> exists w', history alloc l w1 = Ok w' /\ inv w' /\
       scope (fold_left after (o :: l) live) w' /\
       forall e, (forall k, value k w = e k) -> forall k, value k w' = values (o :: l) e k).
    { intros w1 (G1 & G2 & G3). destruct (IH (after live o) w1 G1 G2 Hl) as (w' & E1 & E2 & E3 & E4).
      exists w'. split; [exact E1|]. split; [exact E2|]. split; [exact E3|]. intros e He k.
      unfold values. cbn [fold_left]. apply (E4 (vstep o e)). intros k'. rewrite G3. apply vstep_ext. exact He. }
    destruct (step_ok o live w Hi Hs Ho) as [(w1 & -> & G)|[-> G]]; apply K; exact G.
Qed.

Lemma start_ok : inv ([], []) /\ scope [] ([], []).
Proof.
  split; [split; [constructor|split; [constructor|reflexivity]]|]. intros v. cbn [In snd get].
  split; [tauto|intros [o H]; discriminate H].
Qed.
End alloc.

(** Operations that do not touch a variable do not change its value. *)
Lemma untouched : forall l e v, Forall (fun o => ~ touches o v) l -> values l e v = e v.
Proof.
  intros l. induction l as [|o l IH]; intros e v H; [reflexivity|]. inversion H; subst.
  unfold values. cbn [fold_left]. change (values l (vstep o e) v = e v). rewrite IH by assumption.
  destruct o; cbn [vstep touches] in *;
    repeat match goal with
    | |- context [Nat.eqb ?a ?b] => destruct (Nat.eqb_spec a b); subst
    | |- context [match e ?w with _ => _ end] => destruct (e w)
    | |- context [match nth_error ?a ?b with _ => _ end] => destruct (nth_error a b)
    end; rewrite ?upd_other by (intros ->; tauto); try reflexivity.
Qed.
