(** Lemmas on JSON values in memory. *)
From Coq Require Import List Ascii String ZArith Bool Lia PeanoNat.
From Coq Require Import Floats.SpecFloat.
From Verif Require Import Base Json JsonSpec JsonRtProofs JsonExtraProofs JsonHeap JsonHeapSpec.
Import ListNotations.

(** ** What a slot stands for, and the nodes it owns *)

Inductive rep (h : heap) : slot -> json -> list loc -> Prop :=
| rep_null : rep h VNull JNull []
| rep_bool v : rep h (VBool v) (JBool v) []
| rep_int z : rep h (VInt z) (JInt z) []
| rep_flt x : rep h (VFlt x) (JFlt x) []
| rep_str l s : h_at h l = Some (NStr s) -> rep h (VStr l) (JStr s) [l]
| rep_arr l vs js L : h_at h l = Some (NArr vs) -> reps h vs js L -> rep h (VArr l) (JArr js) (l :: L)
| rep_obj l kvs js L : h_at h l = Some (NObj kvs) -> sorted_keys (map fst js) -> repk h kvs js L -> rep h (VObj l) (JObj js) (l :: L)
with reps (h : heap) : list slot -> list json -> list loc -> Prop :=
| reps_nil : reps h [] [] []
| reps_cons v vs j js L1 L2 : rep h v j L1 -> reps h vs js L2 -> reps h (v :: vs) (j :: js) (L1 ++ L2)
with repk (h : heap) : list (bytes * slot) -> list (bytes * json) -> list loc -> Prop :=
| repk_nil : repk h [] [] []
| repk_cons k v vs j js L1 L2 : rep h v j L1 -> repk h vs js L2 -> repk h ((k, v) :: vs) ((k, j) :: js) (L1 ++ L2).

Scheme rep_mind := Minimality for rep Sort Prop
with reps_mind := Minimality for reps Sort Prop
with repk_mind := Minimality for repk Sort Prop.
Combined Scheme rep_mutind from rep_mind, reps_mind, repk_mind.

Lemma nodup_app {A} (l m : list A) : NoDup (l ++ m) <-> NoDup l /\ NoDup m /\ forall x, In x l -> In x m -> False.
Proof.
  induction l as [|a l IH]; cbn [app].
  - split; [intros H; split; [constructor|]; split; [exact H|intros x []]|intros (_ & H & _); exact H].
  - rewrite !NoDup_cons_iff, IH, in_app_iff. split.
    + intros (H1 & H2 & H3 & H4). split; [split; [tauto|exact H2]|]. split; [exact H3|]. intros x [<-|Hx]; [tauto|apply H4; exact Hx].
    + intros ((H1 & H2) & H3 & H4). split; [intros [K|K]; [tauto|apply (H4 a); [left; reflexivity|exact K]]|]. split; [exact H2|]. split; [exact H3|]. intros x K. apply H4. right. exact K.
Qed.

Lemma frame_all h h' :
  (forall v j L, rep h v j L -> (forall l, In l L -> h_at h' l = h_at h l) -> rep h' v j L) /\
  (forall vs js L, reps h vs js L -> (forall l, In l L -> h_at h' l = h_at h l) -> reps h' vs js L) /\
  (forall kvs js L, repk h kvs js L -> (forall l, In l L -> h_at h' l = h_at h l) -> repk h' kvs js L).
Proof.
  apply (rep_mutind h (fun v j L => (forall l, In l L -> h_at h' l = h_at h l) -> rep h' v j L)
    (fun vs js L => (forall l, In l L -> h_at h' l = h_at h l) -> reps h' vs js L) (fun kvs js L => (forall l, In l L -> h_at h' l = h_at h l) -> repk h' kvs js L)); intros; try constructor.
  - rewrite H0 by (left; reflexivity). assumption.
  - apply rep_arr with (vs := vs); [rewrite H2 by (left; reflexivity); assumption|]. apply H1. intros x Hx. apply H2. right. exact Hx.
  - apply rep_obj with (kvs := kvs); [rewrite H3 by (left; reflexivity); assumption|assumption|]. apply H2. intros x Hx. apply H3. right. exact Hx.
  - apply H0. intros x Hx. apply H3. apply in_or_app. left. exact Hx.
  - apply H2. intros x Hx. apply H3. apply in_or_app. right. exact Hx.
  - apply H0. intros x Hx. apply H3. apply in_or_app. left. exact Hx.
  - apply H2. intros x Hx. apply H3. apply in_or_app. right. exact Hx.
Qed.
Definition frame h h' := proj1 (frame_all h h').
Definition frames h h' := proj1 (proj2 (frame_all h h')).
Definition framek h h' := proj2 (proj2 (frame_all h h')).

Definition below (h : heap) (L : list loc) : Prop := forall l, In l L -> (l < h_next h)%nat.

Lemma put_same l n h : h_at (put_node l n h) l = n. Proof. cbn [put_node h_at]. rewrite Nat.eqb_refl. reflexivity. Qed.
Lemma put_other l n h l' : l <> l' -> h_at (put_node l n h) l' = h_at h l'. Proof. intros H. cbn [put_node h_at]. apply Nat.eqb_neq in H. rewrite H. reflexivity. Qed.
Lemma put_next l n h : h_next (put_node l n h) = h_next h. Proof. reflexivity. Qed.
Lemma alloc_same n h : h_at (fst (alloc n h)) (h_next h) = Some n. Proof. cbn [alloc fst h_at]. rewrite Nat.eqb_refl. reflexivity. Qed.
Lemma alloc_other n h l : l <> h_next h -> h_at (fst (alloc n h)) l = h_at h l. Proof. intros H. cbn [alloc fst h_at]. destruct (Nat.eqb_spec (h_next h) l); [congruence|reflexivity]. Qed.

Lemma short h L : NoDup L -> below h L -> (List.length L < enough h)%nat.
Proof.
  intros H B. unfold enough. assert (K : (List.length L <= List.length (seq 0 (h_next h)))%nat).
  { apply NoDup_incl_length; [exact H|]. intros l Hl. apply in_seq. specialize (B l Hl). lia. }
  rewrite seq_length in K. lia.
Qed.

(** ** Copies *)

Definition fresh_copy (h h' : heap) (L' : list loc) : Prop :=
  NoDup L' /\ (forall l, In l L' -> (h_next h <= l < h_next h')%nat) /\ (h_next h <= h_next h')%nat /\
  (forall l, (l < h_next h)%nat -> h_at h' l = h_at h l) /\ (forall l, (h_next h <= l)%nat -> h_at h' l <> None -> In l L' \/ h_at h l <> None).

Lemma fresh_refl h : fresh_copy h h [].
Proof. split; [constructor|]. split; [intros l []|]. split; [lia|]. split; [reflexivity|]. intros l _ H. right. exact H. Qed.
Lemma fresh_trans h h1 h2 L1 L2 : fresh_copy h h1 L1 -> fresh_copy h1 h2 L2 -> fresh_copy h h2 (L1 ++ L2).
Proof.
  intros (A1 & A2 & A3 & A4 & A5) (B1 & B2 & B3 & B4 & B5). split; [|split; [|split; [lia|split]]].
  - apply nodup_app. split; [exact A1|]. split; [exact B1|]. intros x H1 H2. specialize (A2 x H1). specialize (B2 x H2). lia.
  - intros l Hl. apply in_app_or in Hl as [Hl|Hl]; [specialize (A2 l Hl)|specialize (B2 l Hl)]; lia.
  - intros l Hl. rewrite B4 by lia. apply A4. exact Hl.
  - intros l Hl HN. rewrite in_app_iff. destruct (Nat.lt_ge_cases l (h_next h1)) as [K|K].
    + rewrite B4 in HN by exact K. destruct (A5 l Hl HN) as [|]; tauto.
    + destruct (B5 l K HN) as [|HN']; [tauto|]. destruct (A5 l Hl HN') as [|]; tauto.
Qed.
Lemma fresh_alloc n h : fresh_copy h (fst (alloc n h)) [h_next h].
Proof.
  split; [constructor; [intros []|constructor]|]. split; [intros l [<-|[]]; cbn [alloc fst h_next]; lia|]. split; [cbn [alloc fst h_next]; lia|]. split.
  - intros l Hl. apply alloc_other. lia.
  - intros l Hl HN. destruct (Nat.eq_dec l (h_next h)) as [->|K]; [left; left; reflexivity|]. rewrite alloc_other in HN by exact K. right. exact HN.
Qed.
Lemma fresh_perm h h' L1 L2 : fresh_copy h h' (L1 ++ L2) -> fresh_copy h h' (L2 ++ L1).
Proof.
  intros (A1 & A2 & A3 & A4 & A5). split; [apply nodup_app in A1 as (K1 & K2 & K3); apply nodup_app; split; [exact K2|]; split; [exact K1|]; intros x H1 H2; apply (K3 x); assumption|].
  split; [intros l Hl; apply A2; rewrite in_app_iff in *; tauto|]. split; [exact A3|]. split; [exact A4|]. intros l Hl HN. specialize (A5 l Hl HN). rewrite in_app_iff in *. tauto.
Qed.

Lemma copy_all h0 :
  (forall v j L, rep h0 v j L -> forall h fuel, (forall l, In l L -> h_at h l = h_at h0 l) -> below h L -> (List.length L < fuel)%nat ->
     exists h' v' L', copy fuel h v = Ok (h', v') /\ rep h' v' j L' /\ fresh_copy h h' L') /\
  (forall vs js L, reps h0 vs js L -> forall h fuel, (forall l, In l L -> h_at h l = h_at h0 l) -> below h L -> (List.length L < fuel)%nat ->
     exists h' vs' L', copy_each (copy fuel) h vs = Ok (h', vs') /\ reps h' vs' js L' /\ fresh_copy h h' L') /\
  (forall kvs js L, repk h0 kvs js L -> forall h fuel, (forall l, In l L -> h_at h l = h_at h0 l) -> below h L -> (List.length L < fuel)%nat ->
     exists h' kvs' L', copy_each (copy_snd (copy fuel)) h kvs = Ok (h', kvs') /\ repk h' kvs' js L' /\ fresh_copy h h' L').
Proof.
  apply (rep_mutind h0
    (fun v j L => forall h fuel, (forall l, In l L -> h_at h l = h_at h0 l) -> below h L -> (List.length L < fuel)%nat -> exists h' v' L', copy fuel h v = Ok (h', v') /\ rep h' v' j L' /\ fresh_copy h h' L')
    (fun vs js L => forall h fuel, (forall l, In l L -> h_at h l = h_at h0 l) -> below h L -> (List.length L < fuel)%nat -> exists h' vs' L', copy_each (copy fuel) h vs = Ok (h', vs') /\ reps h' vs' js L' /\ fresh_copy h h' L')
    (fun kvs js L => forall h fuel, (forall l, In l L -> h_at h l = h_at h0 l) -> below h L -> (List.length L < fuel)%nat -> exists h' kvs' L', copy_each (copy_snd (copy fuel)) h kvs = Ok (h', kvs') /\ repk h' kvs' js L' /\ fresh_copy h h' L')).
  - intros h [|f] A B F; [cbn [List.length] in F; lia|]. exists h, VNull, []. split; [reflexivity|]. split; [constructor|apply fresh_refl].
  - intros v h [|f] A B F; [cbn [List.length] in F; lia|]. exists h, (VBool v), []. split; [reflexivity|]. split; [constructor|apply fresh_refl].
  - intros v h [|f] A B F; [cbn [List.length] in F; lia|]. exists h, (VInt v), []. split; [reflexivity|]. split; [constructor|apply fresh_refl].
  - intros v h [|f] A B F; [cbn [List.length] in F; lia|]. exists h, (VFlt v), []. split; [reflexivity|]. split; [constructor|apply fresh_refl].
  - intros l s H h [|f] A B F; [lia|]. exists (fst (alloc (NStr s) h)), (VStr (h_next h)), [h_next h]. cbn [copy]. rewrite A by (left; reflexivity). rewrite H. split; [reflexivity|]. split; [|apply fresh_alloc].
    constructor. apply alloc_same.
  - intros l vs js L H _ IH h [|f] A B F; [lia|]. cbn [List.length] in F.
    destruct (IH h f) as (h1 & vs' & L' & E & R & FR); [intros x Hx; apply A; right; exact Hx|intros x Hx; apply B; right; exact Hx|lia|].
    exists (fst (alloc (NArr vs') h1)), (VArr (h_next h1)), (h_next h1 :: L'). cbn [copy]. rewrite A by (left; reflexivity). rewrite H, E. cbn [bind]. split; [reflexivity|]. split.
    + apply rep_arr with (vs := vs'); [apply alloc_same|]. apply (frames h1); [exact R|]. intros x Hx. apply alloc_other. destruct FR as (_ & K & _). specialize (K x Hx). lia.
    + change (h_next h1 :: L') with ([h_next h1] ++ L'). apply fresh_perm. eapply fresh_trans; [exact FR|apply fresh_alloc].
  - intros l vs js L H SK _ IH h [|f] A B F; [lia|]. cbn [List.length] in F.
    destruct (IH h f) as (h1 & vs' & L' & E & R & FR); [intros x Hx; apply A; right; exact Hx|intros x Hx; apply B; right; exact Hx|lia|].
    exists (fst (alloc (NObj vs') h1)), (VObj (h_next h1)), (h_next h1 :: L'). cbn [copy]. rewrite A by (left; reflexivity). rewrite H, E. cbn [bind]. split; [reflexivity|]. split.
    + apply rep_obj with (kvs := vs'); [apply alloc_same|exact SK|]. apply (framek h1); [exact R|]. intros x Hx. apply alloc_other. destruct FR as (_ & K & _). specialize (K x Hx). lia.
    + change (h_next h1 :: L') with ([h_next h1] ++ L'). apply fresh_perm. eapply fresh_trans; [exact FR|apply fresh_alloc].
  - intros h f A B F. exists h, [], []. split; [reflexivity|]. split; [constructor|apply fresh_refl].
  - intros v vs j js L1 L2 _ IH1 _ IH2 h f A B F. rewrite app_length in F.
    destruct (IH1 h f) as (h1 & v' & L1' & E1 & R1 & F1); [intros x Hx; apply A; apply in_or_app; left; exact Hx|intros x Hx; apply B; apply in_or_app; left; exact Hx|lia|].
    destruct F1 as (K1 & K2 & K3 & K4 & K5).
    destruct (IH2 h1 f) as (h2 & vs' & L2' & E2 & R2 & F2).
    { intros x Hx. rewrite K4 by (apply B; apply in_or_app; right; exact Hx). apply A. apply in_or_app. right. exact Hx. }
    { intros x Hx. assert (Q := B x (in_or_app _ _ _ (or_intror Hx))). lia. }
    { lia. }
    exists h2, (v' :: vs'), (L1' ++ L2'). cbn [copy_each]. rewrite E1. cbn [bind]. rewrite E2. cbn [bind]. split; [reflexivity|]. split.
    + constructor; [|exact R2]. apply (frame h1); [exact R1|]. intros x Hx. destruct F2 as (_ & _ & _ & Q & _). apply Q. specialize (K2 x Hx). lia.
    + eapply fresh_trans; [|exact F2]. split; [exact K1|]. auto.
  - intros h f A B F. exists h, [], []. split; [reflexivity|]. split; [constructor|apply fresh_refl].
  - intros k v vs j js L1 L2 _ IH1 _ IH2 h f A B F. rewrite app_length in F.
    destruct (IH1 h f) as (h1 & v' & L1' & E1 & R1 & F1); [intros x Hx; apply A; apply in_or_app; left; exact Hx|intros x Hx; apply B; apply in_or_app; left; exact Hx|lia|].
    destruct F1 as (K1 & K2 & K3 & K4 & K5).
    destruct (IH2 h1 f) as (h2 & vs' & L2' & E2 & R2 & F2).
    { intros x Hx. rewrite K4 by (apply B; apply in_or_app; right; exact Hx). apply A. apply in_or_app. right. exact Hx. }
    { intros x Hx. assert (Q := B x (in_or_app _ _ _ (or_intror Hx))). lia. }
    { lia. }
    exists h2, ((k, v') :: vs'), (L1' ++ L2'). cbn [copy_each]. unfold copy_snd at 1. cbn [snd fst]. rewrite E1. cbn [bind]. rewrite E2. cbn [bind]. split; [reflexivity|]. split.
    + constructor; [|exact R2]. apply (frame h1); [exact R1|]. intros x Hx. destruct F2 as (_ & _ & _ & Q & _). apply Q. specialize (K2 x Hx). lia.
    + eapply fresh_trans; [|exact F2]. split; [exact K1|]. auto.
Qed.

Lemma copy_ok h v j L : rep h v j L -> NoDup L -> below h L -> exists h' v' L', copy (enough h) h v = Ok (h', v') /\ rep h' v' j L' /\ fresh_copy h h' L'.
Proof. intros R N B. apply (proj1 (copy_all h) v j L R h (enough h)); [reflexivity|exact B|apply short; assumption]. Qed.

(** ** Destruction *)

Definition removed (h h' : heap) (L : list loc) : Prop :=
  h_next h' = h_next h /\ (forall l, In l L -> h_at h' l = None) /\ (forall l, ~ In l L -> h_at h' l = h_at h l).

Lemma destroy_all h0 :
  (forall v j L, rep h0 v j L -> NoDup L -> forall h fuel, (forall l, In l L -> h_at h l = h_at h0 l) -> (List.length L < fuel)%nat -> exists h', destroy fuel h v = Ok h' /\ removed h h' L) /\
  (forall vs js L, reps h0 vs js L -> NoDup L -> forall h fuel, (forall l, In l L -> h_at h l = h_at h0 l) -> (List.length L < fuel)%nat -> exists h', destroy_each (destroy fuel) h vs = Ok h' /\ removed h h' L) /\
  (forall kvs js L, repk h0 kvs js L -> NoDup L -> forall h fuel, (forall l, In l L -> h_at h l = h_at h0 l) -> (List.length L < fuel)%nat -> exists h', destroy_each (fun h kv => destroy fuel h (snd kv)) h kvs = Ok h' /\ removed h h' L).
Proof.
  assert (SELF : forall h, removed h h []) by (intros h; split; [reflexivity|]; split; [intros l []|reflexivity]).
  assert (ONE : forall h h1 l L, removed h h1 L -> removed h (put_node l None h1) (l :: L)).
  { intros h h1 l L (A & B & C). split; [exact A|]. split.
    - intros x [<-|Hx]; [apply put_same|]. destruct (Nat.eq_dec l x) as [->|K]; [apply put_same|]. rewrite put_other by exact K. apply B. exact Hx.
    - intros x Hx. cbn [In] in Hx. rewrite put_other by (intros ->; apply Hx; left; reflexivity). apply C. intros K. apply Hx. right. exact K. }
  apply (rep_mutind h0
    (fun v j L => NoDup L -> forall h fuel, (forall l, In l L -> h_at h l = h_at h0 l) -> (List.length L < fuel)%nat -> exists h', destroy fuel h v = Ok h' /\ removed h h' L)
    (fun vs js L => NoDup L -> forall h fuel, (forall l, In l L -> h_at h l = h_at h0 l) -> (List.length L < fuel)%nat -> exists h', destroy_each (destroy fuel) h vs = Ok h' /\ removed h h' L)
    (fun kvs js L => NoDup L -> forall h fuel, (forall l, In l L -> h_at h l = h_at h0 l) -> (List.length L < fuel)%nat -> exists h', destroy_each (fun h kv => destroy fuel h (snd kv)) h kvs = Ok h' /\ removed h h' L)).
  - intros N h [|f] A F; [cbn [List.length] in F; lia|]. exists h. split; [reflexivity|apply SELF].
  - intros v N h [|f] A F; [cbn [List.length] in F; lia|]. exists h. split; [reflexivity|apply SELF].
  - intros v N h [|f] A F; [cbn [List.length] in F; lia|]. exists h. split; [reflexivity|apply SELF].
  - intros v N h [|f] A F; [cbn [List.length] in F; lia|]. exists h. split; [reflexivity|apply SELF].
  - intros l s H N h [|f] A F; [lia|]. cbn [destroy]. rewrite A by (left; reflexivity). rewrite H. eexists. split; [reflexivity|]. apply ONE. apply SELF.
  - intros l vs js L H _ IH N h [|f] A F; [lia|]. cbn [List.length] in F. cbn [destroy]. rewrite A by (left; reflexivity). rewrite H. apply NoDup_cons_iff in N as [N1 N2].
    destruct (IH N2 h f) as (h1 & E & R); [intros x Hx; apply A; right; exact Hx|lia|]. rewrite E. cbn [bind]. eexists. split; [reflexivity|]. apply ONE. exact R.
  - intros l vs js L H SK _ IH N h [|f] A F; [lia|]. cbn [List.length] in F. cbn [destroy]. rewrite A by (left; reflexivity). rewrite H. apply NoDup_cons_iff in N as [N1 N2].
    destruct (IH N2 h f) as (h1 & E & R); [intros x Hx; apply A; right; exact Hx|lia|]. rewrite E. cbn [bind]. eexists. split; [reflexivity|]. apply ONE. exact R.
  - intros N h f A F. exists h. split; [reflexivity|apply SELF].
  - intros v vs j js L1 L2 _ IH1 _ IH2 N h f A F. rewrite app_length in F. apply nodup_app in N as (N1 & N2 & N3).
    destruct (IH1 N1 h f) as (h1 & E1 & R1 & R2 & R3); [intros x Hx; apply A; apply in_or_app; left; exact Hx|lia|].
    destruct (IH2 N2 h1 f) as (h2 & E2 & S1 & S2 & S3); [intros x Hx; rewrite R3 by (intros K; apply (N3 x K Hx)); apply A; apply in_or_app; right; exact Hx|lia|].
    cbn [destroy_each]. rewrite E1. cbn [bind]. exists h2. split; [exact E2|]. split; [congruence|]. split.
    + intros l Hl. destruct (in_dec Nat.eq_dec l L2) as [K|K]; [apply S2; exact K|]. rewrite S3 by exact K. apply R2. apply in_app_or in Hl as [Hl|Hl]; [exact Hl|contradiction].
    + intros l Hl. rewrite in_app_iff in Hl. rewrite S3, R3 by tauto. reflexivity.
  - intros N h f A F. exists h. split; [reflexivity|apply SELF].
  - intros k v vs j js L1 L2 _ IH1 _ IH2 N h f A F. rewrite app_length in F. apply nodup_app in N as (N1 & N2 & N3).
    destruct (IH1 N1 h f) as (h1 & E1 & R1 & R2 & R3); [intros x Hx; apply A; apply in_or_app; left; exact Hx|lia|].
    destruct (IH2 N2 h1 f) as (h2 & E2 & S1 & S2 & S3); [intros x Hx; rewrite R3 by (intros K; apply (N3 x K Hx)); apply A; apply in_or_app; right; exact Hx|lia|].
    cbn [destroy_each snd]. rewrite E1. cbn [bind]. exists h2. split; [exact E2|]. split; [congruence|]. split.
    + intros l Hl. destruct (in_dec Nat.eq_dec l L2) as [K|K]; [apply S2; exact K|]. rewrite S3 by exact K. apply R2. apply in_app_or in Hl as [Hl|Hl]; [exact Hl|contradiction].
    + intros l Hl. rewrite in_app_iff in Hl. rewrite S3, R3 by tauto. reflexivity.
Qed.

Lemma destroy_ok h v j L : rep h v j L -> NoDup L -> below h L -> exists h', destroy (enough h) h v = Ok h' /\ removed h h' L.
Proof. intros R N B. apply (proj1 (destroy_all h) v j L R N h (enough h)); [reflexivity|apply short; assumption]. Qed.

(** ** Keys and indexes *)

Lemma kget_obj k l : kget k l = obj_get k l.
Proof. induction l as [|[k' v] r IH]; cbn [kget obj_get]; [reflexivity|]. rewrite IH. reflexivity. Qed.
Lemma kset_obj k v l : kset k v l = obj_set k v l.
Proof. induction l as [|[k' v'] r IH]; cbn [kset obj_set]; [reflexivity|]. rewrite IH. reflexivity. Qed.

Lemma kset_twice {A} k (a c : A) l : kset k a (kset k c l) = kset k a l.
Proof.
  induction l as [|[k' v] r IH]; cbn [kset]; [rewrite bytes_eqb_refl; reflexivity|].
  destruct (bytes_eqb k k') eqn:E; [cbn [kset]; rewrite bytes_eqb_refl; reflexivity|].
  destruct (bytes_ltb k k') eqn:E2; cbn [kset]; [rewrite bytes_eqb_refl; reflexivity|]. rewrite E, E2, IH. reflexivity.
Qed.
Lemma kget_kset {A} k (a : A) l : kget k (kset k a l) = Some a.
Proof.
  induction l as [|[k' v] r IH]; cbn [kset kget]; [rewrite bytes_eqb_refl; reflexivity|].
  destruct (bytes_eqb k k') eqn:E; [cbn [kget]; rewrite bytes_eqb_refl; reflexivity|].
  destruct (bytes_ltb k k'); cbn [kget]; [rewrite bytes_eqb_refl; reflexivity|]. rewrite E. exact IH.
Qed.

Lemma kget_in {A} k (v : A) l : kget k l = Some v -> In k (map fst l).
Proof. induction l as [|[k' v'] r IH]; cbn [kget map fst]; [discriminate|]. destruct (bytes_eqb k k') eqn:E; [intros _; left; apply bytes_eqb_eq in E; congruence|]. intros H. right. apply IH. exact H. Qed.

Lemma kset_same {A} k (v : A) l : sorted_keys (map fst l) -> kget k l = Some v -> kset k v l = l.
Proof.
  induction l as [|[k' v'] r IH]; cbn [kget kset map fst]; [discriminate|]. intros S G. inversion S as [|? ? LT S']; subst. destruct (bytes_eqb k k') eqn:E; [apply bytes_eqb_eq in E; congruence|].
  rewrite (bytes_ltb_asym k' k); [f_equal; apply IH; assumption|]. apply LT. apply kget_in with (1 := G).
Qed.

Lemma repk_get h kvs js L k : repk h kvs js L -> sorted_keys (map fst js) ->
  match kget k kvs with
  | Some e => exists je L1 Le L2, kget k js = Some je /\ L = L1 ++ Le ++ L2 /\ rep h e je Le /\
      (forall h' e' je' Le', (forall l, In l (L1 ++ L2) -> h_at h' l = h_at h l) -> rep h' e' je' Le' -> repk h' (kset k e' kvs) (kset k je' js) (L1 ++ Le' ++ L2))
  | None => kget k js = None /\ repk h (kset k VNull kvs) (kset k JNull js) L
  end.
Proof.
  revert js L. induction kvs as [|[k' v] r IH]; intros js L H SK; inversion H; subst; cbn [kget kset].
  - split; [reflexivity|]. rewrite <- (app_nil_l (@nil loc)). repeat constructor.
  - cbn [map fst] in SK. inversion SK; subst. destruct (bytes_eqb k k') eqn:E.
    + exists j, [], L1, L2. split; [reflexivity|]. split; [reflexivity|]. split; [assumption|]. intros h' e' je' Le' A R. cbn [app].
      apply bytes_eqb_eq in E. subst k'. constructor; [exact R|]. apply (framek h); [assumption|]. exact A.
    + match goal with RK : repk h r _ _ |- _ => specialize (IH _ _ RK) end. match type of IH with ?P -> _ => assert (S' : P) by assumption; specialize (IH S') end. destruct (kget k r) as [e|] eqn:G.
      * destruct IH as (je & M1 & Me & M2 & G' & -> & R & K). exists je, (L1 ++ M1), Me, M2. split; [exact G'|]. split; [rewrite !app_assoc; reflexivity|]. split; [exact R|].
        intros h' e' je' Le' A R'. destruct (bytes_ltb k k') eqn:E2.
        -- exfalso. assert (I : In k (map fst js0)) by (apply kget_in with (1 := G')). match goal with LT : forall k2, In k2 _ -> _ |- _ => specialize (LT k I); rewrite (bytes_ltb_asym _ _ LT) in E2; discriminate E2 end.
        -- rewrite <- !app_assoc. constructor; [apply (frame h); [assumption|]; intros l Hl; apply A; rewrite !in_app_iff; tauto|]. apply K; [|exact R']. intros l Hl. apply A. rewrite in_app_iff in Hl. rewrite !in_app_iff. tauto.
      * destruct IH as [G' RK]. split; [exact G'|]. destruct (bytes_ltb k k').
        -- rewrite <- (app_nil_l (L1 ++ L2)). constructor; [constructor|]. constructor; assumption.
        -- constructor; assumption.
Qed.

Lemma reps_length h vs js L : reps h vs js L -> List.length vs = List.length js.
Proof. revert js L. induction vs as [|v r IH]; intros js L H; inversion H; subst; [reflexivity|]. cbn [List.length]. f_equal. eapply IH. eassumption. Qed.
Lemma reps_app h vs js L vs' js' L' : reps h vs js L -> reps h vs' js' L' -> reps h (vs ++ vs') (js ++ js') (L ++ L').
Proof. revert js L. induction vs as [|v r IH]; intros js L H H'; inversion H; subst; [exact H'|]. cbn [app]. rewrite <- app_assoc. constructor; [assumption|]. apply IH; assumption. Qed.
Lemma reps_nulls h n : reps h (repeat VNull n) (repeat JNull n) [].
Proof. induction n as [|n IH]; cbn [repeat]; [constructor|]. rewrite <- (app_nil_l (@nil loc)). constructor; [constructor|exact IH]. Qed.
Lemma lset_split {A} n (v : A) l : (n < List.length l)%nat -> lset n v l = firstn n l ++ v :: skipn (S n) l.
Proof. revert n. induction l as [|a l IH]; intros [|n] H; cbn [List.length] in H; [lia|lia|reflexivity|]. cbn [lset firstn app]. rewrite IH by lia. reflexivity. Qed.
Lemma reps_get h vs js L n e : reps h vs js L -> nth_error vs n = Some e ->
  exists je L1 Le L2, nth_error js n = Some je /\ L = L1 ++ Le ++ L2 /\ rep h e je Le /\
      (forall h' e' je' Le', (forall l, In l (L1 ++ L2) -> h_at h' l = h_at h l) -> rep h' e' je' Le' -> reps h' (lset n e' vs) (lset n je' js) (L1 ++ Le' ++ L2)).
Proof.
  revert js L n. induction vs as [|v r IH]; intros js L [|n] H G; try discriminate G; inversion H; subst; cbn [nth_error lset] in *.
  - injection G as <-. exists j, [], L1, L2. split; [reflexivity|]. split; [reflexivity|]. split; [assumption|]. intros h' e' je' Le' A R. cbn [app]. constructor; [exact R|]. apply (frames h); [assumption|exact A].
  - match goal with RK : reps h r _ _ |- _ => destruct (IH _ _ _ RK G) as (je & M1 & Me & M2 & G' & -> & R & K) end. exists je, (L1 ++ M1), Me, M2. split; [exact G'|]. split; [rewrite !app_assoc; reflexivity|]. split; [exact R|].
    intros h' e' je' Le' A R'. rewrite <- !app_assoc. constructor; [apply (frame h); [assumption|]; intros l Hl; apply A; rewrite !in_app_iff; tauto|]. apply K; [|exact R']. intros l Hl. apply A. rewrite in_app_iff in Hl. rewrite !in_app_iff. tauto.
Qed.

(** ** Operations on a slot *)

(** An operation may change the nodes of its slot, L, and use those of its operand, T; M is
    what its slot and its result own afterwards. *)
Definition effect (h h' : heap) (L T M : list loc) : Prop :=
  NoDup M /\ below h' M /\ (h_next h <= h_next h')%nat /\ (forall l, In l M -> In l L \/ In l T \/ (h_next h <= l)%nat) /\
  (forall l, (l < h_next h)%nat -> ~ In l L -> h_at h' l = h_at h l).
(** Nothing is lost. *)
Definition exact (h h' : heap) (L T M : list loc) : Prop :=
  (forall l, In l T -> In l M) /\ (forall l, h_at h' l <> None -> In l M \/ (~ In l L /\ h_at h l <> None)).

Definition repo (h : heap) (o : option slot) (oj : option json) (L : list loc) : Prop :=
  match o, oj with None, None => L = [] | Some v, Some j => rep h v j L | _, _ => False end.

Definition good (c : slot) (jc : json) (T : list loc) (ex : json -> Prop) (f : heap -> slot -> res (heap * slot * option slot)) (fj : json -> json) (oj : json -> option json) : Prop :=
  forall h v j L, rep h v j L -> rep h c jc T -> NoDup (L ++ T) -> below h (L ++ T) ->
  exists h' v' o L' Lo, f h v = Ok (h', v', o) /\ rep h' v' (fj j) L' /\ repo h' o (oj j) Lo /\ effect h h' L T (L' ++ Lo) /\ (ex j -> exact h h' L T (L' ++ Lo)).

(** The four parts of a change of an element inside a container. *)
Lemma change_inside h h1 h2 h3 h4 l n n' L A Le B T M :
  NoDup (L ++ T) -> below h (L ++ T) -> effect h h1 L [] (l :: A ++ Le ++ B) ->
  h2 = put_node l (Some n) h1 -> effect h2 h3 Le T M -> h4 = put_node l (Some n') h3 ->
  NoDup (Le ++ T) /\ below h2 (Le ++ T) /\ (forall x, In x T -> h_at h2 x = h_at h x) /\ (forall x, In x Le -> h_at h2 x = h_at h1 x) /\
  h_at h3 l = Some n /\ (forall x, In x (A ++ B) -> h_at h4 x = h_at h1 x) /\ (forall x, In x M -> h_at h4 x = h_at h3 x) /\
  effect h h4 L T (l :: (A ++ B) ++ M) /\
  (exact h h1 L [] (l :: A ++ Le ++ B) -> exact h2 h3 Le T M -> exact h h4 L T (l :: (A ++ B) ++ M)).
Proof.
  intros N BL (E1 & E2 & E3 & E4 & E5) -> (F1 & F2 & F3 & F4 & F5) ->. cbn [put_node h_next] in F3, F4, F5.
  apply nodup_app in N as (N1 & N2 & N3). apply NoDup_cons_iff in E1 as [K1 K2]. rewrite in_app_iff in K1. apply nodup_app in K2 as (K3 & K4 & K5). apply nodup_app in K4 as (K6 & K7 & K8).
  rewrite in_app_iff in K1.
  assert (BT : forall x, In x T -> (x < h_next h)%nat /\ ~ In x (l :: A ++ Le ++ B)).
  { intros x Hx. assert (Q := BL x (in_or_app _ _ _ (or_intror Hx))). split; [exact Q|]. intros K. destruct (E4 x K) as [K9|[[]|K9]]; [apply (N3 x K9 Hx)|lia]. }
  assert (BLE : forall x, In x Le -> (x < h_next h1)%nat) by (intros x Hx; apply E2; right; rewrite !in_app_iff; tauto).
  assert (Bl : (l < h_next h1)%nat) by (apply E2; left; reflexivity).
  assert (MX : forall x, In x M -> x <> l /\ ~ In x (A ++ B)).
  { intros x Hx. destruct (F4 x Hx) as [K|[K|K]].
    - split; [intros ->; tauto|]. rewrite in_app_iff. intros [Q|Q]; [apply (K5 x Q); apply in_or_app; left; exact K|apply (K8 x K Q)].
    - destruct (BT x K) as [_ Q]. cbn [In] in Q. rewrite !in_app_iff in Q. rewrite in_app_iff. split; [intros ->; tauto|tauto].
    - split; [lia|]. intros Q. assert (QQ : (x < h_next h1)%nat) by (apply E2; right; rewrite !in_app_iff in *; tauto). lia. }
  assert (AT3 : h_at h3 l = Some n) by (rewrite F5; [cbn [put_node h_at]; rewrite Nat.eqb_refl; reflexivity|exact Bl|tauto]).
  split.
  { apply nodup_app. split; [exact K6|]. split; [exact N2|]. intros x H1 H2. destruct (BT x H2) as [_ Q]. apply Q. right. rewrite !in_app_iff. tauto. }
  split. { intros x Hx. cbn [put_node h_next]. apply in_app_or in Hx as [Hx|Hx]; [apply BLE; exact Hx|]. destruct (BT x Hx). lia. }
  split. { intros x Hx. destruct (BT x Hx) as [Q1 Q2]. rewrite put_other by (intros ->; apply Q2; left; reflexivity). apply E5; [exact Q1|]. intros Q. apply (N3 x Q Hx). }
  split. { intros x Hx. apply put_other. intros ->. tauto. }
  split; [exact AT3|].
  split. { intros x Hx. assert (x <> l) by (intros ->; rewrite in_app_iff in Hx; tauto). rewrite put_other by congruence. rewrite F5; [apply put_other; congruence| |].
    - apply E2. right. rewrite !in_app_iff in *. tauto.
    - intros Q. rewrite in_app_iff in Hx. destruct Hx as [Hx|Hx]; [apply (K5 x Hx); apply in_or_app; left; exact Q|apply (K8 x Q Hx)]. }
  split. { intros x Hx. destruct (MX x Hx) as [Q _]. apply put_other. congruence. }
  split.
  - split; [|split; [|split; [|split]]].
    + constructor; [rewrite !in_app_iff; intros [[Q|Q]|Q]; [tauto|tauto|destruct (MX l Q) as [Q1 _]; congruence]|]. apply nodup_app. split; [|split; [exact F1|]].
      * apply nodup_app. split; [exact K3|]. split; [exact K7|]. intros x H1 H2. apply (K5 x H1). apply in_or_app. right. exact H2.
      * intros x H1 H2. destruct (MX x H2) as [_ Q]. contradiction.
    + intros x Hx. cbn [put_node h_next]. destruct Hx as [<-|Hx]; [lia|]. apply in_app_or in Hx as [Hx|Hx]; [|apply F2; exact Hx]. assert ((x < h_next h1)%nat) by (apply E2; right; rewrite !in_app_iff in *; tauto). lia.
    + cbn [put_node h_next]. lia.
    + intros x Hx. destruct Hx as [<-|Hx]; [destruct (E4 l (or_introl eq_refl)) as [Q|[[]|Q]]; tauto|]. apply in_app_or in Hx as [Hx|Hx].
      * assert (Q : In x (l :: A ++ Le ++ B)) by (right; rewrite !in_app_iff in *; tauto). destruct (E4 x Q) as [|[[]|]]; tauto.
      * destruct (F4 x Hx) as [Q|[Q|Q]]; [|tauto|right; right; lia]. assert (Q' : In x (l :: A ++ Le ++ B)) by (right; rewrite !in_app_iff in *; tauto). destruct (E4 x Q') as [|[[]|]]; tauto.
    + intros x H1 H2. assert (Q : ~ In x (l :: A ++ Le ++ B)). { intros Q. destruct (E4 x Q) as [|[[]|]]; [tauto|lia]. }
      cbn [In] in Q. rewrite !in_app_iff in Q. rewrite put_other by tauto. rewrite F5 by (lia || tauto). rewrite put_other by tauto. apply E5; assumption.
  - intros [X1 X2] [Y1 Y2]. split; [intros x Hx; right; apply in_or_app; right; apply Y1; exact Hx|].
    intros x Hx. destruct (Nat.eq_dec l x) as [->|NE]; [left; left; reflexivity|]. rewrite put_other in Hx by exact NE.
    destruct (Y2 x Hx) as [Q|[Q1 Q2]]; [left; right; apply in_or_app; right; exact Q|]. rewrite put_other in Q2 by exact NE.
    destruct (X2 x Q2) as [Q|Q]; [|right; exact Q]. left. destruct Q as [Q|Q]; [left; exact Q|]. right. rewrite !in_app_iff in *. tauto.
Qed.

Definition as_type (t : dtype) (j : json) : json :=
  match t with
  | TNull => JNull
  | TBool => JBool (match j with JBool v => v | _ => false end)
  | TInt => JInt (match j with JInt z => z | _ => 0%Z end)
  | TFlt => JFlt (match j with JFlt x => x | _ => S754_zero false end)
  | TStr => JStr (match j with JStr s => s | _ => [] end)
  | TArr => JArr (items j)
  | TObj => JObj (members j)
  end.

Lemma effect_refl h L : NoDup L -> below h L -> effect h h L [] L.
Proof. intros N B. split; [exact N|]. split; [exact B|]. split; [lia|]. split; [intros l Hl; left; exact Hl|reflexivity]. Qed.
Lemma exact_refl h L : exact h h L [] L.
Proof. split; [intros l []|]. intros l H. destruct (in_dec Nat.eq_dec l L); tauto. Qed.

Lemma set_type_ok t h v j L : rep h v j L -> NoDup L -> below h L ->
  exists h1 v1 L1, set_type t h v = Ok (h1, v1) /\ rep h1 v1 (as_type t j) L1 /\ effect h h1 L [] L1 /\ exact h h1 L [] L1.
Proof.
  intros R N B. unfold set_type. destruct (dtype_eqb t (type_of v)) eqn:E.
  - exists h, v, L. split; [reflexivity|]. split; [|split; [apply effect_refl; assumption|apply exact_refl]]. inversion R; subst; destruct t; try discriminate E; cbn [as_type members items]; try exact R.
  - destruct (destroy_ok _ _ _ _ R N B) as (h1 & D & D1 & D2 & D3). rewrite D. cbn [bind].
    assert (FL : forall v1 j1, rep h1 v1 j1 [] -> exists h2 v2 L1, Ok (h1, v1) = Ok (h2, v2) /\ rep h2 v2 j1 L1 /\ effect h h2 L [] L1 /\ exact h h2 L [] L1).
    { intros v1 j1 Q. exists h1, v1, []. split; [reflexivity|]. split; [exact Q|]. split.
      - split; [constructor|]. split; [intros l []|]. split; [lia|]. split; [intros l []|]. intros l H1 H2. apply D3. exact H2.
      - split; [intros l []|]. intros l H. right. destruct (in_dec Nat.eq_dec l L) as [K|K]; [rewrite D2 in H by exact K; congruence|]. rewrite D3 in H by exact K. split; assumption. }
    assert (AL : forall n j1 (mk : loc -> slot), rep (fst (alloc n h1)) (mk (h_next h1)) j1 [h_next h1] -> exists h2 v2 L1, (let '(h2, l) := alloc n h1 in Ok (h2, mk l)) = Ok (h2, v2) /\ rep h2 v2 j1 L1 /\ effect h h2 L [] L1 /\ exact h h2 L [] L1).
    { intros n j1 mk Q. exists (fst (alloc n h1)), (mk (h_next h1)), [h_next h1]. split; [reflexivity|]. split; [exact Q|]. split.
      - split; [constructor; [intros []|constructor]|]. split; [intros l [<-|[]]; cbn [alloc fst h_next]; lia|]. split; [cbn [alloc fst h_next]; lia|]. split; [intros l [<-|[]]; right; right; lia|].
        intros l H1 H2. rewrite alloc_other by lia. apply D3. exact H2.
      - split; [intros l []|]. intros l H. destruct (Nat.eq_dec l (h_next h1)) as [->|K]; [left; left; reflexivity|]. rewrite alloc_other in H by exact K. right.
        destruct (in_dec Nat.eq_dec l L) as [K'|K']; [rewrite D2 in H by exact K'; congruence|]. rewrite D3 in H by exact K'. split; assumption. }
    assert (J : as_type t j = match t with TNull => JNull | TBool => JBool false | TInt => JInt 0 | TFlt => JFlt (S754_zero false) | TStr => JStr [] | TArr => JArr [] | TObj => JObj [] end).
    { destruct t, R; try reflexivity; discriminate E. }
    rewrite J. destruct t.
    + apply FL. constructor.
    + apply FL. constructor.
    + apply FL. constructor.
    + apply FL. constructor.
    + apply (AL (NStr []) (JStr []) VStr). constructor. apply alloc_same.
    + apply (AL (NArr []) (JArr []) VArr). apply rep_arr with (vs := []); [apply alloc_same|constructor].
    + apply (AL (NObj []) (JObj []) VObj). apply rep_obj with (kvs := []); [apply alloc_same|constructor|constructor].
Qed.

Lemma obj_set_keys k (v : json) l : sorted_keys (map fst l) -> sorted_keys (map fst (kset k v l)).
Proof. intros H. rewrite kset_obj. apply obj_set_sorted. exact H. Qed.

Lemma effect_perm h h' L T M M' : (forall x, In x M <-> In x M') -> NoDup M' -> effect h h' L T M -> effect h h' L T M'.
Proof. intros P N (A & B & C & D & E). split; [exact N|]. split; [intros x Hx; apply B; apply P; exact Hx|]. split; [exact C|]. split; [intros x Hx; apply D; apply P; exact Hx|exact E]. Qed.
Lemma exact_perm h h' L T M M' : (forall x, In x M <-> In x M') -> exact h h' L T M -> exact h h' L T M'.
Proof. intros P (A & B). split; [intros x Hx; apply P; apply A; exact Hx|]. intros x Hx. destruct (B x Hx) as [Q|Q]; [left; apply P; exact Q|right; exact Q]. Qed.

Lemma move_inside (l : loc) A B Le Lo : NoDup (l :: (A ++ B) ++ Le ++ Lo) ->
  NoDup ((l :: A ++ Le ++ B) ++ Lo) /\ forall x, In x (l :: (A ++ B) ++ Le ++ Lo) <-> In x ((l :: A ++ Le ++ B) ++ Lo).
Proof.
  intros H. split; [|intros x; cbn [In app]; rewrite !in_app_iff; tauto]. cbn [app]. apply NoDup_cons_iff in H as [H1 H2]. apply NoDup_cons_iff. split; [rewrite !in_app_iff in *; tauto|].
  rewrite !nodup_app in H2. destruct H2 as ((X1 & X2 & X3) & (X4 & X5 & X6) & X7). rewrite !nodup_app.
  assert (X8 : forall x, In x A -> In x Le -> False) by (intros x P Q; apply (X7 x); rewrite in_app_iff; tauto).
  assert (X9 : forall x, In x A -> In x Lo -> False) by (intros x P Q; apply (X7 x); rewrite in_app_iff; tauto).
  assert (X10 : forall x, In x B -> In x Le -> False) by (intros x P Q; apply (X7 x); rewrite in_app_iff; tauto).
  assert (X11 : forall x, In x B -> In x Lo -> False) by (intros x P Q; apply (X7 x); rewrite in_app_iff; tauto).
  split; [split; [exact X1|]; split; [split; [exact X4|]; split; [exact X2|]|]|split; [exact X5|]].
  - intros x P Q. eauto.
  - intros x P Q. apply in_app_or in Q as [Q|Q]; eauto.
  - intros x P Q. rewrite !in_app_iff in P. destruct P as [P|[P|P]]; eauto.
Qed.

Lemma repo_frame h h' o oj L : repo h o oj L -> (forall l, In l L -> h_at h' l = h_at h l) -> repo h' o oj L.
Proof. unfold repo. destruct o, oj; try tauto. intros R A. apply (frame h); assumption. Qed.

Lemma modify_good c jc T ex f fj oj p : good c jc T ex f fj oj -> Forall index_ok p ->
  good c jc T (fun j => ex (reach p j)) (modify p f) (update p fj) (fun j => oj (reach p j)).
Proof.
  intros G. induction p as [|[k|i] p IH]; intros P.
  - intros h v j L R RT N B. apply (G h v j L R RT N B).
  - inversion P; subst. specialize (IH H2). intros h v j L R RT N B. cbn [modify].
    assert (NL := N). apply nodup_app in NL as (NL & _ & _). assert (BL : below h L) by (intros x Hx; apply B; apply in_or_app; left; exact Hx).
    destruct (set_type_ok TObj h v j L R NL BL) as (h1 & v1 & L1 & S1 & S2 & S3 & S4). rewrite S1. cbn [bind]. cbn [as_type] in S2. inversion S2; subst.
    match goal with HH : h_at h1 l = _ |- _ => rewrite HH end.
    set (js := members j) in *. set (kvs1 := match kget k kvs with Some _ => kvs | None => kset k VNull kvs end). set (js1 := match kget k js with Some _ => js | None => kset k JNull js end).
    assert (SJ : sorted_keys (map fst js)) by assumption.
    assert (RK : repk h1 kvs js L0) by assumption.
    assert (K1 : repk h1 kvs1 js1 L0 /\ kget k kvs1 <> None /\ sorted_keys (map fst js1)).
    { pose proof (repk_get _ _ _ _ k RK SJ) as Q. unfold kvs1, js1. destruct (kget k kvs) as [e|] eqn:GK.
      - destruct Q as (je & _ & _ & _ & -> & _). split; [exact RK|]. split; [congruence|exact SJ].
      - destruct Q as [-> Q]. split; [exact Q|]. split; [rewrite kget_kset; discriminate|apply obj_set_keys; exact SJ]. }
    destruct K1 as (RK1 & GK1 & SJ1). pose proof (repk_get _ _ _ _ k RK1 SJ1) as Q. destruct (kget k kvs1) as [e|]; [|congruence].
    destruct Q as (je & A & Le & Bb & GJ & -> & RE & BK).
    assert (JE : je = reach [Key k] j /\ forall y, kset k y js1 = kset k y js).
    { cbn [reach]. rewrite <- kget_obj. unfold js1 in *. fold js. destruct (kget k js) eqn:GJ0; [split; [congruence|reflexivity]|]. rewrite kget_kset in GJ. split; [congruence|]. intros y. apply kset_twice. }
    destruct JE as [-> KS].
    set (h2 := put_node l (Some (NObj kvs1)) h1).
    (* what change_inside says before the element is changed *)
    destruct (change_inside h h1 h2 h2 (put_node l (Some (NObj kvs1)) h2) l (NObj kvs1) (NObj kvs1) L A Le Bb T Le N B S3 eq_refl) as (C1 & C2 & C3 & C4 & _); [|reflexivity|].
    { split; [|split; [|split; [lia|split; [intros x Hx; left; exact Hx|reflexivity]]]].
      - destruct S3 as (Q & _). apply NoDup_cons_iff in Q as [_ Q]. apply nodup_app in Q as (_ & Q & _). apply nodup_app in Q as (Q & _). exact Q.
      - intros x Hx. destruct S3 as (_ & Q & _). apply Q. right. rewrite !in_app_iff. tauto. }
    destruct (IH h2 e (reach [Key k] j) Le) as (h3 & e' & o & Le' & Lo & E & RE' & RO & EF & EX); [apply (frame h1); assumption|apply (frame h); assumption|exact C1|exact C2|].
    rewrite E. cbn [bind].
    destruct (change_inside h h1 h2 h3 (put_node l (Some (NObj (kset k e' kvs1))) h3) l (NObj kvs1) (NObj (kset k e' kvs1)) L A Le Bb T (Le' ++ Lo) N B S3 eq_refl EF eq_refl) as (_ & _ & _ & _ & D5 & D6 & D7 & D8 & D9).
    rewrite D5. set (h4 := put_node l (Some (NObj (kset k e' kvs1))) h3) in *.
    destruct (move_inside l A Bb Le' Lo) as [M1 M2]; [destruct D8 as (Q & _); exact Q|].
    exists h4, (VObj l), o, (l :: A ++ Le' ++ Bb), Lo. split; [reflexivity|]. split; [|split; [|split]].
    + cbn [update]. fold js. rewrite <- kset_obj, <- KS. apply rep_obj with (kvs := kset k e' kvs1); [apply put_same|apply obj_set_keys; exact SJ1|].
      apply BK; [exact D6|]. apply (frame h3); [exact RE'|]. intros x Hx. apply D7. apply in_or_app. left. exact Hx.
    + apply (repo_frame h3); [exact RO|]. intros x Hx. apply D7. apply in_or_app. right. exact Hx.
    + apply (effect_perm _ _ _ _ _ _ M2); [exact M1|exact D8].
    + intros X. apply (exact_perm _ _ _ _ _ _ M2). apply D9; [exact S4|]. apply EX. exact X.
  - inversion P; subst. specialize (IH H2). cbn [index_ok] in H1. intros h v j L R RT N B. cbn [modify].
    assert (NL := N). apply nodup_app in NL as (NL & _ & _). assert (BL : below h L) by (intros x Hx; apply B; apply in_or_app; left; exact Hx).
    destruct (set_type_ok TArr h v j L R NL BL) as (h1 & v1 & L1 & S1 & S2 & S3 & S4). rewrite S1. cbn [bind]. cbn [as_type] in S2. inversion S2; subst.
    match goal with HH : h_at h1 l = _ |- _ => rewrite HH end.
    set (js := items j) in *. set (n := Z.to_nat i). set (vs1 := vs ++ repeat VNull (S n - List.length vs)). set (js1 := js ++ repeat JNull (S n - List.length js)).
    assert (RK : reps h1 vs js L0) by assumption.
    assert (RK1 : reps h1 vs1 js1 L0).
    { unfold vs1, js1. rewrite <- (reps_length _ _ _ _ RK). rewrite <- (app_nil_r L0). apply reps_app; [exact RK|apply reps_nulls]. }
    match goal with |- context [bind ?X _] => assert (EQ : X = Ok (h1, vs1)) end.
    { unfold vs1. destruct (Z.leb_spec (Z.of_nat (List.length vs)) i) as [LE|LE].
      - cbv zeta. rewrite Z.mod_small by lia. destruct (Z.leb_spec (Z.of_nat (List.length vs)) (i + 1)) as [LE'|LE']; [|lia]. replace (Z.to_nat (i + 1)) with (S n) by (unfold n; lia). reflexivity.
      - replace (S n - List.length vs)%nat with 0%nat by (unfold n; lia). cbn [repeat]. rewrite app_nil_r. reflexivity. }
    rewrite EQ. cbn [bind]. fold n. destruct (nth_error vs1 n) as [e|] eqn:GE.
    2:{ apply nth_error_None in GE. unfold vs1 in GE. rewrite app_length, repeat_length in GE. lia. }
    destruct (reps_get _ _ _ _ _ _ RK1 GE) as (je & A & Le & Bb & GJ & -> & RE & BK).
    assert (JE : je = reach [Idx i] j).
    { cbn [reach]. fold js n. unfold js1 in GJ. destruct (Nat.lt_ge_cases n (List.length js)) as [LT|GT].
      - rewrite nth_error_app1 in GJ by exact LT. symmetry. apply nth_error_nth. exact GJ.
      - rewrite nth_overflow by exact GT. rewrite nth_error_app2 in GJ by exact GT. apply nth_error_In in GJ. apply repeat_spec in GJ. exact GJ. }
    subst je.
    set (h2 := put_node l (Some (NArr vs1)) h1).
    destruct (change_inside h h1 h2 h2 (put_node l (Some (NArr vs1)) h2) l (NArr vs1) (NArr vs1) L A Le Bb T Le N B S3 eq_refl) as (C1 & C2 & C3 & C4 & _); [|reflexivity|].
    { split; [|split; [|split; [lia|split; [intros x Hx; left; exact Hx|reflexivity]]]].
      - destruct S3 as (Q & _). apply NoDup_cons_iff in Q as [_ Q]. apply nodup_app in Q as (_ & Q & _). apply nodup_app in Q as (Q & _). exact Q.
      - intros x Hx. destruct S3 as (_ & Q & _). apply Q. right. rewrite !in_app_iff. tauto. }
    destruct (IH h2 e (reach [Idx i] j) Le) as (h3 & e' & o & Le' & Lo & E & RE' & RO & EF & EX); [apply (frame h1); assumption|apply (frame h); assumption|exact C1|exact C2|].
    rewrite E. cbn [bind].
    destruct (change_inside h h1 h2 h3 (put_node l (Some (NArr (lset n e' vs1))) h3) l (NArr vs1) (NArr (lset n e' vs1)) L A Le Bb T (Le' ++ Lo) N B S3 eq_refl EF eq_refl) as (_ & _ & _ & _ & D5 & D6 & D7 & D8 & D9).
    rewrite D5. set (h4 := put_node l (Some (NArr (lset n e' vs1))) h3) in *.
    destruct (move_inside l A Bb Le' Lo) as [M1 M2]; [destruct D8 as (Q & _); exact Q|].
    exists h4, (VArr l), o, (l :: A ++ Le' ++ Bb), Lo. split; [reflexivity|]. split; [|split; [|split]].
    + cbn [update]. fold n js js1. rewrite <- lset_split.
      2:{ unfold js1. rewrite app_length, repeat_length. lia. }
      apply rep_arr with (vs := lset n e' vs1); [apply put_same|].
      apply BK; [exact D6|]. apply (frame h3); [exact RE'|]. intros x Hx. apply D7. apply in_or_app. left. exact Hx.
    + apply (repo_frame h3); [exact RO|]. intros x Hx. apply D7. apply in_or_app. right. exact Hx.
    + apply (effect_perm _ _ _ _ _ _ M2); [exact M1|exact D8].
    + intros X. apply (exact_perm _ _ _ _ _ _ M2). apply D9; [exact S4|]. apply EX. exact X.
Qed.

Lemma assign_good s : good VNull JNull [] (fun _ => True) (assign_scalar s) (fun _ => scalar_value s) (fun _ => None).
Proof.
  intros h v j L R _ N B. rewrite app_nil_r in N, B. destruct s; unfold assign_scalar.
  1-3: match goal with |- context [set_type ?t _ _] => destruct (set_type_ok t h v j L R N B) as (h1 & v1 & L1 & S1 & S2 & S3 & S4); rewrite S1; cbn [bind]; inversion S2; subst end;
    do 5 eexists; split; [reflexivity|]; split; [constructor|]; split; [reflexivity|]; split; [exact S3|intros _; exact S4].
  destruct (set_type_ok TStr h v j L R N B) as (h1 & v1 & L1 & S1 & S2 & S3 & S4). rewrite S1. cbn [bind]. inversion S2; subst.
  match goal with HH : h_at h1 l = _ |- _ => rewrite HH end. destruct S3 as (X1 & X2 & X3 & X4 & X5). destruct S4 as [Y1 Y2].
  assert (l < h_next h -> In l L)%nat. { intros Q. destruct (X4 l (or_introl eq_refl)) as [|[[]|]]; [assumption|lia]. }
  exists (put_node l (Some (NStr s)) h1), (VStr l), None, [l], []. split; [reflexivity|]. split; [constructor; apply put_same|]. split; [reflexivity|]. split.
  - cbn [app]. split; [exact X1|]. split; [exact X2|]. split; [exact X3|]. split; [exact X4|]. intros x P Q. rewrite put_other by (intros ->; tauto). apply X5; assumption.
  - intros _. split; [exact Y1|]. intros x P. destruct (Nat.eq_dec l x) as [->|NE]; [left; left; reflexivity|]. rewrite put_other in P by exact NE. exact (Y2 x P).
Qed.

Lemma append_good c jc T : good c jc T (fun _ => True) (append c) (fun j => JArr (items j ++ [jc])) (fun _ => None).
Proof.
  intros h v j L R RT N B. unfold append. assert (N' := N). apply nodup_app in N' as (NL & NT & NX). assert (BL : below h L) by (intros x Hx; apply B; apply in_or_app; left; exact Hx).
  destruct (set_type_ok TArr h v j L R NL BL) as (h1 & v1 & L1 & S1 & S2 & S3 & S4). rewrite S1. cbn [bind]. cbn [as_type] in S2. inversion S2; subst.
  match goal with HH : h_at h1 l = _ |- _ => rewrite HH end. destruct S3 as (X1 & X2 & X3 & X4 & X5). destruct S4 as [Y1 Y2].
  assert (BT : forall x, In x T -> (x < h_next h)%nat /\ ~ In x (l :: L0)).
  { intros x Hx. assert (Q := B x (in_or_app _ _ _ (or_intror Hx))). split; [exact Q|]. intros K. destruct (X4 x K) as [K9|[[]|K9]]; [apply (NX x K9 Hx)|lia]. }
  apply NoDup_cons_iff in X1 as [X1 X1']. assert (Q : (l < h_next h)%nat -> In l L). { intros Q. destruct (X4 l (or_introl eq_refl)) as [|[[]|]]; [assumption|lia]. }
  exists (put_node l (Some (NArr (vs ++ [c]))) h1), (VArr l), None, (l :: L0 ++ T), []. split; [reflexivity|]. split; [|split; [reflexivity|split]].
  - apply rep_arr with (vs := vs ++ [c]); [apply put_same|]. apply reps_app.
    + apply (frames h1); [assumption|]. intros x Hx. apply put_other. intros ->. contradiction.
    + rewrite <- (app_nil_r T). constructor; [|constructor]. apply (frame h); [exact RT|]. intros x Hx. destruct (BT x Hx) as [P1 P2]. rewrite put_other by (intros ->; apply P2; left; reflexivity). apply X5; [exact P1|]. intros P. apply (NX x P Hx).
  - rewrite app_nil_r. split; [|split; [|split; [exact X3|split]]].
    + constructor; [rewrite in_app_iff; intros [P|P]; [contradiction|]; destruct (BT l P) as [_ P2]; apply P2; left; reflexivity|]. apply nodup_app. split; [exact X1'|]. split; [exact NT|]. intros x P1 P2. destruct (BT x P2) as [_ P3]. apply P3. right. exact P1.
    + intros x Hx. cbn [put_node h_next]. destruct Hx as [<-|Hx]; [apply X2; left; reflexivity|]. apply in_app_or in Hx as [Hx|Hx]; [apply X2; right; exact Hx|]. destruct (BT x Hx). lia.
    + intros x Hx. destruct Hx as [<-|Hx]; [destruct (X4 l (or_introl eq_refl)) as [|[[]|]]; tauto|]. apply in_app_or in Hx as [Hx|Hx]; [destruct (X4 x (or_intror Hx)) as [|[[]|]]; tauto|tauto].
    + intros x P1 P2. rewrite put_other by (intros ->; tauto). apply X5; assumption.
  - intros _. rewrite app_nil_r. split; [intros x Hx; right; apply in_or_app; right; exact Hx|]. intros x P. destruct (Nat.eq_dec l x) as [->|NE]; [left; left; reflexivity|]. rewrite put_other in P by exact NE.
    destruct (Y2 x P) as [[P1|P1]|P1]; [congruence|left; right; apply in_or_app; left; exact P1|right; exact P1].
Qed.

Lemma flat_rep h v j L : rep h v j L -> flat j -> L = [].
Proof. intros R F. inversion R; subst; try reflexivity; destruct F. Qed.

Lemma store_good c jc T : good c jc T flat (store c) (fun _ => jc) (fun _ => None).
Proof.
  intros h v j L R RT N B. unfold store. exists h, c, None, T, []. split; [reflexivity|]. split; [exact RT|]. split; [reflexivity|]. rewrite app_nil_r. apply nodup_app in N as (_ & NT & _). split.
  - split; [exact NT|]. split; [intros x Hx; apply B; apply in_or_app; right; exact Hx|]. split; [lia|]. split; [tauto|reflexivity].
  - intros F. rewrite (flat_rep _ _ _ _ R F). split; [tauto|]. intros x Hx. right. split; [intros []|exact Hx].
Qed.

Lemma take_good : good VNull JNull [] (fun _ => True) take (fun _ => JNull) (fun j => Some j).
Proof.
  intros h v j L R _ N B. rewrite app_nil_r in N, B. unfold take. exists h, VNull, (Some v), [], L. split; [reflexivity|]. split; [constructor|]. split; [exact R|]. cbn [app]. split; [apply effect_refl; assumption|intros _; apply exact_refl].
Qed.

Lemma self_move_good : good VNull JNull [] flat self_move (fun _ => JNull) (fun _ => None).
Proof.
  intros h v j L R _ N B. unfold self_move. exists h, VNull, None, [], []. split; [reflexivity|]. split; [constructor|]. split; [reflexivity|]. cbn [app]. split.
  - split; [constructor|]. split; [intros x []|]. split; [lia|]. split; [intros x []|reflexivity].
  - intros F. rewrite (flat_rep _ _ _ _ R F). apply exact_refl.
Qed.

Lemma self_copy_good : good VNull JNull [] flat self_copy (fun j => j) (fun _ => None).
Proof.
  intros h v j L R _ N B. rewrite app_nil_r in N, B. unfold self_copy. destruct (copy_ok _ _ _ _ R N B) as (h1 & v1 & L1 & E & R1 & F1 & F2 & F3 & F4 & F5). rewrite E. cbn [bind].
  exists h1, v1, None, L1, []. split; [reflexivity|]. split; [exact R1|]. split; [reflexivity|]. rewrite app_nil_r. split.
  - split; [exact F1|]. split; [intros x Hx; apply F2; exact Hx|]. split; [exact F3|]. split; [intros x Hx; right; right; apply F2; exact Hx|]. intros x Hx _. apply F4. exact Hx.
  - intros F. rewrite (flat_rep _ _ _ _ R F). split; [intros x []|]. intros x Hx. destruct (Nat.lt_ge_cases x (h_next h)) as [K|K]; [rewrite F4 in Hx by exact K; right; split; [intros []|exact Hx]|]. destruct (F5 x K Hx) as [Q|Q]; [left; exact Q|right; split; [intros []|exact Q]].
Qed.

Lemma touch_good : good VNull JNull [] (fun _ => True) (fun h v => Ok (h, v, None)) (fun j => j) (fun _ => None).
Proof.
  intros h v j L R _ N B. rewrite app_nil_r in N, B. exists h, v, None, L, []. rewrite app_nil_r. split; [reflexivity|]. split; [exact R|]. split; [reflexivity|]. split; [apply effect_refl; assumption|intros _; apply exact_refl].
Qed.

(** ** Variables *)

Inductive owns (h : heap) : list (nat * slot) -> list (nat * json) -> list loc -> Prop :=
| owns_nil : owns h [] [] []
| owns_cons x v vs j js L1 L2 : rep h v j L1 -> owns h vs js L2 -> owns h ((x, v) :: vs) ((x, j) :: js) (L1 ++ L2).

Lemma owns_frame h h' vs js L : owns h vs js L -> (forall l, In l L -> h_at h' l = h_at h l) -> owns h' vs js L.
Proof.
  induction 1 as [|x v vs j js L1 L2 R _ IH]; intros A; constructor.
  - apply (frame h); [exact R|]. intros l Hl. apply A. apply in_or_app. left. exact Hl.
  - apply IH. intros l Hl. apply A. apply in_or_app. right. exact Hl.
Qed.
Lemma owns_keys h vs js L : owns h vs js L -> map fst js = map fst vs.
Proof. induction 1; cbn [map fst]; [reflexivity|]. f_equal. assumption. Qed.

Lemma owns_get h vs js L x : owns h vs js L ->
  match vget x vs with
  | Some v => exists j L1 Lx L2, vget x js = Some j /\ L = L1 ++ Lx ++ L2 /\ rep h v j Lx /\
      (forall h' v' j' Lx', (forall l, In l (L1 ++ L2) -> h_at h' l = h_at h l) -> rep h' v' j' Lx' -> owns h' (vset x v' vs) (vset x j' js) (L1 ++ Lx' ++ L2)) /\
      (forall h', (forall l, In l (L1 ++ L2) -> h_at h' l = h_at h l) -> owns h' (vdel x vs) (vdel x js) (L1 ++ L2))
  | None => vget x js = None
  end.
Proof.
  induction 1 as [|y v vs j js L1 L2 R O IH]; cbn [vget vset vdel]; [reflexivity|]. destruct (Nat.eqb x y).
  - exists j, [], L1, L2. split; [reflexivity|]. split; [reflexivity|]. split; [exact R|]. cbn [app]. split; [intros h' v' j' Lx' A R'; constructor; [exact R'|]; apply (owns_frame h); assumption|]. intros h' A. apply (owns_frame h); assumption.
  - destruct (vget x vs) as [u|]; [|exact IH]. destruct IH as (jx & M1 & Mx & M2 & G & -> & RX & K1 & K2). exists jx, (L1 ++ M1), Mx, M2. split; [exact G|]. split; [rewrite <- !app_assoc; reflexivity|]. split; [exact RX|]. split.
    + intros h' v' j' Lx' A R'. rewrite <- app_assoc. constructor; [apply (frame h); [exact R|]; intros l Hl; apply A; rewrite !in_app_iff; tauto|]. apply K1; [|exact R']. intros l Hl. apply A. rewrite in_app_iff in Hl. rewrite !in_app_iff. tauto.
    + intros h' A. rewrite <- app_assoc. constructor; [apply (frame h); [exact R|]; intros l Hl; apply A; rewrite !in_app_iff; tauto|]. apply K2. intros l Hl. apply A. rewrite in_app_iff in Hl. rewrite !in_app_iff. tauto.
Qed.

Lemma vget_vset {A} x y (v : A) l : vget y (vset x v l) = if Nat.eqb x y then match vget x l with Some _ => Some v | None => None end else vget y l.
Proof.
  induction l as [|[z u] r IH]; cbn [vset vget]; [destruct (Nat.eqb x y); reflexivity|].
  destruct (Nat.eqb_spec x z) as [->|NE]; cbn [vget].
  - destruct (Nat.eqb_spec z y) as [->|NE2]; [rewrite Nat.eqb_refl; reflexivity|]. destruct (Nat.eqb_spec y z); [congruence|reflexivity].
  - rewrite IH. destruct (Nat.eqb_spec y z) as [->|NE2]; [|reflexivity]. destruct (Nat.eqb_spec x z); [congruence|reflexivity].
Qed.
Lemma vset_keys {A} x (v : A) l : map fst (vset x v l) = map fst l.
Proof. induction l as [|[z u] r IH]; cbn [vset map fst]; [reflexivity|]. destruct (Nat.eqb x z); cbn [map fst]; [reflexivity|]. rewrite IH. reflexivity. Qed.
Lemma vget_none {A} x (l : list (nat * A)) : vget x l = None <-> ~ In x (map fst l).
Proof. induction l as [|[z u] r IH]; cbn [vget map fst In]; [tauto|]. destruct (Nat.eqb_spec x z) as [->|NE]; [split; [discriminate|tauto]|]. rewrite IH. intuition congruence. Qed.
Lemma vdel_keys {A} x (l : list (nat * A)) y : In y (map fst (vdel x l)) -> In y (map fst l).
Proof. induction l as [|[z u] r IH]; cbn [vdel map fst In]; [tauto|]. destruct (Nat.eqb x z); cbn [map fst In]; tauto. Qed.
Lemma vdel_nodup {A} x (l : list (nat * A)) : NoDup (map fst l) -> NoDup (map fst (vdel x l)).
Proof. induction l as [|[z u] r IH]; cbn [vdel map fst]; [tauto|]. intros H. apply NoDup_cons_iff in H as [H1 H2]. destruct (Nat.eqb x z); [exact H2|]. cbn [map fst]. constructor; [intros K; apply H1; apply vdel_keys with (1 := K)|apply IH; exact H2]. Qed.
Lemma vget_vdel {A} x y (l : list (nat * A)) : NoDup (map fst l) -> vget y (vdel x l) = if Nat.eqb x y then None else vget y l.
Proof.
  induction l as [|[z u] r IH]; cbn [vdel vget map fst]; [destruct (Nat.eqb x y); reflexivity|]. intros H. apply NoDup_cons_iff in H as [H1 H2].
  destruct (Nat.eqb_spec x z) as [->|NE].
  - destruct (Nat.eqb_spec z y) as [->|NE2]; [apply vget_none; exact H1|]. destruct (Nat.eqb_spec y z); [congruence|reflexivity].
  - cbn [vget]. rewrite IH by exact H2. destruct (Nat.eqb_spec y z) as [->|NE2]; [|reflexivity]. destruct (Nat.eqb_spec x z); [congruence|reflexivity].
Qed.
Lemma vget_in {A} x (v : A) l : NoDup (map fst l) -> vget x l = Some v <-> In (x, v) l.
Proof.
  induction l as [|[z u] r IH]; cbn [vget map fst In]; [intros _; split; [discriminate|tauto]|]. intros H. apply NoDup_cons_iff in H as [H1 H2].
  destruct (Nat.eqb_spec x z) as [->|NE].
  - split; [intros E; left; congruence|]. intros [E|E]; [congruence|]. exfalso. apply H1. apply in_map_iff. exists (z, v). auto.
  - rewrite IH by exact H2. split; [tauto|]. intros [E|E]; [congruence|exact E].
Qed.

(** The state of a program, with a temporary value [c]. *)
Record state (m : memory) (e : trees) (js : list (nat * json)) (L : list loc) (c : slot) (jc : json) (T : list loc) : Prop := mkstate {
  st_owns : owns (m_heap m) (m_vars m) js L;
  st_temp : rep (m_heap m) c jc T;
  st_nodup : NoDup (L ++ T);
  st_below : below (m_heap m) (L ++ T);
  st_keys : NoDup (map fst (m_vars m));
  st_trees : forall x, e x = vget x js }.
Definition clean (m : memory) (M : list loc) : Prop := forall l, h_at (m_heap m) l <> None -> In l M.

Lemma on_place_ok m e js L c jc T ex f fj oj d :
  state m e js L c jc T -> good c jc T ex f fj oj -> Forall index_ok (snd d) ->
  match e (fst d) with
  | None => on_place d f m = Er StdOther
  | Some j => exists m' o js' L' Lo, on_place d f m = Ok (m', o) /\
      (forall v jo, o = Some v -> oj (reach (snd d) j) = Some jo -> state m' (with_tree (fst d) (Some (update (snd d) fj j)) e) js' L' v jo Lo) /\
      (o = None -> state m' (with_tree (fst d) (Some (update (snd d) fj j)) e) js' L' VNull JNull [] /\ Lo = []) /\
      (o = None <-> oj (reach (snd d) j) = None) /\
      (ex (reach (snd d) j) -> clean m (L ++ T) -> clean m' (L' ++ Lo))
  end.
Proof.
  intros [S1 S2 S3 S4 S5 S6] G P. unfold on_place. rewrite S6. pose proof (owns_get _ _ _ _ (fst d) S1) as Q. destruct (vget (fst d) (m_vars m)) as [v|] eqn:V; [|rewrite Q; reflexivity].
  destruct Q as (j & A & Lx & B & -> & -> & RX & KS & _).
  assert (N : NoDup (Lx ++ T) /\ NoDup (A ++ B) /\ forall x, In x (A ++ B) -> ~ In x (Lx ++ T)).
  { rewrite !nodup_app in S3. destruct S3 as ((X1 & (X2 & X3 & X4) & X5) & X6 & X7). split; [|split].
    - apply nodup_app. split; [exact X2|]. split; [exact X6|]. intros x P1 P2. apply (X7 x); [rewrite !in_app_iff; tauto|exact P2].
    - apply nodup_app. split; [exact X1|]. split; [exact X3|]. intros x P1 P2. apply (X5 x P1). apply in_or_app. tauto.
    - intros x P1 P2. apply in_app_or in P1 as [P1|P1], P2 as [P2|P2].
      + apply (X5 x P1). apply in_or_app. tauto.
      + apply (X7 x); [rewrite !in_app_iff; tauto|exact P2].
      + apply (X4 x P2 P1).
      + apply (X7 x); [rewrite !in_app_iff; tauto|exact P2]. }
  destruct N as (N1 & N2 & N3).
  assert (B1 : below (m_heap m) (Lx ++ T)) by (intros x Hx; apply S4; rewrite !in_app_iff in *; tauto).
  assert (B2 : below (m_heap m) (A ++ B)) by (intros x Hx; apply S4; rewrite !in_app_iff in *; tauto).
  destruct (modify_good _ _ _ _ _ _ _ _ G P (m_heap m) v j Lx RX S2 N1 B1) as (h' & v' & o & Lx' & Lo & E & RX' & RO & (E1 & E2 & E3 & E4 & E5) & EX).
  rewrite E. cbn [bind].
  assert (AG : forall x, In x (A ++ B) -> h_at h' x = h_at (m_heap m) x).
  { intros x Hx. apply E5; [apply B2; exact Hx|]. intros Q. apply (N3 x Hx). apply in_or_app. left. exact Q. }
  assert (DJ : forall x, In x (A ++ B) -> In x (Lx' ++ Lo) -> False).
  { intros x P1 P2. destruct (E4 x P2) as [Q|[Q|Q]]; [apply (N3 x P1); rewrite in_app_iff; tauto|apply (N3 x P1); rewrite in_app_iff; tauto|specialize (B2 x P1); lia]. }
  assert (NN : NoDup ((A ++ Lx' ++ B) ++ Lo)).
  { rewrite !nodup_app in *. destruct E1 as (Y1 & Y2 & Y3). destruct N2 as (Z1 & Z2 & Z3). split; [split; [exact Z1|split; [split; [exact Y1|split; [exact Z2|]]|]]|split; [exact Y2|]].
    - intros x P1 P2. apply (DJ x); rewrite in_app_iff; tauto.
    - intros x P1 P2. rewrite in_app_iff in P2. destruct P2 as [P2|P2]; [apply (DJ x); rewrite in_app_iff; tauto|apply (Z3 x); assumption].
    - intros x P1 P2. rewrite !in_app_iff in P1. destruct P1 as [P1|[P1|P1]]; [apply (DJ x); rewrite in_app_iff; tauto|apply (Y3 x); assumption|apply (DJ x); rewrite in_app_iff; tauto]. }
  assert (BB : below h' ((A ++ Lx' ++ B) ++ Lo)).
  { intros x Hx. assert (Q : In x (A ++ B) \/ In x (Lx' ++ Lo)) by (rewrite !in_app_iff in *; tauto). destruct Q as [Q|Q]; [specialize (B2 x Q); lia|apply E2; exact Q]. }
  assert (OW : owns h' (vset (fst d) v' (m_vars m)) (vset (fst d) (update (snd d) fj j) js) (A ++ Lx' ++ B)) by (apply KS; assumption).
  assert (TR : forall x, with_tree (fst d) (Some (update (snd d) fj j)) e x = vget x (vset (fst d) (update (snd d) fj j) js)).
  { intros x. unfold with_tree. rewrite vget_vset. pose proof (owns_get _ _ _ _ (fst d) S1) as Q. rewrite V in Q. destruct Q as (j0 & _ & _ & _ & -> & _). destruct (Nat.eqb (fst d) x); [reflexivity|apply S6]. }
  exists (mkmem h' (vset (fst d) v' (m_vars m))), o, (vset (fst d) (update (snd d) fj j) js), (A ++ Lx' ++ B), Lo. split; [reflexivity|]. split; [|split; [|split]].
  - intros u jo -> EJ. unfold repo in RO. rewrite EJ in RO. constructor; cbn [m_heap m_vars]; try assumption. rewrite vset_keys. exact S5.
  - intros ->. unfold repo in RO. destruct (oj (reach (snd d) j)); [destruct RO|]. subst Lo. split; [|reflexivity]. constructor; cbn [m_heap m_vars]; try assumption; [constructor|]. rewrite vset_keys. exact S5.
  - unfold repo in RO. destruct o, (oj (reach (snd d) j)); try (destruct RO; fail); split; congruence.
  - intros X C x Hx. cbn [m_heap] in Hx. destruct (EX X) as [X1 X2]. destruct (X2 x Hx) as [Q|[Q1 Q2]]; [rewrite !in_app_iff in *; tauto|].
    specialize (C x Q2). assert (CC : In x (A ++ B) \/ In x T) by (rewrite !in_app_iff in *; tauto). destruct CC as [CC|CC]; [rewrite !in_app_iff in *; tauto|]. specialize (X1 x CC). rewrite !in_app_iff in *; tauto.
Qed.

Lemma look_ok h v j L p : rep h v j L -> match find p j with
  | Ok jc => exists c L1 Lc L2, look p h v = Ok c /\ rep h c jc Lc /\ L = L1 ++ Lc ++ L2
  | Er x => look p h v = Er x
  end.
Proof.
  revert v j L. induction p as [|[k|i] p IH]; intros v j L R; cbn [find look].
  - exists v, [], L, []. split; [reflexivity|]. split; [exact R|]. rewrite app_nil_r. reflexivity.
  - inversion R; subst; try reflexivity. rewrite H. rewrite <- kget_obj. pose proof (repk_get _ _ _ _ k H1 H0) as Q. destruct (kget k kvs) as [u|].
    + destruct Q as (ju & A & Lu & B & -> & -> & RU & _). specialize (IH _ _ _ RU). destruct (find p ju); [|exact IH]. destruct IH as (c & M1 & Mc & M2 & E & RC & ->). exists c, (l :: A ++ M1), Mc, (M2 ++ B). split; [exact E|]. split; [exact RC|]. cbn [app]. rewrite <- !app_assoc. reflexivity.
    + destruct Q as [-> _]. reflexivity.
  - inversion R; subst; try reflexivity. rewrite H. destruct (nth_error vs (Z.to_nat i)) as [u|] eqn:G.
    + destruct (reps_get _ _ _ _ _ _ H0 G) as (ju & A & Lu & B & -> & -> & RU & _). specialize (IH _ _ _ RU). destruct (find p ju); [|exact IH]. destruct IH as (c & M1 & Mc & M2 & E & RC & ->). exists c, (l :: A ++ M1), Mc, (M2 ++ B). split; [exact E|]. split; [exact RC|]. cbn [app]. rewrite <- !app_assoc. reflexivity.
    + apply nth_error_None in G. rewrite (reps_length _ _ _ _ H0) in G. apply nth_error_None in G. rewrite G. reflexivity.
Qed.

Lemma copy_of_ok m e js L s : state m e js L VNull JNull [] ->
  match read_at s e with
  | Ok jc => exists m' c T, copy_of s m = Ok (m', c) /\ state m' e js L c jc T /\ (clean m L -> clean m' (L ++ T))
  | Er x => copy_of s m = Er x
  end.
Proof.
  intros [S1 S2 S3 S4 S5 S6]. rewrite app_nil_r in S3, S4. unfold read_at, var, copy_of. rewrite S6. pose proof (owns_get _ _ _ _ (fst s) S1) as Q. destruct (vget (fst s) (m_vars m)) as [v|]; [|rewrite Q; reflexivity].
  destruct Q as (j & A & Lx & B & -> & -> & RX & _ & _). cbn [bind]. pose proof (look_ok _ _ _ _ (snd s) RX) as Q. destruct (find (snd s) j) as [jc|x]; [|rewrite Q; reflexivity].
  destruct Q as (c & M1 & Mc & M2 & -> & RC & ->). cbn [bind].
  destruct (copy_ok (m_heap m) c jc Mc RC) as (h' & c' & T & E & RC' & F1 & F2 & F3 & F4 & F5).
  { apply nodup_app in S3 as (_ & Q & _). apply nodup_app in Q as (Q & _). apply nodup_app in Q as (_ & Q & _). apply nodup_app in Q as (Q & _). exact Q. }
  { intros x Hx. apply S4. rewrite !in_app_iff. tauto. }
  rewrite E. cbn [bind]. exists (mkmem h' (m_vars m)), c', T. split; [reflexivity|]. split.
  - constructor; cbn [m_heap m_vars]; try assumption.
    + apply (owns_frame (m_heap m)); [exact S1|]. intros x Hx. apply F4. apply S4. exact Hx.
    + apply nodup_app. split; [exact S3|]. split; [exact F1|]. intros x P1 P2. specialize (S4 x P1). specialize (F2 x P2). lia.
    + intros x Hx. apply in_app_or in Hx as [Hx|Hx]; [specialize (S4 x Hx); lia|apply F2; exact Hx].
  - intros C x Hx. cbn [m_heap] in Hx. destruct (Nat.lt_ge_cases x (h_next (m_heap m))) as [K|K].
    + rewrite F4 in Hx by exact K. apply in_or_app. left. apply C. exact Hx.
    + apply in_or_app. destruct (F5 x K Hx) as [Q|Q]; [right; exact Q|left; apply C; exact Q].
Qed.

Lemma declare_ok m e js L c jc T x : state m e js L c jc T ->
  match new_var x jc e with
  | Ok e' => exists m' js' L', declare x c m = Ok m' /\ state m' e' js' L' VNull JNull [] /\ (clean m (L ++ T) -> clean m' L')
  | Er err => declare x c m = Er err
  end.
Proof.
  intros [S1 S2 S3 S4 S5 S6]. unfold new_var, declare. rewrite S6. pose proof (owns_get _ _ _ _ x S1) as Q. destruct (vget x (m_vars m)) as [v|] eqn:V.
  - destruct Q as (j & _ & _ & _ & -> & _). reflexivity.
  - rewrite Q. exists (mkmem (m_heap m) ((x, c) :: m_vars m)), ((x, jc) :: js), (T ++ L). split; [reflexivity|]. split.
    + constructor; cbn [m_heap m_vars]; [constructor; assumption|constructor| | | |].
      * rewrite app_nil_r. apply nodup_app in S3 as (X1 & X2 & X3). apply nodup_app. split; [exact X2|]. split; [exact X1|]. intros y P1 P2. apply (X3 y P2 P1).
      * rewrite app_nil_r. intros y Hy. apply S4. rewrite in_app_iff in *. tauto.
      * cbn [map fst]. constructor; [apply vget_none; exact V|exact S5].
      * intros y. cbn [vget]. unfold with_tree. rewrite Nat.eqb_sym. destruct (Nat.eqb y x); [reflexivity|apply S6].
    + intros C y Hy. cbn [m_heap] in Hy. specialize (C y Hy). rewrite in_app_iff in *. tauto.
Qed.

(** ** Statements and programs *)

(** An operation without result, on a state with a temporary value. *)
Lemma set_at_ok m e js L c jc T ex f fj d :
  state m e js L c jc T -> good c jc T ex f fj (fun _ => None) -> Forall index_ok (snd d) ->
  match set_at d fj e with
  | Ok e' => exists m' js' L', on_place d f m = Ok (m', None) /\ state m' e' js' L' VNull JNull [] /\ ((forall j, e (fst d) = Some j -> ex (reach (snd d) j)) -> clean m (L ++ T) -> clean m' L')
  | Er x => on_place d f m = Er x
  end.
Proof.
  intros S G P. pose proof (on_place_ok _ _ _ _ _ _ _ _ _ _ _ d S G P) as Q. unfold set_at, var. destruct (e (fst d)) as [j|] eqn:E; cbn [bind]; [|exact Q].
  destruct Q as (m' & o & js' & L' & Lo & -> & _ & Q2 & Q3 & Q4). assert (o = None) by (apply Q3; reflexivity). subst o. destruct (Q2 eq_refl) as [ST ->]. exists m', js', L'. split; [reflexivity|]. split; [exact ST|].
  intros X C. rewrite app_nil_r in Q4. apply Q4; [apply X; reflexivity|exact C].
Qed.

Lemma move_ok m e js L s : state m e js L VNull JNull [] -> Forall index_ok (snd s) ->
  match (do j <- var (fst s) e; do e1 <- set_at s (fun _ => JNull) e; Ok (j, e1)) with
  | Ok (j, e1) => exists m' c js' L' T, moved_from s m = Ok (m', c) /\ state m' e1 js' L' c (reach (snd s) j) T /\ (clean m L -> clean m' (L' ++ T))
  | Er x => moved_from s m = Er x
  end.
Proof.
  intros S P. pose proof (on_place_ok _ _ _ _ _ _ _ _ _ _ _ s S take_good P) as Q. unfold set_at, var, moved_from. destruct (e (fst s)) as [j|] eqn:E; cbn [bind]; [|rewrite Q; reflexivity].
  destruct Q as (m' & o & js' & L' & Lo & -> & Q1 & _ & Q3 & Q4). cbn [bind]. destruct o as [c|]; [|destruct Q3 as [Q3 _]; specialize (Q3 eq_refl); discriminate Q3].
  exists m', c, js', L', Lo. split; [reflexivity|]. split; [apply (Q1 c (reach (snd s) j) eq_refl eq_refl)|]. intros C. apply Q4; [exact I|]. rewrite app_nil_r. exact C.
Qed.

Lemma exec_ok c m e js L : state m e js L VNull JNull [] -> stmt_ok c ->
  match effect_of c e with
  | Ok e' => exists m' js' L', exec c m = Ok m' /\ state m' e' js' L' VNull JNull [] /\ (tidy c e -> clean m L -> clean m' L')
  | Er x => exec c m = Er x
  end.
Proof.
  intros S P. unfold stmt_ok in P.
  assert (SET : forall ex f fj d, good VNull JNull [] ex f fj (fun _ => None) -> Forall index_ok (snd d) ->
    match set_at d fj e with
    | Ok e' => exists m' js' L', (do (m1, _) <- on_place d f m; Ok m1) = Ok m' /\ state m' e' js' L' VNull JNull [] /\ ((forall j, e (fst d) = Some j -> ex (reach (snd d) j)) -> clean m L -> clean m' L')
    | Er x => (do (m1, _) <- on_place d f m; Ok m1) = Er x
    end).
  { intros ex f fj d G PD. pose proof (set_at_ok _ _ _ _ _ _ _ _ _ _ d S G PD) as Q. rewrite app_nil_r in Q. destruct (set_at d fj e); [|rewrite Q; reflexivity]. destruct Q as (m' & js' & L' & -> & Q1 & Q2). cbn [bind]. exists m', js', L'. auto. }
  assert (COPY : forall ex f fj d s, (forall c jc T, good c jc T ex (f c) (fj jc) (fun _ => None)) -> Forall index_ok (snd d) ->
    match (do v <- read_at s e; set_at d (fj v) e) with
    | Ok e' => exists m' js' L', (do (m1, c) <- copy_of s m; do (m2, _) <- on_place d (f c) m1; Ok m2) = Ok m' /\ state m' e' js' L' VNull JNull [] /\ ((forall j, e (fst d) = Some j -> ex (reach (snd d) j)) -> clean m L -> clean m' L')
    | Er x => (do (m1, c) <- copy_of s m; do (m2, _) <- on_place d (f c) m1; Ok m2) = Er x
    end).
  { intros ex f fj d s G PD. pose proof (copy_of_ok _ _ _ _ s S) as Q. destruct (read_at s e) as [v|x]; cbn [bind]; [|rewrite Q; reflexivity]. destruct Q as (m1 & c1 & T & -> & S1 & C1). cbn [bind].
    pose proof (set_at_ok _ _ _ _ _ _ _ _ _ _ d S1 (G c1 v T) PD) as Q. destruct (set_at d (fj v) e); [|rewrite Q; reflexivity]. destruct Q as (m' & js' & L' & -> & Q1 & Q2). cbn [bind]. exists m', js', L'. auto. }
  destruct c as [x|d v|d s|d s|d s|x s|x s|d|d|d|x]; cbn [effect_of exec places] in *.
  - pose proof (declare_ok _ _ _ _ _ _ _ x S) as Q. rewrite app_nil_r in Q. destruct (new_var x JNull e); [|exact Q]. destruct Q as (m' & js' & L' & E & S' & C). exists m', js', L'. auto.
  - inversion P as [|? ? P1 _]; subst. pose proof (SET _ _ _ d (assign_good v) P1) as Q. destruct (set_at d (fun _ => scalar_value v) e); [|exact Q]. destruct Q as (m' & js' & L' & E & S' & C). exists m', js', L'. auto.
  - inversion P as [|? ? P1 _]; subst. destruct (Nat.eqb (fst d) (fst s)); [reflexivity|]. pose proof (COPY _ append (fun v j => JArr (items j ++ [v])) d s append_good P1) as Q. cbv beta in Q. destruct (do v <- read_at s e; set_at d (fun j => JArr (items j ++ [v])) e); [|exact Q].
    destruct Q as (m' & js' & L' & E & S' & C). exists m', js', L'. auto.
  - inversion P as [|? ? P1 _]; subst. destruct (Nat.eqb (fst d) (fst s)); [reflexivity|]. pose proof (COPY _ store (fun v _ => v) d s store_good P1) as Q. cbv beta in Q. destruct (do v <- read_at s e; set_at d (fun _ => v) e); [|exact Q].
    destruct Q as (m' & js' & L' & E & S' & C). exists m', js', L'. auto.
  - inversion P as [|? ? P1 P2]; subst. inversion P2 as [|? ? P3 _]; subst. destruct (Nat.eqb_spec (fst d) (fst s)) as [EQ|NE]; [reflexivity|]. pose proof (move_ok _ _ _ _ s S P3) as Q.
    destruct (var (fst s) e) as [j|x] eqn:VS; cbn [bind] in *; [|rewrite Q; reflexivity]. unfold set_at in Q. unfold set_at at 1. rewrite VS in *. cbn [bind] in *. destruct Q as (m1 & c1 & js1 & L1 & T & -> & S1 & C1). cbn [bind].
    pose proof (set_at_ok _ _ _ _ _ _ _ _ _ _ d S1 (store_good _ _ _) P1) as Q. destruct (set_at d _ _); [|rewrite Q; reflexivity]. destruct Q as (m' & js' & L' & -> & Q1 & Q2). cbn [bind]. exists m', js', L'. split; [reflexivity|]. split; [exact Q1|].
    intros TD C. apply Q2; [|auto]. intros j0 E0. apply TD. unfold with_tree in E0. destruct (Nat.eqb_spec (fst s) (fst d)); [congruence|exact E0].
  - pose proof (copy_of_ok _ _ _ _ s S) as Q. destruct (read_at s e) as [v|y]; cbn [bind]; [|rewrite Q; reflexivity]. destruct Q as (m1 & c1 & T & -> & S1 & C1). cbn [bind].
    pose proof (declare_ok _ _ _ _ _ _ _ x S1) as Q. destruct (new_var x v e); [|exact Q]. destruct Q as (m' & js' & L' & E & S' & C). exists m', js', L'. auto.
  - inversion P as [|? ? P1 _]; subst. pose proof (move_ok _ _ _ _ s S P1) as Q.
    destruct (var (fst s) e) as [j|y] eqn:VS; cbn [bind] in *; [|rewrite Q; reflexivity]. unfold set_at in *. rewrite VS in *. cbn [bind] in *. destruct Q as (m1 & c1 & js1 & L1 & T & -> & S1 & C1). cbn [bind].
    pose proof (declare_ok _ _ _ _ _ _ _ x S1) as Q. destruct (new_var x _ _); [|exact Q]. destruct Q as (m' & js' & L' & E & S' & C). exists m', js', L'. auto.
  - inversion P as [|? ? P1 _]; subst. pose proof (SET _ _ _ d self_copy_good P1) as Q. destruct (set_at d (fun j => j) e); [|exact Q]. exact Q.
  - inversion P as [|? ? P1 _]; subst. pose proof (SET _ _ _ d self_move_good P1) as Q. destruct (set_at d (fun _ => JNull) e); [|exact Q]. exact Q.
  - inversion P as [|? ? P1 _]; subst. pose proof (SET _ _ _ d touch_good P1) as Q. destruct (set_at d (fun j => j) e); [|exact Q]. destruct Q as (m' & js' & L' & E & S' & C). exists m', js', L'. auto.
  - destruct S as [S1 S2 S3 S4 S5 S6]. rewrite app_nil_r in S3, S4. unfold var. rewrite S6. pose proof (owns_get _ _ _ _ x S1) as Q. destruct (vget x (m_vars m)) as [v|] eqn:V; [|rewrite Q; reflexivity].
    destruct Q as (j & A & Lx & B & VJ & -> & RX & _ & KD). rewrite VJ. cbn [bind].
    assert (N := S3). apply nodup_app in N as (N1 & N2 & N3). apply nodup_app in N2 as (N4 & N5 & N6).
    destruct (destroy_ok _ _ _ _ RX N4) as (h' & -> & D1 & D2 & D3); [intros y Hy; apply S4; rewrite !in_app_iff; tauto|]. cbn [bind].
    assert (DJ : forall y, In y (A ++ B) -> ~ In y Lx). { intros y P1 P2. apply in_app_or in P1 as [P1|P1]; [apply (N3 y P1); apply in_or_app; tauto|apply (N6 y P2 P1)]. }
    exists (mkmem h' (vdel x (m_vars m))), (vdel x js), (A ++ B). split; [reflexivity|]. split.
    + constructor; cbn [m_heap m_vars]; [apply KD; intros y Hy; apply D3; apply DJ; exact Hy|constructor| | | |].
      * rewrite app_nil_r. apply nodup_app. split; [exact N1|]. split; [exact N5|]. intros y P1 P2. apply (N3 y P1). apply in_or_app. tauto.
      * rewrite app_nil_r. intros y Hy. rewrite D1. apply S4. rewrite !in_app_iff in *. tauto.
      * apply vdel_nodup. exact S5.
      * intros y. rewrite vget_vdel; [unfold with_tree; destruct (Nat.eqb x y); [reflexivity|apply S6]|]. rewrite (owns_keys _ _ _ _ S1). exact S5.
    + intros _ C y Hy. cbn [m_heap] in Hy. destruct (in_dec Nat.eq_dec y Lx) as [K|K]; [rewrite D2 in Hy by exact K; congruence|]. rewrite D3 in Hy by exact K. specialize (C y Hy). rewrite !in_app_iff in *. tauto.
Qed.

Lemma run_ok p : forall m e js L, state m e js L VNull JNull [] -> Forall stmt_ok p ->
  match effects p e with
  | Ok e' => exists m' js' L', run p m = Ok m' /\ state m' e' js' L' VNull JNull [] /\ (all_tidy p e -> clean m L -> clean m' L')
  | Er x => run p m = Er x
  end.
Proof.
  induction p as [|c p IH]; intros m e js L S P; cbn [effects run all_tidy].
  - exists m, js, L. auto.
  - inversion P as [|? ? P1 P2]; subst. pose proof (exec_ok c m e js L S P1) as Q. destruct (effect_of c e) as [e1|x]; cbn [bind]; [|rewrite Q; reflexivity].
    destruct Q as (m1 & js1 & L1 & -> & S1 & C1). cbn [bind]. specialize (IH m1 e1 js1 L1 S1 P2). destruct (effects p e1); [|exact IH]. destruct IH as (m' & js' & L' & E & S' & C'). exists m', js', L'. split; [exact E|]. split; [exact S'|]. intros [T1 T2] C. auto.
Qed.

Lemma start_state : state start no_trees [] [] VNull JNull [].
Proof. constructor; cbn [start m_heap m_vars app map]; try constructor. intros x []. Qed.

Lemma rep_means_all h :
  (forall v j L, rep h v j L -> means h v j) /\
  (forall vs js L, reps h vs js L -> Forall2 (means h) vs js) /\
  (forall kvs js L, repk h kvs js L -> map fst kvs = map fst js /\ Forall2 (means h) (map snd kvs) (map snd js)).
Proof.
  apply (rep_mutind h (fun v j L => means h v j) (fun vs js L => Forall2 (means h) vs js) (fun kvs js L => map fst kvs = map fst js /\ Forall2 (means h) (map snd kvs) (map snd js))); intros.
  - constructor.
  - constructor.
  - constructor.
  - constructor.
  - constructor. assumption.
  - econstructor; eassumption.
  - destruct H2. econstructor; eassumption.
  - constructor.
  - constructor; assumption.
  - split; [reflexivity|constructor].
  - destruct H2. cbn [map fst snd]. split; [f_equal; assumption|constructor; assumption].
Qed.

Lemma state_stands m e js L : state m e js L VNull JNull [] -> stands_for m e.
Proof.
  intros [S1 S2 S3 S4 S5 S6] x. rewrite S6. pose proof (owns_get _ _ _ _ x S1) as Q. destruct (vget x (m_vars m)) as [v|] eqn:V.
  - destruct Q as (j & _ & Lx & _ & -> & _ & R & _). exists v. split; [apply vget_in; assumption|]. apply (proj1 (rep_means_all (m_heap m)) v j Lx R).
  - rewrite Q. intros v I. apply vget_in in I; [congruence|exact S5].
Qed.

(** What is there already is not changed by reaching for it. *)
Lemma update_same h p : forall v j L c, rep h v j L -> find p j = Ok c -> update p (fun j => j) j = j /\ reach p j = c.
Proof.
  induction p as [|[k|i] p IH]; intros v j L c R F; cbn [find update reach] in *.
  - injection F as <-. split; reflexivity.
  - destruct j as [| | | | | |l]; try discriminate F. inversion R; subst. match goal with K : repk h _ l _, S : sorted_keys (map fst l) |- _ => rename K into RK, S into SK end. cbn [members] in *. destruct (obj_get k l) as [u|] eqn:G; [|discriminate F].
    rewrite <- kget_obj in G. pose proof (repk_get _ _ _ _ k RK SK) as Q. destruct (kget k kvs) as [s|]; [|destruct Q; congruence]. destruct Q as (ju & A & Lu & B & GJ & -> & RU & BK).
    assert (ju = u) by congruence. subst ju. destruct (IH _ _ _ _ RU F) as [-> ->]. split; [|reflexivity]. f_equal. rewrite <- kset_obj. apply kset_same; assumption.
  - destruct j as [| | | | |l|]; try discriminate F. inversion R; subst. match goal with K : reps h _ l _ |- _ => rename K into RK end. cbn [items] in *. destruct (nth_error l (Z.to_nat i)) as [u|] eqn:G; [|discriminate F].
    assert (LT : (Z.to_nat i < List.length l)%nat) by (apply nth_error_Some; congruence). replace (S (Z.to_nat i) - List.length l)%nat with 0%nat by lia. cbn [repeat]. rewrite app_nil_r.
    rewrite (nth_error_nth _ _ _ G). destruct (nth_error vs (Z.to_nat i)) as [s|] eqn:GS.
    2:{ apply nth_error_None in GS. rewrite (reps_length _ _ _ _ RK) in GS. lia. }
    destruct (reps_get _ _ _ _ _ _ RK GS) as (ju & A & Lu & B & GJ & -> & RU & BK). assert (ju = u) by congruence. subst ju. destruct (IH _ _ _ _ RU F) as [-> ->]. split; [|reflexivity]. f_equal.
    rewrite <- (firstn_skipn (Z.to_nat i) l) at 3. f_equal. clear - G. revert G. generalize (Z.to_nat i). induction l as [|a l IH]; intros [|n] G; try discriminate G; cbn [nth_error skipn] in *; [congruence|]. apply IH. exact G.
Qed.
