(** Proofs about the JSON form of events. *)
From Coq Require Import List Ascii String ZArith Bool Lia.
From Coq Require Import Floats.SpecFloat.
From Verif Require Import Base Dbl DigitsProofs DblProofs Json JsonSpec JsonProofs JsonNumProofs
  JsonExpProofs JsonRtProofs JsonExtraProofs Stream StreamProofs Pdg Event EventSpec.
Import ListNotations.
Local Open Scope Z_scope.

Lemma to_int_id : forall z, is_int z -> to_int z = z.
Proof.
  intros z H. unfold is_int, int_min, int_max, to_int in *. rewrite Z.mod_small; lia.
Qed.

Lemma to_int_range : forall z, is_int (to_int z).
Proof.
  intros z. unfold is_int, int_min, int_max, to_int.
  pose proof (Z.mod_pos_bound (z + 2 ^ 31) (2 ^ 32) ltac:(lia)). lia.
Qed.

Lemma particle_json_eq : forall p, particle_json p =
  JObj [(b "E", JFlt (p_E p)); (b "charge", JInt (p_charge p)); (b "mass", JFlt (p_mass p));
        (b "pdg", JInt (p_pdg p)); (b "px", JFlt (p_px p)); (b "py", JFlt (p_py p));
        (b "pz", JFlt (p_pz p))].
Proof. intros. reflexivity. Qed.

Lemma event_json_eq : forall ev, event_json ev =
  JObj [(b "Ex", JFlt (e_Ex ev)); (b "final_particles", JArr (map particle_json (e_fin ev)));
        (b "initial_particles", JArr (map particle_json (e_init ev)));
        (b "parity", JInt (parity_to_int (e_par ev))); (b "twoJ", JInt (e_twoJ ev))].
Proof. intros. reflexivity. Qed.

Lemma is_int_long : forall z, is_int z -> is_long z.
Proof.
  unfold is_int, is_long, int_min, int_max, long_min, long_max. lia.
Qed.

Lemma keys_ok : forall l : list (bytes * json), sorted_keysb (map fst l) = true ->
  forallb (fun p => plain_keyb (fst p)) l = true ->
  sorted_keys (map fst l) /\ Forall (fun p => plain_key (fst p)) l.
Proof.
  intros l H1 H2. split; [apply sorted_keysb_ok; exact H1|].
  apply Forall_forall. intros x Hx. rewrite forallb_forall in H2. apply plain_keyb_ok. auto.
Qed.

Lemma particle_floats : forall P p, particle_ok P p -> all_floats P (particle_json p).
Proof.
  intros P p (H1 & H2 & H3 & H4 & H5 & H6 & H7). rewrite particle_json_eq.
  apply st_obj; [apply sorted_keysb_ok; reflexivity| |].
  - repeat apply Forall_cons; try apply Forall_nil; apply plain_keyb_ok; reflexivity.
  - repeat apply Forall_cons; try apply Forall_nil; cbn [snd];
      solve [apply st_flt; assumption|apply st_int; apply is_int_long; assumption].
Qed.

Lemma event_floats : forall P ev, event_ok P ev -> all_floats P (event_json ev).
Proof.
  intros P ev (H1 & H2 & H3 & H4). rewrite event_json_eq.
  apply st_obj; [apply sorted_keysb_ok; reflexivity| |].
  - repeat apply Forall_cons; try apply Forall_nil; apply plain_keyb_ok; reflexivity.
  - repeat apply Forall_cons; try apply Forall_nil; cbn [snd].
    + apply st_flt; assumption.
    + apply st_arr. apply Forall_map. eapply Forall_impl; [|exact H2]. intros; apply particle_floats; assumption.
    + apply st_arr. apply Forall_map. eapply Forall_impl; [|exact H1]. intros; apply particle_floats; assumption.
    + apply st_int. destruct (e_par ev); split; vm_compute; congruence.
    + apply st_int. apply is_int_long. exact H4.
Qed.

(** The relation between doubles that a relation between a double and a JSON
    number gives once the number is read with to_double. *)
Definition read_as (R : spec_float -> json -> Prop) (x y : spec_float) : Prop :=
  exists j, R x j /\ to_double j = (y, true).

Definition numeric (R : spec_float -> json -> Prop) : Prop :=
  forall x j, R x j -> exists y, to_double j = (y, true).

Lemma rel_flt : forall R x v, numeric R -> rel_value R (JFlt x) v ->
  exists y, to_double v = (y, true) /\ read_as R x y.
Proof.
  intros R x v HR H. inversion H as [| | | |x' j Hj| |]; subst. destruct (HR _ _ Hj) as (y & Hy).
  exists y. split; [exact Hy|]. exists v. auto.
Qed.

Lemma rel_int : forall R z v, rel_value R (JInt z) v -> v = JInt z.
Proof. intros R z v H. inversion H. reflexivity. Qed.

Lemma rel_obj : forall R l v, rel_value R (JObj l) v -> exists l', v = JObj l' /\
  Forall2 (fun p q => fst p = fst q /\ rel_value R (snd p) (snd q)) l l'.
Proof. intros R l v H. inversion H; subst. eauto. Qed.

Lemma rel_arr : forall R l v, rel_value R (JArr l) v -> exists l', v = JArr l' /\ Forall2 (rel_value R) l l'.
Proof. intros R l v H. inversion H; subst. eauto. Qed.

Lemma rel_cons : forall R k x (l l' : list (bytes * json)),
  Forall2 (fun p q => fst p = fst q /\ rel_value R (snd p) (snd q)) ((k, x) :: l) l' ->
  exists v l'', l' = (k, v) :: l'' /\ rel_value R x v /\
    Forall2 (fun p q => fst p = fst q /\ rel_value R (snd p) (snd q)) l l''.
Proof.
  intros R k x l l' H. inversion H as [|? [k' v] ? l'' [Hk Hv] Hl]; subst. cbn [fst snd] in *. subst k'.
  exists v, l''. auto.
Qed.

Lemma rel_nil : forall R (l' : list (bytes * json)),
  Forall2 (fun p q : bytes * json => fst p = fst q /\ rel_value R (snd p) (snd q)) [] l' -> l' = [].
Proof. intros R l' H. inversion H. reflexivity. Qed.

Ltac rstep H v Hv := apply rel_cons in H as (v & ? & -> & Hv & H).

Lemma json_double_get : forall k l v y, obj_get k l = Some v -> to_double v = (y, true) ->
  json_double k (JObj l) = Ok y.
Proof.
  intros k l v y H1 H2. unfold json_double, has_key, at_key. rewrite H1. cbn [bind]. rewrite H2. reflexivity.
Qed.

Lemma json_integer_get : forall k l z, obj_get k l = Some (JInt z) -> json_integer k (JObj l) = Ok z.
Proof. intros k l z H1. unfold json_integer, has_key, at_key. rewrite H1. reflexivity. Qed.

Lemma particle_of_rel : forall R p v, numeric R -> rel_value R (particle_json p) v ->
  is_int (p_pdg p) -> is_int (p_charge p) ->
  (exists l, v = JObj l) /\
  exists p', particle_of_json v = Ok p' /\ particle_rel (read_as R) p p'.
Proof.
  intros R p v HR H Hi1 Hi2. rewrite particle_json_eq in H. apply rel_obj in H as (l & -> & H).
  split; [eauto|].
  rstep H vE HE. rstep H vq Hq. rstep H vm Hm. rstep H vp Hp. rstep H vx Hx. rstep H vy Hy. rstep H vz Hz.
  apply rel_nil in H. subst.
  apply rel_flt in HE as (yE & TE & RE); [|exact HR].
  apply rel_flt in Hm as (ym & Tm & Rm); [|exact HR].
  apply rel_flt in Hx as (yx & Tx & Rx); [|exact HR].
  apply rel_flt in Hy as (yy & Ty & Ry); [|exact HR].
  apply rel_flt in Hz as (yz & Tz & Rz); [|exact HR].
  apply rel_int in Hq, Hp. subst vq vp.
  set (l := [(b "E", vE); (b "charge", JInt (p_charge p)); (b "mass", vm); (b "pdg", JInt (p_pdg p));
             (b "px", vx); (b "py", vy); (b "pz", vz)]).
  unfold particle_of_json.
  rewrite (json_integer_get (b "pdg") l (p_pdg p) eq_refl). cbn [bind].
  rewrite (json_integer_get (b "charge") l (p_charge p) eq_refl). cbn [bind].
  rewrite (json_double_get (b "E") l vE yE eq_refl TE). cbn [bind].
  rewrite (json_double_get (b "px") l vx yx eq_refl Tx). cbn [bind].
  rewrite (json_double_get (b "py") l vy yy eq_refl Ty). cbn [bind].
  rewrite (json_double_get (b "pz") l vz yz eq_refl Tz). cbn [bind].
  rewrite (json_double_get (b "mass") l vm ym eq_refl Tm). cbn [bind].
  rewrite !to_int_id by assumption.
  eexists. split; [reflexivity|]. unfold particle_rel. cbn [p_pdg p_E p_px p_py p_pz p_mass p_charge]. tauto.
Qed.

Lemma particles_of_rel : forall R ps l, numeric R ->
  Forall (fun p => is_int (p_pdg p) /\ is_int (p_charge p)) ps ->
  Forall2 (rel_value R) (map particle_json ps) l ->
  exists ps', particles_of_json l = Ok ps' /\ Forall2 (particle_rel (read_as R)) ps ps'.
Proof.
  intros R ps l HR Hi H. remember (map particle_json ps) as js eqn:Ej. revert ps Hi Ej.
  induction H as [|j v js l Hv Hl IH]; intros ps Hi Ej.
  - destruct ps; [|discriminate Ej]. exists []. split; [reflexivity|constructor].
  - destruct ps as [|p ps]; [discriminate Ej|]. cbn [map] in Ej. injection Ej as -> ->.
    inversion Hi as [|? ? [Hi1 Hi2] Hi3]; subst.
    destruct (particle_of_rel R p v HR Hv Hi1 Hi2) as ((lo & ->) & p' & E1 & E2).
    destruct (IH ps Hi3 eq_refl) as (ps' & E3 & E4).
    exists (p' :: ps'). cbn [particles_of_json]. rewrite E1. cbn [bind]. rewrite E3. cbn [bind].
    split; [reflexivity|constructor; assumption].
Qed.

Definition ints_ok (ev : event) : Prop :=
  Forall (fun p => is_int (p_pdg p) /\ is_int (p_charge p)) (e_init ev) /\
  Forall (fun p => is_int (p_pdg p) /\ is_int (p_charge p)) (e_fin ev) /\ is_int (e_twoJ ev).

Lemma event_ok_ints : forall P ev, event_ok P ev -> ints_ok ev.
Proof.
  intros P ev (H1 & H2 & H3 & H4). split; [|split; [|exact H4]].
  - eapply Forall_impl; [|exact H1]. intros p (A & B & _). auto.
  - eapply Forall_impl; [|exact H2]. intros p (A & B & _). auto.
Qed.

Lemma event_of_rel : forall R ev v, numeric R -> ints_ok ev -> rel_value R (event_json ev) v ->
  exists ev', event_of_json v = Ok ev' /\ event_rel (read_as R) ev ev'.
Proof.
  intros R ev v HR (Hi1 & Hi2 & Hi3) H. rewrite event_json_eq in H. apply rel_obj in H as (l & -> & H).
  rstep H vE HE. rstep H vf Hf. rstep H vi Hi. rstep H vp Hp. rstep H vj Hj.
  apply rel_nil in H. subst.
  apply rel_flt in HE as (yE & TE & RE); [|exact HR].
  apply rel_int in Hp, Hj. subst vp vj.
  apply rel_arr in Hf as (lf & -> & Hf). apply rel_arr in Hi as (li & -> & Hi).
  destruct (particles_of_rel R _ _ HR Hi1 Hi) as (pi & Ei & Ri).
  destruct (particles_of_rel R _ _ HR Hi2 Hf) as (pf & Ef & Rf).
  set (l := [(b "Ex", vE); (b "final_particles", JArr lf); (b "initial_particles", JArr li);
             (b "parity", JInt (parity_to_int (e_par ev))); (b "twoJ", JInt (e_twoJ ev))]).
  unfold event_of_json.
  rewrite (json_double_get (b "Ex") l vE yE eq_refl TE). cbn [bind].
  rewrite (json_integer_get (b "twoJ") l (e_twoJ ev) eq_refl). cbn [bind].
  replace (at_key (b "parity") (JObj l)) with (Ok (JInt (parity_to_int (e_par ev)))) by reflexivity.
  cbn [bind to_long fst snd].
  replace (parity_of_int (to_int (parity_to_int (e_par ev)))) with (Ok (e_par ev))
    by (destruct (e_par ev); reflexivity).
  cbn [bind].
  replace (json_particles (b "initial_particles") (JObj l)) with (particles_of_json li) by reflexivity.
  replace (json_particles (b "final_particles") (JObj l)) with (particles_of_json lf) by reflexivity.
  rewrite Ei. cbn [bind]. rewrite Ef. cbn [bind].
  rewrite to_int_id by exact Hi3.
  eexists. split; [reflexivity|]. unfold event_rel. cbn [e_init e_fin e_Ex e_twoJ e_par]. tauto.
Qed.

(** ** Instances *)

Lemma numeric_same : numeric same_num.
Proof. intros x [| |z|y| | |] H; try contradiction; eexists; reflexivity. Qed.

Lemma numeric_near : numeric near_num.
Proof. intros x [| |z|y| | |] H; try contradiction; eexists; reflexivity. Qed.

Lemma read_as_same : forall x y, read_as same_num x y -> same_dbl x y.
Proof.
  intros x y (j & H & Ht). destruct j; try contradiction; cbn [to_double] in Ht; injection Ht as <-; exact H.
Qed.

Lemma read_as_near : forall x y, read_as near_num x y -> near_dbl x y.
Proof.
  intros x y (j & H & Ht). destruct j; try contradiction; cbn [to_double] in Ht; injection Ht as <-; exact H.
Qed.

Lemma particle_rel_impl : forall (R S : spec_float -> spec_float -> Prop), (forall x y, R x y -> S x y) ->
  forall p q, particle_rel R p q -> particle_rel S p q.
Proof. intros R S HI p q (A & B & C & D & E & F & G). unfold particle_rel. auto 10. Qed.

Lemma Forall2_impl' : forall (A B : Type) (R S : A -> B -> Prop), (forall x y, R x y -> S x y) ->
  forall l l', Forall2 R l l' -> Forall2 S l l'.
Proof. intros A B R S HI l l' H. induction H; constructor; auto. Qed.

Lemma event_rel_impl : forall (R S : spec_float -> spec_float -> Prop), (forall x y, R x y -> S x y) ->
  forall ev ev', event_rel R ev ev' -> event_rel S ev ev'.
Proof.
  intros R S HI ev ev' (A & B & C & D & E). unfold event_rel.
  split; [exact (Forall2_impl' _ _ _ _ (particle_rel_impl R S HI) _ _ A)|].
  split; [exact (Forall2_impl' _ _ _ _ (particle_rel_impl R S HI) _ _ B)|auto].
Qed.

Lemma event_rel_eq : forall ev ev', event_rel eq ev ev' -> ev = ev'.
Proof.
  intros [li lf ex tj pa] [li' lf' ex' tj' pa'] (A & B & C & D & E). cbn [e_init e_fin e_Ex e_twoJ e_par] in *.
  assert (HP : forall l l', Forall2 (particle_rel eq) l l' -> l = l').
  { intros l l' H. induction H as [|p q l l' Hp Hl IH]; [reflexivity|]. f_equal; [|exact IH].
    destruct p, q, Hp as (H1 & H2 & H3 & H4 & H5 & H6 & H7). cbn in *. congruence. }
  f_equal; auto.
Qed.

(** In memory the conversion is exact, for any doubles. *)
Lemma event_json_exact : forall ev, ints_ok ev -> event_of_json (event_json ev) = Ok ev.
Proof.
  intros ev Hi.
  set (R := fun x j => j = JFlt x).
  assert (HN : numeric R) by (intros x j ->; eexists; reflexivity).
  assert (Hrefl : forall j, rel_value R j j).
  { induction j using json_ind2; try (constructor; fail).
    - constructor. reflexivity.
    - constructor. induction H; constructor; auto.
    - constructor. induction H; constructor; auto. }
  destruct (event_of_rel R ev (event_json ev) HN Hi (Hrefl _)) as (ev' & E1 & E2).
  rewrite E1. f_equal. symmetry. apply event_rel_eq. eapply event_rel_impl; [|exact E2].
  intros x y (j & -> & Ht). cbn [to_double] in Ht. congruence.
Qed.

Lemma event_json_obj : forall ev, exists l, event_json ev = JObj l.
Proof. intros ev. rewrite event_json_eq. eauto. Qed.

Lemma event_file_same : forall indent ev, event_ok fixed_dbl ev ->
  exists j ev', load (dump indent (event_json ev)) = Ok j /\ event_of_json j = Ok ev' /\
    event_rel same_dbl ev ev'.
Proof.
  intros indent ev H. pose proof (event_floats _ _ H) as HF. destruct (event_json_obj ev) as (l & El).
  rewrite El in *. destruct (dump_load indent l HF) as (j & H1 & H2).
  rewrite <- El in H2. destruct (event_of_rel _ ev j numeric_same (event_ok_ints _ _ H) H2) as (ev' & E1 & E2).
  exists j, ev'. split; [exact H1|]. split; [exact E1|]. exact (event_rel_impl _ _ read_as_same _ _ E2).
Qed.

Lemma event_file_near : forall indent ev, event_ok normal_dbl ev ->
  exists j ev', load (dump indent (event_json ev)) = Ok j /\ event_of_json j = Ok ev' /\
    event_rel near_dbl ev ev'.
Proof.
  intros indent ev H. pose proof (event_floats _ _ H) as HF. destruct (event_json_obj ev) as (l & El).
  rewrite El in *. destruct (dump_load_near indent l HF) as (j & H1 & H2).
  rewrite <- El in H2. destruct (event_of_rel _ ev j numeric_near (event_ok_ints _ _ H) H2) as (ev' & E1 & E2).
  exists j, ev'. split; [exact H1|]. split; [exact E1|]. exact (event_rel_impl _ _ read_as_near _ _ E2).
Qed.
