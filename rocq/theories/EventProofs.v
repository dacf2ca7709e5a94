(** Proofs about the ASCII and JSON forms of events. *)
From Coq Require Import List Ascii String ZArith Bool Lia.
From Coq Require Import Floats.SpecFloat.
From Verif Require Import Base Dbl DigitsProofs DblProofs Json JsonSpec Stream StreamProofs Pdg Event EventSpec.
Import ListNotations.
Local Open Scope Z_scope.

(** ** Reading back what was written *)

Lemma stops_sp : forall t, stops (sp ++ t). Proof. intros. reflexivity. Qed.
Lemma stops_nl : forall t, stops (nl :: t). Proof. intros. reflexivity. Qed.
Lemma blank_sp : forallb is_space sp = true. Proof. reflexivity. Qed.
Lemma blank_nl : forallb is_space [nl] = true. Proof. reflexivity. Qed.

Lemma rd_int_show : forall w z t, forallb is_space w = true -> is_int z -> stops t ->
  rd_int (w ++ show_int z ++ t) = Some (z, t).
Proof. intros. apply rd_num_show; assumption. Qed.

Lemma read_particle_print : forall w p t, forallb is_space w = true ->
  particle_ok finite_dbl p -> stops t ->
  read_particle (w ++ print_particle p ++ t) = Some (p, t).
Proof.
  intros w p t Hw (H1 & H2 & H3 & H4 & H5 & H6 & H7) Ht.
  unfold print_particle, read_particle. rewrite <- !app_assoc.
  rewrite rd_int_show by (try assumption; apply stops_sp). cbn [obind].
  rewrite rd_dbl_show by (try assumption; try apply blank_sp; apply stops_sp). cbn [obind].
  rewrite rd_dbl_show by (try assumption; try apply blank_sp; apply stops_sp). cbn [obind].
  rewrite rd_dbl_show by (try assumption; try apply blank_sp; apply stops_sp). cbn [obind].
  rewrite rd_dbl_show by (try assumption; try apply blank_sp; apply stops_sp). cbn [obind].
  rewrite rd_dbl_show by (try assumption; try apply blank_sp; apply stops_sp). cbn [obind].
  rewrite rd_int_show by (try assumption; apply blank_sp). cbn [obind].
  destruct p; reflexivity.
Qed.

Definition ws_left (w : bytes) {A} (l : list A) : bytes := match l with [] => w | _ => [nl] end.

Lemma read_particles_print : forall l w t, forallb is_space w = true ->
  Forall (particle_ok finite_dbl) l ->
  read_particles (List.length l) (w ++ print_lines l ++ t) = Ok (l, ws_left w l ++ t).
Proof.
  induction l as [|p l IH]; intros w t Hw Hl; [reflexivity|].
  inversion Hl as [|p' l' Hp Hl']; subst.
  cbn [List.length read_particles print_lines flat_map].
  fold (print_lines l). rewrite <- !app_assoc.
  rewrite read_particle_print by (try assumption; apply stops_nl).
  rewrite IH by (try assumption; apply blank_nl). cbn [bind ws_left].
  destruct l; reflexivity.
Qed.

Lemma rd_parity_print : forall w p t, forallb is_space w = true ->
  rd_parity (w ++ [parity_to_char p] ++ t) = Ok (Some (p, t)).
Proof.
  intros w p t Hw. unfold rd_parity, rd_char. rewrite skip_sp_app by exact Hw.
  destruct p; reflexivity.
Qed.

Lemma read_header_print : forall w ev t, forallb is_space w = true -> good_event ev ->
  read_header (w ++ print_header ev ++ t)
  = Ok (Some (len (e_init ev), len (e_fin ev), e_Ex ev, e_twoJ ev, e_par ev, [nl] ++ t)).
Proof.
  intros w ev t Hw ((H1 & H2 & H3 & H4) & H5 & H6).
  unfold print_header, read_header. rewrite <- !app_assoc.
  rewrite rd_int_show; [|assumption|unfold is_int, int_min in *; lia|apply stops_sp]. cbn [obind].
  rewrite rd_int_show; [|apply blank_sp|unfold is_int, int_min in *; lia|apply stops_sp]. cbn [obind].
  rewrite rd_dbl_show by (try assumption; try apply blank_sp; apply stops_sp). cbn [obind].
  rewrite rd_int_show by (try assumption; try apply blank_sp; apply stops_sp). cbn [obind].
  rewrite rd_parity_print by apply blank_sp. reflexivity.
Qed.

Lemma read_event_print : forall w ev t, forallb is_space w = true -> good_event ev ->
  read_event (w ++ print_event ev ++ t) = Ok (Some (ev, nl :: t)).
Proof.
  intros w ev t Hw Hg. unfold print_event, read_event. rewrite <- !app_assoc.
  rewrite read_header_print by assumption. cbn [bind].
  destruct Hg as ((H1 & H2 & H3 & H4) & H5 & H6).
  replace (len (e_init ev) <? 2) with false by (symmetry; apply Z.ltb_ge; lia).
  replace (len (e_fin ev) <? 2) with false by (symmetry; apply Z.ltb_ge; lia).
  unfold len. rewrite !Nat2Z.id.
  rewrite read_particles_print by (try assumption; apply blank_nl). cbn [bind].
  assert (HW : forall w A (l : list A), forallb is_space w = true -> forallb is_space (ws_left w l) = true)
    by (intros w' A [|x l] H; [exact H|reflexivity]).
  rewrite read_particles_print by (try assumption; apply HW; apply blank_nl). cbn [bind].
  destruct ev as [li lf ex tj pa]. cbn [e_init e_fin e_Ex e_twoJ e_par] in *.
  destruct lf as [|p lf]; [unfold len in H6; cbn in H6; lia|]. reflexivity.
Qed.

Lemma read_header_blank : forall w, forallb is_space w = true -> read_header w = Ok None.
Proof. intros w H. unfold read_header, rd_int. rewrite rd_num_blank by exact H. reflexivity. Qed.

Lemma read_event_blank : forall w, forallb is_space w = true -> read_event w = Ok None.
Proof. intros w H. unfold read_event. rewrite read_header_blank by exact H. reflexivity. Qed.

Lemma read_events_print : forall evs f w t, forallb is_space w = true -> Forall good_event evs ->
  read_events (List.length evs + f) (w ++ events_text evs ++ t)
  = let '(l, e) := read_events f (ws_left w evs ++ t) in (evs ++ l, e).
Proof.
  induction evs as [|ev evs IH]; intros f w t Hw H.
  - cbn [List.length Nat.add events_text flat_map app ws_left]. destruct (read_events f (w ++ t)); reflexivity.
  - inversion H as [|e' l' He Hl]; subst.
    cbn [List.length Nat.add read_events events_text flat_map]. fold (events_text evs).
    rewrite <- app_assoc. rewrite read_event_print by assumption.
    change (nl :: events_text evs ++ t) with ([nl] ++ events_text evs ++ t).
    rewrite IH by (try assumption; apply blank_nl).
    replace (ws_left [nl] evs) with (ws_left w (ev :: evs)) by (destruct evs; reflexivity).
    destruct (read_events f (ws_left w (ev :: evs) ++ t)). reflexivity.
Qed.

Lemma print_event_len : forall ev, (0 < List.length (print_event ev))%nat.
Proof.
  intros ev. unfold print_event, print_header. rewrite !app_length. cbn [List.length sp]. lia.
Qed.

Lemma events_text_len : forall evs, (List.length evs <= List.length (events_text evs))%nat.
Proof.
  induction evs as [|ev evs IH]; [auto|]. cbn [events_text flat_map List.length].
  fold (events_text evs). rewrite app_length. pose proof (print_event_len ev). lia.
Qed.

Lemma read_all_print : forall evs, Forall good_event evs ->
  read_all (events_text evs) = (evs, AtEnd).
Proof.
  intros evs H. unfold read_all. pose proof (events_text_len evs) as HL.
  replace (S (List.length (events_text evs)))
    with (List.length evs + S (List.length (events_text evs) - List.length evs))%nat by lia.
  pose proof (read_events_print evs (S (List.length (events_text evs) - List.length evs)) [] []
    eq_refl H) as HR.
  rewrite app_nil_r in HR. cbn [app] in HR. rewrite HR. cbn [read_events].
  rewrite app_nil_r, read_event_blank by (destruct evs; reflexivity). rewrite app_nil_r. reflexivity.
Qed.

(** ** Fuel and outcomes *)

Lemma read_particles_err : forall n s e, read_particles n s = Er e -> e = MarleyErr.
Proof.
  induction n as [|n IH]; intros s e H; [discriminate H|]. cbn [read_particles] in H.
  destruct (read_particle s) as [[p t]|]; [|injection H as <-; reflexivity].
  destruct (read_particles n t) as [[l u]|e'] eqn:E; [discriminate H|]. injection H as <-. eauto.
Qed.

Lemma read_header_err : forall s e, read_header s = Er e -> e = MarleyErr.
Proof.
  intros s e H. unfold read_header in H.
  destruct (obind _ _) as [[[[[ni nf] ex] tj] t]|]; [|discriminate H].
  unfold rd_parity in H. destruct (rd_char t) as [[c r]|]; [|discriminate H].
  unfold parity_of_char in H. destruct (ceq c "+"); [discriminate H|].
  destruct (ceq c "-"); [discriminate H|]. injection H as <-. reflexivity.
Qed.

Lemma read_event_err : forall s e, read_event s = Er e -> e = MarleyErr.
Proof.
  intros s e H. unfold read_event in H.
  destruct (read_header s) as [[[[[[[ni nf] ex] tj] p] t]|]|e'] eqn:E; [|discriminate H|].
  2: { injection H as <-. eapply read_header_err; eauto. }
  cbn [bind] in H.
  destruct (ni <? 2); [injection H as <-; reflexivity|].
  destruct (nf <? 2); [injection H as <-; reflexivity|].
  destruct (read_particles (Z.to_nat ni) t) as [[li u]|e'] eqn:E1; cbn [bind] in H.
  2: { injection H as <-. eapply read_particles_err; eauto. }
  destruct (read_particles (Z.to_nat nf) u) as [[lf v]|e'] eqn:E2; cbn [bind] in H; [discriminate H|].
  injection H as <-. eapply read_particles_err; eauto.
Qed.

(** ** Truncated text *)

Ltac ostep H v s E :=
  match type of H with
  | obind ?r _ = Some _ => destruct r as [[v s]|] eqn:E; [cbn [obind] in H|discriminate H]
  end.

Lemma rd_int_nil : rd_int [] = None. Proof. reflexivity. Qed.
Lemma rd_dbl_nil : rd_dbl [] = None. Proof. reflexivity. Qed.

(** Two reads of the same text, cut and whole. *)
Lemma read_particle_cut : forall p q P t, read_particle p = Some (P, t) ->
  (t <> [] -> read_particle (p ++ q) = Some (P, t ++ q)) /\
  (forall P' u, read_particle (p ++ q) = Some (P', u) -> but_charge P' P).
Proof.
  intros p q P t H. unfold read_particle in *.
  ostep H pdg s1 E1. ostep H E s2 E2. ostep H px s3 E3. ostep H py s4 E4. ostep H pz s5 E5.
  ostep H m s6 E6. ostep H ch s7 E7. injection H as <- <-.
  destruct s6 as [|c6 s6]; [discriminate E7|].
  destruct s5 as [|c5 s5]; [discriminate E6|].
  destruct s4 as [|c4 s4]; [discriminate E5|].
  destruct s3 as [|c3 s3]; [discriminate E4|].
  destruct s2 as [|c2 s2]; [discriminate E3|].
  destruct s1 as [|c1 s1]; [discriminate E2|].
  unfold rd_int in E1 at 1. rewrite (rd_num_more _ _ _ q _ _ _ E1 : rd_int _ = _). cbn [obind].
  change (c1 :: s1 ++ q) with ((c1 :: s1) ++ q). rewrite (rd_dbl_more _ q _ _ _ E2). cbn [obind].
  change (c2 :: s2 ++ q) with ((c2 :: s2) ++ q). rewrite (rd_dbl_more _ q _ _ _ E3). cbn [obind].
  change (c3 :: s3 ++ q) with ((c3 :: s3) ++ q). rewrite (rd_dbl_more _ q _ _ _ E4). cbn [obind].
  change (c4 :: s4 ++ q) with ((c4 :: s4) ++ q). rewrite (rd_dbl_more _ q _ _ _ E5). cbn [obind].
  change (c5 :: s5 ++ q) with ((c5 :: s5) ++ q). rewrite (rd_dbl_more _ q _ _ _ E6). cbn [obind].
  change (c6 :: s6 ++ q) with ((c6 :: s6) ++ q).
  split.
  - intros Ht. destruct s7 as [|c7 s7]; [congruence|].
    rewrite (rd_num_more _ _ _ q _ _ _ E7 : rd_int _ = _). reflexivity.
  - intros P' u H. destruct (rd_int ((c6 :: s6) ++ q)) as [[ch' s7']|]; [|discriminate H].
    cbn [obind] in H. injection H as <- <-. reflexivity.
Qed.

Lemma read_particle_nil : read_particle [] = None. Proof. reflexivity. Qed.

Lemma read_particles_cut : forall n p q l t, read_particles n p = Ok (l, t) ->
  (t <> [] -> read_particles n (p ++ q) = Ok (l, t ++ q)) /\
  (forall l' u, (0 < n)%nat -> read_particles n (p ++ q) = Ok (l', u) ->
     exists l0 P P', l' = l0 ++ [P'] /\ l = l0 ++ [P] /\ but_charge P' P).
Proof.
  induction n as [|n IH]; intros p q l t H.
  - injection H as <- <-. split; [reflexivity|lia].
  - cbn [read_particles] in *. destruct (read_particle p) as [[P s1]|] eqn:E1; [|discriminate H].
    destruct (read_particles n s1) as [[l1 t1]|] eqn:E2; [|discriminate H].
    cbn [bind] in H. injection H as <- <-.
    destruct (read_particle_cut p q P s1 E1) as [C1 C2].
    destruct (IH s1 q l1 t1 E2) as [I1 I2].
    destruct n as [|n].
    + cbn [read_particles] in *. injection E2 as <- <-. split.
      * intros Ht. rewrite C1 by exact Ht. reflexivity.
      * intros l' u _ H. destruct (read_particle (p ++ q)) as [[P' s1']|] eqn:E1'; [|discriminate H].
        cbn [bind] in H. injection H as <- <-. exists [], P, P'.
        split; [reflexivity|]. split; [reflexivity|]. eapply C2. reflexivity.
    + assert (Hs : s1 <> []) by (intros ->; cbn [read_particles] in E2; rewrite read_particle_nil in E2; discriminate E2).
      rewrite (C1 Hs). split.
      * intros Ht. rewrite I1 by exact Ht. reflexivity.
      * intros l' u _ H.
        destruct (read_particles (S n) (s1 ++ q)) as [[l1' t1']|] eqn:E2'; [|discriminate H].
        cbn [bind] in H. injection H as <- <-.
        destruct (I2 l1' t1' ltac:(lia) eq_refl) as (l0 & Q & Q' & A1 & A2 & A3).
        exists (P :: l0), Q, Q'. subst. split; [reflexivity|]. split; [reflexivity|exact A3].
Qed.

Lemma read_header_cut : forall p q h t, read_header p = Ok (Some (h, t)) ->
  read_header (p ++ q) = Ok (Some (h, t ++ q)).
Proof.
  intros p q h t H. unfold read_header in *.
  destruct (obind (rd_int p) _) as [[[[[ni nf] ex] tj] s]|] eqn:E0; [|discriminate H].
  ostep E0 x1 s1 E1. ostep E0 x2 s2 E2. ostep E0 x3 s3 E3. ostep E0 x4 s4 E4.
  injection E0 as -> -> -> -> ->.
  unfold rd_parity in H. destruct (rd_char s) as [[c r]|] eqn:E5; [|discriminate H].
  destruct s as [|c4 s4]; [discriminate E5|].
  destruct s3 as [|c3 s3]; [discriminate E4|].
  destruct s2 as [|c2 s2]; [discriminate E3|].
  destruct s1 as [|c1 s1]; [discriminate E2|].
  rewrite (rd_num_more _ _ _ q _ _ _ E1 : rd_int _ = _). cbn [obind].
  change (c1 :: s1 ++ q) with ((c1 :: s1) ++ q). rewrite (rd_num_more _ _ _ q _ _ _ E2 : rd_int _ = _). cbn [obind].
  change (c2 :: s2 ++ q) with ((c2 :: s2) ++ q). rewrite (rd_dbl_more _ q _ _ _ E3). cbn [obind].
  change (c3 :: s3 ++ q) with ((c3 :: s3) ++ q). rewrite (rd_num_more _ _ _ q _ _ _ E4 : rd_int _ = _). cbn [obind].
  unfold rd_parity. change (c4 :: s4 ++ q) with ((c4 :: s4) ++ q). rewrite (rd_char_more _ q _ _ E5).
  destruct (parity_of_char c); [|discriminate H]. cbn [bind] in *. injection H as <- <-. reflexivity.
Qed.

Lemma read_particles_nil : forall n l t, (0 < n)%nat -> read_particles n [] <> Ok (l, t).
Proof. intros [|n] l t Hn H; [lia|]. discriminate H. Qed.

Lemma read_event_cut : forall p q ev t, read_event p = Ok (Some (ev, t)) ->
  (t <> [] -> read_event (p ++ q) = Ok (Some (ev, t ++ q))) /\
  (forall ev' u, read_event (p ++ q) = Ok (Some (ev', u)) -> but_last_charge ev' ev).
Proof.
  intros p q ev t H. unfold read_event in *.
  destruct (read_header p) as [[[h s1]|]|] eqn:E1; [|discriminate H|discriminate H].
  rewrite (read_header_cut p q h s1 E1). cbn [bind] in *.
  destruct h as [[[[ni nf] ex] tj] pa].
  destruct (ni <? 2) eqn:Eni; [discriminate H|]. destruct (nf <? 2) eqn:Enf; [discriminate H|].
  apply Z.ltb_ge in Eni, Enf.
  destruct (read_particles (Z.to_nat ni) s1) as [[li s2]|] eqn:E2; [|discriminate H]. cbn [bind] in H.
  destruct (read_particles (Z.to_nat nf) s2) as [[lf s3]|] eqn:E3; [|discriminate H]. cbn [bind] in H.
  injection H as <- <-.
  assert (Hs2 : s2 <> []).
  { intros ->. exact (read_particles_nil (Z.to_nat nf) lf s3 ltac:(lia) E3). }
  destruct (read_particles_cut _ s1 q _ _ E2) as [C1 _]. rewrite C1 by exact Hs2. cbn [bind].
  destruct (read_particles_cut _ s2 q _ _ E3) as [D1 D2]. split.
  - intros Ht. rewrite D1 by exact Ht. reflexivity.
  - intros ev' u H. destruct (read_particles (Z.to_nat nf) (s2 ++ q)) as [[lf' s3']|] eqn:E3'; [|discriminate H].
    cbn [bind] in H. injection H as <- <-.
    destruct (D2 lf' s3' ltac:(lia) eq_refl) as (l0 & P & P' & A1 & A2 & A3).
    unfold but_last_charge. cbn [e_init e_fin e_Ex e_twoJ e_par]. subst.
    repeat (split; [reflexivity|]). exists l0, P', P. auto.
Qed.

Lemma app_suffix_nil : forall (A : Type) (t q r : list A), t ++ q = r -> (List.length r <= List.length q)%nat -> t = [].
Proof.
  intros A t q r H HL. rewrite <- H, app_length in HL. destruct t; [reflexivity|cbn in HL; lia].
Qed.

(** The text of an event, cut somewhere before its end. *)
Lemma read_event_truncated : forall w ev p q, forallb is_space w = true -> good_event ev ->
  print_event ev = p ++ q -> q <> [] ->
  (exists r, read_event (w ++ p) = r /\ (r = Ok None \/ r = Er MarleyErr)) \/
  (exists ev', read_event (w ++ p) = Ok (Some (ev', [])) /\ but_last_charge ev ev').
Proof.
  intros w ev p q Hw Hg Hp Hq.
  destruct (read_event (w ++ p)) as [[[ev' t]|]|e] eqn:E.
  - right. pose proof (read_event_print w ev [] Hw Hg) as HR. rewrite app_nil_r, Hp, app_assoc in HR.
    destruct (read_event_cut (w ++ p) q ev' t E) as [C1 C2].
    assert (Ht : t = []).
    { destruct t as [|c t]; [reflexivity|]. rewrite C1 in HR by discriminate.
      injection HR as _ -> HR. destruct t; [|discriminate HR]. cbn in HR. congruence. }
    subst t. exists ev'. split; [reflexivity|]. exact (C2 _ _ HR).
  - left. eexists. split; [reflexivity|]. left. reflexivity.
  - left. eexists. split; [reflexivity|]. right. f_equal. eapply read_event_err. exact E.
Qed.

Lemma truncated_events : forall evs ev p q, Forall good_event evs -> good_event ev ->
  print_event ev = p ++ q -> q <> [] ->
  exists l e, read_all (events_text evs ++ p) = (evs ++ l, e) /\
    (l = [] /\ (e = AtEnd \/ e = Thrown MarleyErr) \/
     (exists ev', l = [ev'] /\ but_last_charge ev ev') /\ e = AtEnd).
Proof.
  intros evs ev p q He Hg Hp Hq. unfold read_all.
  pose proof (events_text_len evs) as HL.
  set (L := List.length (events_text evs ++ p)).
  assert (HLL : (List.length evs <= L)%nat) by (unfold L; rewrite app_length; lia).
  replace (S L) with (List.length evs + S (L - List.length evs))%nat by lia.
  set (f := (L - List.length evs)%nat).
  pose proof (read_events_print evs (S f) [] p eq_refl He) as HR. cbn [app] in HR. rewrite HR.
  clear HR. cbn [read_events].
  destruct (read_event_truncated (ws_left [] evs) ev p q ltac:(destruct evs; reflexivity) Hg Hp Hq)
    as [(r & HE & [Hr|Hr])|(ev' & HE & Hb)].
  - rewrite HE, Hr. exists [], AtEnd. auto.
  - rewrite HE, Hr. exists [], (Thrown MarleyErr). auto.
  - rewrite HE. assert (HN : read_events f [] = ([], AtEnd)).
    { destruct f as [|f'] eqn:Ef; [|reflexivity].
      (* the cut event was read, so p is not empty and there is fuel left *)
      exfalso. assert (L = List.length evs) by (unfold f in Ef; lia).
      unfold L in *. rewrite app_length in *. assert (p = []) by (destruct p; [reflexivity|cbn in *; lia]). subst p.
      rewrite app_nil_r, read_event_blank in HE by (destruct evs; reflexivity). discriminate HE. }
    rewrite HN. exists [ev'], AtEnd. split; [reflexivity|]. right. split; [|reflexivity]. eauto.
Qed.

(** Every cut of the text of a sequence of events is of that form. *)
Lemma cut_form : forall evs k, (k < List.length (events_text evs))%nat ->
  exists evs1 ev evs2 p q, evs = evs1 ++ ev :: evs2 /\
    firstn k (events_text evs) = events_text evs1 ++ p /\
    print_event ev = p ++ q /\ q <> [].
Proof.
  induction evs as [|ev evs IH]; intros k Hk; [cbn in Hk; lia|].
  cbn [events_text flat_map] in *. fold (events_text evs) in *. rewrite app_length in Hk.
  destruct (Nat.lt_ge_cases k (List.length (print_event ev))) as [Hlt|Hge].
  - exists [], ev, evs, (firstn k (print_event ev)), (skipn k (print_event ev)).
    split; [reflexivity|]. split.
    + cbn [events_text flat_map app]. rewrite firstn_app.
      replace (k - List.length (print_event ev))%nat with O by lia. rewrite app_nil_r. reflexivity.
    + split; [symmetry; apply firstn_skipn|]. intros H.
      pose proof (skipn_length k (print_event ev)) as HS. rewrite H in HS. cbn in HS. lia.
  - destruct (IH (k - List.length (print_event ev))%nat ltac:(lia)) as (e1 & e & e2 & p & q & A1 & A2 & A3 & A4).
    exists (ev :: e1), e, e2, p, q. rewrite A1. split; [reflexivity|]. split; [|auto].
    rewrite firstn_app. rewrite firstn_all2 by lia. rewrite <- A1, A2.
    cbn [events_text flat_map]. rewrite app_assoc. reflexivity.
Qed.

Lemma truncated_anywhere : forall evs k, Forall good_event evs -> (k < List.length (events_text evs))%nat ->
  exists before ev after l e, evs = before ++ ev :: after /\
    (List.length (events_text before) <= k < List.length (events_text (before ++ [ev])))%nat /\
    read_all (firstn k (events_text evs)) = (before ++ l, e) /\
    (l = [] /\ (e = AtEnd \/ e = Thrown MarleyErr) \/
     (exists ev', l = [ev'] /\ but_last_charge ev ev') /\ e = AtEnd).
Proof.
  intros evs k Hg Hk. destruct (cut_form evs k Hk) as (before & ev & after & p & q & E1 & E2 & E3 & E4).
  rewrite E1 in Hg. apply Forall_app in Hg as [Hg1 Hg2]. inversion Hg2 as [|? ? Hg3 Hg4]; subst x l.
  destruct (truncated_events before ev p q Hg1 Hg3 E3 E4) as (l & e & H1 & H2).
  exists before, ev, after, l, e. split; [exact E1|]. split; [|split; [rewrite E2; exact H1|exact H2]].
  assert (HL : List.length (firstn k (events_text evs)) = k) by (apply firstn_length_le; lia).
  rewrite E2, app_length in HL.
  unfold events_text in *. rewrite flat_map_app, app_length. cbn [flat_map]. rewrite app_nil_r, E3, app_length.
  destruct q; [congruence|]. cbn [List.length]. lia.
Qed.
