(** Proofs about the HEPEVT form of events. *)
From Coq Require Import List Ascii String ZArith Bool Lia Permutation.
From Coq Require Import Floats.SpecFloat.
From Verif Require Import Base Dbl DigitsProofs DblProofs Json JsonSpec Stream StreamProofs Pdg Event EventSpec
  EventProofs HepNumProofs HepSpec.
Import ListNotations.
Local Open Scope Z_scope.

(** ** Entries *)


Fixpoint steps (hs : list hep_entry) (st : hep_state) : res hep_state :=
  match hs with
  | [] => Ok st
  | h :: r => do st <- hep_step h st; steps r st
  end.

Lemma hep_loop_entries : forall n st s st' t, hep_loop n st s = Ok (st', t) ->
  exists hs, read_entries n s = Some (hs, t) /\ steps hs st = Ok st'.
Proof.
  induction n as [|n IH]; intros st s st' t H.
  - injection H as <- <-. exists []. auto.
  - cbn [hep_loop read_entries] in *. destruct (read_hep_entry s) as [[h u]|]; [|discriminate H].
    destruct (hep_step h st) as [st1|] eqn:E; [|discriminate H]. cbn [bind] in H.
    destruct (IH _ _ _ _ H) as (hs & H1 & H2). exists (h :: hs). rewrite H1.
    split; [reflexivity|]. cbn [steps]. rewrite E. exact H2.
Qed.

Lemma entries_hep_loop : forall n st s hs t, read_entries n s = Some (hs, t) ->
  hep_loop n st s = do st' <- steps hs st; Ok (st', t).
Proof.
  induction n as [|n IH]; intros st s hs t H.
  - injection H as <- <-. reflexivity.
  - cbn [hep_loop read_entries] in *. destruct (read_hep_entry s) as [[h u]|]; [|discriminate H].
    destruct (read_entries n u) as [[hs' u']|] eqn:E; [|discriminate H]. injection H as <- <-.
    cbn [steps]. destruct (hep_step h st) as [st1|]; [|reflexivity]. cbn [bind]. apply IH. exact E.
Qed.

Lemma read_entries_app : forall n m s hs hs' t u,
  read_entries n s = Some (hs, t) -> read_entries m t = Some (hs', u) ->
  read_entries (n + m) s = Some (hs ++ hs', u).
Proof.
  induction n as [|n IH]; intros m s hs hs' t u H1 H2.
  - injection H1 as <- <-. exact H2.
  - cbn [read_entries Nat.add] in *. destruct (read_hep_entry s) as [[h s1]|]; [|discriminate H1].
    destruct (read_entries n s1) as [[hs1 s2]|] eqn:E; [|discriminate H1]. injection H1 as <- <-.
    rewrite (IH _ _ _ _ _ _ E H2). reflexivity.
Qed.

Lemma steps_app : forall hs hs' st, steps (hs ++ hs') st = do st' <- steps hs st; steps hs' st'.
Proof.
  induction hs as [|h hs IH]; intros hs' st; [reflexivity|]. cbn [app steps].
  destruct (hep_step h st); [cbn [bind]; apply IH|reflexivity].
Qed.

(** ** Reading back a written line *)



Lemma rd_dbl_zero_dot : forall t, stops t -> rd_dbl (b " 0." ++ t) = Some (S754_zero false, t).
Proof.
  intros t Ht. unfold rd_dbl. change (b " 0." ++ t) with (sp ++ "0"%char :: "."%char :: t).
  rewrite skip_sp_app by reflexivity. rewrite skip_sp_digit by reflexivity.
  rewrite take_sign_digit by reflexivity.
  change ("0"%char :: "."%char :: t) with (["0"%char] ++ "."%char :: t).
  rewrite span_digits_app by reflexivity. change (ceq "." ".") with true. cbn iota.
  change t with ([] ++ t) at 1. rewrite span_digits_app by (try reflexivity; apply stops_digits; exact Ht).
  cbn [app]. destruct t as [|c t]; [reflexivity|].
  apply space_cases in Ht as (_ & _ & _ & _ & H1 & H2). cbn [rd_exp]. rewrite H1, H2. reflexivity.
Qed.

Definition gev_ok (p : particle) : Prop :=
  finite_dbl (to_gev (p_px p)) /\ finite_dbl (to_gev (p_py p)) /\ finite_dbl (to_gev (p_pz p)) /\
  finite_dbl (to_gev (p_E p)) /\ finite_dbl (to_gev (p_mass p)).

Lemma read_hep_line : forall w p st j1 j2 t, forallb is_space w = true ->
  is_int st -> is_int (p_pdg p) -> is_int j1 -> is_int j2 -> gev_ok p ->
  read_hep_entry (w ++ hep_line p st j1 j2 ++ t) = Some (entry_of p st j1 j2, nl :: t).
Proof.
  intros w p st j1 j2 t Hw Hst Hp H1 H2 (G1 & G2 & G3 & G4 & G5).
  unfold hep_line, read_hep_entry, gev. rewrite <- !app_assoc.
  rewrite rd_int_show by (try assumption; apply stops_sp). cbn [obind].
  rewrite rd_int_show by (try assumption; try apply blank_sp; apply stops_sp). cbn [obind].
  rewrite rd_int_show by (try assumption; try apply blank_sp; apply stops_sp). cbn [obind].
  rewrite rd_int_show by (try assumption; try apply blank_sp; reflexivity). cbn [obind].
  set (rest := show_e17 (dbl_div (p_px p) GEV_TO_MEV) ++ _).
  assert (H0 : is_int 0) by (split; vm_compute; congruence).
  change (b " 0 0 " ++ rest) with (sp ++ show_int 0 ++ (sp ++ show_int 0 ++ (sp ++ rest))).
  rewrite rd_int_show by (try exact H0; try apply blank_sp; apply stops_sp). cbn [obind].
  rewrite rd_int_show by (try exact H0; try apply blank_sp; apply stops_sp). cbn [obind].
  unfold rest.
  rewrite rd_dbl_show by (try assumption; try apply blank_sp; apply stops_sp). cbn [obind].
  rewrite rd_dbl_show by (try assumption; try apply blank_sp; apply stops_sp). cbn [obind].
  rewrite rd_dbl_show by (try assumption; try apply blank_sp; apply stops_sp). cbn [obind].
  rewrite rd_dbl_show by (try assumption; try apply blank_sp; apply stops_sp). cbn [obind].
  rewrite rd_dbl_show by (try assumption; try apply blank_sp; reflexivity). cbn [obind].
  change (b " 0. 0. 0. 0." ++ [nl] ++ t)
    with (b " 0." ++ (b " 0." ++ (b " 0." ++ (b " 0." ++ (nl :: t))))).
  rewrite rd_dbl_zero_dot by reflexivity. cbn [obind].
  rewrite rd_dbl_zero_dot by reflexivity. cbn [obind].
  rewrite rd_dbl_zero_dot by reflexivity. cbn [obind].
  rewrite rd_dbl_zero_dot by reflexivity. cbn [obind].
  reflexivity.
Qed.

Lemma read_hep_lines : forall st ps w t, forallb is_space w = true -> is_int st ->
  Forall (fun p => is_int (p_pdg p) /\ gev_ok p) ps ->
  read_entries (List.length ps) (w ++ flat_map (fun p => hep_line p st 0 0) ps ++ t)
  = Some (map (fun p => entry_of p st 0 0) ps, ws_left w ps ++ t).
Proof.
  intros st ps. induction ps as [|p ps IH]; intros w t Hw Hst H; [reflexivity|].
  inversion H as [|? ? [H1 H2] H3]; subst.
  cbn [List.length read_entries flat_map map]. rewrite <- app_assoc.
  assert (H0 : is_int 0) by (split; vm_compute; congruence).
  rewrite read_hep_line by assumption.
  change (nl :: flat_map (fun p => hep_line p st 0 0) ps ++ t)
    with ([nl] ++ flat_map (fun p => hep_line p st 0 0) ps ++ t).
  rewrite IH by (try assumption; apply blank_nl). cbn [ws_left]. destruct ps; reflexivity.
Qed.


Lemma record_count : forall flux ev,
  List.length (record_entries flux ev) = (List.length (e_init ev) + (1 + List.length (e_fin ev)))%nat.
Proof. intros. unfold record_entries. rewrite !app_length, !map_length. reflexivity. Qed.

Lemma read_record : forall w num flux ev t, forallb is_space w = true -> is_int num ->
  is_int (1 + len (e_init ev) + len (e_fin ev)) -> is_int (e_twoJ ev) ->
  Forall (fun p => is_int (p_pdg p) /\ gev_ok p) (e_init ev) ->
  Forall (fun p => is_int (p_pdg p) /\ gev_ok p) (e_fin ev) ->
  gev_ok (hep_dummy ev flux) ->
  exists u, (olet (_, s) <- rd_int (w ++ print_hepevt num flux ev ++ t); rd_int s)
    = Some (1 + len (e_init ev) + len (e_fin ev), u) /\
  read_entries (Z.to_nat (1 + len (e_init ev) + len (e_fin ev))) u
  = Some (record_entries flux ev, nl :: t).
Proof.
  intros w num flux ev t Hw Hn Hc Hj Hi Hf Hd. unfold print_hepevt. rewrite <- !app_assoc.
  rewrite rd_int_show by (try assumption; apply stops_sp). cbn [obind].
  rewrite rd_int_show by (try assumption; try apply blank_sp; apply stops_nl).
  eexists. split; [reflexivity|].
  replace (Z.to_nat (1 + len (e_init ev) + len (e_fin ev)))
    with (List.length (e_init ev) + (1 + List.length (e_fin ev)))%nat by (unfold len; lia).
  unfold record_entries.
  eapply read_entries_app.
  { apply read_hep_lines; [apply blank_nl|split; vm_compute; congruence|exact Hi]. }
  eapply read_entries_app.
  { cbn [read_entries]. rewrite read_hep_line; try assumption.
    - reflexivity.
    - destruct (e_init ev); reflexivity.
    - split; vm_compute; congruence.
    - split; vm_compute; congruence.
    - destruct (e_par ev); split; vm_compute; congruence. }
  change (nl :: flat_map (fun p => hep_line p ST_FINAL 0 0) (e_fin ev) ++ t)
    with ([nl] ++ flat_map (fun p => hep_line p ST_FINAL 0 0) (e_fin ev) ++ t).
  rewrite read_hep_lines; [|apply blank_nl|split; vm_compute; congruence|exact Hf].
  destruct (e_fin ev); reflexivity.
Qed.

(** ** The loop over entries *)



Fixpoint countb {A} (f : A -> bool) (l : list A) : Z :=
  match l with [] => 0 | x :: r => (if f x then 1 else 0) + countb f r end.

Lemma countb_app : forall A (f : A -> bool) l l', countb f (l ++ l') = countb f l + countb f l'.
Proof. induction l as [|x l IH]; intros; cbn [countb app]; [reflexivity|]. rewrite IH. lia. Qed.

Lemma countb_nonneg : forall A (f : A -> bool) l, 0 <= countb f l.
Proof. induction l as [|x l IH]; cbn [countb]; [lia|]. destruct (f x); lia. Qed.


(** What the loop state says about the particles read so far. *)
Record loop_inv (st : hep_state) : Prop := {
  li_ninit : s_ninit st = len (e_init (s_ev st));
  li_nions : s_nions st = countb ionb (e_init (s_ev st));
  li_nlep : s_nlep st = countb lepb (e_fin (s_ev st));
  li_nfions : s_nfions st = countb ionb (e_fin (s_ev st));
  li_lep : 0 < s_nlep st -> exists p, nth_error (e_fin (s_ev st)) (s_lep st) = Some p /\ lepb p = true;
  li_A0 : 0 <= s_A st;
  li_max : forall p, In p (e_fin (s_ev st)) -> ionb p = true -> massA p <= s_A st;
  li_ion : 0 < s_A st -> exists p, nth_error (e_fin (s_ev st)) (s_ion st) = Some p /\
             ionb p = true /\ massA p = s_A st /\
             forall j q, (j < s_ion st)%nat -> nth_error (e_fin (s_ev st)) j = Some q ->
               ionb q = true -> massA q < s_A st;
  li_ion0 : s_A st = 0 -> s_ion st = 0%nat
}.

Lemma loop_inv_start : loop_inv hep_start.
Proof.
  split; cbn; try reflexivity; try lia; try contradiction.
Qed.

Lemma hep_particle_pdg : forall h p, hep_particle h = Ok p -> p_pdg p = h_pdg h.
Proof.
  intros h p H. unfold hep_particle in H. destruct (particle_charge (h_pdg h)); [|discriminate H].
  injection H as <-. reflexivity.
Qed.

Lemma hep_particle_entry : forall h p, hep_particle h = Ok p -> entry_particle h p.
Proof.
  intros h p H. unfold hep_particle, entry_particle in *. destruct (particle_charge (h_pdg h)); [|discriminate H].
  injection H as <-. repeat split.
Qed.

Lemma nth_error_snoc_old : forall A (l : list A) x i y, nth_error l i = Some y -> nth_error (l ++ [x]) i = Some y.
Proof.
  intros A l x i y H. rewrite nth_error_app1; [exact H|]. apply nth_error_Some. congruence.
Qed.

Lemma nth_error_snoc_new : forall A (l : list A) x, nth_error (l ++ [x]) (List.length l) = Some x.
Proof. intros. rewrite nth_error_app2, Nat.sub_diag by lia. reflexivity. Qed.

Lemma len_snoc : forall A (l : list A) x, len (l ++ [x]) = len l + 1.
Proof. intros. unfold len. rewrite app_length. cbn [List.length]. lia. Qed.

Lemma hep_step_inv : forall h st st', loop_inv st -> hep_step h st = Ok st' -> loop_inv st'.
Proof.
  intros h st st' I H. unfold hep_step in H.
  destruct (h_status h =? ST_INFO); [|destruct (h_status h =? ST_INITIAL); [|destruct (h_status h =? ST_FINAL)]].
  - unfold hep_info in H. destruct (parity_of_int (h_jmo2 h)); [|discriminate H]. injection H as <-.
    destruct I. split; cbn [s_ev s_ninit s_nions s_nlep s_nfions s_lep s_ion s_A e_init e_fin]; assumption.
  - unfold hep_initial in H. destruct (hep_particle h) as [p|] eqn:E; [|discriminate H]. cbn [bind] in H.
    injection H as <-. apply hep_particle_pdg in E.
    destruct I. split; cbn [s_ev s_ninit s_nions s_nlep s_nfions s_lep s_ion s_A e_init e_fin]; try assumption.
    + rewrite len_snoc. lia.
    + rewrite countb_app. cbn [countb]. unfold ionb at 2. rewrite E. destruct (is_ion (h_pdg h)); lia.
  - unfold hep_final in H. destruct (hep_particle h) as [p|] eqn:E; [|discriminate H]. cbn [bind] in H.
    injection H as <-. apply hep_particle_pdg in E.
    assert (HL : (List.length (e_fin (s_ev st) ++ [p]) - 1 = List.length (e_fin (s_ev st)))%nat)
      by (rewrite app_length; cbn [List.length]; lia).
    rewrite HL.
    assert (EL : lepb p = is_lepton (h_pdg h)) by (unfold lepb; rewrite E; reflexivity).
    assert (EI : ionb p = is_ion (h_pdg h)) by (unfold ionb; rewrite E; reflexivity).
    assert (EA : massA p = particle_A (h_pdg h)) by (unfold massA; rewrite E; reflexivity).
    rewrite <- EL, <- EI, <- EA.
    destruct I. split; cbn [s_ev s_ninit s_nions s_nlep s_nfions s_lep s_ion s_A e_init e_fin]; try assumption.
    + rewrite countb_app. cbn [countb]. destruct (lepb p); lia.
    + rewrite countb_app. cbn [countb]. destruct (ionb p); lia.
    + destruct (lepb p) eqn:Ep.
      * intros _. exists p. split; [apply nth_error_snoc_new|exact Ep].
      * intros Hl. destruct (li_lep0 Hl) as (q & H1 & H2). exists q. split; [|exact H2].
        apply nth_error_snoc_old. exact H1.
    + destruct (ionb p && (s_A st <? massA p)) eqn:Eb; [|assumption].
      apply andb_prop in Eb as [_ Eb]. apply Z.ltb_lt in Eb. lia.
    + intros q Hq Hi. apply in_app_or in Hq as [Hq|[<-|[]]].
      * specialize (li_max0 q Hq Hi).
        destruct (ionb p && (s_A st <? massA p)) eqn:Eb; [|assumption].
        apply andb_prop in Eb as [_ Eb]. apply Z.ltb_lt in Eb. lia.
      * rewrite Hi. cbn [andb]. destruct (s_A st <? massA p) eqn:Eb; [lia|]. apply Z.ltb_ge in Eb. exact Eb.
    + destruct (ionb p && (s_A st <? massA p)) eqn:Eb.
      * apply andb_prop in Eb as [Eb1 Eb]. apply Z.ltb_lt in Eb. intros _. exists p.
        split; [apply nth_error_snoc_new|]. split; [exact Eb1|]. split; [reflexivity|].
        intros j q Hj Hq Hi. rewrite nth_error_app1 in Hq by exact Hj.
        apply nth_error_In in Hq. specialize (li_max0 q Hq Hi). lia.
      * intros HA. destruct (li_ion1 HA) as (q & H1 & H2 & H3 & H4). exists q.
        split; [apply nth_error_snoc_old; exact H1|]. split; [exact H2|]. split; [exact H3|].
        intros j r Hj Hr Hi. apply (H4 j r Hj); [|exact Hi].
        rewrite nth_error_app1 in Hr; [exact Hr|].
        assert (s_ion st < List.length (e_fin (s_ev st)))%nat by (apply nth_error_Some; congruence). lia.
    + destruct (ionb p && (s_A st <? massA p)) eqn:Eb; [|assumption].
      apply andb_prop in Eb as [_ Eb]. apply Z.ltb_lt in Eb. lia.
  - injection H as <-. exact I.
Qed.

Lemma steps_inv : forall hs st st', loop_inv st -> steps hs st = Ok st' -> loop_inv st'.
Proof.
  induction hs as [|h hs IH]; intros st st' I H; [injection H as <-; exact I|].
  cbn [steps] in H. destruct (hep_step h st) as [st1|] eqn:E; [|discriminate H].
  cbn [bind] in H. eapply IH; [|exact H]. eapply hep_step_inv; eauto.
Qed.

(** The particles collected are those of the initial and final entries, in
    order. *)
Lemma steps_particles : forall hs st st', steps hs st = Ok st' ->
  exists li lf,
    e_init (s_ev st') = e_init (s_ev st) ++ li /\ Forall2 entry_particle (filter is_initial hs) li /\
    e_fin (s_ev st') = e_fin (s_ev st) ++ lf /\ Forall2 entry_particle (filter is_final hs) lf.
Proof.
  induction hs as [|h hs IH]; intros st st' H.
  - injection H as <-. exists [], []. rewrite !app_nil_r. repeat split; constructor.
  - cbn [steps] in H. destruct (hep_step h st) as [st1|] eqn:E; [|discriminate H]. cbn [bind] in H.
    destruct (IH _ _ H) as (li & lf & H1 & H2 & H3 & H4). unfold hep_step in E. cbn [filter].
    unfold is_initial at 1, is_final at 1.
    destruct (h_status h =? ST_INFO) eqn:S1.
    { apply Z.eqb_eq in S1. rewrite S1. change (ST_INFO =? ST_INITIAL) with false. change (ST_INFO =? ST_FINAL) with false.
      unfold hep_info in E. destruct (parity_of_int (h_jmo2 h)); [|discriminate E]. injection E as <-.
      exists li, lf. auto. }
    destruct (h_status h =? ST_INITIAL) eqn:S2.
    { apply Z.eqb_eq in S2. rewrite S2. change (ST_INITIAL =? ST_FINAL) with false.
      unfold hep_initial in E. destruct (hep_particle h) as [p|] eqn:EP; [|discriminate E]. injection E as <-.
      cbn [s_ev e_init e_fin] in *. exists (p :: li), lf. rewrite <- app_assoc in H1. cbn [app] in H1.
      split; [exact H1|]. split; [constructor; [apply hep_particle_entry|]; assumption|]. auto. }
    destruct (h_status h =? ST_FINAL) eqn:S3.
    { unfold hep_final in E. destruct (hep_particle h) as [p|] eqn:EP; [|discriminate E]. injection E as <-.
      cbn [s_ev e_init e_fin] in *. exists li, (p :: lf). rewrite <- app_assoc in H3. cbn [app] in H3.
      split; [exact H1|]. split; [assumption|]. split; [exact H3|]. constructor; [apply hep_particle_entry|]; assumption. }
    injection E as <-. exists li, lf. auto.
Qed.

(** ** Reordering *)

Lemma set_nth_length : forall A i (x : A) l, List.length (set_nth i x l) = List.length l.
Proof. induction i as [|i IH]; intros x [|y l]; cbn [set_nth List.length]; auto. Qed.

Lemma nth_error_set_same : forall A i (x : A) l, (i < List.length l)%nat -> nth_error (set_nth i x l) i = Some x.
Proof. induction i as [|i IH]; intros x [|y l] H; cbn in *; try lia; [reflexivity|]. apply IH. lia. Qed.

Lemma nth_error_set_other : forall A i j (x : A) l, i <> j -> nth_error (set_nth i x l) j = nth_error l j.
Proof.
  induction i as [|i IH]; intros [|j] x [|y l] H; cbn; try congruence; auto.
Qed.

Lemma set_nth_same : forall A i (x : A) l, nth_error l i = Some x -> set_nth i x l = l.
Proof.
  induction i as [|i IH]; intros x [|y l] H; cbn in *; try congruence. f_equal. auto.
Qed.

Lemma set_nth_perm : forall A i (x y : A) l, nth_error l i = Some x ->
  Permutation (y :: l) (x :: set_nth i y l).
Proof.
  induction i as [|i IH]; intros x y [|z l] H; cbn in *; try congruence.
  - injection H as ->. apply perm_swap.
  - rewrite perm_swap. rewrite (IH x y l H). rewrite perm_swap. reflexivity.
Qed.

Lemma swap_perm : forall A i j (l : list A), Permutation (swap i j l) l.
Proof.
  intros A i j l. unfold swap. destruct (nth_error l i) as [x|] eqn:E1; [|reflexivity].
  destruct (nth_error l j) as [y|] eqn:E2; [|reflexivity].
  destruct (Nat.eq_dec i j) as [->|Hij].
  - assert (x = y) by congruence. subst y. rewrite (set_nth_same A j x l) by exact E1.
    rewrite set_nth_same by exact E1. reflexivity.
  - assert (P1 : Permutation (x :: l) (y :: set_nth j x l)) by (apply set_nth_perm; exact E2).
    assert (P2 : Permutation (y :: set_nth j x l) (x :: set_nth i y (set_nth j x l))).
    { apply set_nth_perm. rewrite nth_error_set_other by congruence. exact E1. }
    apply Permutation_cons_inv with x. rewrite <- P2, <- P1. reflexivity.
Qed.

Lemma swap_fst : forall A i j (l : list A) x y, nth_error l i = Some x -> nth_error l j = Some y ->
  nth_error (swap i j l) i = Some y.
Proof.
  intros A i j l x y H1 H2. unfold swap. rewrite H1, H2. apply nth_error_set_same.
  rewrite set_nth_length. apply nth_error_Some. congruence.
Qed.

Lemma swap_snd : forall A i j (l : list A) x y, nth_error l i = Some x -> nth_error l j = Some y ->
  nth_error (swap i j l) j = Some x.
Proof.
  intros A i j l x y H1 H2. unfold swap. rewrite H1, H2. destruct (Nat.eq_dec i j) as [->|Hij].
  - rewrite nth_error_set_same by (rewrite set_nth_length; apply nth_error_Some; congruence). congruence.
  - rewrite nth_error_set_other by congruence. apply nth_error_set_same. apply nth_error_Some. congruence.
Qed.

Lemma swap_other : forall A i j k (l : list A), k <> i -> k <> j -> nth_error (swap i j l) k = nth_error l k.
Proof.
  intros A i j k l H1 H2. unfold swap. destruct (nth_error l i); [|reflexivity].
  destruct (nth_error l j); [|reflexivity]. rewrite !nth_error_set_other by congruence. reflexivity.
Qed.

Lemma swap_length : forall A i j (l : list A), List.length (swap i j l) = List.length l.
Proof. intros. apply Permutation_length, swap_perm. Qed.


Lemma body_set : forall q p, body (set_charge q p) = body p.
Proof. reflexivity. Qed.

Lemma map_set_nth : forall A B (f : A -> B) i x l, map f (set_nth i x l) = set_nth i (f x) (map f l).
Proof. intros A B f. induction i as [|i IH]; intros x [|y l]; cbn; try reflexivity. f_equal. apply IH. Qed.

Lemma body_upd : forall i q l, map body (upd_nth i (set_charge q) l) = map body l.
Proof.
  intros i q l. unfold upd_nth. destruct (nth_error l i) as [x|] eqn:E; [|reflexivity].
  rewrite map_set_nth, body_set. apply set_nth_same. rewrite nth_error_map, E. reflexivity.
Qed.

Lemma upd_nth_same : forall A i (f : A -> A) l x, nth_error l i = Some x -> nth_error (upd_nth i f l) i = Some (f x).
Proof.
  intros A i f l x H. unfold upd_nth. rewrite H. apply nth_error_set_same. apply nth_error_Some. congruence.
Qed.

Lemma upd_nth_other : forall A i j (f : A -> A) l, i <> j -> nth_error (upd_nth i f l) j = nth_error l j.
Proof.
  intros A i j f l H. unfold upd_nth. destruct (nth_error l i); [|reflexivity]. apply nth_error_set_other. exact H.
Qed.

Lemma countb_one : forall A (f : A -> bool) l i j x y, countb f l = 1 ->
  nth_error l i = Some x -> f x = true -> nth_error l j = Some y -> f y = true -> i = j.
Proof.
  intros A f. assert (Hz : forall l, countb f l = 0 -> forall j y, nth_error l j = Some y -> f y = false).
  { induction l as [|a l IH]; intros H j y Hy; [destruct j; discriminate Hy|].
    cbn [countb] in H. pose proof (countb_nonneg A f l). destruct (f a) eqn:Ea; [lia|].
    destruct j as [|j]; cbn in Hy; [injection Hy as <-; exact Ea|]. eapply IH; eauto. }
  induction l as [|a l IH]; intros i j x y H H1 H2 H3 H4; [destruct i; discriminate H1|].
  cbn [countb] in H. pose proof (countb_nonneg A f l).
  destruct i as [|i], j as [|j]; cbn in H1, H3.
  - reflexivity.
  - injection H1 as ->. rewrite H2 in H. rewrite (Hz l ltac:(lia) j y H3) in H4. discriminate.
  - injection H3 as ->. rewrite H4 in H. rewrite (Hz l ltac:(lia) i x H1) in H2. discriminate.
  - f_equal. destruct (f a).
    + rewrite (Hz l ltac:(lia) i x H1) in H2. discriminate.
    + eapply IH; eauto.
Qed.

Lemma lep_ion_disjoint : forall p, lepb p = true -> ionb p = true -> False.
Proof.
  intros p H1 H2. unfold lepb, ionb, is_lepton, is_ion, ELECTRON, TAU_NEUTRINO in *.
  apply andb_prop in H1 as [A B]. apply andb_prop in H2 as [C D].
  rewrite Z.leb_le, Z.ltb_lt in *. lia.
Qed.

Lemma countb_pos_in : forall A (f : A -> bool) l, 0 < countb f l -> exists x, In x l /\ f x = true.
Proof.
  induction l as [|a l IH]; intros H; cbn [countb] in H; [lia|].
  destruct (f a) eqn:E; [exists a; split; [left; reflexivity|exact E]|].
  destruct IH as (x & H1 & H2); [lia|]. exists x. split; [right; exact H1|exact H2].
Qed.

(** The final particles after reordering. *)
Lemma finish_final_perm : forall lep ion (l : list particle),
  Permutation (if Nat.eqb ion 1 then (if Nat.eqb lep 0 then l else swap 0 lep l)
               else swap 1 ion (if Nat.eqb lep 0 then l else swap 0 lep l)) l.
Proof.
  intros. destruct (Nat.eqb ion 1), (Nat.eqb lep 0); rewrite ?swap_perm; reflexivity.
Qed.

Lemma reorder_places : forall lep ion (l : list particle) p q,
  nth_error l lep = Some p -> nth_error l ion = Some q -> ion <> 0%nat -> lep <> ion -> (2 <= List.length l)%nat ->
  let l1 := if Nat.eqb lep 0 then l else swap 0 lep l in
  let l2 := if Nat.eqb ion 1 then l1 else swap 1 ion l1 in
  nth_error l2 0 = Some p /\ nth_error l2 1 = Some q.
Proof.
  intros lep ion l p q Hp Hq Hi Hli HL l1 l2.
  assert (H0 : exists x, nth_error l 0 = Some x) by (destruct l; [cbn in HL; lia|eexists; reflexivity]).
  destruct H0 as (x0 & H0).
  assert (L1 : nth_error l1 0 = Some p /\ nth_error l1 ion = Some q).
  { unfold l1. destruct (Nat.eqb_spec lep 0) as [->|Hl].
    - split; [exact Hp|exact Hq].
    - split; [eapply swap_fst; eauto|]. rewrite swap_other by congruence. exact Hq. }
  destruct L1 as [L1 L1'].
  assert (HL1 : List.length l1 = List.length l).
  { unfold l1. destruct (Nat.eqb lep 0); [reflexivity|apply swap_length]. }
  unfold l2. destruct (Nat.eqb_spec ion 1) as [->|Hi1].
  - auto.
  - assert (H1 : exists x, nth_error l1 1 = Some x).
    { destruct (nth_error l1 1) as [x|] eqn:E; [eauto|]. apply nth_error_None in E. lia. }
    destruct H1 as (x1 & H1). split.
    + rewrite swap_other by congruence. exact L1.
    + eapply swap_fst; eauto.
Qed.

(** The misordering: if the heaviest ion comes first, the lepton ends up second. *)
Lemma reorder_wrong : forall lep (l : list particle) p q,
  nth_error l lep = Some p -> nth_error l 0 = Some q -> lep <> 0%nat -> (2 <= List.length l)%nat ->
  nth_error (swap 1 0 (swap 0 lep l)) 1 = Some p.
Proof.
  intros lep l p q Hp Hq Hl HL.
  assert (L1 : nth_error (swap 0 lep l) 0 = Some p) by (eapply swap_fst; eauto).
  assert (H1 : exists x, nth_error (swap 0 lep l) 1 = Some x).
  { destruct (nth_error (swap 0 lep l) 1) as [x|] eqn:E; [eauto|]. apply nth_error_None in E.
    rewrite swap_length in E. lia. }
  destruct H1 as (x1 & H1). eapply swap_fst; eauto.
Qed.


Lemma sum_other_rest : forall l i, (2 <= i)%nat -> sum_other_ions i l = ion_charge l.
Proof.
  induction l as [|p l IH]; intros i Hi; [reflexivity|]. cbn [sum_other_ions ion_charge].
  replace (Nat.eqb i 1) with false by (symmetry; apply Nat.eqb_neq; lia).
  rewrite IH by lia. reflexivity.
Qed.

Lemma sum_other_cons : forall p q l, sum_other_ions 0 (p :: q :: l) =
  (if ionb p then p_charge p else 0) + ion_charge l.
Proof. intros. cbn [sum_other_ions Nat.eqb]. rewrite sum_other_rest by lia. unfold ionb. lia. Qed.

(** ** Accepted records *)

(** What an accepted record gives, relative to the entries in the text. *)
Lemma accepted : forall s ev flux t, read_hepevt s = Ok (Some (ev, flux, t)) ->
  exists u hs li lf,
    (olet (_, s') <- rd_int s; rd_int s') = Some (len hs, u) /\
    read_entries (List.length hs) u = Some (hs, t) /\
    Forall2 entry_particle (filter is_initial hs) li /\
    Forall2 entry_particle (filter is_final hs) lf /\
    exists st, steps hs hep_start = Ok st /\ hep_finish st = Ok ev /\ flux = s_flux st /\
      e_init (s_ev st) = li /\ e_fin (s_ev st) = lf /\ loop_inv st.
Proof.
  intros s ev flux t H. unfold read_hepevt in H.
  destruct (obind (rd_int s) _) as [[n u]|] eqn:E0; [|discriminate H].
  destruct (n <? 0) eqn:En; [discriminate H|]. apply Z.ltb_ge in En.
  destruct (hep_loop (Z.to_nat n) hep_start u) as [[st t']|] eqn:EL; [|discriminate H]. cbn [bind] in H.
  destruct (hep_finish st) as [ev'|] eqn:EF; [|discriminate H]. cbn [bind] in H.
  injection H as <- <- <-.
  destruct (hep_loop_entries _ _ _ _ _ EL) as (hs & H1 & H2).
  assert (HL : List.length hs = Z.to_nat n).
  { clear - H1. revert u hs t' H1. induction (Z.to_nat n) as [|k IH]; intros u hs t' H.
    - injection H as <- <-. reflexivity.
    - cbn [read_entries] in H. destruct (read_hep_entry u) as [[h u1]|]; [|discriminate H].
      destruct (read_entries k u1) as [[hs' u2]|] eqn:E; [|discriminate H]. injection H as <- <-.
      cbn [List.length]. f_equal. eapply IH. exact E. }
  destruct (steps_particles _ _ _ H2) as (li & lf & P1 & P2 & P3 & P4). cbn [app] in P1, P3.
  exists u, hs, li, lf. split; [unfold len; rewrite HL, Z2Nat.id by lia; reflexivity|].
  split; [rewrite HL; exact H1|]. split; [exact P2|]. split; [exact P4|].
  exists st. repeat (split; [assumption || reflexivity|]).
  eapply steps_inv; [apply loop_inv_start|exact H2].
Qed.

(** The checks an accepted record passed. *)
Lemma finish_checks : forall st ev, hep_finish st = Ok ev -> loop_inv st ->
  len (e_init (s_ev st)) = 2 /\ countb ionb (e_init (s_ev st)) = 1 /\
  countb lepb (e_fin (s_ev st)) = 1 /\ 1 <= countb ionb (e_fin (s_ev st)).
Proof.
  intros st ev H I. unfold hep_finish in H.
  destruct (s_ninit st =? 2) eqn:E1; [|discriminate H]. destruct (s_nions st =? 1) eqn:E2; [|discriminate H].
  destruct (s_nlep st =? 1) eqn:E3; [|discriminate H]. destruct (s_nfions st <? 1) eqn:E4; [discriminate H|].
  rewrite Z.eqb_eq, Z.ltb_ge in *. destruct I. lia.
Qed.



Lemma massA_nonneg : forall p, 0 <= massA p.
Proof.
  intros p. unfold massA, particle_A. destruct (p_pdg p =? PROTON); [lia|]. destruct (p_pdg p =? NEUTRON); [lia|].
  destruct (1000000000 <? p_pdg p); [|lia]. apply Z.div_pos; [|lia].
  pose proof (Z.mod_pos_bound (p_pdg p) 10000 ltac:(lia)). lia.
Qed.

Lemma ionb_body : forall p, ionb (body p) = ionb p. Proof. reflexivity. Qed.

Lemma two_init : forall l : list particle, len l = 2 -> exists p q, l = [p; q].
Proof.
  intros [|p [|q [|r l]]] H; unfold len in H; cbn [List.length] in H; try lia. eauto.
Qed.

Lemma hep_accepted : forall s ev flux t, read_hepevt s = Ok (Some (ev, flux, t)) ->
  exists u hs li lf,
    (olet (_, s') <- rd_int s; rd_int s') = Some (len hs, u) /\
    read_entries (List.length hs) u = Some (hs, t) /\
    Forall2 entry_particle (filter is_initial hs) li /\
    Forall2 entry_particle (filter is_final hs) lf /\
    Permutation (map body (e_init ev)) (map body li) /\
    Permutation (map body (e_fin ev)) (map body lf) /\
    (exists pj tg, e_init ev = [pj; tg] /\ ionb pj = false /\ ionb tg = true /\ p_charge tg = 0 /\ In pj li) /\
    (exists a c rest, e_fin ev = a :: c :: rest /\
       p_charge c = - p_charge a - (if ionb a then p_charge a else 0) - ion_charge rest /\
       (forall p, In p (a :: rest) -> In p lf) /\
       (at_least ionb (first_weight lf) lf ->
          lepb a = true /\ ionb c = true /\
          (forall p, In p (c :: rest) -> lepb p = false) /\
          (forall p, In p (c :: rest) -> ionb p = true -> massA p <= massA c))).
Proof.
  intros s ev flux t H. destruct (accepted _ _ _ _ H) as (u & hs & li & lf & A1 & A2 & A3 & A4 & st & A5 & A6 & A7 & A8 & A9 & I).
  exists u, hs, li, lf. do 4 (split; [assumption|]).
  destruct (finish_checks _ _ A6 I) as (C1 & C2 & C3 & C4).
  unfold hep_finish in A6.
  destruct (negb (s_ninit st =? 2)); [discriminate A6|]. destruct (negb (s_nions st =? 1)); [discriminate A6|].
  destruct (negb (s_nlep st =? 1)); [discriminate A6|]. destruct (s_nfions st <? 1); [discriminate A6|].
  rewrite A8, A9 in *. injection A6 as <-. cbn [e_init e_fin].
  set (ini := if is_ion (pdg_at 1 li) then li else swap 0 1 li).
  set (fin1 := if Nat.eqb (s_lep st) 0 then lf else swap 0 (s_lep st) lf).
  set (fin := if Nat.eqb (s_ion st) 1 then fin1 else swap 1 (s_ion st) fin1).
  assert (PI : Permutation ini li) by (unfold ini; destruct (is_ion (pdg_at 1 li)); [reflexivity|apply swap_perm]).
  assert (PF : Permutation fin lf) by (unfold fin, fin1; apply finish_final_perm).
  rewrite !body_upd. split; [apply Permutation_map; exact PI|]. split; [apply Permutation_map; exact PF|].
  split.
  - destruct (two_init li C1) as (p & q & ->). cbn [countb] in C2.
    unfold ini, pdg_at. cbn [nth]. fold (ionb q). destruct (ionb q) eqn:Eq.
    + destruct (ionb p) eqn:Ep; [lia|]. exists p, (set_charge 0 q).
      split; [reflexivity|]. split; [exact Ep|]. split; [exact Eq|]. split; [reflexivity|]. left. reflexivity.
    + destruct (ionb p) eqn:Ep; [|lia]. exists q, (set_charge 0 p).
      split; [reflexivity|]. split; [exact Eq|]. split; [exact Ep|]. split; [reflexivity|]. right. left. reflexivity.
  - pose proof (li_lep st I) as HL. rewrite (li_nlep st I), A9 in HL. destruct (HL ltac:(lia)) as (pl & Hpl & Hlb).
    destruct (countb_pos_in _ _ _ (ltac:(lia) : 0 < countb ionb lf)) as (pi & Hpi & Hib).
    apply In_nth_error in Hpi as (ii & Hpi).
    assert (H2 : (2 <= List.length lf)%nat).
    { assert (ii <> s_lep st).
      { intros ->. assert (pl = pi) by congruence. subst pi. exact (lep_ion_disjoint pl Hlb Hib). }
      assert (ii < List.length lf)%nat by (apply nth_error_Some; congruence).
      assert (s_lep st < List.length lf)%nat by (apply nth_error_Some; congruence). lia. }
    assert (HLF : List.length fin = List.length lf) by (apply Permutation_length; exact PF).
    destruct fin as [|a [|c rest]] eqn:EF; [cbn in HLF; lia|cbn in HLF; lia|].
    rewrite sum_other_cons. cbn [nth]. unfold upd_nth. cbn [nth_error set_nth].
    set (qc := _ - _). exists a, (set_charge qc c), rest.
    split; [reflexivity|]. split; [cbn [p_charge set_charge]; unfold qc; lia|].
    split. { intros p [<-|Hp]; apply (Permutation_in _ PF); [left; reflexivity|right; right; exact Hp]. }
    intros (pm & Hpm & Hpi2 & Hpw).
    assert (HAw : 0 <= first_weight lf).
    { unfold first_weight. destruct lf as [|x lf']; [lia|]. destruct (ionb x); [apply massA_nonneg|lia]. }
    pose proof (li_max st I) as HM. rewrite A9 in HM.
    assert (HA : first_weight lf < s_A st) by (specialize (HM pm Hpm Hpi2); lia).
    pose proof (li_ion st I) as HI. rewrite A9 in HI. destruct (HI ltac:(lia)) as (pr & Hr1 & Hr2 & Hr3 & Hr4).
    assert (Hi0 : s_ion st <> 0%nat).
    { intros E. rewrite E in Hr1. destruct lf as [|x lf']; [discriminate Hr1|]. injection Hr1 as ->.
      cbn [first_weight] in HA. rewrite Hr2 in HA. lia. }
    assert (Hne : s_lep st <> s_ion st).
    { intros E. rewrite E in Hpl. assert (pl = pr) by congruence. subst pr. exact (lep_ion_disjoint pl Hlb Hr2). }
    pose proof (reorder_places (s_lep st) (s_ion st) lf pl pr Hpl Hr1 Hi0 Hne H2) as [R0 R1].
    fold fin1 in R0, R1. assert (R0' : nth_error fin 0 = Some pl) by exact R0.
    assert (R1' : nth_error fin 1 = Some pr) by exact R1. rewrite EF in R0', R1'. injection R0' as <-. injection R1' as <-.
    split; [exact Hlb|]. split; [exact Hr2|]. split.
    + assert (HC : countb lepb (a :: c :: rest) = 1).
      { assert (HP : forall l l', Permutation l l' -> countb lepb l = countb lepb l').
        { intros l l' P. induction P; cbn [countb]; lia. }
        rewrite (HP _ _ PF). exact C3. }
      assert (HNC : forall p, In p (c :: rest) -> lepb p = false).
      { intros p Hp. destruct (lepb p) eqn:Ep; [|reflexivity]. apply In_nth_error in Hp as (k & Hk).
        pose proof (countb_one _ lepb (a :: c :: rest) 0 (S k) a p HC eq_refl Hlb Hk Ep). discriminate. }
      intros p [<-|Hp]; [exact (HNC c (or_introl eq_refl))|apply HNC; right; exact Hp].
    + change (massA (set_charge qc c)) with (massA c). rewrite Hr3.
      intros p [<-|Hp] Hpi3; [change (massA (set_charge qc c)) with (massA c); lia|].
      apply HM; [|exact Hpi3]. apply (Permutation_in _ PF). right. right. exact Hp.
Qed.

(** ** Round trip *)


Lemma hep_dbl_gev : forall (P : spec_float -> Prop) p, (forall x, P x -> hep_dbl x) -> particle_ok P p ->
  is_int (p_pdg p) /\ gev_ok p.
Proof.
  intros P p HP (H1 & H2 & H3 & H4 & H5 & H6 & H7). split; [exact H1|].
  unfold gev_ok, to_gev. repeat split; apply gev_mev; auto.
Qed.

Lemma entry_step_particle : forall p st q, particle_charge (p_pdg p) = Ok q -> particle_ok hep_dbl p ->
  exists p', hep_particle (entry_of p st 0 0) = Ok p' /\ p_charge p' = q /\
    particle_rel near_dbl (set_charge q p) p'.
Proof.
  intros p st q Hq (H1 & H2 & H3 & H4 & H5 & H6 & H7). unfold hep_particle. cbn [entry_of h_pdg]. rewrite Hq. cbn [bind].
  eexists. split; [reflexivity|]. split; [reflexivity|].
  unfold particle_rel. cbn [set_charge p_pdg p_charge p_E p_px p_py p_pz p_mass entry_of h_E h_px h_py h_pz h_M].
  split; [reflexivity|]. split; [reflexivity|]. repeat split; apply gev_mev; assumption.
Qed.

(** The charge the reader first gives a particle. *)
Definition raw_charge (p : particle) (q : Z) : Prop := particle_charge (p_pdg p) = Ok q.

Lemma steps_initial : forall ps st, Forall (particle_ok hep_dbl) ps ->
  (forall p, In p ps -> exists q, raw_charge p q) ->
  exists ps' st', steps (map (fun p => entry_of p ST_INITIAL 0 0) ps) st = Ok st' /\
    Forall2 (fun p p' => raw_charge p (p_charge p') /\ particle_rel near_dbl (set_charge (p_charge p') p) p') ps ps' /\
    e_init (s_ev st') = e_init (s_ev st) ++ ps' /\ e_fin (s_ev st') = e_fin (s_ev st) /\
    s_flux st' = s_flux st /\ e_Ex (s_ev st') = e_Ex (s_ev st) /\ e_twoJ (s_ev st') = e_twoJ (s_ev st) /\
    e_par (s_ev st') = e_par (s_ev st).
Proof.
  induction ps as [|p ps IH]; intros st H Hq.
  - exists [], st. rewrite app_nil_r. repeat split; constructor.
  - inversion H as [|? ? H1 H2]; subst. destruct (Hq p (or_introl eq_refl)) as (q & Hpq).
    destruct (entry_step_particle p ST_INITIAL q Hpq H1) as (p' & E1 & E2 & E3).
    cbn [map steps]. unfold hep_step at 1. cbn [entry_of h_status].
    change (ST_INITIAL =? ST_INFO) with false. change (ST_INITIAL =? ST_INITIAL) with true. cbn iota.
    unfold hep_initial. fold (entry_of p ST_INITIAL 0 0). rewrite E1. cbn [bind].
    set (st1 := mks _ _ _ _ _ _ _ _ _).
    destruct (IH st1 H2 (fun r Hr => Hq r (or_intror Hr))) as (ps' & st' & S1 & S2 & S3 & S4 & S5 & S6 & S7 & S8).
    exists (p' :: ps'), st'. split; [exact S1|]. split; [constructor; [rewrite E2; split; assumption|exact S2]|].
    rewrite S3, S4, S5, S6, S7, S8. unfold st1. cbn [s_ev e_init e_fin s_flux e_Ex e_twoJ e_par].
    rewrite <- app_assoc. repeat split.
Qed.

Lemma steps_final : forall ps st, Forall (particle_ok hep_dbl) ps ->
  (forall p, In p ps -> exists q, raw_charge p q) ->
  exists ps' st', steps (map (fun p => entry_of p ST_FINAL 0 0) ps) st = Ok st' /\
    Forall2 (fun p p' => raw_charge p (p_charge p') /\ particle_rel near_dbl (set_charge (p_charge p') p) p') ps ps' /\
    e_fin (s_ev st') = e_fin (s_ev st) ++ ps' /\ e_init (s_ev st') = e_init (s_ev st) /\
    s_flux st' = s_flux st /\ e_Ex (s_ev st') = e_Ex (s_ev st) /\ e_twoJ (s_ev st') = e_twoJ (s_ev st) /\
    e_par (s_ev st') = e_par (s_ev st).
Proof.
  induction ps as [|p ps IH]; intros st H Hq.
  - exists [], st. rewrite app_nil_r. repeat split; constructor.
  - inversion H as [|? ? H1 H2]; subst. destruct (Hq p (or_introl eq_refl)) as (q & Hpq).
    destruct (entry_step_particle p ST_FINAL q Hpq H1) as (p' & E1 & E2 & E3).
    cbn [map steps]. unfold hep_step at 1. cbn [entry_of h_status].
    change (ST_FINAL =? ST_INFO) with false. change (ST_FINAL =? ST_INITIAL) with false.
    change (ST_FINAL =? ST_FINAL) with true. cbn iota.
    unfold hep_final. fold (entry_of p ST_FINAL 0 0). rewrite E1. cbn [bind].
    set (st1 := mks _ _ _ _ _ _ _ _ _).
    destruct (IH st1 H2 (fun r Hr => Hq r (or_intror Hr))) as (ps' & st' & S1 & S2 & S3 & S4 & S5 & S6 & S7 & S8).
    exists (p' :: ps'), st'. split; [exact S1|]. split; [constructor; [rewrite E2; split; assumption|exact S2]|].
    rewrite S3, S4, S5, S6, S7, S8. unfold st1. cbn [s_ev e_init e_fin s_flux e_Ex e_twoJ e_par].
    rewrite <- app_assoc. repeat split.
Qed.

Lemma ion_raw_charge : forall p, ionb p = true -> exists q, raw_charge p q.
Proof.
  intros p H. unfold ionb, is_ion in H. apply andb_prop in H as [H _]. unfold raw_charge, particle_charge.
  rewrite H. eauto.
Qed.

Lemma rel_ionb : forall R p p', particle_rel R p p' -> ionb p' = ionb p.
Proof. intros R p p' (H & _). unfold ionb. rewrite H. reflexivity. Qed.
Lemma rel_lepb : forall R p p', particle_rel R p p' -> lepb p' = lepb p.
Proof. intros R p p' (H & _). unfold lepb. rewrite H. reflexivity. Qed.
Lemma rel_massA : forall R p p', particle_rel R p p' -> massA p' = massA p.
Proof. intros R p p' (H & _). unfold massA. rewrite H. reflexivity. Qed.

Lemma Forall2_two : forall A B (R : A -> B -> Prop) x y l l', Forall2 R (x :: y :: l) l' ->
  exists x' y' r, l' = x' :: y' :: r /\ R x x' /\ R y y' /\ Forall2 R l r.
Proof. intros. inversion H as [|? ? ? ? ? H1]; subst. inversion H1; subst. eauto 10. Qed.

Lemma step_info : forall ev flux st,
  hep_step (entry_of (hep_dummy ev flux) ST_INFO (e_twoJ ev) (parity_to_int (e_par ev))) st
  = Ok (mks (mke (e_init (s_ev st)) (e_fin (s_ev st)) (to_gev (dbl_mul (e_Ex ev) GEV_TO_MEV)) (e_twoJ ev) (e_par ev))
          (to_gev (dbl_mul flux GEV_TO_MEV)) (s_ninit st) (s_nions st) (s_nlep st) (s_nfions st) (s_lep st)
          (s_ion st) (s_A st)).
Proof. intros. destruct ev as [i f x j []]; reflexivity. Qed.

Lemma hep_roundtrip : forall w num flux ev t, forallb is_space w = true -> is_int num ->
  is_int (1 + len (e_init ev) + len (e_fin ev)) ->
  event_ok hep_dbl ev -> hep_dbl flux -> nuclear_event ev ->
  exists ev' flux', read_hepevt (w ++ print_hepevt num flux ev ++ t) = Ok (Some (ev', flux', nl :: t)) /\
    event_rel near_dbl ev ev' /\ near_dbl flux flux'.
Proof.
  intros w num flux ev t Hw Hn Hc Hok Hflux Hnuc.
  destruct Hok as (O1 & O2 & O3 & O4).
  assert (G1 : Forall (fun p => is_int (p_pdg p) /\ gev_ok p) (e_init ev))
    by (eapply Forall_impl; [|exact O1]; intros p Hp; apply (hep_dbl_gev hep_dbl); auto).
  assert (G2 : Forall (fun p => is_int (p_pdg p) /\ gev_ok p) (e_fin ev))
    by (eapply Forall_impl; [|exact O2]; intros p Hp; apply (hep_dbl_gev hep_dbl); auto).
  assert (GD : gev_ok (hep_dummy ev flux)).
  { unfold gev_ok, to_gev. cbn [hep_dummy p_px p_py p_pz p_E p_mass].
    repeat split; try (apply mev_gev; assumption); apply (gev_mev dbl_zero I). }
  destruct (read_record w num flux ev t Hw Hn Hc O4 G1 G2 GD) as (u & R1 & R2).
  unfold read_hepevt. rewrite R1.
  replace (1 + len (e_init ev) + len (e_fin ev) <? 0) with false by (symmetry; apply Z.ltb_ge; unfold len; lia).
  rewrite (entries_hep_loop _ hep_start _ _ _ R2).
  destruct Hnuc as (pj & tg & ej & re & rest & E1 & E2 & N1 & N2 & N3 & N4 & N5 & N6 & N7 & N8 & N9 & N10).
  unfold record_entries. rewrite !steps_app.
  destruct (steps_initial (e_init ev) hep_start O1) as (pi & st1 & S1 & S2 & S3 & S4 & S5 & S6 & S7 & S8).
  { rewrite E1. intros p [<-|[<-|[]]]; [eexists; exact N2|apply ion_raw_charge; exact N3]. }
  rewrite S1. cbn [bind]. rewrite steps_app. cbn [steps]. rewrite step_info.
  cbn [bind]. set (st2 := mks _ _ _ _ _ _ _ _ _).
  destruct (steps_final (e_fin ev) st2 O2) as (pf & st3 & T1 & T2 & T3 & T4 & T5 & T6 & T7 & T8).
  { rewrite E2. intros p [<-|[<-|Hp]]; [eexists; exact N6|apply ion_raw_charge; exact N7|].
    rewrite Forall_forall in N10. destruct (N10 p Hp) as (_ & Hq & _). eexists; exact Hq. }
  rewrite T1. cbn [bind].
  (* the invariant of the loop *)
  assert (Inv : loop_inv st3).
  { eapply (steps_inv (record_entries flux ev)); [apply loop_inv_start|].
    unfold record_entries. rewrite !steps_app, S1. cbn [bind]. rewrite steps_app. cbn [steps]. rewrite step_info.
    cbn [bind]. exact T1. }
  unfold st2 in T3, T4, T5, T6, T7, T8. cbn [s_ev e_init e_fin s_flux e_Ex e_twoJ e_par] in T3, T4, T5, T6, T7, T8.
  rewrite S4 in T3. cbn [hep_start s_ev empty_event e_fin app] in T3.
  rewrite S3 in T4. cbn [hep_start s_ev empty_event e_init app] in T4.
  rewrite E1 in S2. destruct (Forall2_two _ _ _ _ _ _ _ S2) as (pj' & tg' & pi' & EPI & [A1 A2] & [B1 B2] & Hnil).
  assert (pi' = []) by (inversion Hnil; reflexivity). subst pi'. rewrite EPI in T4. clear S2 S3 EPI Hnil.
  rewrite E2 in T2. destruct (Forall2_two _ _ _ _ _ _ _ T2) as (ej' & re' & rest' & EPF & [C1 C2] & [D1 D2] & Trest).
  rewrite EPF in T3. clear T2 EPF.
  (* charges *)
  assert (QJ : p_charge pj' = p_charge pj) by (unfold raw_charge in A1; congruence).
  assert (QE : p_charge ej' = p_charge ej) by (unfold raw_charge in C1; congruence).
  assert (IJ : ionb pj' = false) by (rewrite (rel_ionb _ _ _ A2); exact N1).
  assert (IT : ionb tg' = true) by (rewrite (rel_ionb _ _ _ B2); exact N3).
  assert (LE : lepb ej' = true) by (rewrite (rel_lepb _ _ _ C2); exact N5).
  assert (IR : ionb re' = true) by (rewrite (rel_ionb _ _ _ D2); exact N7).
  assert (AR : massA re' = massA re) by (rewrite (rel_massA _ _ _ D2); reflexivity).
  assert (IE : ionb ej' = false).
  { destruct (ionb ej') eqn:E; [|reflexivity]. exfalso. exact (lep_ion_disjoint _ LE E). }
  assert (LR : lepb re' = false).
  { destruct (lepb re') eqn:E; [|reflexivity]. exfalso. exact (lep_ion_disjoint _ E IR). }
  assert (HR : Forall2 (particle_rel near_dbl) rest rest' /\ ion_charge rest' = ion_charge rest /\
               countb lepb rest' = 0 /\ (forall p', In p' rest' -> ionb p' = true -> massA p' <= massA re)).
  { clear - Trest N10. induction Trest as [|p p' l l' [H1 H2] Hl IH].
    - repeat split; [constructor|]. intros p' [].
    - inversion N10 as [|? ? (M1 & M2 & M3) M4]; subst. destruct (IH M4) as (I1 & I2 & I3 & I4).
      assert (Q : p_charge p' = p_charge p) by (unfold raw_charge in H1; congruence).
      rewrite Q in H2. assert (ES : set_charge (p_charge p) p = p) by (destruct p; reflexivity). rewrite ES in H2.
      split; [constructor; assumption|]. cbn [ion_charge countb].
      rewrite (rel_ionb _ _ _ H2), (rel_lepb _ _ _ H2), M1, Q, I2. split; [reflexivity|]. split; [lia|].
      intros r [<-|Hr] Hi; [|apply I4; assumption].
      rewrite (rel_massA _ _ _ H2). apply M3. rewrite <- (rel_ionb _ _ _ H2). exact Hi. }
  destruct HR as (RR & QR & LR' & MR).
  (* counters and indices *)
  assert (K1 : s_ninit st3 = 2) by (rewrite (li_ninit _ Inv), T4; reflexivity).
  assert (K2 : s_nions st3 = 1) by (rewrite (li_nions _ Inv), T4; cbn [countb]; rewrite IJ, IT; reflexivity).
  assert (K3 : s_nlep st3 = 1) by (rewrite (li_nlep _ Inv), T3; cbn [countb]; rewrite LE, LR, LR'; reflexivity).
  assert (K4 : 1 <= s_nfions st3).
  { rewrite (li_nfions _ Inv), T3. cbn [countb]. rewrite IE, IR. pose proof (countb_nonneg _ ionb rest'). lia. }
  assert (K5 : s_lep st3 = 0%nat).
  { destruct (li_lep _ Inv ltac:(lia)) as (p & P1 & P2). rewrite T3 in P1.
    symmetry. eapply (countb_one _ lepb (ej' :: re' :: rest') 0); [|reflexivity|exact LE|exact P1|exact P2].
    cbn [countb]. rewrite LE, LR, LR'. reflexivity. }
  assert (KA : massA re' <= s_A st3).
  { apply (li_max _ Inv); [rewrite T3; right; left; reflexivity|exact IR]. }
  assert (K6 : s_ion st3 = 1%nat).
  { destruct (li_ion _ Inv ltac:(lia)) as (p & P1 & P2 & P3 & P4). rewrite T3 in P1, P4.
    destruct (s_ion st3) as [|[|k]] eqn:Ek; [|reflexivity|].
    - cbn in P1. injection P1 as <-. congruence.
    - exfalso. specialize (P4 1%nat re' ltac:(lia) eq_refl IR). cbn in P1. apply nth_error_In in P1.
      specialize (MR p P1 P2). lia. }
  unfold hep_finish. rewrite K1, K2, K3. cbn [negb Z.eqb Pos.eqb].
  replace (s_nfions st3 <? 1) with false by (symmetry; apply Z.ltb_ge; lia).
  rewrite T4, T3, K5, K6. cbn [Nat.eqb]. unfold pdg_at. cbn [nth]. fold (ionb tg'). rewrite IT.
  rewrite sum_other_cons, IE. unfold upd_nth. cbn [nth_error set_nth]. cbn [bind].
  rewrite T5, T6, T7, T8. unfold to_gev.
  do 2 eexists. split; [reflexivity|]. split.
  - unfold event_rel. cbn [e_init e_fin e_Ex e_twoJ e_par]. rewrite E1, E2.
    split; [|split; [|split; [|split; reflexivity]]].
    + constructor; [|constructor; [|constructor]].
      * rewrite QJ in A2. destruct pj. exact A2.
      * destruct B2 as (X1 & X2 & X3 & X4 & X5 & X6 & X7).
        unfold particle_rel. cbn [set_charge p_pdg p_charge p_E p_px p_py p_pz p_mass] in *. rewrite N4. auto 10.
    + constructor; [|constructor; [|exact RR]].
      * rewrite QE in C2. destruct ej. exact C2.
      * destruct D2 as (X1 & X2 & X3 & X4 & X5 & X6 & X7).
        unfold particle_rel. cbn [set_charge p_pdg p_charge p_E p_px p_py p_pz p_mass] in *.
        rewrite QE, QR. split; [exact X1|]. split; [lia|]. auto 10.
    + apply mev_gev. exact O3.
  - apply mev_gev. exact Hflux.
Qed.

(** ** Layout of a written record *)

Lemma map_const : forall A B (x : B) (l : list A), map (fun _ => x) l = repeat x (List.length l).
Proof. induction l; cbn; congruence. Qed.

Lemma hep_layout : forall w num flux ev t, forallb is_space w = true -> is_int num ->
  is_int (1 + len (e_init ev) + len (e_fin ev)) ->
  event_ok hep_dbl ev -> hep_dbl flux ->
  exists s u hs, rd_int (w ++ print_hepevt num flux ev ++ t) = Some (num, s) /\
    rd_int s = Some (len hs, u) /\ len hs = len (e_init ev) + 1 + len (e_fin ev) /\
    read_entries (List.length hs) u = Some (hs, nl :: t) /\
    map h_status hs = repeat 3 (List.length (e_init ev)) ++ [11] ++ repeat 1 (List.length (e_fin ev)) /\
    map h_pdg hs = map p_pdg (e_init ev) ++ [0] ++ map p_pdg (e_fin ev).
Proof.
  intros w num flux ev t Hw Hn Hc (O1 & O2 & O3 & O4) Hflux.
  assert (G1 : Forall (fun p => is_int (p_pdg p) /\ gev_ok p) (e_init ev))
    by (eapply Forall_impl; [|exact O1]; intros p Hp; apply (hep_dbl_gev hep_dbl); auto).
  assert (G2 : Forall (fun p => is_int (p_pdg p) /\ gev_ok p) (e_fin ev))
    by (eapply Forall_impl; [|exact O2]; intros p Hp; apply (hep_dbl_gev hep_dbl); auto).
  assert (GD : gev_ok (hep_dummy ev flux)).
  { unfold gev_ok, to_gev. cbn [hep_dummy p_px p_py p_pz p_E p_mass].
    repeat split; try (apply mev_gev; assumption); apply (gev_mev dbl_zero I). }
  destruct (read_record w num flux ev t Hw Hn Hc O4 G1 G2 GD) as (u & R1 & R2).
  revert R1. unfold print_hepevt at 1. rewrite <- !app_assoc.
  rewrite rd_int_show by (try assumption; apply stops_sp). cbn [obind]. intros R1.
  unfold print_hepevt. rewrite <- !app_assoc.
  rewrite rd_int_show by (try assumption; apply stops_sp).
  assert (HL : len (record_entries flux ev) = 1 + len (e_init ev) + len (e_fin ev)).
  { unfold len. rewrite record_count. lia. }
  eexists. exists u, (record_entries flux ev). split; [reflexivity|]. split; [rewrite HL; exact R1|].
  split; [rewrite HL; lia|]. split.
  { rewrite <- R2. f_equal. rewrite record_count. unfold len. lia. }
  unfold record_entries. rewrite !map_app, !map_map. cbn [map entry_of h_status h_pdg hep_dummy p_pdg].
  split; [|reflexivity]. rewrite !map_const. reflexivity.
Qed.
