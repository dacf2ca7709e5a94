(** C11: what a HEPEvt record says about the event as a whole, and records that are refused. *)
From Coq Require Import List Ascii String ZArith Bool Lia.
From Coq Require Import Floats.SpecFloat.
From Verif Require Import Base Dbl Stream Pdg Event HepSpec HepProofs.
Import ListNotations.
Local Open Scope Z_scope.

(** The status that marks the entry with the data on the whole event. *)
Definition is_whole (h : hep_entry) : bool := h_status h =? 11.

(** Data on the whole event come from the last entry of that kind; without one the excitation
    energy, the spin and the cross section are zero and the parity is positive. *)
Definition whole_event (hs : list hep_entry) (ev : event) (flux : spec_float) : Prop :=
  match rev (filter is_whole hs) with
  | [] => e_Ex ev = S754_zero false /\ e_twoJ ev = 0 /\ e_par ev = true /\ flux = S754_zero false
  | h :: _ => e_Ex ev = h_E h /\ e_twoJ ev = h_jmo1 h /\ h_jmo2 h = (if e_par ev then 1 else -1) /\ flux = h_M h
  end.

Lemma step_whole h st st' : hep_step h st = Ok st' ->
  if is_whole h then e_Ex (s_ev st') = h_E h /\ e_twoJ (s_ev st') = h_jmo1 h /\ h_jmo2 h = (if e_par (s_ev st') then 1 else -1) /\ s_flux st' = h_M h
  else e_Ex (s_ev st') = e_Ex (s_ev st) /\ e_twoJ (s_ev st') = e_twoJ (s_ev st) /\ e_par (s_ev st') = e_par (s_ev st) /\ s_flux st' = s_flux st.
Proof.
  unfold hep_step, is_whole, ST_INFO. destruct (h_status h =? 11).
  - unfold hep_info, parity_of_int. destruct (Z.eqb_spec (h_jmo2 h) 1) as [E|]; [|destruct (Z.eqb_spec (h_jmo2 h) (-1)) as [E|]; [|discriminate]]; cbn [bind]; intros H;
      match type of H with Ok ?x = Ok ?y => assert (Hx : x = y) by congruence end; rewrite <- Hx; cbn [s_ev s_flux e_Ex e_twoJ e_par]; repeat split; exact E.
  - destruct (h_status h =? ST_INITIAL); [|destruct (h_status h =? ST_FINAL)].
    + unfold hep_initial. destruct (hep_particle h) as [p|]; [|discriminate]. cbn [bind]. intros H.
      match type of H with Ok ?x = Ok ?y => assert (Hx : x = y) by congruence end. rewrite <- Hx. repeat split.
    + unfold hep_final. destruct (hep_particle h) as [p|]; [|discriminate]. cbn [bind]. intros H.
      match type of H with Ok ?x = Ok ?y => assert (Hx : x = y) by congruence end. rewrite <- Hx. repeat split.
    + intros H. assert (st = st') by congruence. subst st'. repeat split.
Qed.

Lemma steps_whole hs : forall st, steps hs hep_start = Ok st -> whole_event hs (s_ev st) (s_flux st).
Proof.
  induction hs as [|h hs IH] using rev_ind; intros st H; cbn [steps] in H.
  - assert (hep_start = st) by congruence. subst st. cbn. repeat split.
  - rewrite steps_app in H. destruct (steps hs hep_start) as [st1|] eqn:E; [|discriminate H]. cbn [bind steps] in H.
    destruct (hep_step h st1) as [st2|] eqn:E2; [|discriminate H]. cbn [bind] in H. assert (st2 = st) by congruence. subst st2.
    specialize (IH st1 eq_refl). apply step_whole in E2. unfold whole_event in *. rewrite filter_app, rev_app_distr. cbn [filter].
    destruct (is_whole h); cbn [rev app]; [exact E2|]. destruct E2 as (-> & -> & -> & ->). exact IH.
Qed.

Theorem C11_whole s ev flux t : read_hepevt s = Ok (Some (ev, flux, t)) ->
  exists u hs, (olet (_, s') <- rd_int s; rd_int s') = Some (len hs, u) /\ read_entries (List.length hs) u = Some (hs, t) /\ whole_event hs ev flux.
Proof.
  unfold read_hepevt. destruct (olet (_, s') <- rd_int s; rd_int s') as [[n u]|]; [|discriminate]. destruct (Z.ltb_spec n 0) as [|N]; [discriminate|].
  destruct (hep_loop (Z.to_nat n) hep_start u) as [[st t']|] eqn:L; [|discriminate]. cbn [bind].
  destruct (hep_loop_entries _ _ _ _ _ L) as (hs & R & S1). apply steps_whole in S1.
  assert (LEN : forall k s hs t, read_entries k s = Some (hs, t) -> List.length hs = k).
  { induction k as [|k IH]; intros s0 hs0 t0 H; cbn [read_entries] in H; [assert (hs0 = []) by congruence; subst; reflexivity|].
    destruct (read_hep_entry s0) as [[h s1]|]; [|discriminate H]. destruct (read_entries k s1) as [[q s2]|] eqn:E; [|discriminate H].
    assert (h :: q = hs0) by congruence. subst hs0. cbn [List.length]. rewrite (IH _ _ _ E). reflexivity. }
  unfold hep_finish. destruct (negb (s_ninit st =? 2)); [discriminate|]. destruct (negb (s_nions st =? 1)); [discriminate|].
  destruct (negb (s_nlep st =? 1)); [discriminate|]. destruct (s_nfions st <? 1); [discriminate|]. cbn [bind]. intros H.
  match type of H with Ok (Some (?a, ?c, ?d)) = _ => assert (X : a = ev /\ c = flux /\ d = t) by (split; [|split]; congruence) end. destruct X as (X1 & X2 & X3).
  pose proof (LEN _ _ _ _ R) as EN. exists u, hs. split; [unfold len; rewrite EN, Z2Nat.id by lia; reflexivity|].
  split; [rewrite EN; rewrite X3 in R; exact R|]. unfold whole_event in *. rewrite <- X1, <- X2. cbn [e_Ex e_twoJ e_par]. exact S1.
Qed.
Print Assumptions C11_whole.

(** A record is refused with a MARLEY error, except that a particle code without a charge is
    refused with std::out_of_range; nothing undefined happens. *)
Theorem C11_refused s r : read_hepevt s = Er r ->
  r = MarleyErr \/
  (r = StdRange /\ exists n u hs t h, (olet (_, s') <- rd_int s; rd_int s') = Some (n, u) /\ len hs <= n /\ read_entries (List.length hs) u = Some (hs, t) /\ In h hs /\
     (is_initial h = true \/ is_final h = true) /\ forall q, particle_charge (h_pdg h) <> Ok q).
Proof.
  assert (P : forall h e, hep_particle h = Er e -> e = StdRange /\ forall q, particle_charge (h_pdg h) <> Ok q).
  { intros h e. unfold hep_particle. destruct (particle_charge (h_pdg h)) as [q|e'] eqn:Q; [discriminate|]. cbn [bind]. intros H. assert (e' = e) by congruence. subst e'.
    split; [|congruence]. unfold particle_charge in Q. destruct (1000000000 <? h_pdg h); [discriminate Q|]. destruct (assoc _ _); [discriminate Q|congruence]. }
  assert (L : forall n st u e, hep_loop n st u = Er e -> e = MarleyErr \/ (e = StdRange /\ exists hs t h, (List.length hs <= n)%nat /\ read_entries (List.length hs) u = Some (hs, t) /\ In h hs /\
     (is_initial h = true \/ is_final h = true) /\ forall q, particle_charge (h_pdg h) <> Ok q)).
  { induction n as [|n IH]; intros st u e H; cbn [hep_loop] in H; [discriminate H|]. destruct (read_hep_entry u) as [[h u1]|] eqn:R; [|left; congruence].
    destruct (hep_step h st) as [st1|e1] eqn:E.
    - cbn [bind] in H. destruct (IH _ _ _ H) as [->|(-> & hs & t & h' & H1 & H2 & H3 & H4)]; [left; reflexivity|right; split; [reflexivity|]].
      exists (h :: hs), t, h'. split; [cbn [List.length]; lia|]. split; [cbn [List.length read_entries]; rewrite R, H2; reflexivity|]. split; [right; exact H3|exact H4].
    - cbn [bind] in H. assert (e1 = e) by congruence. subst e1. unfold hep_step in E. destruct (h_status h =? ST_INFO).
      { left. unfold hep_info, parity_of_int in E. destruct (h_jmo2 h =? 1); [discriminate E|]. destruct (h_jmo2 h =? -1); [discriminate E|]. cbn [bind] in E. congruence. }
      assert (K : (is_initial h = true \/ is_final h = true) /\ hep_particle h = Er e).
      { unfold is_initial, is_final. destruct (h_status h =? ST_INITIAL); [|destruct (h_status h =? ST_FINAL); [|discriminate E]].
        - split; [left; reflexivity|]. unfold hep_initial in E. destruct (hep_particle h); [discriminate E|]. cbn [bind] in E. congruence.
        - split; [right; reflexivity|]. unfold hep_final in E. destruct (hep_particle h); [discriminate E|]. cbn [bind] in E. congruence. }
      destruct K as [K1 K2]. apply P in K2 as [-> K2]. right. split; [reflexivity|]. exists [h], u1, h. split; [cbn; lia|].
      split; [cbn [List.length read_entries]; rewrite R; reflexivity|]. split; [left; reflexivity|split; assumption]. }
  unfold read_hepevt. destruct (olet (_, s') <- rd_int s; rd_int s') as [[n u]|] eqn:HD; [|discriminate]. destruct (Z.ltb_spec n 0) as [N|N]; [intros H; left; congruence|].
  destruct (hep_loop (Z.to_nat n) hep_start u) as [[st t']|e] eqn:LL; cbn [bind].
  - unfold hep_finish. destruct (negb (s_ninit st =? 2)); [intros H; left; cbn [bind] in H; congruence|]. destruct (negb (s_nions st =? 1)); [intros H; left; cbn [bind] in H; congruence|].
    destruct (negb (s_nlep st =? 1)); [intros H; left; cbn [bind] in H; congruence|]. destruct (s_nfions st <? 1); [intros H; left; cbn [bind] in H; congruence|]. discriminate.
  - intros H. assert (e = r) by congruence. subst e. destruct (L _ _ _ _ LL) as [->|(-> & hs & t & h & H1 & H2)]; [left; reflexivity|right; split; [reflexivity|]].
    exists n, u, hs, t, h. split; [reflexivity|]. split; [unfold len; lia|exact H2].
Qed.
Print Assumptions C11_refused.

(** A record that breaks off, one with an unknown particle, and one without data on the whole
    event. *)
Example C11_whole_case :
  read_hepevt (b "0 1 3 11 0 0 0 0 1. 0. 0. 1.") = Er MarleyErr /\
  read_hepevt (b "0 1 3 77 0 0 0 0 1. 0. 0. 1. 0. 0. 0. 0. 0.") = Er StdRange /\
  (exists ev t, read_hepevt (b "0 4 3 12 0 0 0 0 0. 0. 0. 1. 0. 0. 0. 0. 0. 3 1000180400 0 0 0 0 0. 0. 0. 1. 0. 0. 0. 0. 0. 1 11 0 0 0 0 0. 0. 0. 1. 0. 0. 0. 0. 0. 1 1000190400 0 0 0 0 0. 0. 0. 1. 0. 0. 0. 0. 0.") = Ok (Some (ev, S754_zero false, t))
     /\ e_Ex ev = S754_zero false /\ e_twoJ ev = 0 /\ e_par ev = true).
Proof.
  split; [vm_compute; reflexivity|]. split; [vm_compute; reflexivity|]. eexists. eexists. split; [vm_compute; reflexivity|repeat split].
Qed.
