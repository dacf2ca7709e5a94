(** Theorems about the text, JSON and HEPEVT forms of events (C06 to C11). *)
From Coq Require Import List Ascii String ZArith Bool Lia Permutation.
From Coq Require Import Floats.SpecFloat.
From Verif Require Import Base Dbl DigitsProofs DblProofs Json JsonSpec Stream StreamProofs Pdg Event EventSpec
  EventProofs EventJsonProofs HepNumProofs HepSpec HepProofs.
Import ListNotations.
Local Open Scope Z_scope.

(** A sample event: nu_e on 40Ar, with an electron, 40K, and a gamma. *)
Definition dbl (s : bool) (m e : Z) : spec_float := dec_to_dbl s m e.
Definition sample : event :=
  mke [mkp 12 (dbl false 155 (-1)) dbl_zero dbl_zero (dbl false 155 (-1)) dbl_zero 0;
       mkp 1000180400 (dbl false 372247 (-1)) dbl_zero dbl_zero dbl_zero (dbl false 372247 (-1)) 0]
      [mkp 11 (dbl false 101 (-1)) (dbl true 33 (-1)) (dbl false 1 (-1)) (dbl false 7 0) (dbl false 510998 (-6)) (-1);
       mkp 1000190400 (dbl false 372289 (-1)) dbl_zero (dbl true 25 (-2)) dbl_zero (dbl false 372289 (-1)) 1;
       mkp 22 (dbl false 23 (-1)) dbl_zero dbl_zero (dbl false 23 (-1)) dbl_zero 0]
      (dbl false 2289 (-3)) 2 true.

Ltac leaf_tac := vm_compute; repeat split; congruence.
Ltac ok_tac :=
  unfold event_ok, sample; cbn [e_init e_fin e_Ex e_twoJ];
  repeat match goal with
  | |- Forall _ [] => constructor
  | |- Forall _ (_ :: _) => constructor
  | |- is_int _ => split; vm_compute; congruence
  | |- particle_ok _ _ => unfold particle_ok; cbn [p_pdg p_E p_px p_py p_pz p_mass p_charge]
  | |- _ /\ _ => split
  end; try leaf_tac.

(** ** C06: a double written with 17 digits is read back bit for bit *)

Theorem C06_lossless : forall w x t, forallb is_space w = true -> finite_dbl x ->
  match t with [] => True | c :: _ => is_space c = true end ->
  rd_dbl (w ++ show_e17 x ++ t) = Some (x, t).
Proof. exact rd_dbl_show. Qed.
Print Assumptions C06_lossless.

Example C06_example : finite_dbl (S754_finite true 1 (-1074)) /\
  show_e17 (S754_finite true 1 (-1074)) = b "-4.94065645841246544e-324".
Proof. split; [vm_compute; split; reflexivity|vm_compute; reflexivity]. Qed.

(** ** C07: events survive conversion to JSON *)

(** In memory the conversion is exact, for any event whose integers are int. *)
Theorem C07_json_exact : forall ev, ints_ok ev -> event_of_json (event_json ev) = Ok ev.
Proof. exact event_json_exact. Qed.
Print Assumptions C07_json_exact.

(** Nothing is read from a value of another shape: an event needs all its keys, with
    numbers and arrays of objects where they are expected, and a particle all of its. *)
Definition particle_shape (j : json) (p : particle) : Prop :=
  exists l, j = JObj l /\
    (forall k, In k [b "pdg"; b "charge"] -> exists v, obj_get k l = Some v /\ snd (to_long v) = true) /\
    (forall k, In k [b "E"; b "px"; b "py"; b "pz"; b "mass"] -> exists v, obj_get k l = Some v /\ snd (to_double v) = true).

Theorem C07_rejects : forall j ev, event_of_json j = Ok ev ->
  exists l x t p li lf, j = JObj l /\ obj_get (b "Ex") l = Some x /\ snd (to_double x) = true /\
    obj_get (b "twoJ") l = Some t /\ snd (to_long t) = true /\
    obj_get (b "parity") l = Some p /\ snd (to_long p) = true /\
    obj_get (b "initial_particles") l = Some (JArr li) /\ obj_get (b "final_particles") l = Some (JArr lf) /\
    Forall2 particle_shape li (e_init ev) /\ Forall2 particle_shape lf (e_fin ev).
Proof.
  assert (Hi : forall k j z, json_integer k j = Ok z -> exists l v, j = JObj l /\ obj_get k l = Some v /\ snd (to_long v) = true).
  { intros k j z H. unfold json_integer in H. destruct (has_key k j); [|discriminate H]. unfold at_key in H.
    destruct j; try discriminate H. destruct (obj_get k _) as [v|] eqn:E; [|discriminate H]. cbn [bind] in H.
    destruct (to_long v) as [n ok] eqn:E2. destruct ok; [|discriminate H]. eexists _, v. rewrite E2. eauto. }
  assert (Hd : forall k j z, json_double k j = Ok z -> exists l v, j = JObj l /\ obj_get k l = Some v /\ snd (to_double v) = true).
  { intros k j z H. unfold json_double in H. destruct (has_key k j); [|discriminate H]. unfold at_key in H.
    destruct j; try discriminate H. destruct (obj_get k _) as [v|] eqn:E; [|discriminate H]. cbn [bind] in H.
    destruct (to_double v) as [n ok] eqn:E2. destruct ok; [|discriminate H]. eexists _, v. rewrite E2. eauto. }
  assert (Hp : forall l ps, particles_of_json l = Ok ps -> Forall2 particle_shape l ps).
  { induction l as [|j l IH]; intros ps H; cbn [particles_of_json] in H; [injection H as <-; constructor|].
    destruct j as [| | | | | |o]; try discriminate H.
    destruct (particle_of_json (JObj o)) as [p|] eqn:E; [|discriminate H]. cbn [bind] in H.
    destruct (particles_of_json l) as [ps'|]; [|discriminate H]. injection H as <-. constructor; [|apply IH; reflexivity].
    exists o. split; [reflexivity|]. unfold particle_of_json in E.
    repeat match type of E with (do x <- ?r; _) = _ => let E1 := fresh "K" in destruct r eqn:E1; [|discriminate E]; cbn [bind] in E end.
    split; intros k Hk; cbn [In] in Hk;
      repeat (destruct Hk as [<-|Hk]; [match goal with
        | H : json_integer ?k _ = Ok _ |- context [obj_get ?k _] => apply Hi in H as (l0 & v & E0 & H); injection E0 as <-; exists v; exact H
        | H : json_double ?k _ = Ok _ |- context [obj_get ?k _] => apply Hd in H as (l0 & v & E0 & H); injection E0 as <-; exists v; exact H end|]);
      destruct Hk. }
  assert (Ha : forall k j ps, json_particles k j = Ok ps -> exists l li, j = JObj l /\ obj_get k l = Some (JArr li) /\ Forall2 particle_shape li ps).
  { intros k j ps H. unfold json_particles in H. destruct (has_key k j); [|discriminate H]. unfold at_key in H.
    destruct j; try discriminate H. destruct (obj_get k _) as [v|] eqn:E; [|discriminate H]. cbn [bind] in H.
    destruct v as [| | | | |li|]; try discriminate H. eexists _, li. split; [reflexivity|]. split; [exact E|apply Hp; exact H]. }
  intros j ev H. unfold event_of_json in H.
  destruct (json_double (b "Ex") j) as [ex|] eqn:E1; [|discriminate H]. cbn [bind] in H.
  destruct (json_integer (b "twoJ") j) as [tj|] eqn:E2; [|discriminate H]. cbn [bind] in H.
  destruct (at_key (b "parity") j) as [vp|] eqn:E3; [|discriminate H]. cbn [bind] in H.
  destruct (parity_of_int _) as [par|]; [|discriminate H]. cbn [bind] in H.
  destruct (snd (to_long vp)) eqn:E4; [|discriminate H].
  destruct (json_particles (b "initial_particles") j) as [ps|] eqn:E5; [|discriminate H]. cbn [bind] in H.
  destruct (json_particles (b "final_particles") j) as [qs|] eqn:E6; [|discriminate H]. injection H as <-. cbn [e_init e_fin].
  apply Hd in E1 as (l & x & -> & A1 & A2). apply Hi in E2 as (l0 & t & E0 & B1 & B2). injection E0 as <-.
  unfold at_key in E3. destruct (obj_get (b "parity") l) as [p|] eqn:C1; [|discriminate E3]. injection E3 as ->.
  apply Ha in E5 as (l1 & li & E0 & D1 & D2). injection E0 as <-.
  apply Ha in E6 as (l2 & lf & E0 & F1 & F2). injection E0 as <-.
  exists l, x, t, vp, li, lf. repeat split; assumption.
Qed.
Print Assumptions C07_rejects.

(** Through a file: doubles written without exponent keep their value. *)
Theorem C07_file_same : forall indent ev, event_ok fixed_dbl ev ->
  exists j ev', load (dump indent (event_json ev)) = Ok j /\ event_of_json j = Ok ev' /\
    event_rel same_dbl ev ev'.
Proof. exact event_file_same. Qed.
Print Assumptions C07_file_same.

(** Other doubles below 1e17 change by less than one part in 2^51. *)
Theorem C07_file_near : forall indent ev, event_ok normal_dbl ev ->
  exists j ev', load (dump indent (event_json ev)) = Ok j /\ event_of_json j = Ok ev' /\
    event_rel near_dbl ev ev'.
Proof. exact event_file_near. Qed.
Print Assumptions C07_file_near.

(** Outside that range the text of the event cannot be read. *)
Theorem C07_file_refuted : exists ev, event_ok finite_dbl ev /\ event_sized ev /\
  exists e, load (dump None (event_json ev)) = Er e.
Proof.
  exists (mke (e_init sample) (e_fin sample) (dbl false 1 20) 0 false).
  split; [ok_tac|]. split; [vm_compute; repeat split; congruence|].
  eexists. vm_compute. reflexivity.
Qed.

Example C07_example : event_ok fixed_dbl sample /\ event_ok normal_dbl sample /\ ints_ok sample.
Proof. split; [ok_tac|]. split; [ok_tac|]. apply (event_ok_ints finite_dbl). ok_tac. Qed.

(** ** C08: events survive the ASCII format *)

Theorem C08_ascii_roundtrip : forall evs, Forall good_event evs ->
  read_all (events_text evs) = (evs, AtEnd).
Proof. exact read_all_print. Qed.
Print Assumptions C08_ascii_roundtrip.

Example C08_example : Forall good_event [sample; sample].
Proof.
  assert (H : good_event sample) by (split; [ok_tac|vm_compute; repeat split; congruence]).
  constructor; [exact H|constructor; [exact H|constructor]].
Qed.

(** An event with a single initial particle is written but not read. *)
Theorem C08_refuted : exists ev, event_ok finite_dbl ev /\
  read_all (events_text [ev]) = ([], Thrown MarleyErr).
Proof.
  exists (mke [default_particle] [default_particle; default_particle] dbl_zero 0 true).
  split; [ok_tac|]. vm_compute. reflexivity.
Qed.

(** ** C09: truncated ASCII files *)

(** Whatever the cut, the events written completely before it are read first,
    unchanged.  After them comes nothing, or an error, or (the cut being inside
    the charge of its last particle) the next event with that charge altered. *)
Theorem C09_truncated : forall evs k, Forall good_event evs -> (k < List.length (events_text evs))%nat ->
  exists before ev after l e, evs = before ++ ev :: after /\
    (List.length (events_text before) <= k < List.length (events_text (before ++ [ev])))%nat /\
    read_all (firstn k (events_text evs)) = (before ++ l, e) /\
    (l = [] /\ (e = AtEnd \/ e = Thrown MarleyErr) \/
     (exists ev', l = [ev'] /\ but_last_charge ev ev') /\ e = AtEnd).
Proof. exact truncated_anywhere. Qed.
Print Assumptions C09_truncated.

(** The altered event does occur: charge 18 cut to 1. *)
Theorem C09_exact_prefix_refuted : exists ev k ev', good_event ev /\
  read_all (firstn k (events_text [ev])) = ([ev'], AtEnd) /\ ev' <> ev.
Proof.
  set (p q := mkp 1000180400 dbl_zero dbl_zero dbl_zero dbl_zero dbl_zero q).
  set (mk q := mke [p 0; p 0] [p 0; p q] dbl_zero 0 true).
  exists (mk 18), (List.length (print_event (mk 18%Z)) - 2)%nat, (mk 1).
  split; [split; [unfold mk, p; ok_tac|vm_compute; repeat split; congruence]|].
  split; [vm_compute; reflexivity|]. unfold mk, p. congruence.
Qed.

(** ** C10: HEPEVT records *)

(** The record announces as many lines as follow, and every line carries the
    status code and PDG code of its particle. *)
Theorem C10_layout : forall w num flux ev t, forallb is_space w = true -> is_int num ->
  is_int (1 + len (e_init ev) + len (e_fin ev)) ->
  event_ok hep_dbl ev -> hep_dbl flux ->
  exists s u hs, rd_int (w ++ print_hepevt num flux ev ++ t) = Some (num, s) /\
    rd_int s = Some (len hs, u) /\ len hs = len (e_init ev) + 1 + len (e_fin ev) /\
    read_entries (List.length hs) u = Some (hs, nl :: t) /\
    map h_status hs = repeat 3 (List.length (e_init ev)) ++ [11] ++ repeat 1 (List.length (e_fin ev)) /\
    map h_pdg hs = map p_pdg (e_init ev) ++ [0] ++ map p_pdg (e_fin ev).
Proof. exact hep_layout. Qed.
Print Assumptions C10_layout.

(** Reading a record back.  Momenta pass through GeV, so they are recovered up to
    rounding. *)
Theorem C10_roundtrip : forall w num flux ev t, forallb is_space w = true -> is_int num ->
  is_int (1 + len (e_init ev) + len (e_fin ev)) ->
  event_ok hep_dbl ev -> hep_dbl flux -> nuclear_event ev ->
  exists ev' flux', read_hepevt (w ++ print_hepevt num flux ev ++ t) = Ok (Some (ev', flux', nl :: t)) /\
    event_rel near_dbl ev ev' /\ near_dbl flux flux'.
Proof. exact hep_roundtrip. Qed.
Print Assumptions C10_roundtrip.

Example C10_example : event_ok hep_dbl sample /\ hep_dbl (dbl false 15 (-18)) /\ nuclear_event sample.
Proof.
  split; [ok_tac|]. split; [vm_compute; repeat split; congruence|].
  unfold nuclear_event, sample. do 5 eexists. cbn [e_init e_fin]. split; [reflexivity|]. split; [reflexivity|].
  repeat split; try reflexivity. constructor; [|constructor].
  split; [reflexivity|]. split; [reflexivity|]. discriminate.
Qed.

(** The event number is written as size_t but read as int: from 2^31 on, a
    record that was written correctly is taken for the end of the file. *)
Theorem C10_number_refuted : exists num, 0 <= num < 2 ^ 64 /\
  read_hepevt (print_hepevt num dbl_zero sample) = Ok None.
Proof. exists (2 ^ 31). split; [split; vm_compute; congruence|]. vm_compute. reflexivity. Qed.

(** ** C11: reading order of HEPEVT records *)

(** In any accepted record, every particle of the record appears in the event
    exactly once (charges aside), the target is the ion and comes second, its
    charge is zero, the residue balances the charges, and if some final ion is
    heavier than the first final entry, the lepton comes first and the heaviest
    ion second. *)
Theorem C11_accepted : forall s ev flux t, read_hepevt s = Ok (Some (ev, flux, t)) ->
  exists u hs li lf,
    (olet (_, s') <- rd_int s; rd_int s') = Some (len hs, u) /\
    read_entries (List.length hs) u = Some (hs, t) /\
    Forall2 entry_particle (filter is_initial hs) li /\
    Forall2 entry_particle (filter is_final hs) lf /\
    Permutation (map body (e_init ev)) (map body li) /\
    Permutation (map body (e_fin ev)) (map body lf) /\
    (exists pj tg, e_init ev = [pj; tg] /\ ionb pj = false /\ ionb tg = true /\ p_charge tg = 0 /\ In pj li) /\
    (exists a c rest, e_fin ev = a :: c :: rest /\
       p_charge c = - p_charge a - (if ionb a then p_charge a else 0) - ion_charge rest /\
       (forall p, In p (a :: rest) -> In p lf) /\
       (at_least ionb (first_weight lf) lf ->
          lepb a = true /\ ionb c = true /\
          (forall p, In p (c :: rest) -> lepb p = false) /\
          (forall p, In p (c :: rest) -> ionb p = true -> massA p <= massA c))).
Proof. exact hep_accepted. Qed.
Print Assumptions C11_accepted.

(** A record with particles out of order that is accepted and reordered. *)
Definition shuffled : event :=
  mke (rev (e_init sample))
      (match e_fin sample with [e; r; g] => [g; r; e] | l => l end)
      (e_Ex sample) 2 true.

Example C11_example : exists ev flux,
  read_hepevt (print_hepevt 0 dbl_zero shuffled) = Ok (Some (ev, flux, [nl])) /\
  map p_pdg (e_init ev) = [12; 1000180400] /\ map p_pdg (e_fin ev) = [11; 1000190400; 22].
Proof. do 2 eexists. split; [vm_compute; reflexivity|]. split; reflexivity. Qed.

(** With the heaviest ion first, the record is accepted but misordered. *)
Theorem C11_heaviest_first_refuted : exists s ev flux t, read_hepevt s = Ok (Some (ev, flux, t)) /\
  exists a c, e_fin ev = [a; c] /\ ionb a = true /\ lepb c = true.
Proof.
  set (ev0 := mke (e_init sample) [nth 1 (e_fin sample) default_particle; nth 0 (e_fin sample) default_particle]
                (e_Ex sample) 2 true).
  exists (print_hepevt 0 dbl_zero ev0). do 3 eexists. split; [vm_compute; reflexivity|].
  do 2 eexists. split; [reflexivity|]. split; reflexivity.
Qed.
